(** * Facts about the ownership of native objects in the Python layer *)
From Verif Require Import Base BaseFacts Topology Options Python SpecPython.
From Coq Require Import ZArith.

(** ** The heap *)

Definition lookup (w : world) (a : nat) : option native := assoc Nat.eqb a (w_heap w).

Lemma assoc_app_nat : forall (V : Type) k (l l' : list (nat * V)),
  assoc Nat.eqb k (l ++ l') = match assoc Nat.eqb k l with Some v => Some v | None => assoc Nat.eqb k l' end.
Proof. induction l as [|[k' v] l IH]; intros l'; cbn; [reflexivity|]. destruct (k =? k'); auto. Qed.

Lemma assoc_filter_nat : forall (V : Type) k a (l : list (nat * V)),
  assoc Nat.eqb k (filter (fun x => negb (fst x =? a)) l) = if k =? a then None else assoc Nat.eqb k l.
Proof.
  induction l as [|[k' v] l IH]; cbn [filter assoc fst]; [destruct (k =? a); reflexivity|].
  destruct (Nat.eqb_spec k' a) as [->|N]; cbn [negb].
  - rewrite IH. destruct (Nat.eqb_spec k a) as [->|]; [reflexivity|]. reflexivity.
  - cbn [assoc]. destruct (Nat.eqb_spec k k') as [->|N'].
    + destruct (Nat.eqb_spec k' a); [contradiction|reflexivity].
    + exact IH.
Qed.

Lemma assoc_in_nat : forall (V : Type) k v (l : list (nat * V)), assoc Nat.eqb k l = Some v -> In (k, v) l.
Proof.
  induction l as [|[k' v'] l IH]; cbn; [discriminate|]. destruct (Nat.eqb_spec k k') as [->|]; intros H.
  - injection H as ->. now left.
  - right. auto.
Qed.

Lemma in_assoc_nat : forall (V : Type) k (v : V) (l : list (nat * V)), NoDup (map fst l) -> In (k, v) l -> assoc Nat.eqb k l = Some v.
Proof.
  induction l as [|[k' v'] l IH]; cbn; intros N I; [contradiction|]. inversion N as [|x xs N1 N2]; subst.
  destruct I as [I|I].
  - injection I as -> ->. now rewrite Nat.eqb_refl.
  - destruct (Nat.eqb_spec k k') as [->|]; [|auto]. exfalso. apply N1. apply in_map_iff. now exists (k', v).
Qed.

Lemma assoc_defined_nat : forall (V : Type) k (l : list (nat * V)), In k (map fst l) -> exists v, assoc Nat.eqb k l = Some v.
Proof.
  induction l as [|[k' v'] l IH]; cbn; intros I; [contradiction|].
  destruct (Nat.eqb_spec k k') as [->|]; [eauto|]. destruct I; [congruence|auto].
Qed.

(** ** The invariant

    [cg] and [cf] give the number of references to the native object of each grid
    and family, [None] if there is no native object; [sp] are the spaces whose
    native object is alive. *)
Definition lagrange_info (E : outside) (f : nat) : family_info :=
  mkFamilyInfo LagrangeFamily (fi_degree (family_of E f)) (fi_continuous (family_of E f)).

Record base (E : outside) (cg cf : nat -> option nat) (sp : list (nat * py_space)) (w : world) : Prop := mkBase {
  b_next : forall a n, lookup w a = Some n -> a < w_next w;
  b_grid : forall g, match cg g with
    | None => at_handle (w_grid w g) = None
    | Some n => exists a, at_handle (w_grid w g) = Some a /\ at_refcount (w_grid w g) = Some (Z.of_nat n) /\ lookup w a = Some (NGrid g)
    end;
  b_family : forall f, match cf f with
    | None => at_handle (w_family w f) = None
    | Some n => exists a, at_handle (w_family w f) = Some a /\ at_refcount (w_family w f) = Some (Z.of_nat n) /\
        lookup w a = Some (NFamily (lagrange_info E f))
    end;
  b_apart : forall f f' a, at_handle (w_family w f) = Some a -> at_handle (w_family w f') = Some a -> f = f';
  b_spaces : forall s p, In (s, p) sp -> ps_owned p = true /\
    exists ag af, lookup w (ps_handle p) = Some (NSpace ag af) /\
      at_handle (w_grid w (ps_grid p)) = Some ag /\ at_handle (w_family w (ps_family p)) = Some af;
  b_ids : NoDup (map fst sp);
  b_handles : forall s p s' p', In (s, p) sp -> In (s', p') sp -> ps_handle p = ps_handle p' -> s = s';
  b_cover : forall a n, lookup w a = Some n ->
    (exists g, at_handle (w_grid w g) = Some a) \/ (exists f, at_handle (w_family w f) = Some a) \/
    (exists s p, In (s, p) sp /\ ps_handle p = a)
}.

Lemma base_ext : forall E cg cf cg' cf' sp w, base E cg cf sp w -> (forall g, cg' g = cg g) -> (forall f, cf' f = cf f) -> base E cg' cf' sp w.
Proof.
  intros E cg cf cg' cf' sp w [H1 H2 H3 H4 H5 H6 H7 H8] Hg Hf. constructor; try assumption.
  - intros g. rewrite Hg. apply H2.
  - intros f. rewrite Hf. apply H3.
Qed.

Lemma base_spaces : forall E cg cf sp w w', base E cg cf sp w -> w_next w' = w_next w -> w_heap w' = w_heap w ->
  w_grid w' = w_grid w -> w_family w' = w_family w -> base E cg cf sp w'.
Proof.
  intros E cg cf sp w w' [H1 H2 H3 H4 H5 H6 H7 H8] e1 e2 e3 e4.
  assert (L : forall a, lookup w' a = lookup w a) by (intros a; unfold lookup; now rewrite e2).
  constructor; try assumption.
  - intros a n. rewrite L, e1. apply H1.
  - intros g. specialize (H2 g). rewrite e3. destruct (cg g); [|assumption]. destruct H2 as (a & ? & ? & ?). exists a. now rewrite L.
  - intros f. specialize (H3 f). rewrite e4. destruct (cf f); [|assumption]. destruct H3 as (a & ? & ? & ?). exists a. now rewrite L.
  - rewrite e4. exact H4.
  - intros s p I. destruct (H5 s p I) as (O & ag & af & ? & ? & ?). split; [assumption|]. exists ag, af. now rewrite L, e3, e4.
  - intros a n. rewrite L, e3, e4. apply H8.
Qed.

(** ** Allocation *)

Lemma allocate_spec : forall E cg cf sp w n w' a, base E cg cf sp w -> allocate n w = Return a w' ->
  a = w_next w /\ w_next w' = S (w_next w) /\ (forall a', lookup w' a' = if a' =? a then Some n else lookup w a') /\
  w_grid w' = w_grid w /\ w_family w' = w_family w /\ w_spaces w' = w_spaces w /\ w_made w' = w_made w.
Proof.
  unfold allocate. intros E cg cf sp w n w' a B H. injection H as <- <-. repeat split; cbn; try reflexivity.
  intros a'. unfold lookup. cbn [w_heap]. rewrite assoc_app_nat. cbn [assoc].
  destruct (Nat.eqb_spec a' (w_next w)) as [->|N].
  - destruct (assoc Nat.eqb (w_next w) (w_heap w)) eqn:L; [|reflexivity].
    exfalso. apply (b_next _ _ _ _ _ B) in L. lia.
  - destruct (assoc Nat.eqb a' (w_heap w)); reflexivity.
Qed.

Lemma lookup_fresh : forall E cg cf sp w a n, base E cg cf sp w -> lookup w a = Some n -> a =? w_next w = false.
Proof. intros. apply Nat.eqb_neq. pose proof (b_next _ _ _ _ _ H _ _ H0). lia. Qed.

Definition unchanged_spaces (w w' : world) : Prop := w_spaces w' = w_spaces w /\ w_made w' = w_made w.

Lemma set_at_same : forall (A : Type) (f : nat -> A) i x, set_at f i x i = x.
Proof. intros. unfold set_at. now rewrite Nat.eqb_refl. Qed.
Lemma set_at_other : forall (A : Type) (f : nat -> A) i x j, j <> i -> set_at f i x j = f j.
Proof. intros. unfold set_at. destruct (Nat.eqb_spec j i); [contradiction|reflexivity]. Qed.

(** *** A grid *)

Lemma ensure_grid_present : forall E cg cf sp w g n, base E cg cf sp w -> cg g = Some n ->
  ensure (PyGrid g) (recreate_grid E g) w = Return tt w.
Proof.
  intros E cg cf sp w g n B C. pose proof (b_grid _ _ _ _ _ B g) as G. rewrite C in G. destruct G as (a & G & _).
  unfold ensure, py_bind, get_attributes. cbn [attributes_of]. rewrite G. reflexivity.
Qed.

Lemma ensure_grid_unsupported : forall E cg cf sp w g, base E cg cf sp w -> cg g = None -> grid_supported E g = false ->
  ensure (PyGrid g) (recreate_grid E g) w = Raise w.
Proof.
  intros E cg cf sp w g B C F. pose proof (b_grid _ _ _ _ _ B g) as G. rewrite C in G.
  unfold ensure, py_bind, get_attributes, recreate_grid. cbn [attributes_of]. rewrite G, F. reflexivity.
Qed.

Lemma ensure_grid_new : forall E cg cf sp w g, base E cg cf sp w -> cg g = None -> grid_supported E g = true ->
  exists w', ensure (PyGrid g) (recreate_grid E g) w = Return tt w' /\ base E (set_at cg g (Some 0)) cf sp w' /\ unchanged_spaces w w'.
Proof.
  intros E cg cf sp w g B C F. pose proof (b_grid _ _ _ _ _ B g) as G. rewrite C in G.
  unfold ensure, py_bind at 1, get_attributes at 1, recreate_grid. cbn [attributes_of]. rewrite G, F.
  destruct (allocate (NGrid g) w) as [a w1| | |] eqn:A; try discriminate A.
  destruct (allocate_spec _ _ _ _ _ _ _ _ B A) as (-> & N1 & L1 & g1 & f1 & s1 & m1).
  eexists. split; [unfold py_bind, write_handle, write_refcount, get_attributes, set_attributes, py_bind; rewrite A; cbn; reflexivity|].
  split; [|split; cbn; assumption].
  assert (L : forall a n, lookup w a = Some n -> lookup w1 a = Some n).
  { intros a n H. rewrite L1. rewrite (lookup_fresh _ _ _ _ _ _ _ B H). exact H. }
  constructor; cbn [w_next w_heap w_grid w_family w_made w_spaces].
  - intros a n H. rewrite N1. unfold lookup in H. cbn [w_heap] in H. fold (lookup w1 a) in H. rewrite L1 in H.
    destruct (Nat.eqb_spec a (w_next w)); [lia|]. pose proof (b_next _ _ _ _ _ B _ _ H). lia.
  - intros g'. unfold set_at at 1. destruct (Nat.eqb_spec g' g) as [->|N].
    + exists (w_next w). repeat rewrite set_at_same. cbn. repeat split; try reflexivity.
      fold (lookup w1 (w_next w)). rewrite L1, Nat.eqb_refl. reflexivity.
    + repeat rewrite set_at_other by assumption. rewrite g1. pose proof (b_grid _ _ _ _ _ B g') as G'.
      destruct (cg g'); [|exact G']. destruct G' as (a & ? & ? & ?). exists a. repeat split; try assumption.
      apply L. assumption.
  - intros f. rewrite f1. pose proof (b_family _ _ _ _ _ B f) as G'. destruct (cf f); [|exact G'].
    destruct G' as (a & ? & ? & ?). exists a. repeat split; try assumption. apply L. assumption.
  - rewrite f1. apply (b_apart _ _ _ _ _ B).
  - intros s p I. destruct (b_spaces _ _ _ _ _ B s p I) as (O & ag & af & X & Y & Z). split; [assumption|]. exists ag, af.
    split; [apply L; assumption|]. split; [|now rewrite f1].
    assert (ps_grid p <> g) by congruence. repeat rewrite set_at_other by assumption. now rewrite g1.
  - apply (b_ids _ _ _ _ _ B).
  - apply (b_handles _ _ _ _ _ B).
  - intros a n H. unfold lookup in H. cbn [w_heap] in H. fold (lookup w1 a) in H. rewrite L1 in H.
    destruct (Nat.eqb_spec a (w_next w)) as [->|N].
    + left. exists g. repeat rewrite set_at_same. reflexivity.
    + destruct (b_cover _ _ _ _ _ B _ _ H) as [(g' & H')|[(f & H')|H']].
      * left. exists g'. assert (g' <> g) by congruence. repeat rewrite set_at_other by assumption. now rewrite g1.
      * right. left. exists f. now rewrite f1.
      * right. right. exact H'.
Qed.

Lemma grid_refcount : forall E cg cf sp w g n, base E cg cf sp w -> cg g = Some n ->
  read_refcount (PyGrid g) w = Return (Z.of_nat n) w.
Proof.
  intros E cg cf sp w g n B C. pose proof (b_grid _ _ _ _ _ B g) as G. rewrite C in G. destruct G as (a & _ & G & _).
  unfold read_refcount, py_bind, get_attributes. cbn [attributes_of]. now rewrite G.
Qed.

Lemma grid_set_refcount : forall E cg cf sp w g n m, base E cg cf sp w -> cg g = Some n ->
  exists w', write_refcount (PyGrid g) (Z.of_nat m) w = Return tt w' /\ base E (set_at cg g (Some m)) cf sp w' /\ unchanged_spaces w w'.
Proof.
  intros E cg cf sp w g n m B C. pose proof (b_grid _ _ _ _ _ B g) as G. rewrite C in G. destruct G as (a & G1 & G2 & G3).
  eexists. split; [unfold write_refcount, py_bind, get_attributes, set_attributes; reflexivity|].
  split; [|split; reflexivity]. cbn [attributes_of].
  assert (H' : forall g', at_handle (set_at (w_grid w) g (mkAttributes (at_handle (w_grid w g)) (Some (Z.of_nat m))) g') = at_handle (w_grid w g')).
  { intros g'. unfold set_at. destruct (Nat.eqb_spec g' g) as [->|]; reflexivity. }
  destruct B as [H1 H2 H3 H4 H5 H6 H7 H8]. constructor; try assumption.
  - intros g'. cbn [w_grid]. unfold set_at at 1. destruct (Nat.eqb_spec g' g) as [->|N].
    + exists a. rewrite H'. rewrite set_at_same. repeat split; assumption.
    + rewrite H'. rewrite set_at_other by assumption. apply H2.
  - intros s p I. destruct (H5 s p I) as (O & ag & af & X & Y & Z). split; [assumption|]. exists ag, af. cbn [w_grid w_family].
    rewrite H'. now repeat split.
  - intros a' n' L. destruct (H8 a' n' L) as [(g' & X)|X]; [|right; exact X]. left. exists g'. cbn [w_grid]. now rewrite H'.
Qed.

Lemma grid_handle : forall E cg cf sp w g n, base E cg cf sp w -> cg g = Some n ->
  exists a, read_handle (PyGrid g) w = Return a w /\ at_handle (w_grid w g) = Some a /\ lookup w a = Some (NGrid g).
Proof.
  intros E cg cf sp w g n B C. pose proof (b_grid _ _ _ _ _ B g) as G. rewrite C in G. destruct G as (a & G1 & G2 & G3).
  exists a. unfold read_handle, py_bind, get_attributes. cbn [attributes_of]. rewrite G1. repeat split; assumption.
Qed.

(** *** A family *)

Lemma ensure_family_present : forall E cg cf sp w f n, base E cg cf sp w -> cf f = Some n ->
  ensure (PyFamily f) (recreate_element_family E f) w = Return tt w.
Proof.
  intros E cg cf sp w f n B C. pose proof (b_family _ _ _ _ _ B f) as G. rewrite C in G. destruct G as (a & G & _).
  unfold ensure, py_bind, get_attributes. cbn [attributes_of]. rewrite G. reflexivity.
Qed.

Lemma ensure_family_unsupported : forall E cg cf sp w f, base E cg cf sp w -> cf f = None -> family_supported E f = false ->
  ensure (PyFamily f) (recreate_element_family E f) w = Raise w.
Proof.
  intros E cg cf sp w f B C F. pose proof (b_family _ _ _ _ _ B f) as G. rewrite C in G.
  unfold ensure, py_bind, get_attributes, recreate_element_family. cbn [attributes_of]. rewrite G, F. reflexivity.
Qed.

Lemma ensure_family_new : forall E cg cf sp w f, base E cg cf sp w -> cf f = None -> family_supported E f = true ->
  exists w', ensure (PyFamily f) (recreate_element_family E f) w = Return tt w' /\ base E cg (set_at cf f (Some 0)) sp w' /\ unchanged_spaces w w'.
Proof.
  intros E cg cf sp w f B C F. pose proof (b_family _ _ _ _ _ B f) as G. rewrite C in G.
  unfold ensure, py_bind at 1, get_attributes at 1, recreate_element_family. cbn [attributes_of]. rewrite G, F.
  change (mkFamilyInfo LagrangeFamily (fi_degree (family_of E f)) (fi_continuous (family_of E f))) with (lagrange_info E f).
  destruct (allocate (NFamily (lagrange_info E f)) w) as [a w1| | |] eqn:A; try discriminate A.
  destruct (allocate_spec _ _ _ _ _ _ _ _ B A) as (-> & N1 & L1 & g1 & f1 & s1 & m1).
  eexists. split; [unfold py_bind, write_handle, write_refcount, get_attributes, set_attributes, py_bind; rewrite A; cbn; reflexivity|].
  split; [|split; cbn; assumption].
  assert (L : forall a n, lookup w a = Some n -> lookup w1 a = Some n).
  { intros a n H. rewrite L1. rewrite (lookup_fresh _ _ _ _ _ _ _ B H). exact H. }
  assert (Old : forall f' a, at_handle (w_family w f') = Some a -> a <> w_next w).
  { intros f' a H. pose proof (b_family _ _ _ _ _ B f') as G'. destruct (cf f') in G'; [|congruence].
    destruct G' as (a' & X & _ & Y). apply (b_next _ _ _ _ _ B) in Y. assert (a = a') by congruence. lia. }
  constructor; cbn [w_next w_heap w_grid w_family w_made w_spaces].
  - intros a n H. rewrite N1. unfold lookup in H. cbn [w_heap] in H. fold (lookup w1 a) in H. rewrite L1 in H.
    destruct (Nat.eqb_spec a (w_next w)); [lia|]. pose proof (b_next _ _ _ _ _ B _ _ H). lia.
  - intros g. rewrite g1. pose proof (b_grid _ _ _ _ _ B g) as G'. destruct (cg g); [|exact G'].
    destruct G' as (a & ? & ? & ?). exists a. repeat split; try assumption. apply L. assumption.
  - intros f'. unfold set_at at 1. destruct (Nat.eqb_spec f' f) as [->|N].
    + exists (w_next w). repeat rewrite set_at_same. cbn. repeat split; try reflexivity.
      fold (lookup w1 (w_next w)). rewrite L1, Nat.eqb_refl. reflexivity.
    + repeat rewrite set_at_other by assumption. rewrite f1. pose proof (b_family _ _ _ _ _ B f') as G'.
      destruct (cf f'); [|exact G']. destruct G' as (a & ? & ? & ?). exists a. repeat split; try assumption.
      apply L. assumption.
  - intros x y a. rewrite f1. unfold set_at. rewrite Nat.eqb_refl.
    destruct (Nat.eqb_spec x f) as [->|Nx], (Nat.eqb_spec y f) as [->|Ny]; cbn; intros X Y.
    + reflexivity.
    + exfalso. injection X as <-. exact (Old _ _ Y eq_refl).
    + exfalso. injection Y as <-. exact (Old _ _ X eq_refl).
    + exact (b_apart _ _ _ _ _ B _ _ _ X Y).
  - intros s p I. destruct (b_spaces _ _ _ _ _ B s p I) as (O & ag & af & X & Y & Z). split; [assumption|]. exists ag, af.
    split; [apply L; assumption|]. split; [now rewrite g1|].
    assert (ps_family p <> f) by congruence. repeat rewrite set_at_other by assumption. now rewrite f1.
  - apply (b_ids _ _ _ _ _ B).
  - apply (b_handles _ _ _ _ _ B).
  - intros a n H. unfold lookup in H. cbn [w_heap] in H. fold (lookup w1 a) in H. rewrite L1 in H.
    destruct (Nat.eqb_spec a (w_next w)) as [->|N].
    + right. left. exists f. repeat rewrite set_at_same. reflexivity.
    + destruct (b_cover _ _ _ _ _ B _ _ H) as [(g & H')|[(f' & H')|H']].
      * left. exists g. now rewrite g1.
      * right. left. exists f'. assert (f' <> f) by congruence. repeat rewrite set_at_other by assumption. now rewrite f1.
      * right. right. exact H'.
Qed.

Lemma family_refcount : forall E cg cf sp w f n, base E cg cf sp w -> cf f = Some n ->
  read_refcount (PyFamily f) w = Return (Z.of_nat n) w.
Proof.
  intros E cg cf sp w f n B C. pose proof (b_family _ _ _ _ _ B f) as G. rewrite C in G. destruct G as (a & _ & G & _).
  unfold read_refcount, py_bind, get_attributes. cbn [attributes_of]. now rewrite G.
Qed.

Lemma family_set_refcount : forall E cg cf sp w f n m, base E cg cf sp w -> cf f = Some n ->
  exists w', write_refcount (PyFamily f) (Z.of_nat m) w = Return tt w' /\ base E cg (set_at cf f (Some m)) sp w' /\ unchanged_spaces w w'.
Proof.
  intros E cg cf sp w f n m B C. pose proof (b_family _ _ _ _ _ B f) as G. rewrite C in G. destruct G as (a & G1 & G2 & G3).
  eexists. split; [unfold write_refcount, py_bind, get_attributes, set_attributes; reflexivity|].
  split; [|split; reflexivity]. cbn [attributes_of].
  assert (H' : forall f', at_handle (set_at (w_family w) f (mkAttributes (at_handle (w_family w f)) (Some (Z.of_nat m))) f') = at_handle (w_family w f')).
  { intros f'. unfold set_at. destruct (Nat.eqb_spec f' f) as [->|]; reflexivity. }
  destruct B as [H1 H2 H3 H4 H5 H6 H7 H8]. constructor; try assumption.
  - intros f'. cbn [w_family]. unfold set_at at 1. destruct (Nat.eqb_spec f' f) as [->|N].
    + exists a. rewrite H'. rewrite set_at_same. repeat split; assumption.
    + rewrite H'. rewrite set_at_other by assumption. apply H3.
  - intros x y b. cbn [w_family]. rewrite !H'. apply H4.
  - intros s p I. destruct (H5 s p I) as (O & ag & af & X & Y & Z). split; [assumption|]. exists ag, af. cbn [w_grid w_family].
    rewrite H'. now repeat split.
  - intros a' n' L. destruct (H8 a' n' L) as [X|[(f' & X)|X]]; [left; exact X| |right; right; exact X]. right. left. exists f'. cbn [w_family]. now rewrite H'.
Qed.

Lemma family_handle : forall E cg cf sp w f n, base E cg cf sp w -> cf f = Some n ->
  exists a, read_handle (PyFamily f) w = Return a w /\ at_handle (w_family w f) = Some a /\ lookup w a = Some (NFamily (lagrange_info E f)).
Proof.
  intros E cg cf sp w f n B C. pose proof (b_family _ _ _ _ _ B f) as G. rewrite C in G. destruct G as (a & G1 & G2 & G3).
  exists a. unfold read_handle, py_bind, get_attributes. cbn [attributes_of]. rewrite G1. repeat split; assumption.
Qed.

(** ** Spaces *)

Lemma allocate_space : forall E cg cf sp w s g f ag af, base E cg cf sp w -> ~ In s (map fst sp) ->
  at_handle (w_grid w g) = Some ag -> at_handle (w_family w f) = Some af ->
  exists a w', allocate (NSpace ag af) w = Return a w' /\ base E cg cf ((s, mkPySpace a true g f) :: sp) w' /\ unchanged_spaces w w'.
Proof.
  intros E cg cf sp w s g f ag af B NI Hg Hf.
  destruct (allocate (NSpace ag af) w) as [a w1| | |] eqn:A; try discriminate A.
  destruct (allocate_spec _ _ _ _ _ _ _ _ B A) as (-> & N1 & L1 & g1 & f1 & s1 & m1).
  exists (w_next w), w1. split; [reflexivity|]. split; [|split; assumption].
  assert (L : forall a n, lookup w a = Some n -> lookup w1 a = Some n).
  { intros a n H. rewrite L1. rewrite (lookup_fresh _ _ _ _ _ _ _ B H). exact H. }
  constructor.
  - intros a n H. rewrite N1. rewrite L1 in H.
    destruct (Nat.eqb_spec a (w_next w)); [lia|]. pose proof (b_next _ _ _ _ _ B _ _ H). lia.
  - intros x. rewrite g1. pose proof (b_grid _ _ _ _ _ B x) as G'. destruct (cg x); [|exact G'].
    destruct G' as (a & ? & ? & ?). exists a. repeat split; try assumption. apply L. assumption.
  - intros x. rewrite f1. pose proof (b_family _ _ _ _ _ B x) as G'. destruct (cf x); [|exact G'].
    destruct G' as (a & ? & ? & ?). exists a. repeat split; try assumption. apply L. assumption.
  - rewrite f1. apply (b_apart _ _ _ _ _ B).
  - intros s' p [I|I].
    + injection I as <- <-. cbn. split; [reflexivity|]. exists ag, af. rewrite L1, Nat.eqb_refl, g1, f1. now repeat split.
    + destruct (b_spaces _ _ _ _ _ B s' p I) as (O & x & y & X & Y & Z). split; [assumption|]. exists x, y. rewrite g1, f1.
      repeat split; try assumption. apply L. assumption.
  - cbn. constructor; [assumption|apply (b_ids _ _ _ _ _ B)].
  - intros s1' p1 s2' p2 [I1|I1] [I2|I2] EQ.
    + injection I1 as <- <-. injection I2 as <- <-. reflexivity.
    + exfalso. injection I1 as <- <-. cbn in EQ. destruct (b_spaces _ _ _ _ _ B _ _ I2) as (_ & x & y & X & _).
      rewrite <- EQ in X. apply (b_next _ _ _ _ _ B) in X. lia.
    + exfalso. injection I2 as <- <-. cbn in EQ. destruct (b_spaces _ _ _ _ _ B _ _ I1) as (_ & x & y & X & _).
      rewrite EQ in X. apply (b_next _ _ _ _ _ B) in X. lia.
    + exact (b_handles _ _ _ _ _ B _ _ _ _ I1 I2 EQ).
  - intros a n H. rewrite L1 in H. rewrite g1, f1. destruct (Nat.eqb_spec a (w_next w)) as [->|N].
    + right. right. exists s, (mkPySpace (w_next w) true g f). split; [left; reflexivity|reflexivity].
    + destruct (b_cover _ _ _ _ _ B _ _ H) as [H'|[H'|(s' & p & I & e)]]; [left; exact H'|right; left; exact H'|].
      right. right. exists s', p. split; [right; exact I|exact e].
Qed.

Lemma free_spec : forall kind w a n, lookup w a = Some n -> kind n = true ->
  exists w', free kind a w = Return tt w' /\ w_next w' = w_next w /\ (forall a', lookup w' a' = if a' =? a then None else lookup w a') /\
  w_grid w' = w_grid w /\ w_family w' = w_family w /\ unchanged_spaces w w'.
Proof.
  intros kind w a n L K. unfold free. unfold lookup in L. rewrite L, K. eexists. split; [reflexivity|]. cbn.
  repeat split; try reflexivity. intros a'. unfold lookup. cbn [w_heap]. apply assoc_filter_nat.
Qed.

Definition without (s : nat) (sp : list (nat * py_space)) : list (nat * py_space) := filter (fun x => negb (fst x =? s)) sp.

Lemma in_without : forall s sp x p, In (x, p) (without s sp) <-> In (x, p) sp /\ x <> s.
Proof.
  intros. unfold without. rewrite filter_In. cbn. destruct (Nat.eqb_spec x s); cbn; intuition congruence.
Qed.

Lemma without_ids : forall s sp, NoDup (map fst sp) -> NoDup (map fst (without s sp)).
Proof.
  induction sp as [|[x p] sp IH]; cbn; intros N; [constructor|]. inversion N; subst.
  destruct (x =? s); cbn; [auto|]. constructor; [|auto].
  intros I. apply H1. apply in_map_iff in I. destruct I as ((x', p') & <- & I). apply in_without in I. apply in_map_iff. exists (x', p'). tauto.
Qed.

Lemma grid_not_space : forall E cg cf sp w s p g a, base E cg cf sp w -> In (s, p) sp -> at_handle (w_grid w g) = Some a -> a <> ps_handle p.
Proof.
  intros E cg cf sp w s p g a B I H ->. destruct (b_spaces _ _ _ _ _ B _ _ I) as (_ & x & y & X & _).
  pose proof (b_grid _ _ _ _ _ B g) as G. destruct (cg g); [|congruence]. destruct G as (a & G1 & _ & G2). congruence.
Qed.

Lemma family_not_space : forall E cg cf sp w s p f a, base E cg cf sp w -> In (s, p) sp -> at_handle (w_family w f) = Some a -> a <> ps_handle p.
Proof.
  intros E cg cf sp w s p f a B I H ->. destruct (b_spaces _ _ _ _ _ B _ _ I) as (_ & x & y & X & _).
  pose proof (b_family _ _ _ _ _ B f) as G. destruct (cf f); [|congruence]. destruct G as (a & G1 & _ & G2). congruence.
Qed.

Lemma grid_not_family : forall E cg cf sp w g f a b, base E cg cf sp w -> at_handle (w_grid w g) = Some a -> at_handle (w_family w f) = Some b -> a <> b.
Proof.
  intros E cg cf sp w g f a b B H1 H2 ->.
  pose proof (b_grid _ _ _ _ _ B g) as G. destruct (cg g); [|congruence]. destruct G as (a & G1 & _ & G2).
  pose proof (b_family _ _ _ _ _ B f) as G'. destruct (cf f); [|congruence]. destruct G' as (a' & G1' & _ & G2'). congruence.
Qed.

Lemma grid_apart : forall E cg cf sp w g g' a, base E cg cf sp w -> at_handle (w_grid w g) = Some a -> at_handle (w_grid w g') = Some a -> g = g'.
Proof.
  intros E cg cf sp w g g' a B H1 H2.
  pose proof (b_grid _ _ _ _ _ B g) as G. destruct (cg g); [|congruence]. destruct G as (b & G1 & _ & G2).
  pose proof (b_grid _ _ _ _ _ B g') as G'. destruct (cg g'); [|congruence]. destruct G' as (b' & G1' & _ & G2'). congruence.
Qed.

Lemma free_space : forall E cg cf sp w s p, base E cg cf sp w -> In (s, p) sp ->
  exists w', free is_space (ps_handle p) w = Return tt w' /\ base E cg cf (without s sp) w' /\ unchanged_spaces w w'.
Proof.
  intros E cg cf sp w s p B I. destruct (b_spaces _ _ _ _ _ B _ _ I) as (_ & x & y & X & _).
  destruct (free_spec is_space w (ps_handle p) _ X eq_refl) as (w' & F & N & L & g1 & f1 & U).
  exists w'. split; [assumption|]. split; [|assumption].
  assert (L' : forall a n, lookup w a = Some n -> a <> ps_handle p -> lookup w' a = Some n).
  { intros a n H NE. rewrite L. now apply Nat.eqb_neq in NE as ->. }
  constructor.
  - intros a n H. rewrite N. rewrite L in H. destruct (a =? ps_handle p); [discriminate|]. exact (b_next _ _ _ _ _ B _ _ H).
  - intros g. rewrite g1. pose proof (b_grid _ _ _ _ _ B g) as G'. destruct (cg g); [|exact G'].
    destruct G' as (a & H1 & ? & ?). exists a. repeat split; try assumption. apply L'; [assumption|].
    exact (grid_not_space _ _ _ _ _ _ _ _ _ B I H1).
  - intros f. rewrite f1. pose proof (b_family _ _ _ _ _ B f) as G'. destruct (cf f); [|exact G'].
    destruct G' as (a & H1 & ? & ?). exists a. repeat split; try assumption. apply L'; [assumption|].
    exact (family_not_space _ _ _ _ _ _ _ _ _ B I H1).
  - rewrite f1. apply (b_apart _ _ _ _ _ B).
  - intros s' p' I'. apply in_without in I'. destruct I' as [I' NE].
    destruct (b_spaces _ _ _ _ _ B _ _ I') as (O & ag & af & Y & ? & ?). split; [assumption|]. exists ag, af. rewrite g1, f1.
    repeat split; try assumption. apply L'; [assumption|]. intros EQ. apply NE. exact (b_handles _ _ _ _ _ B _ _ _ _ I' I EQ).
  - apply without_ids. apply (b_ids _ _ _ _ _ B).
  - intros s1 p1 s2 p2 I1 I2. apply in_without in I1, I2. apply (b_handles _ _ _ _ _ B); tauto.
  - intros a n H. rewrite L in H. rewrite g1, f1. destruct (Nat.eqb_spec a (ps_handle p)) as [->|NE]; [discriminate|].
    destruct (b_cover _ _ _ _ _ B _ _ H) as [H'|[H'|(s' & p' & I' & e)]]; [left; exact H'|right; left; exact H'|].
    right. right. exists s', p'. split; [|exact e]. apply in_without. split; [assumption|]. intros ->. apply NE. rewrite <- e.
    f_equal. pose proof (in_assoc_nat _ _ _ _ (b_ids _ _ _ _ _ B) I). pose proof (in_assoc_nat _ _ _ _ (b_ids _ _ _ _ _ B) I'). congruence.
Qed.

Lemma free_family : forall E cg cf sp w f n, base E cg cf sp w -> cf f = Some n -> (forall s p, In (s, p) sp -> ps_family p <> f) ->
  exists w', (fh <== read_handle (PyFamily f) ;; free is_family fh ;; del_handle (PyFamily f) ;; del_refcount (PyFamily f)) w = Return tt w' /\
    base E cg (set_at cf f None) sp w' /\ unchanged_spaces w w'.
Proof.
  intros E cg cf sp w f n B C NU. destruct (family_handle _ _ _ _ _ _ _ B C) as (a & R & HA & LA).
  destruct (free_spec is_family w a _ LA eq_refl) as (w1 & F & N & L & g1 & f1 & U1 & U2).
  eexists. split.
  { unfold py_bind at 1. rewrite R. unfold py_bind at 1. rewrite F.
    unfold py_bind, del_handle, del_refcount, py_bind, get_attributes, set_attributes. reflexivity. }
  split; [|split; cbn; assumption].
  assert (L' : forall b m, lookup w b = Some m -> b <> a -> lookup w1 b = Some m).
  { intros b m H NE. rewrite L. now apply Nat.eqb_neq in NE as ->. }
  cbn [attributes_of w_family w_next w_heap w_grid w_made w_spaces].
  assert (Hf : forall f', at_handle (set_at (set_at (w_family w1) f (mkAttributes None (at_refcount (w_family w1 f)))) f
       (mkAttributes (at_handle (set_at (w_family w1) f (mkAttributes None (at_refcount (w_family w1 f))) f)) None) f') =
       if f' =? f then None else at_handle (w_family w f')).
  { intros f'. unfold set_at. rewrite f1. rewrite Nat.eqb_refl. destruct (f' =? f); reflexivity. }
  constructor; cbn [w_next w_heap w_grid w_family w_made w_spaces].
  - intros b m H. unfold lookup in H. cbn [w_heap] in H. fold (lookup w1 b) in H. rewrite N. rewrite L in H.
    destruct (b =? a); [discriminate|]. exact (b_next _ _ _ _ _ B _ _ H).
  - intros g. rewrite g1. pose proof (b_grid _ _ _ _ _ B g) as G'. destruct (cg g); [|exact G'].
    destruct G' as (b & H1 & ? & ?). exists b. repeat split; try assumption. apply L'; [assumption|].
    exact (grid_not_family _ _ _ _ _ _ _ _ _ B H1 HA).
  - intros f'. rewrite Hf. unfold set_at at 1. destruct (Nat.eqb_spec f' f) as [->|NE].
    + reflexivity.
    + pose proof (b_family _ _ _ _ _ B f') as G'. destruct (cf f'); [|exact G'].
      destruct G' as (b & H1 & H2 & H3). exists b. repeat rewrite set_at_other by assumption. rewrite f1. repeat split; try assumption.
      apply L'; [assumption|]. intros ->. apply NE. exact (b_apart _ _ _ _ _ B _ _ _ H1 HA).
  - intros x y b. rewrite !Hf. destruct (x =? f); [discriminate|]. destruct (y =? f); [discriminate|]. apply (b_apart _ _ _ _ _ B).
  - intros s p I. destruct (b_spaces _ _ _ _ _ B s p I) as (O & ag & af & X & Y & Z). split; [assumption|]. exists ag, af.
    rewrite Hf, g1. specialize (NU s p I). apply Nat.eqb_neq in NU. rewrite NU. repeat split; try assumption.
    apply L'; [assumption|]. intros EQ. symmetry in EQ. exact (family_not_space _ _ _ _ _ _ _ _ _ B I HA EQ).
  - apply (b_ids _ _ _ _ _ B).
  - apply (b_handles _ _ _ _ _ B).
  - intros b m H. unfold lookup in H. cbn [w_heap] in H. fold (lookup w1 b) in H. rewrite L in H.
    destruct (Nat.eqb_spec b a) as [->|NE]; [discriminate|].
    destruct (b_cover _ _ _ _ _ B _ _ H) as [(g & H')|[(f' & H')|H']].
    + left. exists g. now rewrite g1.
    + right. left. exists f'. rewrite Hf. destruct (Nat.eqb_spec f' f) as [->|]; [congruence|exact H'].
    + right. right. exact H'.
Qed.

Lemma free_grid : forall E cg cf sp w g n, base E cg cf sp w -> cg g = Some n -> (forall s p, In (s, p) sp -> ps_grid p <> g) ->
  exists w', (gh <== read_handle (PyGrid g) ;; free is_grid gh ;; del_handle (PyGrid g)) w = Return tt w' /\
    base E (set_at cg g None) cf sp w' /\ unchanged_spaces w w'.
Proof.
  intros E cg cf sp w g n B C NU. destruct (grid_handle _ _ _ _ _ _ _ B C) as (a & R & HA & LA).
  destruct (free_spec is_grid w a _ LA eq_refl) as (w1 & F & N & L & g1 & f1 & U1 & U2).
  eexists. split.
  { unfold py_bind at 1. rewrite R. unfold py_bind at 1. rewrite F.
    unfold py_bind, del_handle, py_bind, get_attributes, set_attributes. reflexivity. }
  split; [|split; cbn; assumption].
  assert (L' : forall b m, lookup w b = Some m -> b <> a -> lookup w1 b = Some m).
  { intros b m H NE. rewrite L. now apply Nat.eqb_neq in NE as ->. }
  cbn [attributes_of w_family w_next w_heap w_grid w_made w_spaces].
  assert (Hg : forall g', at_handle (set_at (w_grid w1) g (mkAttributes None (at_refcount (w_grid w1 g))) g') =
       if g' =? g then None else at_handle (w_grid w g')).
  { intros g'. unfold set_at. rewrite g1. destruct (g' =? g); reflexivity. }
  constructor; cbn [w_next w_heap w_grid w_family w_made w_spaces].
  - intros b m H. unfold lookup in H. cbn [w_heap] in H. fold (lookup w1 b) in H. rewrite N. rewrite L in H.
    destruct (b =? a); [discriminate|]. exact (b_next _ _ _ _ _ B _ _ H).
  - intros g'. rewrite Hg. unfold set_at at 1. destruct (Nat.eqb_spec g' g) as [->|NE].
    + reflexivity.
    + pose proof (b_grid _ _ _ _ _ B g') as G'. destruct (cg g'); [|exact G'].
      destruct G' as (b & H1 & H2 & H3). exists b. repeat rewrite set_at_other by assumption. rewrite g1. repeat split; try assumption.
      apply L'; [assumption|]. intros ->. apply NE. exact (grid_apart _ _ _ _ _ _ _ _ B H1 HA).
  - intros f. rewrite f1. pose proof (b_family _ _ _ _ _ B f) as G'. destruct (cf f); [|exact G'].
    destruct G' as (b & H1 & ? & ?). exists b. repeat split; try assumption. apply L'; [assumption|].
    intros EQ. symmetry in EQ. exact (grid_not_family _ _ _ _ _ _ _ _ _ B HA H1 EQ).
  - rewrite f1. apply (b_apart _ _ _ _ _ B).
  - intros s p I. destruct (b_spaces _ _ _ _ _ B s p I) as (O & ag & af & X & Y & Z). split; [assumption|]. exists ag, af.
    rewrite Hg, f1. specialize (NU s p I). apply Nat.eqb_neq in NU. rewrite NU. repeat split; try assumption.
    apply L'; [assumption|]. intros EQ. symmetry in EQ. exact (grid_not_space _ _ _ _ _ _ _ _ _ B I HA EQ).
  - apply (b_ids _ _ _ _ _ B).
  - apply (b_handles _ _ _ _ _ B).
  - intros b m H. unfold lookup in H. cbn [w_heap] in H. fold (lookup w1 b) in H. rewrite L in H.
    destruct (Nat.eqb_spec b a) as [->|NE]; [discriminate|].
    destruct (b_cover _ _ _ _ _ B _ _ H) as [(g' & H')|[(f & H')|H']].
    + left. exists g'. rewrite Hg. destruct (Nat.eqb_spec g' g) as [->|]; [congruence|exact H'].
    + right. left. exists f. now rewrite f1.
    + right. right. exact H'.
Qed.
