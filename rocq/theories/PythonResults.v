(** * Results about the ownership of native objects in the Python layer *)
From Verif Require Import Base BaseFacts Topology Options Python SpecPython PythonFacts.
From Coq Require Import ZArith.

Definition uses (sel : py_space -> nat) (x : nat) (sp : list (nat * py_space)) : nat :=
  length (filter (fun e => sel (snd e) =? x) sp).
Definition opt (n : nat) : option nat := if n =? 0 then None else Some n.

Lemma opt_S : forall n, opt (S n) = Some (S n).
Proof. reflexivity. Qed.
Lemma opt_0 : opt 0 = None.
Proof. reflexivity. Qed.
Lemma opt_some : forall n m, opt n = Some m -> m = n /\ 0 < n.
Proof. unfold opt. intros [|n] m; cbn; intros H; [discriminate|]. injection H as <-. lia. Qed.
Lemma opt_none : forall n, opt n = None -> n = 0.
Proof. unfold opt. intros [|n]; cbn; [reflexivity|discriminate]. Qed.

Lemma uses_cons : forall sel x s p sp, uses sel x ((s, p) :: sp) = (if sel p =? x then 1 else 0) + uses sel x sp.
Proof. intros. unfold uses. cbn. destruct (sel p =? x); reflexivity. Qed.

Lemma uses_none : forall sel x sp, uses sel x sp = 0 -> forall s p, In (s, p) sp -> sel p <> x.
Proof.
  induction sp as [|[s' p'] sp IH]; intros H s p I; [contradiction|]. rewrite uses_cons in H. destruct I as [I|I].
  - injection I as <- <-. destruct (Nat.eqb_spec (sel p') x); [discriminate|assumption].
  - apply (IH ltac:(lia) s p I).
Qed.

Lemma uses_some : forall sel x sp, 0 < uses sel x sp -> exists s p, In (s, p) sp /\ sel p = x.
Proof.
  induction sp as [|[s' p'] sp IH]; intros H; [cbn in H; lia|]. rewrite uses_cons in H.
  destruct (Nat.eqb_spec (sel p') x).
  - exists s', p'. split; [left; reflexivity|assumption].
  - destruct (IH ltac:(lia)) as (s & p & I & e). exists s, p. split; [right; exact I|exact e].
Qed.

Lemma uses_without : forall sel x s p sp, NoDup (map fst sp) -> In (s, p) sp ->
  uses sel x sp = (if sel p =? x then 1 else 0) + uses sel x (without s sp).
Proof.
  induction sp as [|[s' p'] sp IH]; intros N I; [contradiction|]. cbn in N. inversion N as [|? ? N1 N2]; subst.
  unfold without. cbn [filter fst]. destruct I as [I|I].
  - injection I as -> ->. rewrite Nat.eqb_refl. cbn [negb]. rewrite uses_cons. f_equal.
    assert (W : forall l, ~ In s (map fst l) -> filter (fun e : nat * py_space => negb (fst e =? s)) l = l).
    { induction l as [|[a q] l IHl]; cbn; intros NI; [reflexivity|]. destruct (Nat.eqb_spec a s); [exfalso; auto|]. cbn. f_equal. auto. }
    now rewrite W.
  - destruct (Nat.eqb_spec s' s) as [->|NE].
    + exfalso. apply N1. apply in_map_iff. exists (s, p). auto.
    + cbn [negb]. rewrite !uses_cons. fold (without s sp). rewrite (IH N2 I). lia.
Qed.

Definition cgrid (fl : nat -> nat) (sp : list (nat * py_space)) (g : nat) : option nat := opt (uses ps_grid g sp + fl g).
Definition cfamily (sp : list (nat * py_space)) (f : nat) : option nat := opt (uses ps_family f sp).

(** [fl] counts, for each grid, the creations that failed after its count was
    increased. *)
Record sound (E : outside) (fl : nat -> nat) (w : world) : Prop := mkSound {
  so_base : base E (cgrid fl (w_spaces w)) (cfamily (w_spaces w)) (w_spaces w) w;
  so_made : forall s, In s (map fst (w_spaces w)) -> s < w_made w;
  so_supported : forall g, 0 < uses ps_grid g (w_spaces w) + fl g -> grid_supported E g = true
}.

Lemma set_at_ext : forall (A : Type) (f f' : nat -> A) i x, (forall j, j <> i -> f' j = f j) -> f' i = x -> forall j, f' j = set_at f i x j.
Proof. intros A f f' i x H H' j. unfold set_at. destruct (Nat.eqb_spec j i) as [->|]; auto. Qed.

(** The first half of [function_space]: the grid. *)
Lemma grid_half : forall E cg cf sp w g, base E cg cf sp w ->
  (cg g = None /\ grid_supported E g = false /\
   (forall A (k : py A), (ensure (PyGrid g) (recreate_grid E g) ;; n <== read_refcount (PyGrid g) ;; write_refcount (PyGrid g) (n + 1) ;; k) w = Raise w)) \/
  (exists w', (cg g <> None \/ grid_supported E g = true) /\
   (forall A (k : py A), (ensure (PyGrid g) (recreate_grid E g) ;; n <== read_refcount (PyGrid g) ;; write_refcount (PyGrid g) (n + 1) ;; k) w = k w') /\
   base E (set_at cg g (Some (S match cg g with Some n => n | None => 0 end))) cf sp w' /\ unchanged_spaces w w').
Proof.
  intros E cg cf sp w g B. destruct (cg g) as [n|] eqn:C.
  - right. destruct (grid_set_refcount _ _ _ _ _ g n (S n) B C) as (w' & W & B' & U).
    exists w'. split; [left; discriminate|]. split; [|split; assumption]. intros A k.
    unfold py_bind at 1. rewrite (ensure_grid_present _ _ _ _ _ _ _ B C).
    unfold py_bind at 1. rewrite (grid_refcount _ _ _ _ _ _ _ B C).
    unfold py_bind at 1. replace (Z.of_nat n + 1)%Z with (Z.of_nat (S n)) by lia. now rewrite W.
  - destruct (grid_supported E g) eqn:F.
    + right. destruct (ensure_grid_new _ _ _ _ _ _ B C F) as (w1 & W1 & B1 & U1).
      pose proof (set_at_same _ cg g (Some 0)) as C1.
      destruct (grid_set_refcount _ _ _ _ _ g 0 1 B1 C1) as (w' & W & B' & U).
      exists w'. split; [right; reflexivity|]. split.
      * intros A k. unfold py_bind at 1. rewrite W1. unfold py_bind at 1. rewrite (grid_refcount _ _ _ _ _ _ _ B1 C1).
        unfold py_bind at 1. change (Z.of_nat 0 + 1)%Z with (Z.of_nat 1). now rewrite W.
      * split; [|destruct U, U1; split; congruence]. apply (base_ext _ _ _ _ _ _ _ B'); [|reflexivity].
        intros j. unfold set_at. destruct (j =? g); reflexivity.
    + left. split; [reflexivity|]. split; [reflexivity|]. intros A k. unfold py_bind at 1.
      now rewrite (ensure_grid_unsupported _ _ _ _ _ _ B C F).
Qed.

Lemma family_half : forall E cg cf sp w f, base E cg cf sp w ->
  (cf f = None /\ family_supported E f = false /\
   (forall A (k : py A), (ensure (PyFamily f) (recreate_element_family E f) ;; n <== read_refcount (PyFamily f) ;; write_refcount (PyFamily f) (n + 1) ;; k) w = Raise w)) \/
  (exists w',
   (forall A (k : py A), (ensure (PyFamily f) (recreate_element_family E f) ;; n <== read_refcount (PyFamily f) ;; write_refcount (PyFamily f) (n + 1) ;; k) w = k w') /\
   base E cg (set_at cf f (Some (S match cf f with Some n => n | None => 0 end))) sp w' /\ unchanged_spaces w w').
Proof.
  intros E cg cf sp w f B. destruct (cf f) as [n|] eqn:C.
  - right. destruct (family_set_refcount _ _ _ _ _ f n (S n) B C) as (w' & W & B' & U).
    exists w'. split; [|split; assumption]. intros A k.
    unfold py_bind at 1. rewrite (ensure_family_present _ _ _ _ _ _ _ B C).
    unfold py_bind at 1. rewrite (family_refcount _ _ _ _ _ _ _ B C).
    unfold py_bind at 1. replace (Z.of_nat n + 1)%Z with (Z.of_nat (S n)) by lia. now rewrite W.
  - destruct (family_supported E f) eqn:F.
    + right. destruct (ensure_family_new _ _ _ _ _ _ B C F) as (w1 & W1 & B1 & U1).
      pose proof (set_at_same _ cf f (Some 0)) as C1.
      destruct (family_set_refcount _ _ _ _ _ f 0 1 B1 C1) as (w' & W & B' & U).
      exists w'. split.
      * intros A k. unfold py_bind at 1. rewrite W1. unfold py_bind at 1. rewrite (family_refcount _ _ _ _ _ _ _ B1 C1).
        unfold py_bind at 1. change (Z.of_nat 0 + 1)%Z with (Z.of_nat 1). now rewrite W.
      * split; [|destruct U, U1; split; congruence]. apply (base_ext _ _ _ _ _ _ _ B'); [reflexivity|].
        intros j. unfold set_at. destruct (j =? f); reflexivity.
    + left. split; [reflexivity|]. split; [reflexivity|]. intros A k. unfold py_bind at 1.
      now rewrite (ensure_family_unsupported _ _ _ _ _ _ B C F).
Qed.

Lemma opt_default : forall n, match opt n with Some m => m | None => 0 end = n.
Proof. intros [|n]; reflexivity. Qed.

Inductive creation (E : outside) (fl : nat -> nat) (w : world) (g f : nat) : outcome nat -> Prop :=
| creation_done : forall a w', sound E fl w' -> w_made w' = S (w_made w) ->
    w_spaces w' = (w_made w, mkPySpace a true g f) :: w_spaces w -> creation E fl w g f (Return (w_made w) w')
| creation_grid : grid_supported E g = false -> creation E fl w g f (Raise w)
| creation_family : forall w', grid_supported E g = true -> family_supported E f = false -> sound E (set_at fl g (S (fl g))) w' ->
    unchanged_spaces w w' -> creation E fl w g f (Raise w')
| creation_abort : compatible E g f = false -> creation E fl w g f Abort.

Lemma function_space_spec : forall E fl w g f, sound E fl w -> creation E fl w g f (function_space E g f w).
Proof.
  intros E fl w g f [B M Sup]. unfold function_space.
  destruct (grid_half _ _ _ _ _ g B) as [(C & F & R)|(w1 & C & R & B1 & U1)]; rewrite R.
  { apply creation_grid. exact F. }
  clear R. assert (SG : grid_supported E g = true).
  { destruct C as [C|C]; [|exact C]. apply Sup. unfold cgrid in C. destruct (uses ps_grid g (w_spaces w) + fl g); [contradiction|lia]. }
  assert (B1' : base E (set_at (cgrid fl (w_spaces w)) g (Some (S (uses ps_grid g (w_spaces w) + fl g)))) (cfamily (w_spaces w)) (w_spaces w) w1).
  { apply (base_ext _ _ _ _ _ _ _ B1); [|reflexivity]. intros j. unfold set_at. destruct (j =? g); [|reflexivity].
    unfold cgrid. now rewrite opt_default. }
  clear B1. destruct U1 as [U1 U1'].
  destruct (family_half _ _ _ _ _ f B1') as [(Cf & F & R)|(w2 & R & B2 & U2)]; rewrite R.
  { apply (creation_family _ _ _ _ _ w1); [exact SG|exact F| |split; assumption]. constructor; rewrite ?U1, ?U1'.
    - apply (base_ext _ _ _ _ _ _ _ B1'); [|reflexivity]. apply set_at_ext.
      + intros j N. unfold cgrid. now rewrite set_at_other by assumption.
      + unfold cgrid. rewrite set_at_same. rewrite <- plus_n_Sm. apply opt_S.
    - exact M.
    - intros j. unfold set_at. destruct (Nat.eqb_spec j g) as [->|]; [intros _; exact SG|apply Sup]. }
  clear R. destruct U2 as [U2 U2'].
  assert (B2' : base E (set_at (cgrid fl (w_spaces w)) g (Some (S (uses ps_grid g (w_spaces w) + fl g))))
      (set_at (cfamily (w_spaces w)) f (Some (S (uses ps_family f (w_spaces w))))) (w_spaces w) w2).
  { apply (base_ext _ _ _ _ _ _ _ B2); [reflexivity|]. intros j. unfold set_at. destruct (j =? f); [|reflexivity].
    unfold cfamily. now rewrite opt_default. }
  clear B2. pose proof (set_at_same _ (cgrid fl (w_spaces w)) g (Some (S (uses ps_grid g (w_spaces w) + fl g)))) as Cg.
  pose proof (set_at_same _ (cfamily (w_spaces w)) f (Some (S (uses ps_family f (w_spaces w))))) as Cf.
  destruct (grid_handle _ _ _ _ _ _ _ B2' Cg) as (ag & Rg & Hg & Lg).
  destruct (family_handle _ _ _ _ _ _ _ B2' Cf) as (af & Rf & Hf & Lf).
  unfold py_bind at 1. rewrite Rg. unfold py_bind at 1. rewrite Rf.
  unfold py_bind at 1. unfold lib_function_space. unfold py_bind at 1. unfold deref at 1. fold (lookup w2 ag). rewrite Lg. cbn [is_grid].
  unfold py_bind at 1. unfold deref at 1. fold (lookup w2 af). rewrite Lf. cbn [is_family].
  destruct (compatible E g f) eqn:Co; [|apply creation_abort; exact Co].
  assert (NI : ~ In (w_made w) (map fst (w_spaces w))) by (intros I; apply M in I; lia).
  destruct (allocate_space _ _ _ _ _ (w_made w) g f ag af B2' NI Hg Hf) as (a & w3 & A & B3 & U3 & U3').
  rewrite A. unfold new_space.
  replace (w_made w3) with (w_made w) by congruence. replace (w_spaces w3) with (w_spaces w) by congruence.
  apply (creation_done _ _ _ _ _ a); cbn [w_made w_spaces]; [|reflexivity|reflexivity].
  constructor; cbn [w_made w_spaces].
  - apply (base_spaces _ _ _ _ w3); try reflexivity.
    apply (base_ext _ _ _ _ _ _ _ B3); apply set_at_ext.
    + intros j N. unfold cgrid. rewrite uses_cons. cbn [ps_grid]. apply not_eq_sym, Nat.eqb_neq in N. now rewrite N.
    + unfold cgrid. rewrite uses_cons. cbn [ps_grid]. rewrite Nat.eqb_refl. apply opt_S.
    + intros j N. unfold cfamily. rewrite uses_cons. cbn [ps_family]. apply not_eq_sym, Nat.eqb_neq in N. now rewrite N.
    + unfold cfamily. rewrite uses_cons. cbn [ps_family]. rewrite Nat.eqb_refl. apply opt_S.
  - cbn [map fst]. intros s [<-|I]; [lia|]. apply M in I. lia.
  - intros j. rewrite uses_cons. cbn [ps_grid]. destruct (Nat.eqb_spec g j) as [<-|]; [intros _; exact SG|apply Sup].
Qed.

(** [__del__], in two halves. *)
Lemma family_release : forall E cg cf sp w f n, base E cg cf sp w -> cf f = Some (S n) -> (n = 0 -> forall s p, In (s, p) sp -> ps_family p <> f) ->
  exists w', (forall A (k : py A), (m <== read_refcount (PyFamily f) ;; write_refcount (PyFamily f) (m - 1) ;; m <== read_refcount (PyFamily f) ;;
      (if (m =? 0)%Z then fh <== read_handle (PyFamily f) ;; free is_family fh ;; del_handle (PyFamily f) ;; del_refcount (PyFamily f) else py_return tt) ;; k) w = k w') /\
   base E cg (set_at cf f (opt n)) sp w' /\ unchanged_spaces w w'.
Proof.
  intros E cg cf sp w f n B C NU. destruct (family_set_refcount _ _ _ _ _ f (S n) n B C) as (w1 & W1 & B1 & U1).
  pose proof (set_at_same _ cf f (Some n)) as C1. destruct (Nat.eq_dec n 0) as [->|NZ].
  - destruct (free_family _ _ _ _ _ _ _ B1 C1 (NU eq_refl)) as (w2 & W2 & B2 & U2). exists w2. split.
    + intros A k. unfold py_bind at 1. rewrite (family_refcount _ _ _ _ _ _ _ B C). unfold py_bind at 1.
      change (Z.of_nat 1 - 1)%Z with (Z.of_nat 0). rewrite W1. unfold py_bind at 1. rewrite (family_refcount _ _ _ _ _ _ _ B1 C1).
      change (Z.of_nat 0 =? 0)%Z with true. cbv iota. unfold py_bind at 1. now rewrite W2.
    + split; [|destruct U1, U2; split; congruence]. apply (base_ext _ _ _ _ _ _ _ B2); [reflexivity|].
      intros j. unfold set_at. destruct (j =? f); reflexivity.
  - exists w1. split.
    + intros A k. unfold py_bind at 1. rewrite (family_refcount _ _ _ _ _ _ _ B C). unfold py_bind at 1.
      replace (Z.of_nat (S n) - 1)%Z with (Z.of_nat n) by lia. rewrite W1. unfold py_bind at 1. rewrite (family_refcount _ _ _ _ _ _ _ B1 C1).
      destruct (Z.eqb_spec (Z.of_nat n) 0) as [Z0|_]; [lia|]. reflexivity.
    + split; [|assumption]. apply (base_ext _ _ _ _ _ _ _ B1); [reflexivity|].
      intros j. unfold set_at. destruct (j =? f); [|reflexivity]. destruct n; [contradiction|reflexivity].
Qed.

Lemma grid_release : forall E cg cf sp w g n, base E cg cf sp w -> cg g = Some (S n) -> (n = 0 -> forall s p, In (s, p) sp -> ps_grid p <> g) ->
  exists w', (m <== read_refcount (PyGrid g) ;; write_refcount (PyGrid g) (m - 1) ;; m <== read_refcount (PyGrid g) ;;
      (if (m =? 0)%Z then gh <== read_handle (PyGrid g) ;; free is_grid gh ;; del_handle (PyGrid g) else py_return tt)) w = Return tt w' /\
   base E (set_at cg g (opt n)) cf sp w' /\ unchanged_spaces w w'.
Proof.
  intros E cg cf sp w g n B C NU. destruct (grid_set_refcount _ _ _ _ _ g (S n) n B C) as (w1 & W1 & B1 & U1).
  pose proof (set_at_same _ cg g (Some n)) as C1. destruct (Nat.eq_dec n 0) as [->|NZ].
  - destruct (free_grid _ _ _ _ _ _ _ B1 C1 (NU eq_refl)) as (w2 & W2 & B2 & U2). exists w2. split.
    + unfold py_bind at 1. rewrite (grid_refcount _ _ _ _ _ _ _ B C). unfold py_bind at 1.
      change (Z.of_nat 1 - 1)%Z with (Z.of_nat 0). rewrite W1. unfold py_bind at 1. rewrite (grid_refcount _ _ _ _ _ _ _ B1 C1).
      change (Z.of_nat 0 =? 0)%Z with true. cbv iota. exact W2.
    + split; [|destruct U1, U2; split; congruence]. apply (base_ext _ _ _ _ _ _ _ B2); [|reflexivity].
      intros j. unfold set_at. destruct (j =? g); reflexivity.
  - exists w1. split.
    + unfold py_bind at 1. rewrite (grid_refcount _ _ _ _ _ _ _ B C). unfold py_bind at 1.
      replace (Z.of_nat (S n) - 1)%Z with (Z.of_nat n) by lia. rewrite W1. unfold py_bind at 1. rewrite (grid_refcount _ _ _ _ _ _ _ B1 C1).
      destruct (Z.eqb_spec (Z.of_nat n) 0) as [Z0|_]; [lia|]. reflexivity.
    + split; [|assumption]. apply (base_ext _ _ _ _ _ _ _ B1); [|reflexivity].
      intros j. unfold set_at. destruct (j =? g); [|reflexivity]. destruct n; [contradiction|reflexivity].
Qed.

Lemma delete_space_spec : forall E fl w s p, sound E fl w -> In (s, p) (w_spaces w) ->
  exists w', delete_space s w = Return tt w' /\ sound E fl w' /\ w_made w' = w_made w /\ w_spaces w' = without s (w_spaces w).
Proof.
  intros E fl w s p [B M Sup] I. pose proof (b_ids _ _ _ _ _ B) as N.
  unfold delete_space. rewrite (in_assoc_nat _ _ _ _ N I). destruct (b_spaces _ _ _ _ _ B _ _ I) as (O & _). rewrite O.
  assert (Ug : forall x, uses ps_grid x (w_spaces w) = (if ps_grid p =? x then 1 else 0) + uses ps_grid x (without s (w_spaces w))) by (intros; apply uses_without; assumption).
  assert (Uf : forall x, uses ps_family x (w_spaces w) = (if ps_family p =? x then 1 else 0) + uses ps_family x (without s (w_spaces w))) by (intros; apply uses_without; assumption).
  destruct (free_space _ _ _ _ _ _ _ B I) as (w1 & F & B1 & U1 & U1').
  set (sp := without s (w_spaces w)) in *.
  assert (Cf : cfamily (w_spaces w) (ps_family p) = Some (S (uses ps_family (ps_family p) sp))).
  { unfold cfamily. rewrite Uf, Nat.eqb_refl. apply opt_S. }
  destruct (family_release _ _ _ _ _ _ _ B1 Cf ltac:(intros Z; apply uses_none; exact Z)) as (w2 & R2 & B2 & U2 & U2').
  assert (Cg : cgrid fl (w_spaces w) (ps_grid p) = Some (S (uses ps_grid (ps_grid p) sp + fl (ps_grid p)))).
  { unfold cgrid. rewrite Ug, Nat.eqb_refl. apply opt_S. }
  destruct (grid_release _ _ _ _ _ _ _ B2 Cg ltac:(intros Z; apply uses_none; lia)) as (w3 & R3 & B3 & U3 & U3').
  eexists. split; [|split].
  - unfold py_bind at 1. unfold py_bind at 1. rewrite F. rewrite R2. rewrite R3. reflexivity.
  - constructor; cbn [w_made w_spaces]; replace (w_spaces w3) with (w_spaces w) by congruence; try replace (w_made w3) with (w_made w) by congruence; fold (without s (w_spaces w)); fold sp.
    + apply (base_spaces _ _ _ _ w3); try reflexivity. apply (base_ext _ _ _ _ _ _ _ B3); apply set_at_ext.
      * intros j NE. unfold cgrid. rewrite Ug. apply not_eq_sym, Nat.eqb_neq in NE. now rewrite NE.
      * reflexivity.
      * intros j NE. unfold cfamily. rewrite Uf. apply not_eq_sym, Nat.eqb_neq in NE. now rewrite NE.
      * reflexivity.
    + intros x Ix. apply M. apply in_map_iff in Ix. destruct Ix as ((x', q) & <- & Ix). apply in_without in Ix. apply in_map_iff. exists (x', q). tauto.
    + intros x Hx. apply Sup. rewrite Ug. lia.
  - cbn [w_made w_spaces]. replace (w_spaces w3) with (w_spaces w) by congruence. split; [congruence|reflexivity].
Qed.

Lemma sound_initial : forall E, sound E (fun _ => 0) initial_world.
Proof.
  intros E. constructor; cbn.
  - constructor; unfold lookup; cbn; try (intros; discriminate); try (intros; contradiction).
    + intros g. unfold cgrid. cbn. reflexivity.
    + intros f. unfold cfamily. cbn. reflexivity.
    + constructor.
  - intros s [].
  - intros g H. lia.
Qed.

Lemma survivors_snoc : forall h e, fold_left survivors_step (h ++ [e]) (0, []) = survivors_step (fold_left survivors_step h (0, [])) e.
Proof. intros. now rewrite fold_left_app. Qed.

Definition view (x : nat * py_space) : nat * (nat * nat) := (fst x, (ps_grid (snd x), ps_family (snd x))).

Lemma view_without : forall s sp, map view (without s sp) = filter (fun x => negb (fst x =? s)) (map view sp).
Proof.
  induction sp as [|[x p] sp IH]; [reflexivity|]. unfold without in *. cbn [map filter fst view].
  destruct (x =? s); cbn [negb]; [exact IH|]. cbn [map]. now f_equal.
Qed.

Lemma history_sound : forall E h w, history E h w ->
  fold_left survivors_step h (0, []) = (w_made w, map view (w_spaces w)) /\
  exists fl, sound E fl w /\ forall g, 0 < fl g -> exists f, In (Failed g f) h /\ grid_supported E g = true.
Proof.
  induction 1 as [|h w g f s w' H IH C|h w g f w' H IH C|h w s w' H IH I D].
  - split; [reflexivity|]. exists (fun _ => 0). split; [apply sound_initial|intros; lia].
  - destruct IH as (V & fl & So & Fl). rewrite survivors_snoc, V.
    pose proof (function_space_spec E fl w g f So) as K. rewrite C in K. inversion K as [a w1 So' M1 S1| | |]; subst.
    cbn [survivors_step fst snd]. rewrite M1, S1. split; [reflexivity|]. exists fl. split; [assumption|].
    intros g' P. destruct (Fl g' P) as (f' & ? & ?). exists f'. split; [apply in_or_app; now left|assumption].
  - destruct IH as (V & fl & So & Fl). rewrite survivors_snoc, V. cbn [survivors_step fst snd].
    assert (Fl' : forall g', 0 < fl g' -> exists f', In (Failed g' f') (h ++ [Failed g f]) /\ grid_supported E g' = true).
    { intros g' P. destruct (Fl g' P) as (f' & ? & ?). exists f'. split; [apply in_or_app; now left|assumption]. }
    pose proof (function_space_spec E fl w g f So) as K. rewrite C in K. inversion K as [| Us | w1 Su1 Su2 So' Un | ]; subst.
    + split; [reflexivity|]. exists fl. split; assumption.
    + destruct Un as [U1 U2]. rewrite U1, U2. split; [reflexivity|]. exists (set_at fl g (S (fl g))). split; [assumption|].
      intros g'. unfold set_at. destruct (Nat.eqb_spec g' g) as [->|]; [|apply Fl'].
      intros _. exists f. split; [apply in_or_app; right; now left|assumption].
  - destruct IH as (V & fl & So & Fl). rewrite survivors_snoc, V. cbn [survivors_step fst snd].
    apply in_map_iff in I. destruct I as ((s', p) & <- & I). cbn [fst] in *.
    destruct (delete_space_spec E fl w s' p So I) as (w1 & D1 & So' & M1 & S1).
    assert (w' = w1) as -> by congruence. rewrite M1, S1, view_without. split; [reflexivity|]. exists fl. split; [assumption|].
    intros g P. destruct (Fl g P) as (f & ? & ?). exists f. split; [apply in_or_app; now left|assumption].
Qed.

(** ** What the properties need *)

Lemma live_spaces : forall E h w, history E h w -> map (fun x => (fst x, (ps_grid (snd x), ps_family (snd x)))) (w_spaces w) = survivors h.
Proof. intros E h w H. destruct (history_sound E h w H) as (V & _). unfold survivors. now rewrite V. Qed.

Lemma use_in_base : forall E cg cf sp w s p, base E cg cf sp w -> NoDup (map fst (w_spaces w)) -> sp = w_spaces w -> In (s, p) (w_spaces w) ->
  exists ag, at_handle (w_grid w (ps_grid p)) = Some ag /\
    use_space s w = Return (ag, NGrid (ps_grid p), NFamily (lagrange_info E (ps_family p))) w.
Proof.
  intros E cg cf sp w s p B N -> I. destruct (b_spaces _ _ _ _ _ B _ _ I) as (_ & ag & af & L & Hg & Hf).
  exists ag. split; [assumption|]. unfold use_space. rewrite (in_assoc_nat _ _ _ _ N I).
  unfold py_bind at 1. unfold deref at 1. fold (lookup w (ps_handle p)). rewrite L. cbn [is_space].
  pose proof (b_grid _ _ _ _ _ B (ps_grid p)) as G. destruct (cg (ps_grid p)); [|congruence]. destruct G as (a & G1 & _ & G2).
  pose proof (b_family _ _ _ _ _ B (ps_family p)) as G'. destruct (cf (ps_family p)); [|congruence]. destruct G' as (a' & G1' & _ & G2').
  assert (a = ag) as -> by congruence. assert (a' = af) as -> by congruence.
  unfold py_bind at 1. unfold deref at 1. fold (lookup w ag). rewrite G2. cbn [is_grid].
  unfold py_bind at 1. unfold deref at 1. fold (lookup w af). rewrite G2'. cbn [is_family]. reflexivity.
Qed.

Lemma use_live : forall E h w s p, history E h w -> In (s, p) (w_spaces w) ->
  exists ag, at_handle (w_grid w (ps_grid p)) = Some ag /\
    use_space s w = Return (ag, NGrid (ps_grid p), NFamily (lagrange_info E (ps_family p))) w.
Proof.
  intros E h w s p H I. destruct (history_sound E h w H) as (_ & fl & [B M Sup] & _).
  exact (use_in_base _ _ _ _ _ _ _ B (b_ids _ _ _ _ _ B) eq_refl I).
Qed.

Theorem spaces_safe : forall E h w, history E h w ->
  (forall s p, In (s, p) (w_spaces w) -> exists a i, use_space s w = Return (a, NGrid (ps_grid p), NFamily i) w) /\
  (forall s, In s (map fst (w_spaces w)) -> exists w', delete_space s w = Return tt w') /\
  (forall g f, function_space E g f w <> Undefined).
Proof.
  intros E h w H. split; [|split].
  - intros s p I. destruct (use_live E h w s p H I) as (a & _ & U). eauto.
  - intros s I. destruct (history_sound E h w H) as (_ & fl & So & _). apply in_map_iff in I. destruct I as ((s', p) & <- & I).
    destruct (delete_space_spec E fl w s' p So I) as (w' & D & _). exists w'. exact D.
  - intros g f C. destruct (history_sound E h w H) as (_ & fl & So & _). pose proof (function_space_spec E fl w g f So) as K.
    rewrite C in K. inversion K.
Qed.

Theorem creation_succeeds : forall E h w g f, history E h w -> grid_supported E g = true -> family_supported E f = true -> compatible E g f = true ->
  exists s w', function_space E g f w = Return s w'.
Proof.
  intros E h w g f H Hg Hf Hc. destruct (history_sound E h w H) as (_ & fl & So & _). pose proof (function_space_spec E fl w g f So) as K.
  destruct (function_space E g f w) as [s w'| | |]; [eauto| | |]; inversion K; congruence.
Qed.

Theorem grids_shared : forall E h w s p s' p', history E h w -> In (s, p) (w_spaces w) -> In (s', p') (w_spaces w) ->
  exists a a' n m n' m', use_space s w = Return (a, n, m) w /\ use_space s' w = Return (a', n', m') w /\ (a = a' <-> ps_grid p = ps_grid p').
Proof.
  intros E h w s p s' p' H I I'. destruct (use_live E h w s p H I) as (a & Ha & U). destruct (use_live E h w s' p' H I') as (a' & Ha' & U').
  exists a, a'. do 4 eexists. split; [exact U|]. split; [exact U'|].
  destruct (history_sound E h w H) as (_ & fl & [B M Sup] & _). split; intros e.
  - rewrite e in Ha. exact (grid_apart _ _ _ _ _ _ _ _ B Ha Ha').
  - rewrite e in Ha. congruence.
Qed.

Theorem nothing_leaks : forall E h w, history E h w -> (forall g f, In (Failed g f) h -> grid_supported E g = false) ->
  forall x, In x (w_heap w) -> in_use w (fst x).
Proof.
  intros E h w H NF (a, n) I. destruct (history_sound E h w H) as (_ & fl & [B M Sup] & Fl). cbn [fst].
  assert (Z : forall g, fl g = 0).
  { intros g. destruct (fl g) eqn:F; [reflexivity|]. destruct (Fl g ltac:(lia)) as (f & J & K). specialize (NF g f J). congruence. }
  destruct (assoc_defined_nat _ a (w_heap w)) as (n' & L); [apply in_map_iff; exists (a, n); auto|].
  destruct (b_cover _ _ _ _ _ B a n' L) as [(g & Hg)|[(f & Hf)|(s & p & J & e)]].
  - pose proof (b_grid _ _ _ _ _ B g) as G. unfold cgrid in G. destruct (opt (uses ps_grid g (w_spaces w) + fl g)) eqn:O; [|congruence].
    apply opt_some in O. destruct (uses_some ps_grid g (w_spaces w)) as (s & p & J & <-); [rewrite Z in O; lia|].
    exists s, p. split; [assumption|]. right. left. assumption.
  - pose proof (b_family _ _ _ _ _ B f) as G. unfold cfamily in G. destruct (opt (uses ps_family f (w_spaces w))) eqn:O; [|congruence].
    apply opt_some in O. destruct (uses_some ps_family f (w_spaces w)) as (s & p & J & <-); [lia|].
    exists s, p. split; [assumption|]. right. right. assumption.
  - exists s, p. split; [assumption|]. left. assumption.
Qed.

Theorem nothing_left : forall E h w, history E h w -> (forall g f, In (Failed g f) h -> grid_supported E g = false) -> survivors h = [] ->
  w_heap w = [].
Proof.
  intros E h w H NF SV. rewrite <- (live_spaces E h w H) in SV. destruct (w_heap w) as [|x l] eqn:HW; [reflexivity|].
  exfalso. destruct (nothing_leaks E h w H NF x) as (s & p & I & _); [rewrite HW; now left|].
  destruct (w_spaces w); [contradiction|discriminate].
Qed.

Theorem family_used : forall E h w s p, history E h w -> In (s, p) (w_spaces w) ->
  exists a n, use_space s w = Return (a, n, NFamily (mkFamilyInfo LagrangeFamily (fi_degree (family_of E (ps_family p))) (fi_continuous (family_of E (ps_family p))))) w.
Proof. intros E h w s p H I. destruct (use_live E h w s p H I) as (a & _ & U). eauto. Qed.

Theorem lagrange_family_used : forall E h w s p, history E h w -> In (s, p) (w_spaces w) -> fi_kind (family_of E (ps_family p)) = LagrangeFamily ->
  exists a n, use_space s w = Return (a, n, NFamily (family_of E (ps_family p))) w.
Proof.
  intros E h w s p H I K. destruct (family_used E h w s p H I) as (a & n & U). exists a, n. rewrite U. rewrite <- K.
  destruct (family_of E (ps_family p)); reflexivity.
Qed.

(** ** Counterexamples *)

Definition leaking_outside : outside :=
  mkOutside (fun _ => true) (fun _ => mkFamilyInfo LagrangeFamily 1 true) (fun f => f =? 0) (fun _ _ => true).

Lemma leak : exists E h w, history E h w /\ survivors h = [] /\ w_spaces w = [] /\ w_heap w <> [].
Proof.
  exists leaking_outside, [Created 0 0; Failed 0 1; Deleted 0]. eexists. split.
  - change [Created 0 0; Failed 0 1; Deleted 0] with ((([] ++ [Created 0 0]) ++ [Failed 0 1]) ++ [Deleted 0]).
    eapply history_deleted; [eapply history_failed; [eapply history_created; [apply history_start|vm_compute; reflexivity]|vm_compute; reflexivity]| |vm_compute; reflexivity].
    vm_compute. left. reflexivity.
  - split; [reflexivity|]. split; [reflexivity|]. cbn. discriminate.
Qed.

Definition rt_outside : outside :=
  mkOutside (fun _ => true) (fun _ => mkFamilyInfo RaviartThomasFamily 1 true) (fun _ => true) (fun _ _ => true).

Lemma wrong_family : exists E h w s p a n m, history E h w /\ In (s, p) (w_spaces w) /\ use_space s w = Return (a, n, m) w /\
  m <> NFamily (family_of E (ps_family p)).
Proof.
  exists rt_outside, ([] ++ [Created 0 0]). eexists. exists 0. do 4 eexists. split; [|split; [|split]].
  - eapply history_created; [apply history_start|vm_compute; reflexivity].
  - cbn. left. reflexivity.
  - vm_compute. reflexivity.
  - cbn. discriminate.
Qed.

(** ** Copies *)

Lemma copy_out_spec : forall (A : Type) (l : list A) (done : list A),
  foldM (fun b ix => poke b (fst ix) (snd ix)) (combine (seq (length done) (length l)) l) (map Some done ++ repeat None (length l)) = Ok (map Some (done ++ l)).
Proof.
  induction l as [|x l IH]; intros done; cbn [length seq combine foldM repeat].
  - now rewrite !app_nil_r.
  - cbn [bind fst snd]. unfold poke at 1. rewrite app_length, map_length. cbn [length].
    destruct (Nat.ltb_spec (length done) (length done + S (length (repeat (@None A) (length l))))) as [_|]; [|lia].
    cbn [bind]. assert (SN : set_nth (map Some done ++ None :: repeat None (length l)) (length done) (Some x) = map Some (done ++ [x]) ++ repeat None (length l)).
    { clear. induction done as [|y done IH]; cbn; [reflexivity|]. now rewrite IH. }
    rewrite SN. replace (S (length done)) with (length (done ++ [x])) by (rewrite app_length; cbn; lia).
    rewrite IH, <- app_assoc. reflexivity.
Qed.

Lemma py_copy_id : forall (A : Type) (l : list A), py_copy l = Ok l.
Proof.
  intros A l. unfold py_copy, copy_out, enumerate. pose proof (copy_out_spec A l []) as H. cbn [length map app] in H. rewrite H. cbn [bind].
  unfold read_buffer. induction l as [|x l IH]; cbn; [reflexivity|].
  assert (H' : mapM (fun o : option A => match o with Some x => Ok x | None => UB end) (map Some l) = Ok l) by (apply IH; apply (copy_out_spec A l [])).
  now rewrite H'.
Qed.

Lemma py_cell_dofs_id : forall d, py_cell_dofs d = Ok d.
Proof. intros [l|]; cbn; [|reflexivity]. now rewrite py_copy_id. Qed.

(** What is reported. *)
Lemma missing_reports o w :
  (at_handle (attributes_of w o) = None -> read_handle o w = Raise w) /\ (at_refcount (attributes_of w o) = None -> read_refcount o w = Raise w).
Proof. unfold read_handle, read_refcount, get_attributes, py_bind. split; intros ->; reflexivity. Qed.

Lemma deref_reports kind h w : deref kind h w = Undefined <-> forall n, lookup w h = Some n -> kind n = false.
Proof.
  unfold deref. fold (lookup w h). destruct (lookup w h) as [n|]; [destruct (kind n) eqn:K|]; split; intros H; try discriminate H; auto.
  - specialize (H n eq_refl). congruence.
  - intros m E. injection E as <-. exact K.
  - intros m E. discriminate E.
Qed.

Lemma free_reports kind h w : free kind h w = Undefined <-> forall n, lookup w h = Some n -> kind n = false.
Proof.
  unfold free. fold (lookup w h). destruct (lookup w h) as [n|]; [destruct (kind n) eqn:K|]; split; intros H; try discriminate H; auto.
  - specialize (H n eq_refl). congruence.
  - intros m E. injection E as <-. exact K.
  - intros m E. discriminate E.
Qed.

Lemma kinds_apart n :
  (is_grid n = true <-> exists g, n = NGrid g) /\ (is_family n = true <-> exists i, n = NFamily i) /\
  (is_space n = true <-> exists g f, n = NSpace g f).
Proof.
  destruct n as [g|i|g f]; cbn; (split; [|split]); split; intros H; try discriminate H; eauto;
    repeat match goal with E : exists _, _ |- _ => destruct E as (? & E) end; first [discriminate H | reflexivity].
Qed.
