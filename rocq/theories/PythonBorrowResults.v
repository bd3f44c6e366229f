(** * The memory behind native grids: proofs *)
From Verif Require Import Base BaseFacts Topology TopologyFacts Options Python SpecPython PythonFacts PythonResults PythonBorrow SpecPythonBorrow.
From Coq Require Import ZArith.

(** ** Which steps make native grids *)

Definition keeps_grids {A : Type} (m : py A) : Prop := forall w,
  match m w with
  | Return _ w' | Raise w' => forall a g, lookup w' a = Some (NGrid g) -> lookup w a = Some (NGrid g)
  | Abort | Undefined => True
  end.

Lemma keeps_bind {A B} (m : py A) (k : A -> py B) : keeps_grids m -> (forall a, keeps_grids (k a)) -> keeps_grids (py_bind m k).
Proof.
  intros Hm Hk w. unfold py_bind. specialize (Hm w). destruct (m w) as [a w1|w1| |]; [|exact Hm|exact I|exact I].
  specialize (Hk a w1). destruct (k a w1) as [b w2|w2| |]; auto.
Qed.
Lemma keeps_return {A} (a : A) : keeps_grids (py_return a).
Proof. intros w. cbn. auto. Qed.
Lemma keeps_raise {A} : keeps_grids (@py_raise A).
Proof. intros w. cbn. auto. Qed.
Lemma keeps_get o : keeps_grids (get_attributes o).
Proof. intros w. cbn. auto. Qed.
Lemma keeps_set o a : keeps_grids (set_attributes o a).
Proof. intros w. unfold set_attributes. destruct o; cbn; auto. Qed.
Lemma keeps_allocate n : is_grid n = false -> keeps_grids (allocate n).
Proof.
  intros N w. unfold allocate, lookup. cbn [w_heap]. intros a g Hl. rewrite assoc_app_nat in Hl.
  destruct (assoc Nat.eqb a (w_heap w)); [exact Hl|]. cbn in Hl. destruct (a =? w_next w); [|discriminate].
  injection Hl as ->. discriminate N.
Qed.
Lemma keeps_free kind h : keeps_grids (free kind h).
Proof.
  intros w. unfold free. destruct (assoc Nat.eqb h (w_heap w)); [|exact I]. destruct (kind n); [|exact I].
  unfold lookup. cbn [w_heap]. intros a g Hl. rewrite assoc_filter_nat in Hl. destruct (a =? h); [discriminate|exact Hl].
Qed.
Lemma keeps_deref kind h : keeps_grids (deref kind h).
Proof. intros w. unfold deref. destruct (assoc Nat.eqb h (w_heap w)); [|exact I]. destruct (kind n); cbn; auto. Qed.
Lemma keeps_new_space g f h : keeps_grids (new_space g f h).
Proof. intros w. unfold new_space, lookup. cbn. auto. Qed.
Lemma keeps_forget s : keeps_grids (forget s).
Proof. intros w. unfold forget, lookup. cbn. auto. Qed.
Lemma keeps_abort {A} : keeps_grids (fun _ : world => @Abort A).
Proof. intros w. exact I. Qed.

Create HintDb keeps.
#[local] Hint Resolve keeps_return keeps_raise keeps_get keeps_set keeps_free keeps_deref keeps_new_space keeps_forget keeps_abort : keeps.

Lemma keeps_read_handle o : keeps_grids (read_handle o).
Proof. unfold read_handle. apply keeps_bind; [auto with keeps|]. intros a. destruct (at_handle a); auto with keeps. Qed.
Lemma keeps_read_refcount o : keeps_grids (read_refcount o).
Proof. unfold read_refcount. apply keeps_bind; [auto with keeps|]. intros a. destruct (at_refcount a); auto with keeps. Qed.
Lemma keeps_write_handle o h : keeps_grids (write_handle o h).
Proof. unfold write_handle. apply keeps_bind; auto with keeps. Qed.
Lemma keeps_write_refcount o h : keeps_grids (write_refcount o h).
Proof. unfold write_refcount. apply keeps_bind; auto with keeps. Qed.
Lemma keeps_del_handle o : keeps_grids (del_handle o).
Proof. unfold del_handle. apply keeps_bind; auto with keeps. Qed.
Lemma keeps_del_refcount o : keeps_grids (del_refcount o).
Proof. unfold del_refcount. apply keeps_bind; auto with keeps. Qed.
#[local] Hint Resolve keeps_read_handle keeps_read_refcount keeps_write_handle keeps_write_refcount keeps_del_handle keeps_del_refcount : keeps.

Lemma keeps_ensure o m : keeps_grids m -> keeps_grids (ensure o m).
Proof.
  intros Hm. unfold ensure. apply keeps_bind; [auto with keeps|]. intros a. destruct (at_handle a); [auto with keeps|].
  apply keeps_bind; [exact Hm|]. intros h. apply keeps_bind; auto with keeps.
Qed.
Lemma keeps_family E f : keeps_grids (recreate_element_family E f).
Proof. unfold recreate_element_family. destruct (family_supported E f); [now apply keeps_allocate|auto with keeps]. Qed.
Lemma keeps_lib_space E g f gh fh : keeps_grids (lib_function_space E g f gh fh).
Proof.
  unfold lib_function_space. repeat (apply keeps_bind; [solve [auto with keeps]|intros ?]).
  destruct (compatible E g f); [now apply keeps_allocate|auto with keeps].
Qed.

Lemma keeps_delete s : keeps_grids (delete_space s).
Proof.
  intros w. unfold delete_space. destruct (assoc Nat.eqb s (w_spaces w)) as [p|]; [|cbn; auto].
  match goal with |- match ?m w with _ => _ end => assert (K : keeps_grids m); [|exact (K w)] end.
  apply keeps_bind; [|auto with keeps]. destruct (ps_owned p); [|auto with keeps].
  repeat (apply keeps_bind; [solve [auto with keeps]|intros ?]). apply keeps_bind.
  { destruct (_ =? _)%Z; [|auto with keeps]. repeat (apply keeps_bind; [solve [auto with keeps]|intros ?]). auto with keeps. }
  intros _. repeat (apply keeps_bind; [solve [auto with keeps]|intros ?]).
  destruct (_ =? _)%Z; [|auto with keeps]. repeat (apply keeps_bind; [solve [auto with keeps]|intros ?]). auto with keeps.
Qed.

Lemma function_space_grids E g f w :
  match function_space E g f w with
  | Return _ w' | Raise w' => forall a g', lookup w' a = Some (NGrid g') -> lookup w a = Some (NGrid g') \/
      (a = w_next w /\ g' = g /\ at_handle (w_grid w g) = None /\ grid_supported E g = true)
  | Abort | Undefined => True
  end.
Proof.
  unfold function_space. unfold py_bind at 1.
  assert (K : forall x : unit, keeps_grids ((fun _ : unit => n <== read_refcount (PyGrid g);; write_refcount (PyGrid g) (n + 1);;
      ensure (PyFamily f) (recreate_element_family E f);; m <== read_refcount (PyFamily f);; write_refcount (PyFamily f) (m + 1);;
      gh <== read_handle (PyGrid g);; fh <== read_handle (PyFamily f);; h <== lib_function_space E g f gh fh;; new_space g f h) x)).
  { intros _. repeat (apply keeps_bind; [solve [auto using keeps_ensure, keeps_family, keeps_lib_space with keeps]|intros ?]). auto with keeps. }
  assert (Hens : match ensure (PyGrid g) (recreate_grid E g) w with
    | Return _ w' | Raise w' => forall a g', lookup w' a = Some (NGrid g') -> lookup w a = Some (NGrid g') \/
      (a = w_next w /\ g' = g /\ at_handle (w_grid w g) = None /\ grid_supported E g = true)
    | Abort | Undefined => True end).
  { unfold ensure. unfold py_bind at 1. unfold get_attributes at 1. cbn [attributes_of]. destruct (at_handle (w_grid w g)) eqn:Eh; [cbn; auto|].
    unfold recreate_grid. destruct (grid_supported E g) eqn:Es; [|cbn; auto].
    unfold py_bind at 1, allocate. match goal with |- match ?m ?v with _ => _ end => set (v' := v); assert (Km : keeps_grids m) end.
    { apply keeps_bind; auto with keeps. }
    specialize (Km v'). match goal with |- match ?x with _ => _ end => destruct x as [u w1|w1| |] end; auto.
    all: intros a g' Hl; apply Km in Hl; unfold v', lookup in Hl; cbn [w_heap] in Hl; rewrite assoc_app_nat in Hl; unfold lookup;
      destruct (assoc Nat.eqb a (w_heap w)); [now left|]; cbn in Hl; destruct (Nat.eqb_spec a (w_next w)); [|discriminate];
      injection Hl as ->; right; auto. }
  destruct (ensure (PyGrid g) (recreate_grid E g) w) as [u w1|w1| |]; [|exact Hens|exact I|exact I].
  specialize (K u w1). cbv beta in K. match goal with |- match ?x with _ => _ end => destruct x as [b w2|w2| |] end; auto.
Qed.

(** ** Dictionaries *)

Lemma dictionary_at {A} (key value : A -> nat) names x : (forall y z, key y = key z -> y = z) -> In x names ->
  assoc Nat.eqb (key x) (dictionary key value names) = Some (value x).
Proof.
  intros Inj I. unfold dictionary. assert (Ix : In (key x, value x) (rev (map (fun x => (key x, value x)) names))).
  { rewrite <- in_rev. apply in_map_iff. eauto. }
  assert (All : forall k v, In (k, v) (rev (map (fun x => (key x, value x)) names)) -> k = key x -> v = value x).
  { intros k v Hi ->. rewrite <- in_rev in Hi. apply in_map_iff in Hi. destruct Hi as (y & Ey & _). injection Ey as Ek Ev.
    apply Inj in Ek. now subst. }
  revert Ix All. generalize (rev (map (fun x => (key x, value x)) names)). induction l as [|[k v] l IH]; intros Ix All; [destruct Ix|].
  cbn. destruct (Nat.eqb_spec (key x) k) as [E|N].
  - f_equal. apply (All k v); [now left|auto].
  - apply IH; [|intros; apply (All k0 v0); [now right|assumption]]. destruct Ix as [Ix|Ix]; [|exact Ix]. injection Ix as ? ?. congruence.
Qed.

Lemma all_some_map {A} (l : list A) : all_some (map Some l) = Some l.
Proof. induction l as [|x l IH]; cbn; [reflexivity|]. now rewrite IH. Qed.

Lemma cell_names_all t : In t cell_names.
Proof. unfold cell_names. destruct t; cbn; tauto. Qed.
Lemma dtype_names_all d : d <> OtherDtype -> In d dtype_names.
Proof. unfold dtype_names. destruct d; cbn; tauto. Qed.

Lemma map_nth_seq {A} (l : list A) : map (fun i => nth_error l i) (seq 0 (length l)) = map Some l.
Proof.
  induction l as [|x l IH]; [reflexivity|]. cbn [length seq map]. f_equal. rewrite <- seq_shift, map_map. exact IH.
Qed.

Lemma entity_numbers_proper H types d g : proper_headers H types d ->
  entity_numbers H (hd_cdata H g) = Some (map Some (map (hd_lib_cell H) (types g))).
Proof.
  intros (I1 & B1 & I2 & P). destruct (P g) as (L & Et & _ & _). unfold entity_numbers. rewrite Et.
  replace (cd_tdim (hd_cdata H g) + 1) with (length (map (hd_grid_cell H) (types g))) by (rewrite map_length; lia).
  rewrite map_nth_seq. replace (forallb _ _) with true by (symmetry; apply forallb_forall; intros x Ix; apply in_map_iff in Ix; destruct Ix as (y & <- & _); reflexivity).
  f_equal. rewrite !map_map. apply map_ext_in. intros t _. unfold cell_dictionary.
  rewrite (dictionary_at (hd_grid_cell H) (hd_lib_cell H) cell_names t I1 (cell_names_all t)). f_equal. apply Nat.mod_small, B1.
Qed.

Lemma existsb_eqb x l : existsb (Nat.eqb x) l = true <-> In x l.
Proof.
  rewrite existsb_exists. split; [intros (y & I & E); apply Nat.eqb_eq in E; now subst|]. intros I. exists x. split; [exact I|apply Nat.eqb_refl].
Qed.

(** ** One call of [recreate_grid] *)

Lemma recreate_proper H types d g a m : proper_headers H types d -> me_containers m = [] -> me_locals m = [] -> ~ In g (me_collected m) ->
  exists m' b, recreate_memory H g a m = Recreated m' /\ me_containers m' = [] /\ me_locals m' = [] /\ me_collected m' = me_collected m /\
    me_grids m' = (a, b) :: me_grids m /\ describes H (types g) (d g) g b /\
    exists n, forall q, bo_pointer b q = given_pointer g n (hd_cdata H g) q.
Proof.
  intros P Hc Hl Hg. unfold recreate_memory. rewrite (entity_numbers_proper H types d g P), all_some_map.
  destruct P as (I1 & B1 & I2 & P). destruct (P g) as (L & Et & Nd & Ed).
  assert (D : assoc Nat.eqb (cd_dtype (hd_cdata H g)) (dtype_dictionary H) = Some (hd_lib_dtype H (d g))).
  { unfold dtype_dictionary. rewrite Ed. apply dictionary_at; [exact I2|now apply dtype_names_all]. }
  rewrite D.
  replace (forallb _ all_pointers) with true.
  - eexists. eexists. split; [reflexivity|]. cbn [me_containers me_locals me_collected me_grids]. rewrite Hc, Hl. cbn [filter].
    rewrite Nat.eqb_refl. cbn [negb]. repeat (split; [reflexivity|]). split; [|exists (me_calls m); reflexivity].
    repeat split; reflexivity.
  - symmetry. apply forallb_forall. intros q _.
    assert (G : readable (mkMemory (S (me_calls m)) (me_calls m :: me_containers m) (me_calls m :: me_locals m) (me_collected m) (me_grids m))
        (GridMemory g) = true).
    { unfold readable. cbn [me_collected]. destruct (existsb _ _) eqn:E; [|reflexivity]. apply existsb_eqb in E. contradiction. }
    unfold given_pointer. destruct q; try (destruct (cd_place (hd_cdata H g) _); [exact G|]);
      unfold readable; cbn [me_containers me_locals existsb]; now rewrite Nat.eqb_refl.
Qed.

(** ** Invariant *)

Record kept (E : outside) (H : headers) (types : nat -> list cell_type) (d : nat -> dtype) (w : world) (m : memory) : Prop := mkKept {
  ke_containers : me_containers m = [];
  ke_locals : me_locals m = [];
  ke_grids : forall a g, lookup w a = Some (NGrid g) -> exists b, assoc Nat.eqb a (me_grids m) = Some b /\ describes H (types g) (d g) g b /\
    exists n, forall q, bo_pointer b q = given_pointer g n (hd_cdata H g) q;
  ke_spaces : forall s p, In (s, p) (w_spaces w) -> ~ In (ps_grid p) (me_collected m)
}.

Lemma borrow_is_history E H h w m : borrow_history E H h w m -> history E h w.
Proof.
  induction 1; [constructor|eapply history_created; eauto|eapply history_failed; eauto|eapply history_deleted; eauto|assumption].
Qed.

Lemma history_next E h w a n : history E h w -> lookup w a = Some n -> a < w_next w.
Proof. intros Hh Hl. destruct (history_sound E h w Hh) as (_ & fl & [B _ _] & _). exact (b_next _ _ _ _ _ B _ _ Hl). Qed.

Lemma space_step E H types d h w m g w' m' : proper_headers H types d -> history E h w -> kept E H types d w m -> ~ In g (me_collected m) ->
  (forall a g', lookup w' a = Some (NGrid g') -> lookup w a = Some (NGrid g') \/
      (a = w_next w /\ g' = g /\ at_handle (w_grid w g) = None /\ grid_supported E g = true)) ->
  (forall s p, In (s, p) (w_spaces w') -> ps_grid p = g \/ In (s, p) (w_spaces w)) ->
  space_memory H E g w m = Recreated m' -> kept E H types d w' m'.
Proof.
  intros P Hh [K1 K2 K3 K4] Hg Hl Hs Hm. unfold space_memory in Hm. destruct (at_handle (w_grid w g)) as [a0|] eqn:Ea.
  { injection Hm as <-. constructor; auto.
    - intros a g' Ha. destruct (Hl a g' Ha) as [Ha'|(_ & _ & N & _)]; [auto|discriminate].
    - intros s p I. destruct (Hs s p I) as [->|I']; [exact Hg|eauto]. }
  destruct (grid_supported E g) eqn:Es.
  - destruct (recreate_proper H types d g (w_next w) m P K1 K2 Hg) as (m1 & b & R & C1 & L1 & Co & G & D & Hn). rewrite R in Hm. injection Hm as <-.
    constructor; auto; [|rewrite Co; intros s p I; destruct (Hs s p I) as [->|I']; [exact Hg|eauto]].
    intros a g' Ha. rewrite G. cbn [assoc]. destruct (Hl a g' Ha) as [Ha'|(-> & -> & _)].
    + pose proof (history_next E h w a _ Hh Ha') as Lt. destruct (Nat.eqb_spec a (w_next w)); [lia|]. auto.
    + rewrite Nat.eqb_refl. eauto.
  - injection Hm as <-. constructor; auto.
    + intros a g' Ha. destruct (Hl a g' Ha) as [Ha'|(_ & _ & _ & N)]; [auto|discriminate].
    + intros s p I. destruct (Hs s p I) as [->|I']; [exact Hg|eauto].
Qed.

Lemma borrow_kept E H types d h w m : proper_headers H types d -> borrow_history E H h w m -> kept E H types d w m.
Proof.
  intros P. induction 1 as [|h w m g f s w' m' Hh IH Hg C Hm|h w m g f w' m' Hh IH Hg C Hm|h w m s w' Hh IH Is D|h w m g Hh IH Hn].
  - constructor; try reflexivity; [intros a g Hl; discriminate Hl|intros s p []].
  - pose proof (borrow_is_history _ _ _ _ _ Hh) as Hw. pose proof (function_space_grids E g f w) as Hl. rewrite C in Hl.
    destruct (history_sound E h w Hw) as (_ & fl & So & _). pose proof (function_space_spec E fl w g f So) as Cr. rewrite C in Cr.
    inversion Cr as [a w1 _ _ Sp| | |]; subst. apply (space_step E H types d h w m g w' m' P Hw IH Hg Hl); auto.
    rewrite Sp. intros s p [E1|I]; [injection E1 as _ <-; now left|now right].
  - pose proof (borrow_is_history _ _ _ _ _ Hh) as Hw. pose proof (function_space_grids E g f w) as Hl. rewrite C in Hl.
    destruct (history_sound E h w Hw) as (_ & fl & So & _). pose proof (function_space_spec E fl w g f So) as Cr. rewrite C in Cr.
    apply (space_step E H types d h w m g w' m' P Hw IH Hg Hl); auto.
    inversion Cr as [|Eg|w1 _ _ _ U|]; subst; [now right|]. destruct U as (U & _). rewrite U. now right.
  - pose proof (borrow_is_history _ _ _ _ _ Hh) as Hw. destruct (history_sound E h w Hw) as (_ & fl & So & _).
    apply in_map_iff in Is. destruct Is as ((s' & p) & Es & Is). cbn [fst] in Es. subst s'.
    destruct (delete_space_spec E fl w s p So Is) as (w1 & D1 & _ & _ & Sp). assert (w' = w1) as -> by congruence.
    pose proof (keeps_delete s w) as Kd. rewrite D1 in Kd. destruct IH as [K1 K2 K3 K4]. constructor; auto.
    intros s1 p1 I1. rewrite Sp in I1. apply in_without in I1. apply (K4 s1 p1). tauto.
  - destruct IH as [K1 K2 K3 K4]. constructor; auto. intros s p I [Eg|I']; [|exact (K4 s p I I')].
    exact (Hn s p I (eq_sym Eg)).
Qed.

(** ** What the properties need *)

Lemma pointer_readable E H types d w m g n q : kept E H types d w m -> ~ In g (me_collected m) ->
  readable m (given_pointer g n (hd_cdata H g) q) = true <-> q <> EntityTypes /\ cd_place (hd_cdata H g) q = InGrid.
Proof.
  intros [K1 K2 _ _] Hg.
  assert (Local : forall k, readable m (LocalArray k) = false) by (intros k; unfold readable; now rewrite K2).
  assert (Cont : forall k, readable m (Container k) = false) by (intros k; unfold readable; now rewrite K1).
  assert (Grid : readable m (GridMemory g) = true).
  { unfold readable. destruct (existsb _ _) eqn:Eb; [|reflexivity]. apply existsb_eqb in Eb. contradiction. }
  unfold given_pointer. destruct q; try (destruct (cd_place (hd_cdata H g) _) eqn:Ep; rewrite ?Cont, ?Grid; intuition congruence).
Qed.

Theorem live_grid E H types d h w m s p : proper_headers H types d -> borrow_history E H h w m -> In (s, p) (w_spaces w) ->
  exists a i b, use_space s w = Return (a, NGrid (ps_grid p), NFamily i) w /\ assoc Nat.eqb a (me_grids m) = Some b /\
    describes H (types (ps_grid p)) (d (ps_grid p)) (ps_grid p) b /\
    forall q, readable m (bo_pointer b q) = true <-> q <> EntityTypes /\ cd_place (hd_cdata H (ps_grid p)) q = InGrid.
Proof.
  intros P Hh I. pose proof (borrow_is_history _ _ _ _ _ Hh) as Hw. destruct (history_sound E h w Hw) as (_ & fl & [B _ _] & _).
  destruct (use_in_base _ _ _ _ _ _ _ B (b_ids _ _ _ _ _ B) eq_refl I) as (a & Ha & U).
  pose proof (borrow_kept E H types d h w m P Hh) as K.
  assert (L : lookup w a = Some (NGrid (ps_grid p))).
  { pose proof (b_grid _ _ _ _ _ B (ps_grid p)) as G. destruct (cgrid fl (w_spaces w) (ps_grid p)); [|congruence].
    destruct G as (a' & G1 & _ & G2). assert (a' = a) as -> by congruence. exact G2. }
  destruct (ke_grids _ _ _ _ _ _ K a _ L) as (b & Eb & D & n & Hn). exists a, (lagrange_info E (ps_family p)), b.
  split; [exact U|]. split; [exact Eb|]. split; [exact D|]. intros q. rewrite Hn.
  apply (pointer_readable E H types d w m); [exact K|]. exact (ke_spaces _ _ _ _ _ _ K s p I).
Qed.

Theorem no_bad_read E H types d h w m g : proper_headers H types d -> borrow_history E H h w m -> ~ In g (me_collected m) ->
  exists m', space_memory H E g w m = Recreated m'.
Proof.
  intros P Hh Hg. destruct (borrow_kept E H types d h w m P Hh) as [K1 K2 _ _]. unfold space_memory.
  destruct (at_handle (w_grid w g)); [eauto|]. destruct (grid_supported E g); [|eauto].
  destruct (recreate_proper H types d g (w_next w) m P K1 K2 Hg) as (m' & b & R & _). eauto.
Qed.

Theorem nothing_left E H types d h w m : proper_headers H types d -> borrow_history E H h w m -> me_containers m = [] /\ me_locals m = [].
Proof. intros P Hh. destruct (borrow_kept E H types d h w m P Hh) as [K1 K2 _ _]. now split. Qed.

(** ** Numbers of types that are in no dictionary *)

Lemma assoc_dictionary_none {A : Type} (key value : A -> nat) names k : (forall x, In x names -> key x <> k) -> assoc Nat.eqb k (dictionary key value names) = None.
Proof.
  intros N. unfold dictionary. destruct (assoc Nat.eqb k _) as [v|] eqn:E; auto. apply assoc_Some_In in E; [|intros ? ?; apply Nat.eqb_eq].
  apply in_rev, in_map_iff in E. destruct E as (x & Ex & Hx). injection Ex as Ek _. destruct (N x Hx Ek).
Qed.

Lemma all_some_none {A : Type} (l : list (option A)) : In None l -> all_some l = None.
Proof.
  induction l as [|[x|] l IH]; cbn [all_some In]; [intros []| |auto]. intros [E|H]; [discriminate|]. now rewrite (IH H).
Qed.

Lemma entity_numbers_some H c : cd_tdim c < length (cd_entity_types c) ->
  entity_numbers H c = Some (map (fun x => match x with
       | Some k => match assoc Nat.eqb k (cell_dictionary H) with Some v => Some (v mod 256) | None => None end
       | None => None end) (map (fun i => nth_error (cd_entity_types c) i) (seq 0 (cd_tdim c + 1)))).
Proof.
  intros L. unfold entity_numbers. cbv zeta.
  destruct (forallb (fun x : option nat => match x with Some _ => true | None => false end) (map (fun i => nth_error (cd_entity_types c) i) (seq 0 (cd_tdim c + 1)))) eqn:F; auto.
  assert (T : forallb (fun x : option nat => match x with Some _ => true | None => false end) (map (fun i => nth_error (cd_entity_types c) i) (seq 0 (cd_tdim c + 1))) = true); [|congruence].
  apply forallb_forall. intros x Hx. apply in_map_iff in Hx. destruct Hx as (i & <- & Hi). apply in_seq in Hi.
  destruct (nth_error (cd_entity_types c) i) eqn:E; auto. apply nth_error_None in E. lia.
Qed.

Theorem unknown_type : forall H g a m i k, cd_tdim (hd_cdata H g) < length (cd_entity_types (hd_cdata H g)) ->
  i <= cd_tdim (hd_cdata H g) -> nth_error (cd_entity_types (hd_cdata H g)) i = Some k -> (forall t, hd_grid_cell H t <> k) ->
  exists m', recreate_memory H g a m = KeyError m' /\ me_grids m' = me_grids m /\ me_containers m' = me_calls m :: me_containers m.
Proof.
  intros H g a m i k L Hi E N. unfold recreate_memory. cbv zeta. rewrite (entity_numbers_some H _ L). rewrite all_some_none.
  - eexists. split; [reflexivity|]. split; reflexivity.
  - apply in_map_iff. exists (Some k). split.
    + unfold cell_dictionary. rewrite assoc_dictionary_none; auto.
    + apply in_map_iff. exists i. split; auto. apply in_seq. lia.
Qed.

Theorem unknown_dtype : forall H g a m, cd_tdim (hd_cdata H g) < length (cd_entity_types (hd_cdata H g)) ->
  (forall d, d <> OtherDtype -> hd_grid_dtype H d <> cd_dtype (hd_cdata H g)) ->
  exists m', recreate_memory H g a m = KeyError m' /\ me_grids m' = me_grids m /\ me_containers m' = me_calls m :: me_containers m.
Proof.
  intros H g a m L N. unfold recreate_memory. cbv zeta. rewrite (entity_numbers_some H _ L).
  destruct (all_some _) as [types|]; [|eexists; split; [reflexivity|]; split; reflexivity].
  unfold dtype_dictionary. rewrite assoc_dictionary_none; [eexists; split; [reflexivity|]; split; reflexivity|].
  intros d Hd. apply N. intros ->. cbn in Hd. intuition discriminate.
Qed.
