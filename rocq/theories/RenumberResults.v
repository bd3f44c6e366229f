(** * Renumbering a grid *)
From Coq Require Import Ring_theory.
From Verif Require Import Base BaseFacts Topology TopologyFacts DofMap DofMapFacts SpecDof DofMapResults Process Space SpecSpace
  DofExamples SpaceScript SpaceResults Options Adjacency SpecAdjacency AdjacencyFacts Scalar Integrand CellPair Operators SpecLocal Interleave Assembly SpecAssembly
  AssemblySingular AssemblyDense AssemblyExact AssemblyResults SpecAlgebra AlgebraFacts SpecDistributed DistributedFacts DistributedResults SpecRenumber.

Lemma renumbered_partition G g L : wf_grid G -> (forall d e, d <= 2 -> e < ent_count g d -> g_own g d e = Owned) ->
  renumbered_grid G g L -> partition 1 G (fun _ => g) (fun _ => L).
Proof.
  intros W Ow [Cn Bj Ty Gd Ct Sb]. constructor; [constructor| | |].
  - intros r d e _ Hd He. rewrite Cn in He by auto. now apply (Bj d Hd).
  - intros r d e e' _ Hd He He' E. rewrite Cn in He, He' by auto. now apply (proj1 (proj2 (Bj d Hd))).
  - intros r _. rewrite Ty. apply incl_refl.
  - auto.
  - auto.
  - auto.
  - intros r d e _ Hd He. left. now apply Ow.
  - intros; lia.
  - intros C HC. destruct (proj2 (proj2 (Bj 2 (le_n 2))) C HC) as (c & Hc & E). exists 0, c. rewrite Cn by auto. auto.
Qed.

Lemma renumbering_Permutation n f : renumbering n f -> Permutation (map f (seq 0 n)) (seq 0 n).
Proof.
  intros (H1 & H2 & H3). apply NoDup_Permutation.
  - assert (G : forall l, (forall x, In x l -> x < n) -> NoDup l -> NoDup (map f l)).
    { induction l as [|x l IH]; intros Hl Nd; cbn; constructor; inversion Nd as [|? ? Nx Nl]; subst.
      - intros Hx. apply in_map_iff in Hx. destruct Hx as (y & E & Hy). apply H2 in E; [subst; contradiction| |]; apply Hl; [now right|now left].
      - apply IH; auto. intros y Hy. apply Hl. now right. }
    apply G; [intros x Hx; apply in_seq in Hx; lia|apply seq_NoDup].
  - apply seq_NoDup.
  - intros x. rewrite in_map_iff, in_seq. split.
    + intros (y & <- & Hy). apply in_seq in Hy. split; [lia|]. apply H1. lia.
    + intros (_ & Hx). destruct (H3 x Hx) as (y & Hy & <-). exists y. split; auto. apply in_seq. lia.
Qed.

Lemma enumerate_map {A B : Type} (f : A -> B) (l : list A) : enumerate (map f l) = map (fun x => (fst x, f (snd x))) (enumerate l).
Proof.
  unfold enumerate. rewrite map_length. generalize 0. induction l as [|x l IH]; intros n; cbn; [reflexivity|]. now rewrite IH.
Qed.

Lemma mapM_id (l : list nat) (F : nat -> res nat) ys : (forall i, In i l -> F i = Ok i) -> mapM F l = Ok ys -> ys = l.
Proof.
  revert ys. induction l as [|x l IH]; intros ys H E; cbn in E; [now inversion E|].
  rewrite (H x (or_introl eq_refl)) in E. cbn in E. apply bind_Ok_inv in E. destruct E as (zs & Ez & E). inversion E. f_equal.
  apply IH; auto. intros i Hi. apply H. now right.
Qed.

Section Renumber.
Context {T R : Type} (S : scalar T R) (X : externals R).

Lemma serial_distributed (fs : fspace T R) : serial_space fs -> distributed_space 1 (fun _ => fs).
Proof.
  intros [W F P Ow D (eager & sp & C & E) Np]. constructor; auto.
  - constructor; auto. intros r c d i e p x Hr (Hc & Hd & Hi) Hg. rewrite Ow in Hg; [discriminate|lia|].
    apply (wf_sub_lt _ W c d e Hc Hd). eapply nth_error_In; eauto.
  - intros r Hr. assert (r = 0) by lia. subst. exact D.
  - exists eager, sp. split; auto. intros r Hr. assert (r = 0) by lia. now subst.
Qed.

(** The DOFs of a renumbered space. *)
Lemma renumbered_dofs (whole fs : fspace T R) L : serial_space whole -> serial_space fs -> renumbered_space X whole fs L ->
  global_size (fs_space fs) = global_size (fs_space whole) /\
  exists f, renumbering (global_size (fs_space whole)) f /\
    forall c, c < ent_count (fs_grid fs) 2 -> dofs_at fs c = map f (dofs_at whole (L 2 c)).
Proof.
  intros SW SF [Rg Ef Ec Eb Eg].
  destruct (spaces_numbering 1 (fun _ => L) (fun _ => fs) whole (serial_distributed fs SF) SW) as (f & Rf & Gs & Hf).
  - constructor; auto.
  - apply renumbered_partition; auto; [exact (ss_grid _ SW)|exact (ss_owned _ SF)].
  - split; [exact (Gs 0 (le_n 1))|]. exists f. split; auto. intros c Hc. symmetry. eapply mapM_id; [|exact (Hf 0 c (le_n 1) Hc)].
    intros i Hi. apply serial_index; auto. apply (serial_dofs_lt fs SF c); auto.
Qed.

Section Setting.
Variables (wmod : nat) (O : operator T R) (o : options) (deg : cell_type -> cell_type -> nat) (pts : cell_type -> nat) (ct : cell_type).
Variables (test trial wtest wtrial : fspace T R) (L M : nat -> nat -> nat).
Hypothesis DW : dense_setting X wmod O o deg pts ct wtest wtrial.
Hypothesis (St : serial_space test) (Ss : serial_space trial) (Sa : same_object test trial).
Hypothesis (Rt : renumbered_space X wtest test L) (Rs : renumbered_space X wtrial trial M).
Hypothesis Al : renumbered_alike wtest wtrial test trial L M.

Lemma renumbered_PT : partition 1 (fs_grid wtest) (fun _ => fs_grid test) (fun _ => L).
Proof. apply renumbered_partition; [exact (ss_grid _ (dn_test _ _ _ _ _ _ _ _ _ DW))|exact (ss_owned _ St)|exact (rs_grid _ _ _ _ Rt)]. Qed.

Lemma renumbered_setting : dense_setting X wmod O o deg pts ct test trial.
Proof.
  pose proof renumbered_PT as PT. destruct Al as (Id & _).
  destruct DW as [Wt Ws Sm Tt Ts G1 G2 Ct Cs Fo Pr Si Hb Hw H1 H2 Sg]. destruct Rt as [Gt F1 C1 B1 _]. destruct Rs as [Gs F2 C2 B2 _].
  constructor; auto.
  - now rewrite (rg_types _ _ _ Gt).
  - now rewrite (rg_types _ _ _ Gs).
  - unfold in_space in *. now rewrite (rg_gdim _ _ _ Gt).
  - unfold in_space in *. now rewrite (rg_gdim _ _ _ Gs).
  - intros t Ht. rewrite C1. apply Ct. now rewrite <- (rg_types _ _ _ Gt).
  - intros t Ht. rewrite C2. apply Cs. now rewrite <- (rg_types _ _ _ Gs).
  - now rewrite (rg_count _ _ _ Gt).
  - now rewrite (rg_count _ _ _ Gs).
  - intros E. apply Id in E. destruct (Sg E) as (A1 & A2 & A3 & A4). split; auto. split; auto.
    assert (Wg : forall r, r < 1 -> wf_grid (fs_grid test)) by (intros; exact (ss_grid _ St)).
    split; [exact (part_conforming 1 _ _ _ PT Wg 0 (le_n 1) A3)|exact (part_pairs_fit 1 _ _ _ PT Wg wmod 0 (le_n 1) A4)].
Qed.

Lemma renumbered_touching t s : t < ent_count (fs_grid test) 2 -> s < ent_count (fs_grid trial) 2 ->
  (touching test trial t s <-> touching wtest wtrial (L 2 t) (M 2 s)).
Proof.
  intros Ht Hs. pose proof renumbered_PT as PT. destruct Al as (Id & Eq).
  assert (Wg : forall r, r < 1 -> wf_grid (fs_grid test)) by (intros; exact (ss_grid _ St)).
  unfold touching. split.
  - intros (E & H). split; [now apply Id|]. rewrite (Sa E) in Eq. rewrite Eq by auto.
    apply (part_touch 1 _ _ _ PT Wg 0); auto. now rewrite (Sa E).
  - intros (E & H). apply Id in E. split; auto. rewrite (Sa E) in Eq. rewrite Eq in H by auto.
    apply (part_touch 1 _ _ _ PT Wg 0 t s) in H; auto. now rewrite (Sa E).
Qed.

Lemma renumbered_value t s a b v : t < ent_count (fs_grid test) 2 -> s < ent_count (fs_grid trial) 2 ->
  pair_value S X O deg pts test trial t s a b v -> pair_value S X O deg pts wtest wtrial (L 2 t) (M 2 s) a b v.
Proof.
  intros Ht Hs [(To & V)|(To & V)].
  - left. split; [now apply renumbered_touching|]. destruct To as (E & To). pose proof (proj1 (proj1 Al) E) as E'.
    assert (Sg : singular_setting X wmod O o deg wtest wtrial) by (eapply dense_singular; eauto).
    rewrite (Sa E) in Hs |- * || idtac.
    assert (Hs' : s < ent_count (fs_grid test) 2) by (now rewrite (Sa E)).
    rewrite (proj2 Al E s Hs').
    assert (DS : distributed_setting X wmod O o deg 1 (fun _ => L) (fun _ => test) (fun _ => trial) wtest wtrial).
    { destruct Rt as [Gt F1 C1 B1 Ge]. destruct Rs as [Gs F2 C2 B2 _]. constructor; auto using serial_distributed.
      - exact (dn_test _ _ _ _ _ _ _ _ _ DW).
      - exact (dn_trial _ _ _ _ _ _ _ _ _ DW).
      - exact renumbered_PT.
      - constructor; auto.
      - constructor; auto.
      - intros r c t0 points _ Hc. now apply Ge. }
    exact (part_value S X wmod O o deg 1 (fun _ => L) (fun _ => test) (fun _ => trial) wtest wtrial DS 0 t s a b v (le_n 1) Ht Hs' V).
  - right. split; [now rewrite <- renumbered_touching|]. destruct V as (qt & qs & Q1 & Q2 & E). exists qt, qs.
    destruct Rt as [Gt F1 C1 B1 Ge]. destruct Rs as [Gs F2 C2 B2 Ge'].
    rewrite (rg_ctype _ _ _ Gt t Ht), (rg_ctype _ _ _ Gs s Hs). split; auto. split; auto. rewrite E. rewrite <- Ge, <- Ge' by auto. now rewrite B1, B2.
Qed.

Lemma renumbered_entry one (RT : ring_theory (s_zero S) one (s_add S) (s_mul S) (s_sub S) (s_neg S) eq) val val' f h i j :
  (forall t s a b, t < ent_count (fs_grid wtest) 2 -> s < ent_count (fs_grid wtrial) 2 -> pair_value S X O deg pts wtest wtrial t s a b (val t s a b)) ->
  (forall t s a b, t < ent_count (fs_grid test) 2 -> s < ent_count (fs_grid trial) 2 -> pair_value S X O deg pts test trial t s a b (val' t s a b)) ->
  renumbering (global_size (fs_space wtest)) f -> renumbering (global_size (fs_space wtrial)) h ->
  (forall c, c < ent_count (fs_grid test) 2 -> dofs_at test c = map f (dofs_at wtest (L 2 c))) ->
  (forall c, c < ent_count (fs_grid trial) 2 -> dofs_at trial c = map h (dofs_at wtrial (M 2 c))) ->
  i < global_size (fs_space wtest) -> j < global_size (fs_space wtrial) ->
  matrix_entry S val' test trial (f i) (h j) = matrix_entry S val wtest wtrial i j.
Proof.
  intros V V' Rf Rh Df Dh Hi Hj. unfold matrix_entry.
  pose proof (dn_test _ _ _ _ _ _ _ _ _ DW) as Wt. pose proof (dn_trial _ _ _ _ _ _ _ _ _ DW) as Ws.
  pose proof (rs_grid _ _ _ _ Rt) as Gt. pose proof (rs_grid _ _ _ _ Rs) as Gs.
  rewrite <- (total_perm S one RT _ _ _ (renumbering_Permutation _ _ (rg_bijective _ _ _ Gt 2 (le_n 2)))).
  rewrite total_map, (rg_count _ _ _ Gt 2 (le_n 2)). apply total_ext. intros t Ht. apply in_seq in Ht.
  assert (Ht' : t < ent_count (fs_grid test) 2) by (rewrite (rg_count _ _ _ Gt); lia).
  rewrite <- (total_perm S one RT _ _ _ (renumbering_Permutation _ _ (rg_bijective _ _ _ Gs 2 (le_n 2)))).
  rewrite total_map, (rg_count _ _ _ Gs 2 (le_n 2)). apply total_ext. intros s Hs. apply in_seq in Hs.
  assert (Hs' : s < ent_count (fs_grid trial) 2) by (rewrite (rg_count _ _ _ Gs); lia).
  assert (Lt : L 2 t < ent_count (fs_grid wtest) 2) by (apply (rg_bijective _ _ _ Gt 2 (le_n 2)); lia).
  assert (Ms : M 2 s < ent_count (fs_grid wtrial) 2) by (apply (rg_bijective _ _ _ Gs 2 (le_n 2)); lia).
  rewrite (Df t Ht'), (Dh s Hs'), !enumerate_map, total_map. apply total_ext. intros [a i'] Ha. rewrite total_map. apply total_ext. intros [b j'] Hb.
  cbn [fst snd].
  assert (Hi' : i' < global_size (fs_space wtest)).
  { rewrite (serial_size wtest Wt). apply (serial_dofs_lt wtest Wt (L 2 t)); auto. apply in_combine_r in Ha. exact Ha. }
  assert (Hj' : j' < global_size (fs_space wtrial)).
  { rewrite (serial_size wtrial Ws). apply (serial_dofs_lt wtrial Ws (M 2 s)); auto. apply in_combine_r in Hb. exact Hb. }
  assert (E1 : (f i' =? f i) = (i' =? i)).
  { destruct (Nat.eqb_spec i' i) as [->|N]; [apply Nat.eqb_refl|]. apply Nat.eqb_neq. intros E. apply N. now apply (proj1 (proj2 Rf)). }
  assert (E2 : (h j' =? h j) = (j' =? j)).
  { destruct (Nat.eqb_spec j' j) as [->|N]; [apply Nat.eqb_refl|]. apply Nat.eqb_neq. intros E. apply N. now apply (proj1 (proj2 Rh)). }
  rewrite E1, E2. destruct (_ && _); [|reflexivity].
  eapply pair_value_unique; [|apply V; auto]. apply renumbered_value; auto.
Qed.

(** The matrix of the renumbered grid is the matrix with other numbers. *)
Theorem renumbered_matrix rt rt' : exact S -> legal_runtime (s_add S) rt -> legal_runtime (s_add S) rt' ->
  exists m m' f h,
    assemble S X rt wmod O o wtrial wtest = Ok m /\ assemble S X rt' wmod O o trial test = Ok m' /\
    length m' = length m /\
    renumbering (global_size (fs_space wtest)) f /\ renumbering (global_size (fs_space wtrial)) h /\
    (forall c, c < ent_count (fs_grid test) 2 -> dofs_at test c = map f (dofs_at wtest (L 2 c))) /\
    (forall c, c < ent_count (fs_grid trial) 2 -> dofs_at trial c = map h (dofs_at wtrial (M 2 c))) /\
    forall i j, i < global_size (fs_space wtest) -> j < global_size (fs_space wtrial) ->
      exists x, nth_error m (i + global_size (fs_space wtest) * j) = Some x /\
        nth_error m' (f i + global_size (fs_space wtest) * h j) = Some x.
Proof.
  intros ((one & RT) & _) Lr Lr'.
  destruct (assembled S one RT X rt wmod O o deg pts ct wtest wtrial Lr DW) as (m & val & E & Ln & V & H).
  destruct (assembled S one RT X rt' wmod O o deg pts ct test trial Lr' renumbered_setting) as (m' & val' & E' & Ln' & V' & H').
  destruct (renumbered_dofs wtest test L (dn_test _ _ _ _ _ _ _ _ _ DW) St Rt) as (Z1 & f & Rf & Df).
  destruct (renumbered_dofs wtrial trial M (dn_trial _ _ _ _ _ _ _ _ _ DW) Ss Rs) as (Z2 & h & Rh & Dh).
  rewrite Z1, Z2 in Ln', H'. exists m, m', f, h. split; auto. split; auto. split; [congruence|]. split; auto. split; auto. split; auto. split; auto.
  intros i j Hi Hj. eexists. split; [now apply H|]. rewrite H' by (apply Rf || apply Rh; auto). f_equal.
  eapply renumbered_entry; eauto.
Qed.
End Setting.

(** ** Several processes *)

Lemma total_flat_map one (RT : ring_theory (s_zero S) one (s_add S) (s_mul S) (s_sub S) (s_neg S) eq) {A B : Type} (l : list A) (g : A -> list B) (f : B -> T) :
  total S (flat_map g l) f = total S l (fun x => total S (g x) f).
Proof.
  induction l as [|x l IH]; [reflexivity|]. cbn [flat_map]. rewrite (total_app S one RT), IH. reflexivity.
Qed.

Lemma total_rows (l : list (nat * nat * T)) f h n k i j : renumbering n f -> renumbering k h -> i < n -> j < k ->
  (forall x, In x l -> fst (fst x) < n /\ snd (fst x) < k) ->
  total S (map (renumber f h) l) (fun x => if (fst (fst x) =? f i) && (snd (fst x) =? h j) then snd x else s_zero S) =
  total S l (fun x => if (fst (fst x) =? i) && (snd (fst x) =? j) then snd x else s_zero S).
Proof.
  intros Rf Rh Hi Hj Hl. rewrite total_map. apply total_ext. intros [[i' j'] v] Hx. destruct (Hl _ Hx) as (Hi' & Hj'). cbn [fst snd renumber] in *.
  assert (E1 : (f i' =? f i) = (i' =? i)).
  { destruct (Nat.eqb_spec i' i) as [->|N]; [apply Nat.eqb_refl|]. apply Nat.eqb_neq. intros E. apply N. now apply (proj1 (proj2 Rf)). }
  assert (E2 : (h j' =? h j) = (j' =? j)).
  { destruct (Nat.eqb_spec j' j) as [->|N]; [apply Nat.eqb_refl|]. apply Nat.eqb_neq. intros E. apply N. now apply (proj1 (proj2 Rh)). }
  now rewrite E1, E2.
Qed.

(** The sum of the sparse matrices of the processes. *)
Theorem distributed_entries wmod O o deg N L test trial wtest wtrial :
  distributed_setting X wmod O o deg N L test trial wtest wtrial ->
  forall (rt : nat -> runtime T) (wrt : runtime T), exact S ->
  (forall r, r < N -> legal_runtime (s_add S) (rt r)) -> legal_runtime (s_add S) wrt ->
  vertex_layer N (fs_grid wtest) (fun r => fs_grid (test r)) L ->
  exists ms m f h,
    (forall r, r < N ->
      assemble_singular_part S X (rt r) wmod O o (global_size (fs_space (test r)), global_size (fs_space (trial r))) (trial r) (test r) = Ok (ms r)) /\
    assemble_singular_part S X wrt wmod O o (global_size (fs_space wtest), global_size (fs_space wtrial)) wtrial wtest = Ok m /\
    renumbering (global_size (fs_space wtest)) f /\ renumbering (global_size (fs_space wtrial)) h /\
    (forall r c, r < N -> c < ent_count (fs_grid (test r)) 2 ->
      mapM (global_dof_index (fs_space (test r))) (dofs_at (test r) c) = Ok (map f (dofs_at wtest (L r 2 c))) /\
      mapM (global_dof_index (fs_space (trial r))) (dofs_at (trial r) c) = Ok (map h (dofs_at wtrial (L r 2 c)))) /\
    forall i j, i < global_size (fs_space wtest) -> j < global_size (fs_space wtrial) ->
      total S (seq 0 N) (fun r => sparse_entry S (ms r) (f i) (h j)) = sparse_entry S m i j.
Proof.
  intros DS rt wrt ((one & RT) & _) Lr Lw VL.
  destruct (distributed_serial S X wmod O o deg N L test trial wtest wtrial DS rt wrt Lr Lw VL) as (ms & m & f & h & H1 & H2 & Rf & Rh & H3 & P).
  exists ms, m, f, h. split; [intros r Hr; now apply H1|]. split; auto. split; auto. split; auto. split; auto.
  intros i j Hi Hj. unfold sparse_entry.
  rewrite <- (total_flat_map one RT (seq 0 N) (fun r => triplets (ms r))). rewrite (total_perm S one RT _ _ _ P).
  eapply total_rows; eauto. intros [[i' j'] v] Hx.
  destruct (singular_part_inside S X wrt wmod O o deg wtest wtrial Lw (dd_whole _ _ _ _ _ _ _ _ _ _ _ DS)) as (m0 & E & Hr & Hc & _).
  assert (E0 : Ok m = Ok m0) by (rewrite <- H2; exact E). inversion E0; subst m0. unfold triplets in Hx. cbn [fst snd].
  pose proof (in_combine_l _ _ _ _ Hx) as Hx'. split; [apply Hr; eapply in_combine_l; eauto|apply Hc; eapply in_combine_r; eauto].
Qed.
End Renumber.
