(** * Examples: a kernel whose single layer matrix is definite *)
From Coq Require Import Reals Lra.
From Verif Require Import Base BaseFacts Topology TopologyFacts DofMap SpecDof Process Space Options SpecOptions Scalar Integrand CellPair Operators SpecLocal SpecOperators Interleave Assembly SpecAssembly
  AssemblyFacts AssemblyExact AssemblyResults DistributedResults BrokenResults SphereResults ShapesResults AssemblyTermination Adjacency SpecAdjacency SpecAlgebra AlgebraFacts AlgebraResults SpecRounding SpecGalerkin GalerkinResults SpecShapeSpaces ShapeSpacesResults
  Shapes SpecShapes SpecSphere SpecScreen SpecWidth SpecSymmetry SpecTurns SpecShift SpecToeplitz SpecConvex TurnResults TurnExamples SpecMeasure SpecGauss GaussResults GaussExamples MomentResults ConvexResults TestsResults
  SpecDefinite DefiniteResults DefiniteShapes.

Local Open Scope R_scope.

(** All points of the rules are the centre of the triangle. *)
Definition centred_externals (b : builder vec) : externals R := mkExternals R
  (fun t n => if (n =? 0)%nat then None else Some (mkQuadrature (repeat (/ 3) (2 * n)) (repeat (/ INR (2 * n)) n)))
  (fun k d p n => if (n =? 0)%nat then None else Some (mkPairQuadrature (repeat (/ 3) (2 * n)) (repeat (/ 3) (2 * n)) (repeat (/ INR (4 * n)) n)))
  (x_geometry (flat_externals b)).

(** One for equal points, zero for others. *)
Definition equal_green : @green R R := fun i x y => match i with 0%nat => if Req_EM_T (chord2 x y) 0 then 1 else 0 | _ => 0 end.

Lemma centred_proper b : proper_rules (centred_externals b).
Proof.
  split.
  - intros t n q H. cbn [centred_externals x_simplex] in H. destruct (n =? 0)%nat; [discriminate|]. injection H as <-. cbn [qd_points qd_weights]. now rewrite !repeat_length.
  - intros k d p n q H. cbn [centred_externals x_duffy] in H. destruct (n =? 0)%nat; [discriminate|]. injection H as <-. cbn [pq_test pq_trial pq_weights]. now rewrite !repeat_length.
Qed.

Lemma centred_rules b : rules_exist (centred_externals b) Triangle (after [SetBatch 3]).
Proof.
  split.
  - intros n H. vm_compute in H. injection H as <-. eexists. reflexivity.
  - intros n p kind H _ _. vm_compute in H. injection H as <-. eexists. reflexivity.
Qed.

Lemma nth_repeated (x d : R) n i : (i < n)%nat -> nth i (repeat x n) d = x.
Proof. intros H. apply (repeat_spec n x), nth_In. now rewrite repeat_length. Qed.

Lemma weight_lt (x : R) n pw : In pw (enumerate (repeat x n)) -> (fst pw < n)%nat.
Proof. destruct pw as [k y]. intros H. apply In_enumerate in H. cbn [fst snd] in *. rewrite <- (repeat_length x n). apply nth_error_Some. congruence. Qed.

Section Definite.
Context (level : nat) (id : nat) (b : builder vec) (E : regular_sphere real_numbers level 1 = Ok b).
Context (deg : cell_type -> cell_type -> nat) (pts : cell_type -> nat) (wmod : nat) (o : options) (fine : fspace R R).
Local Notation X := (centred_externals b).
Local Notation O := (laplace_single_layer equal_green).
Context (D : dense_setting X wmod O o deg pts Triangle fine fine) (G : fs_grid fine = built_grid id Triangle b) (Co : constants reals 1 fine)
  (If : interior_family (g_types (fs_grid fine) 2) (fs_family fine)).

Let det (c : nat) : R := cm_jdet (flat_map_of b [] c) 0%nat.

(** The centres of different triangles are different. *)
Lemma centre_distinct points points' t s i j : (t < ent_count (fs_grid fine) 2)%nat -> (s < ent_count (fs_grid fine) 2)%nat ->
  nth (2 * i) points 0 = / 3 -> nth (2 * i + 1) points 0 = / 3 -> nth (2 * j) points' 0 = / 3 -> nth (2 * j + 1) points' 0 = / 3 ->
  equal_green 0%nat (SpecLocal.position (flat_map_of b points t) i) (SpecLocal.position (flat_map_of b points' s) j) = if Nat.eq_dec t s then 1 else 0.
Proof.
  intros Ht Hs P1 P2 P3 P4. rewrite G in Ht, Hs. destruct (sphere_corner level id b E t Ht) as (u & v & w & _ & Ct). destruct (sphere_corner level id b E s Hs) as (u' & v' & w' & _ & Cs).
  pose proof (flat_flat (built_grid id Triangle b) b Triangle points t _ _ _ Ct) as F. pose proof (flat_flat (built_grid id Triangle b) b Triangle points' s _ _ _ Cs) as F'.
  cbn [flat_externals x_geometry] in F, F'.
  unfold equal_green. rewrite (flat_point_of _ _ _ _ _ i F), (flat_point_of _ _ _ _ _ j F'), P1, P2, P3, P4.
  destruct (Nat.eq_dec t s) as [Eq|N].
  - destruct Req_EM_T as [_|K]; [reflexivity|]. exfalso. apply K. subst s. destruct Ct as (a1 & a2 & a3 & A0 & A1 & A2 & A3). destruct Cs as (b1 & b2 & b3 & B0 & B1 & B2 & B3).
    rewrite A0 in B0. injection B0 as <- <- <-. rewrite A1 in B1. rewrite A2 in B2. rewrite A3 in B3. injection B1 as <-. injection B2 as <-. injection B3 as <-.
    generalize (point_of (SpecSphere.position (points_of b) u) (SpecSphere.position (points_of b) v) (SpecSphere.position (points_of b) w) (1 - / 3 - / 3) (/ 3) (/ 3)).
    intros [[? ?] ?]. unfold chord2. cbn. ring.
  - destruct Req_EM_T as [K|_]; [|reflexivity]. exfalso. apply chord2_self in K.
    assert (W : weights (1 - / 3 - / 3) (/ 3) (/ 3)) by (unfold weights; lra). assert (I : inner_weights (1 - / 3 - / 3) (/ 3) (/ 3)) by (unfold inner_weights; lra).
    destruct (sphere_below level b E t _ _ _ s _ _ _ _ _ _ Ct Cs W) as (_ & _ & L). specialize (L N I). rewrite <- K in L.
    destruct (sphere_below level b E t _ _ _ t _ _ _ _ _ _ Ct Ct W) as (_ & L' & _). specialize (L' eq_refl). lra.
Qed.

Lemma type_of c : (c < ent_count (fs_grid fine) 2)%nat -> g_ctype (fs_grid fine) c = Triangle.
Proof.
  intros Hc. pose proof (wf_ctype _ (ss_grid _ (dn_test _ _ _ _ _ _ _ _ _ D)) c Hc) as W. rewrite (dn_test_type _ _ _ _ _ _ _ _ _ D) in W. destruct W as [W|[]]. congruence.
Qed.

Lemma det_positive c : (c < ent_count (fs_grid fine) 2)%nat -> 0 < det c.
Proof.
  intros Hc. rewrite G in Hc. destruct (sphere_corner level id b E c Hc) as (u & v & w & _ & Ct).
  pose proof (flat_flat (built_grid id Triangle b) b Triangle [] c _ _ _ Ct) as F. cbn [flat_externals x_geometry] in F.
  unfold det. rewrite (fc_area _ _ _ _ _ F). exact (positive_norm level b E c _ _ _ Ct).
Qed.

Lemma equal_pairs t s v : (t < ent_count (fs_grid fine) 2)%nat -> (s < ent_count (fs_grid fine) 2)%nat -> pair_value reals X O deg pts fine fine t s 0 0 v ->
  v = if Nat.eq_dec t s then / 4 * (det t * det s) else 0.
Proof.
  intros Ht Hs [(C & p & kd & d & q & A1 & A2 & A3 & A4 & ->)|(C & q & r & A1 & A2 & ->)]; rewrite !type_of in * by assumption.
  - cbn [centred_externals x_duffy] in A4. destruct (Nat.eqb_spec (deg Triangle Triangle) 0) as [|Nz]; [discriminate|]. assert (Eq : forall A (x y : A), Some x = Some y -> x = y) by congruence. apply Eq in A4. rewrite <- A4. cbn [pq_test pq_trial pq_weights].
    set (n := deg Triangle Triangle) in *. rewrite (pairwise_total reals 1 reals_ring).
    rewrite (total_ext reals _ _ (fun pw => snd pw * (det t * det s * if Nat.eq_dec t s then 1 else 0))).
    + rewrite (total_mul_r reals 1 reals_ring). change (total reals (enumerate (repeat (/ INR (4 * n)) n)) snd) with (total reals (enumerate (repeat (/ INR (4 * n)) n)) (fun pw => snd pw)).
      rewrite sum_weights, sum_repeat, mult_INR. assert (INR n <> 0) by now apply not_0_INR. replace (INR 4) with 4 by (cbn; ring).
      replace (INR n * / (4 * INR n)) with (/ 4) by (field; auto). cbn [s_mul reals]. destruct Nat.eq_dec; ring.
    + intros pw Hpw. apply weight_lt in Hpw. rename Hpw into Hl.
      unfold pairwise_term. cbn [laplace_single_layer op_integrand op_kernel kn_value integrand_value s_mul s_cast r_mul reals centred_externals flat_externals x_geometry].
      rewrite !(co_value _ _ _ Co), (centre_distinct _ _ t s (fst pw) (fst pw)) by (auto; apply nth_repeated; lia). unfold det. cbn [flat_map_of cm_jdet]. ring.
  - cbn [centred_externals x_simplex] in A1, A2. destruct (Nat.eqb_spec (pts Triangle) 0) as [|Nz]; [discriminate|]. assert (Eq : forall A (x y : A), Some x = Some y -> x = y) by congruence. apply Eq in A1. apply Eq in A2. rewrite <- A1, <- A2. cbn [qd_points qd_weights].
    assert (N : t <> s). { intros ->. apply C. split; [reflexivity|]. apply touch_self; [apply (ss_grid _ (dn_test _ _ _ _ _ _ _ _ _ D))|assumption]. }
    destruct (Nat.eq_dec t s) as [|_]; [contradiction|].
    set (n := pts Triangle) in *. rewrite (tensor_total reals 1 reals_ring). apply (total_zero reals 1 reals_ring). intros pw Hpw. apply (total_zero reals 1 reals_ring). intros qw Hqw.
    apply weight_lt in Hpw. rename Hpw into Hl.
    apply weight_lt in Hqw. rename Hqw into Hl'.
    unfold tensor_term. cbn [laplace_single_layer op_integrand op_kernel kn_value integrand_value s_mul s_cast r_mul s_zero reals centred_externals flat_externals x_geometry].
    rewrite (centre_distinct _ _ t s (fst pw) (fst qw)) by (auto; apply nth_repeated; lia). destruct (Nat.eq_dec t s) as [|_]; [contradiction|]. ring.
Qed.

Lemma only_one t i : (t < ent_count (fs_grid fine) 2)%nat -> In i (dofs_at fine t) -> dofs_at fine t = [i].
Proof. intros Ht Hi. apply (only_dof fine t i (dn_test _ _ _ _ _ _ _ _ _ D) Co Ht Hi). Qed.

Lemma one_entry val t s i j : (t < ent_count (fs_grid fine) 2)%nat -> (s < ent_count (fs_grid fine) 2)%nat -> In i (dofs_at fine t) -> In j (dofs_at fine s) ->
  matrix_entry reals val fine fine i j = val t s 0%nat 0%nat.
Proof.
  pose proof (dn_test _ _ _ _ _ _ _ _ _ D) as St.
  intros Ht Hs Hi Hj. unfold matrix_entry. rewrite (total_single _ t); auto.
  - rewrite (total_single _ s); auto.
    + rewrite (only_one t i), (only_one s j) by auto. cbn. rewrite !Nat.eqb_refl. cbn. ring.
    + intros s' Hs' N. apply (total_zero reals 1 reals_ring). intros [a i'] Ha. apply (total_zero reals 1 reals_ring). intros [c j'] Hb. cbn [fst snd]. apply In_enumerate in Hb. cbn [fst snd] in Hb. apply nth_error_In in Hb.
      destruct (Nat.eqb_spec j' j) as [->|]; [|now rewrite andb_false_r]. exfalso. apply N. now apply (serial_disjoint fine s' s j).
  - intros t' Ht' N. apply (total_zero reals 1 reals_ring). intros s' Hs'. apply (total_zero reals 1 reals_ring). intros [a i'] Ha. apply (total_zero reals 1 reals_ring). intros [c j'] Hb. cbn [fst snd]. apply In_enumerate in Ha. cbn [fst snd] in Ha. apply nth_error_In in Ha.
    destruct (Nat.eqb_spec i' i) as [->|]; [|reflexivity]. exfalso. apply N. now apply (serial_disjoint fine t' t i).
Qed.

Lemma diagonal_form n (e : nat -> nat -> R) d y : (forall i j, (i < n)%nat -> (j < n)%nat -> e i j = if Nat.eq_dec i j then d i else 0) ->
  form n e y = total reals (seq 0 n) (fun i => d i * (y i * y i)).
Proof.
  intros H. unfold form. apply total_ext. intros i Hi. apply in_seq in Hi. rewrite (total_single n i); [|lia|].
  - rewrite H by lia. destruct Nat.eq_dec; [ring|contradiction].
  - intros j Hj N. rewrite H by lia. destruct Nat.eq_dec; [congruence|ring].
Qed.

Lemma squares_zero l (d y : nat -> R) : (forall i, In i l -> 0 < d i) ->
  0 <= total reals l (fun i => d i * (y i * y i)) /\ (total reals l (fun i => d i * (y i * y i)) = 0 -> forall i, In i l -> y i = 0).
Proof.
  induction l as [|x l IH]; intros H; [split; [cbn; lra|intros _ i []]|]. destruct IH as (A & B); [intros; apply H; now right|].
  rewrite total_cons. cbn [s_add reals]. pose proof (H x (or_introl eq_refl)) as P. pose proof (Rle_0_sqr (y x)) as Q. unfold Rsqr in Q.
  assert (C : 0 <= d x * (y x * y x)) by (apply Rmult_le_pos; lra). split; [lra|]. intros Z i [<-|Hi]; [|apply B; auto; lra].
  assert (Z' : d x * (y x * y x) = 0) by lra. apply Rmult_integral in Z'. destruct Z' as [Z'|Z']; [lra|]. apply Rmult_integral in Z'. tauto.
Qed.

Theorem equal_definite rt m : legal_runtime Rplus rt -> assemble reals X rt wmod O o fine fine = Ok m ->
  forall e, has_entries (global_size (fs_space fine)) m e -> definite (global_size (fs_space fine)) e.
Proof.
  intros L Em e He. pose proof (dn_test _ _ _ _ _ _ _ _ _ D) as St. set (n := global_size (fs_space fine)) in *.
  destruct (exact_entries reals X rt wmod O o deg pts Triangle fine fine (repeat (s_zero reals) (n * n)) reals_exact' L D (repeat_length _ _)) as (m' & val & Em' & Hv & _ & Hm').
  unfold n in Em'. rewrite assemble_on_zeros in Em' by apply St. rewrite Em in Em'. injection Em' as <-. fold n in Hm'.
  assert (Cell : forall i, exists c, (i < n)%nat -> (c < ent_count (fs_grid fine) 2)%nat /\ In i (dofs_at fine c)).
  { intros i. destruct (lt_dec i n) as [Hi|]; [|exists 0%nat; contradiction]. unfold n in Hi. rewrite serial_size in Hi by exact St.
    destruct (dof_in_cell fine i St Hi) as (c & a & Hc & Ha). exists c. intros _. split; [exact Hc|]. now apply nth_error_In in Ha. }
  assert (Choose : exists f : nat -> nat, forall i, (i < n)%nat -> (f i < ent_count (fs_grid fine) 2)%nat /\ In i (dofs_at fine (f i))).
  { clear - Cell. induction n as [|k IH]; [exists (fun _ => 0%nat); intros; lia|]. destruct IH as (f & Hf).
    - intros i. destruct (Cell i) as (c & Hc). exists c. intros; apply Hc; lia.
    - destruct (Cell k) as (c & Hc). exists (fun i => if Nat.eq_dec i k then c else f i). intros i Hi. destruct Nat.eq_dec as [->|N]; [apply Hc; lia|apply Hf; lia]. }
  destruct Choose as (f & Hf).
  assert (En : forall i j, (i < n)%nat -> (j < n)%nat -> e i j = if Nat.eq_dec i j then / 4 * (det (f i) * det (f i)) else 0).
  { intros i j Hi Hj. destruct (Hf i Hi) as (F1 & F2). destruct (Hf j Hj) as (F3 & F4).
    assert (Z : nth_error (repeat (s_zero reals) (n * n)) (i + n * j) = Some 0) by (apply nth_error_repeat; nia).
    specialize (Hm' i j 0 Hi Hj Z). rewrite (He i j Hi Hj) in Hm'. injection Hm' as Hm'. rewrite Hm', (one_entry val (f i) (f j) i j F1 F3 F2 F4).
    rewrite (equal_pairs (f i) (f j) _ F1 F3 (Hv (f i) (f j) 0%nat 0%nat F1 F3)). cbn [s_add reals].
    destruct (Nat.eq_dec (f i) (f j)) as [Ef|Nf], (Nat.eq_dec i j) as [Ei|Ni]; try (rewrite ?Ef; ring).
    - exfalso. apply Ni. rewrite Ef in F2. pose proof (only_one (f j) i F3 F2) as O1. rewrite O1 in F4. destruct F4 as [->|[]]. reflexivity.
    - exfalso. apply Nf. now subst. }
  intros y. rewrite (diagonal_form n e _ y En).
  destruct (squares_zero (seq 0 n) (fun i => / 4 * (det (f i) * det (f i))) y) as (A & B).
  { intros i Hi. apply in_seq in Hi. destruct (Hf i ltac:(lia)) as (F1 & _). pose proof (det_positive (f i) F1) as P. assert (0 < det (f i) * det (f i)) by now apply Rmult_lt_0_compat. lra. }
  split; [exact A|]. intros Z k Hk. apply (B Z). apply in_seq. lia.
Qed.
End Definite.

(** On every level there are spaces, and a kernel whose single layer matrix is definite. *)
Theorem definite_example : forall level id rt, legal_runtime Rplus rt -> exists (b : builder vec) X (fs fine : fspace R R) wmod,
  regular_sphere real_numbers level 1 = Ok b /\ flat_cells X (built_grid id Triangle b) b /\ proper_rules X /\ rules_exist X Triangle (after [SetBatch 3]) /\
  (0 < get_batch_size (after [SetBatch 3]) < wmod)%nat /\ (2 * length (cells_of b) * length (cells_of b) <= wmod)%nat /\
  made_on (built_grid id Triangle b) (lagrange 1) fs /\ linear_functions fs /\
  made_on (built_grid id Triangle b) (interior_only (fun _ => 1%nat)) fine /\ constants reals 1 fine /\
  forall m e, assemble reals X rt wmod (laplace_single_layer equal_green) (after [SetBatch 3]) fine fine = Ok m -> has_entries (global_size (fs_space fine)) m e ->
    definite (global_size (fs_space fine)) e.
Proof.
  intros level id rt L. assert (Ex : exists b : builder vec, regular_sphere real_numbers level 1 = Ok b) by exact (sphere_exists real_numbers level). destruct Ex as (b & E).
  pose proof (shape_sphere real_numbers level id b E) as Sh.
  assert (S1 : standard (interior_only (fun _ => 1%nat))) by (constructor; intros; lia). assert (S2 : standard (lagrange 1)) by (constructor; lia).
  destruct (spaces_exist R R (built_grid id Triangle b) _ (fun _ => 1%nat) unit_basis Sh S1) as (u & Mu & _ & Bu); [intros; lia|].
  destruct (spaces_exist R R (built_grid id Triangle b) _ (fun _ => 1%nat) hat_basis Sh S2) as (v & Mv & _ & Bv); [intros; lia|].
  assert (Tu : g_types (fs_grid u) 2 = [Triangle]) by (rewrite (mo_grid _ _ _ Mu); reflexivity).
  pose proof (proj1 (sphere_cells level id b E)) as Nc.
  assert (Cu : constants reals 1 u).
  { constructor; rewrite ?Bu; auto. - intros t Ht. rewrite Tu in Ht. destruct Ht as [<-|[]]. now rewrite (mo_family _ _ _ Mu). - intros t points d p [-> | ->]; reflexivity. }
  set (wmod := (4 + 2 * length (cells_of b) * length (cells_of b))%nat).
  assert (Bt : (0 < get_batch_size (after [SetBatch 3]) < wmod)%nat) by (change (get_batch_size (after [SetBatch 3])) with 3%nat; lia).
  assert (Ft : (2 * ent_count (built_grid id Triangle b) 2 * ent_count (built_grid id Triangle b) 2 <= wmod)%nat) by (rewrite Nc; lia).
  exists b, (centred_externals b), v, u, wmod. split; [exact E|]. split; [exact (flat_flat (built_grid id Triangle b) b)|]. split; [apply centred_proper|]. split; [apply centred_rules|].
  split; [exact Bt|]. split; [unfold wmod; lia|]. split; [exact Mv|]. split.
  { intros points p a Ha. rewrite Bv. unfold hat_basis. destruct a as [|[|[|a]]]; [| | |lia]; cbn [nth]; repeat split; reflexivity. }
  split; [exact Mu|]. split; [exact Cu|].
  destruct (made_settings (centred_externals b) wmod [SetBatch 3] (built_grid id Triangle b) Triangle Sh eq_refl (centred_proper b) (centred_rules b) Bt Ft) as (deg & pts & Dn).
  pose proof (Dn (laplace_single_layer equal_green) _ _ u u S1 S1 Mu Mu (sh_laplace_single reals equal_green)) as D.
  intros m e Em He. refine (equal_definite level id b E deg pts wmod (after [SetBatch 3]) u D (mo_grid _ _ _ Mu) Cu _ rt m L Em e He).
  rewrite (mo_family _ _ _ Mu). apply interior_only_interior.
Qed.
