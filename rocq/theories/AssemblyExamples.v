(** * Assembly: examples *)
From Coq Require Import QArith Qcanon.
From Verif Require Import Base BaseFacts Topology TopologyFacts Shapes DofMap DofMapFacts SpecDof DofMapResults DofExamples
  Colouring SpecColour ColouringExamples Process ProcessFacts Space SpecSpace SpaceFacts SpaceScript SpaceResults SpaceExamples Options Batch SpecBatch
  Adjacency SpecAdjacency AdjacencyFacts AdjacencyResults AdjacencyExamples
  Scalar Integrand CellPair Operators SpecLocal LocalFacts LocalResults LocalExamples Interleave Assembly SpecAssembly InterleaveFacts AssemblyFacts
  AssemblyRaces AssemblyValues AssemblySingular AssemblyDense AssemblyExact AssemblyResults.

Local Open Scope nat_scope.

(** A space on one process. *)
Definition serial_dofmap (g : grid) (fam : family) : dofmap :=
  match assign_dofs 0 g fam with Ok dm => dm | _ => mkDofmap [] [] 0 [] end.
Definition make_space (g : grid) (fam : family) : fspace Qc Qc :=
  mkFspace Qc Qc g fam 1 (final_space 1 (fun _ => serial_dofmap g fam) 0) (fun _ => 1)
    (fun t points d p b j => Qcplus (demo_table d p b j) (nth (2 * p) points 0%Qc)).

Lemma make_space_serial g fam : wf_grid g -> wf_family (g_types g 2) fam -> head_dim_pos g fam ->
  (forall d e, g_own g d e = Owned) -> serial_space (make_space g fam).
Proof.
  intros W F P Ow. destruct (assign_dofs_total 0 g fam W F) as (dm & H).
  assert (E : serial_dofmap g fam = dm) by (unfold serial_dofmap; now rewrite H).
  constructor; cbn [make_space fs_grid fs_family fs_space fs_processes final_space sp_dofmap]; auto.
  - now rewrite E.
  - exists synchronous, (final_space 1 (fun _ => serial_dofmap g fam)). split; [|reflexivity]. rewrite E.
    assert (Hno : forall c d i e p x, sub_at g c d i e -> g_own g d e <> Ghost p x) by (intros; rewrite Ow; discriminate).
    apply (eager_completes 1 (fun _ => g) fam).
    + constructor; auto. intros. exfalso. eapply Hno; eauto.
    + intros r Hr. replace r with 0 by lia. exact H.
    + intros r q m key Hr Hin. replace r with 0 in Hin by lia. destruct Hin.
Qed.

Definition demo_rt : runtime Qc := sequential (s_add qc_scalar).

(** Rules with different points and weights. *)
Definition demo_externals : externals Qc := mkExternals Qc
  (fun t n => Some (mkQuadrature (map (fun k => qz (Z.of_nat (k + ref_count t 0))) (seq 0 (2 * n))) (map (fun k => qz (Z.of_nat k)) (seq 1 n))))
  (fun k d p n => Some (mkPairQuadrature (map (fun k => qz (Z.of_nat k)) (seq (length p) (2 * n)))
                          (map (fun k => qz (Z.of_nat k)) (seq (d + 5) (2 * n))) (map (fun k => qz (Z.of_nat k)) (seq 1 n))))
  (fun g t points c => demo_cell c).

Definition demo_options : options :=
  set_batch_size 3 (set_singular_quadrature_degree (Triangle, Triangle) 2
    (set_regular_quadrature_degree Quadrilateral 2 (set_regular_quadrature_degree Triangle 2 default_options))).

(** Piecewise linear and piecewise constant functions on [screen_triangles(2)], and
    the same on another grid object. *)
Definition screen2_p1 : fspace Qc Qc := make_space screen2 (lagrange 1).
Definition screen2_dp0 : fspace Qc Qc := make_space screen2 (interior_only (fun _ => 1)).
Definition other2 : grid := built_grid 1 Triangle screen2_builder.
Definition other2_dp0 : fspace Qc Qc := make_space other2 (interior_only (fun _ => 1)).

Lemma other2_wf : wf_grid other2.
Proof. apply grid_of_cells_wf. apply valid_cells_check; [now left|]. vm_compute. reflexivity. Qed.

Lemma screen2_p1_serial : serial_space screen2_p1.
Proof.
  apply make_space_serial; [apply screen2_wf|apply lagrange_wf_family| |reflexivity].
  intros t0 H. inversion H. cbn. lia.
Qed.
Lemma screen2_dp0_serial : serial_space screen2_dp0.
Proof.
  apply make_space_serial; [apply screen2_wf|apply interior_only_wf_family| |reflexivity].
  intros t0 H. inversion H. cbn. lia.
Qed.
Lemma other2_dp0_serial : serial_space other2_dp0.
Proof.
  apply make_space_serial; [apply other2_wf|apply interior_only_wf_family| |reflexivity].
  intros t0 H. inversion H. cbn. lia.
Qed.

Lemma demo_proper : proper_rules demo_externals.
Proof.
  split.
  - intros t n q H. inversion H; subst. cbn [qd_points qd_weights]. rewrite !map_length, !seq_length. auto.
  - intros k d p n q H. inversion H; subst. cbn [pq_test pq_trial pq_weights]. rewrite !map_length, !seq_length. auto.
Qed.

Lemma demo_fitting : fitting demo_op.
Proof. apply (shipped_fitting qc_scalar). constructor. Qed.

Lemma screen2_fits : conforming screen2 /\ pairs_fit 256 screen2 /\ 2 * ent_count screen2 2 <= 256.
Proof.
  split; [apply conformingb_ok; vm_compute; reflexivity|]. split; [apply pairs_fit_square|]; apply Nat.leb_le; vm_compute; reflexivity.
Qed.

(** Two different spaces on the same grid. *)
Lemma demo_dense : dense_setting demo_externals 256 demo_op demo_options (fun _ _ => 2) (fun _ => 2) Triangle screen2_p1 screen2_dp0.
Proof.
  destruct screen2_fits as (C & F & F').
  constructor; auto using screen2_p1_serial, screen2_dp0_serial, demo_proper, demo_fitting.
  - intros _. reflexivity.
  - reflexivity.
  - reflexivity.
  - intros t _. cbn. lia.
  - intros t _. cbn. lia.
  - intros t [<-|[]]. split; [reflexivity|]. eexists. reflexivity.
  - cbn. lia.
  - apply Nat.ltb_lt. vm_compute. reflexivity.
  - intros _. split; [intros t s [<-|[]] [<-|[]]; reflexivity|]. split; [|auto].
    intros t s p k _ _ _ _. eexists. reflexivity.
Qed.

Lemma demo_dense_other : dense_setting demo_externals 256 demo_op demo_options (fun _ _ => 2) (fun _ => 2) Triangle screen2_p1 other2_dp0.
Proof.
  destruct screen2_fits as (C & F & F').
  constructor; auto using screen2_p1_serial, other2_dp0_serial, demo_proper, demo_fitting.
  - intros E. discriminate.
  - reflexivity.
  - reflexivity.
  - intros t _. cbn. lia.
  - intros t _. cbn. lia.
  - intros t [<-|[]]. split; [reflexivity|]. eexists. reflexivity.
  - cbn. lia.
  - apply Nat.ltb_lt. vm_compute. reflexivity.
  - intros E. discriminate.
Qed.

Lemma demo_singular_setting : singular_setting demo_externals 256 demo_op demo_options (fun _ _ => 2) screen2_p1 screen2_dp0.
Proof.
  exact (dense_singular demo_externals 256 demo_op demo_options (fun _ _ => 2) (fun _ => 2) Triangle screen2_p1 screen2_dp0 demo_dense eq_refl).
Qed.

(** It runs, and the matrix is not zero. *)
Local Notation demo_run := (assemble qc_scalar demo_externals demo_rt 256 demo_op demo_options screen2_dp0 screen2_p1).

Lemma demo_summary : match demo_run with Ok m => (length m, option_map this (nth_error m 1)) | _ => (0, None) end = (72, Some (-8578596 # 1)%Q).
Proof. vm_compute. reflexivity. Qed.

Lemma demo_assembled : exists m x, demo_run = Ok m /\ length m = 72 /\ nth_error m 1 = Some x /\ x <> s_zero qc_scalar.
Proof.
  pose proof demo_summary as H. destruct demo_run as [m| | |]; try discriminate H.
  pose proof (f_equal fst H) as L. pose proof (f_equal snd H) as N. cbn [fst snd] in L, N. clear H.
  destruct (nth_error m 1) as [x|] eqn:Ex; [|discriminate N].
  exists m, x. split; [reflexivity|]. split; [exact L|]. split; [exact Ex|]. intros ->. discriminate N.
Qed.

(** ** Small cells *)

(** The same with cells whose area elements are about [10^-12]: a screen of the size
    of a micrometre, measured in metres. *)
Definition tiny_externals : externals Qc := mkExternals Qc (x_simplex demo_externals) (x_duffy demo_externals)
  (fun g t points c => mkCellMap (cm_point (demo_cell c)) (cm_normal (demo_cell c)) (cm_jacobian (demo_cell c))
     (fun p => Q2Qc (1 # 1000000000000))).
Definition tiny_op : operator Qc Qc := laplace_single_layer (fun _ _ _ => 1%Qc).

Lemma tiny_setting : singular_setting tiny_externals 256 tiny_op demo_options (fun _ _ => 2) screen2_p1 screen2_dp0.
Proof.
  destruct demo_singular_setting as [A B C D E F G H I J K L M N]. constructor; auto.
  - apply (shipped_fitting qc_scalar). constructor.
  - split; [apply (pr_simplex _ H)|apply (pr_duffy _ H)].
Qed.

Local Notation tiny_run := (assemble_singular_part qc_scalar tiny_externals demo_rt 256 tiny_op demo_options
  (global_size (fs_space screen2_p1), global_size (fs_space screen2_dp0)) screen2_dp0 screen2_p1).

Lemma tiny_summary : match tiny_run with
  | Ok m => (existsb (fun v => negb (Qeq_bool (this v) 0)) (sm_data m), existsb qc_large (sm_data m))
  | _ => (false, true)
  end = (true, false).
Proof. vm_compute. reflexivity. Qed.

Lemma tiny_dropped : exists m, tiny_run = Ok m /\ (exists v, In v (sm_data m) /\ v <> s_zero qc_scalar) /\
  assemble_singular qc_scalar tiny_externals demo_rt 256 tiny_op demo_options screen2_dp0 screen2_p1 = Ok (CsrEmpty (sm_shape m)).
Proof.
  pose proof tiny_summary as H. destruct tiny_run as [m| | |] eqn:E; try discriminate H. pose proof (f_equal fst H) as N. pose proof (f_equal snd H) as L. cbn [fst snd] in L, N.
  exists m. split; [reflexivity|]. split.
  - apply existsb_exists in N. destruct N as (v & Hv & N). exists v. split; [exact Hv|]. intros ->. discriminate.
  - apply (proj2 (singular_threshold qc_scalar tiny_externals demo_rt 256 tiny_op demo_options screen2_dp0 screen2_p1 m E)).
    intros v Hv. destruct (s_large qc_scalar v) eqn:Ev; [|reflexivity].
    assert (C : existsb qc_large (sm_data m) = true) by (apply existsb_exists; exists v; split; [exact Hv|exact Ev]).
    rewrite C in L. discriminate.
Qed.

(** ** Triangles and quadrilaterals *)

Definition quad_grid : grid := grid_of_cells 2 Quadrilateral 6 [[0; 1; 2; 3]; [2; 3; 4; 5]].
Definition quad_dp0 : fspace Qc Qc := make_space quad_grid (interior_only (fun _ => 1)).

Lemma quad_dp0_serial : serial_space quad_dp0.
Proof.
  apply make_space_serial; [apply grid_of_cells_wf, valid_cells_check; [now right|vm_compute; reflexivity]|apply interior_only_wf_family| |reflexivity].
  intros t0 H. inversion H. cbn. lia.
Qed.

Lemma quad_panics :
  assemble qc_scalar demo_externals demo_rt 256 demo_op demo_options quad_dp0 screen2_dp0 = Panic.
Proof. vm_compute. reflexivity. Qed.

(** A grid with both, and a copy of it. *)
Definition mixed_copy : grid := {| g_id := 1; g_tdim := g_tdim mixed_grid; g_gdim := g_gdim mixed_grid; g_types := g_types mixed_grid;
  g_count := g_count mixed_grid; g_iter := g_iter mixed_grid; g_ctype := g_ctype mixed_grid; g_sub := g_sub mixed_grid;
  g_conn := g_conn mixed_grid; g_own := g_own mixed_grid |}.
Lemma mixed_copy_wf : wf_grid mixed_copy.
Proof. destruct mixed_grid_wf. constructor; assumption. Qed.

Definition mixed_p1 : fspace Qc Qc := make_space mixed_grid (lagrange 1).
Definition mixed_copy_p1 : fspace Qc Qc := make_space mixed_copy (lagrange 1).
Lemma mixed_p1_serial : serial_space mixed_p1.
Proof.
  apply make_space_serial; [apply mixed_grid_wf|apply lagrange_wf_family| |reflexivity]. intros t0 H. inversion H. cbn. lia.
Qed.
Lemma mixed_copy_p1_serial : serial_space mixed_copy_p1.
Proof.
  apply make_space_serial; [apply mixed_copy_wf|apply lagrange_wf_family| |reflexivity]. intros t0 H. inversion H. cbn. lia.
Qed.

Lemma mixed_reads_outside :
  assemble qc_scalar demo_externals demo_rt 256 demo_op demo_options mixed_copy_p1 mixed_p1 = UB.
Proof. vm_compute. reflexivity. Qed.

(** ** Two processes *)

Definition pair_space (r : nat) : fspace Qc Qc :=
  mkFspace Qc Qc (pair_grid r) (lagrange 1) 2 (final_space 2 pair_dm r) (fun _ => 1)
    (fun t points d p b j => Qcplus (demo_table d p b j) (nth (2 * p) points 0%Qc)).

Lemma pair_distributed : distributed_space 2 pair_space.
Proof.
  destruct pair_facts as (WD & HD & _). constructor; auto.
  exists buffered, (final_space 2 pair_dm). split; [|auto].
  apply (eager_completes 2 pair_grid (lagrange 1) pair_dm WD HD). reflexivity.
Qed.

Lemma pair_setting r : r < 2 ->
  singular_setting demo_externals 256 demo_op demo_options (fun _ _ => 2) (pair_space r) (pair_space r).
Proof.
  intros Hr. assert (M : member (pair_space r)) by (exists 2, pair_space, r; auto using pair_distributed).
  assert (G : conforming (pair_grid r) /\ pairs_fit 256 (pair_grid r)).
  { destruct r as [|[|r]]; [| |lia]; (split; [apply conformingb_ok; vm_compute; reflexivity|apply pairs_fit_square; apply Nat.leb_le; vm_compute; reflexivity]). }
  destruct G as (G1 & G2). constructor.
  - exact M.
  - exact M.
  - reflexivity.
  - destruct r; reflexivity.
  - intros t _. apply Nat.lt_0_1.
  - intros t _. apply Nat.lt_0_1.
  - apply demo_fitting.
  - apply demo_proper.
  - cbn [pair_space fs_grid]. rewrite pair_types. intros t s [<-|[]] [<-|[]]; reflexivity.
  - intros t s p k _ _ _ _. eexists. reflexivity.
  - exact G1.
  - apply Nat.lt_0_succ.
  - apply Nat.ltb_lt. vm_compute. reflexivity.
  - exact G2.
Qed.

(** Process 1 computes the contributions of its own triangle, the pairs (0, 0) and
    (0, 1). *)
Local Notation pair_run := (assemble_singular_part qc_scalar demo_externals demo_rt 256 demo_op demo_options
  (shape_of (pair_space 1) (pair_space 1)) (pair_space 1) (pair_space 1)).

Lemma pair_summary : match pair_run with Ok m => (length (sm_data m), sm_shape m) | _ => (0, (0, 0)) end = (18, (4, 4)).
Proof. vm_compute. reflexivity. Qed.

Lemma pair_assembled : exists m, pair_run = Ok m /\ length (sm_data m) = 18 /\ sm_shape m = (4, 4).
Proof.
  pose proof pair_summary as H. destruct pair_run as [m| | |]; try discriminate H. 
  exists m. split; [reflexivity|]. split; [exact (f_equal fst H)|exact (f_equal snd H)].
Qed.

(** ** The examples and counterexamples together *)

Lemma tiny_refuted : exists (X : externals Qc) (O : operator Qc Qc) o deg test trial m,
  exact qc_scalar /\ legal_runtime (s_add qc_scalar) demo_rt /\ singular_setting X 256 O o deg test trial /\
  assemble_singular_part qc_scalar X demo_rt 256 O o (global_size (fs_space test), global_size (fs_space trial)) trial test = Ok m /\
  (exists v, In v (sm_data m) /\ v <> s_zero qc_scalar) /\
  assemble_singular qc_scalar X demo_rt 256 O o trial test = Ok (CsrEmpty (sm_shape m)).
Proof.
  destruct tiny_dropped as (m & E & V & N).
  exists tiny_externals, tiny_op, demo_options, (fun _ _ => 2), screen2_p1, screen2_dp0, m.
  split; [exact qc_exact|]. split; [apply sequential_legal|]. split; [exact tiny_setting|]. split; [exact E|]. split; [exact V|exact N].
Qed.

Lemma quad_refuted : exists (test trial : fspace Qc Qc),
  serial_space test /\ serial_space trial /\ in_space test /\ in_space trial /\
  g_types (fs_grid test) 2 = [Triangle] /\ g_types (fs_grid trial) 2 = [Quadrilateral] /\
  forall X rt wmod (O : operator Qc Qc) o result, assemble qc_scalar X rt wmod O o trial test <> Ok result.
Proof.
  exists screen2_dp0, quad_dp0. split; [exact screen2_dp0_serial|]. split; [exact quad_dp0_serial|].
  do 4 (split; [reflexivity|]). intros X rt wmod O o result H.
  apply (other_types_fail qc_scalar X rt wmod O o quad_dp0 screen2_dp0
    (repeat (s_zero qc_scalar) (global_size (fs_space screen2_dp0) * global_size (fs_space quad_dp0))) 0 0
    screen2_dp0_serial quad_dp0_serial) with (result := result).
  - apply Nat.ltb_lt. vm_compute. reflexivity.
  - apply Nat.ltb_lt. vm_compute. reflexivity.
  - left. intros [C|[]]. discriminate.
  - rewrite assemble_on_zeros by reflexivity. now f_equal.
Qed.

Lemma Ran_inj {T : Type} (r r' : res (list T)) : Ran r = Ran r' -> r = r'.
Proof. intros H. now injection H. Qed.

Lemma mixed_refuted : exists (X : externals Qc) (O : operator Qc Qc) o pts test trial,
  shipped qc_scalar O /\ serial_space test /\ serial_space trial /\ in_space test /\ in_space trial /\
  g_types (fs_grid test) 2 = [Triangle; Quadrilateral] /\ g_types (fs_grid trial) 2 = [Triangle; Quadrilateral] /\
  proper_rules X /\ has_simplex X o [Triangle; Quadrilateral] pts /\ 0 < get_batch_size o /\
  forall rt, legal_runtime (s_add qc_scalar) rt -> assemble qc_scalar X rt 256 O o trial test = UB.
Proof.
  exists demo_externals, demo_op, demo_options, (fun _ => 2), mixed_p1, mixed_copy_p1.
  split; [constructor|]. split; [exact mixed_p1_serial|]. split; [exact mixed_copy_p1_serial|].
  do 4 (split; [reflexivity|]). split; [exact demo_proper|].
  split; [intros t [<-|[<-|[]]]; (split; [reflexivity|]; eexists; reflexivity)|]. split; [apply Nat.lt_0_succ|].
  intros rt L.
  pose proof (dense_any_schedule qc_scalar demo_externals rt demo_rt 256 demo_op demo_options mixed_copy_p1 mixed_p1
    (repeat (s_zero qc_scalar) (global_size (fs_space mixed_p1) * global_size (fs_space mixed_copy_p1))) L (sequential_legal _)
    mixed_p1_serial mixed_copy_p1_serial) as E.
  rewrite !assemble_on_zeros in E by reflexivity. rewrite mixed_reads_outside in E. exact (Ran_inj _ _ E).
Qed.

Lemma assembly_examples :
  exact qc_scalar /\ legal_runtime (s_add qc_scalar) demo_rt /\
  dense_setting demo_externals 256 demo_op demo_options (fun _ _ => 2) (fun _ => 2) Triangle screen2_p1 screen2_dp0 /\
  singular_setting demo_externals 256 demo_op demo_options (fun _ _ => 2) screen2_p1 screen2_dp0 /\
  (dense_setting demo_externals 256 demo_op demo_options (fun _ _ => 2) (fun _ => 2) Triangle screen2_p1 other2_dp0 /\
   g_id (fs_grid screen2_p1) <> g_id (fs_grid other2_dp0)) /\
  (forall r, r < 2 -> singular_setting demo_externals 256 demo_op demo_options (fun _ _ => 2) (pair_space r) (pair_space r)) /\
  (exists m x, assemble qc_scalar demo_externals demo_rt 256 demo_op demo_options screen2_dp0 screen2_p1 = Ok m /\
    length m = 72 /\ nth_error m 1 = Some x /\ x <> s_zero qc_scalar) /\
  (exists m, assemble_singular_part qc_scalar demo_externals demo_rt 256 demo_op demo_options
      (shape_of (pair_space 1) (pair_space 1)) (pair_space 1) (pair_space 1) = Ok m /\ length (sm_data m) = 18 /\ sm_shape m = (4, 4)).
Proof.
  split; [exact qc_exact|]. split; [apply sequential_legal|]. split; [exact demo_dense|]. split; [exact demo_singular_setting|].
  split; [split; [exact demo_dense_other|discriminate]|]. split; [exact pair_setting|]. split; [exact demo_assembled|exact pair_assembled].
Qed.
