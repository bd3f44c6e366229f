(** * Matrices and their transposes: examples *)
From Coq Require Import QArith Qcanon.
From Verif Require Import Base BaseFacts Topology TopologyFacts Shapes DofMap DofMapFacts SpecDof DofMapResults DofExamples
  Process Space SpecSpace SpaceScript SpaceResults SpaceExamples Options Adjacency SpecAdjacency
  Scalar Integrand CellPair Operators SpecLocal LocalResults LocalExamples Interleave Assembly SpecAssembly
  AssemblyResults AssemblyExamples SpecAlgebra AlgebraExamples SpecExchange ExchangeResults.

Local Open Scope nat_scope.

(** Cells whose maps depend on the point. *)
Definition slanted_cell (points : list Qc) (c : nat) : cell_map Qc :=
  let x p := nth (2 * p) points 0%Qc in let y p := nth (2 * p + 1) points 0%Qc in let z n := qz (Z.of_nat n) in
  mkCellMap (fun p i => x p * z i + y p * z (c + 1)%nat + z (c * i)%nat)%Qc (fun p i => x p + z (c + i)%nat)%Qc
    (fun p i => y p + z (c + i * i)%nat)%Qc (fun p => x p + z (1 + c)%nat)%Qc.

(** Two points, and the same with the two sides exchanged if [both]. *)
Definition one_side (p : vpairs) : list Qc := map (fun k => qz (Z.of_nat (k + length p))) [0; 1; 3; 4].
Definition other_side (p : vpairs) : list Qc := map (fun k => qz (Z.of_nat (k * length p))) [2; 5; 1; 1].
Definition two_weights : list Qc := [qz 1; qz 2].
Definition sided (both : bool) (p : vpairs) : pair_quadrature Qc :=
  if both then mkPairQuadrature (one_side p ++ other_side p) (other_side p ++ one_side p) (two_weights ++ two_weights)
  else mkPairQuadrature (one_side p) (other_side p) two_weights.
Definition sided_externals (both : bool) : externals Qc := mkExternals Qc (x_simplex demo_externals)
  (fun k d p n => Some (sided both p)) (fun g t points c => slanted_cell points c).

Lemma sided_dense both (O : operator Qc Qc) : fitting O ->
  dense_setting (sided_externals both) 256 O demo_options (fun _ _ => 2) (fun _ => 2) Triangle screen2_linear screen2_linear.
Proof.
  intros FO. destruct (linear_dense O FO) as [A1 A2 A3 A4 A5 A6 A7 A8 A9 B1 B2 B3 B4 B5 B6 B7 B8]. constructor; auto.
  - split; [apply B2|]. intros k d p n q E. cbn in E. injection E as <-. now destruct both.
  - intros E. destruct (B8 E) as (C1 & _ & C3 & C4). split; [exact C1|]. split; [|auto]. intros t s p k _ _ _ _. eexists. reflexivity.
Qed.

Lemma slanted_pointwise both g : pointwise_geometry (sided_externals both) g.
Proof.
  intros t l l' c p p' (A & A' & E & E').
  assert (F : nth (2 * p) l 0%Qc = nth (2 * p') l' 0%Qc) by (rewrite <- !nth_default_eq; unfold nth_default; now rewrite E).
  assert (F' : nth (2 * p + 1) l 0%Qc = nth (2 * p' + 1) l' 0%Qc) by (rewrite <- !nth_default_eq; unfold nth_default; now rewrite E').
  cbn [sided_externals x_geometry slanted_cell cm_point cm_normal cm_jacobian cm_jdet]. rewrite F, F'. auto.
Qed.

Lemma linear_pointwise : pointwise_basis screen2_linear.
Proof.
  intros t l l' d p p' b j (A & A' & E & E').
  assert (F : nth (2 * p) l 0%Qc = nth (2 * p') l' 0%Qc) by (rewrite <- !nth_default_eq; unfold nth_default; now rewrite E).
  assert (F' : nth (2 * p + 1) l 0%Qc = nth (2 * p' + 1) l' 0%Qc) by (rewrite <- !nth_default_eq; unfold nth_default; now rewrite E').
  cbn [screen2_linear linear_space fs_basis]. unfold p1_basis. now rewrite F, F'.
Qed.

Lemma both_sides types deg : symmetric_rules (sided_externals true) types deg.
Proof.
  intros t s kind kind' p p' q q' _ _ _ _ P _ _ E E'. cbn in E, E'. injection E as <-. injection E' as <-.
  assert (L : length p' = length p) by (rewrite (Permutation_length P); apply map_length).
  exists [2; 3; 0; 1]. split; [apply NoDup_Permutation|split].
  - repeat constructor; cbn; intuition discriminate.
  - apply seq_NoDup.
  - intros x. cbn. intuition.
  - reflexivity.
  - unfold one_side, other_side. rewrite L. intros k k' H. unfold same_point.
    destruct k as [|[|[|[|k]]]]; cbn in H; try (destruct k; discriminate H); injection H as <-; cbn; repeat split; lia.
Qed.

Lemma both_exchange : exchange_setting (sided_externals true) (fun _ _ => 2) screen2_linear screen2_linear.
Proof. split; [apply both_sides|apply slanted_pointwise|apply linear_pointwise|apply linear_pointwise]. Qed.

Local Notation run both := (assemble qc_scalar (sided_externals both) demo_rt 256 (laplace_single_layer demo_green) demo_options screen2_linear screen2_linear).

(** The matrix is not zero; with one-sided rules it is not symmetric. *)
Lemma both_summary : match run true with Ok m => Qeq_bool (this (nth (1 + 9 * 5) m 0%Qc)) 0 | _ => true end = false.
Proof. vm_compute. reflexivity. Qed.
Lemma one_summary : match run false with
  | Ok m => (length m, Qeq_bool (this (nth (1 + 9 * 5) m 0%Qc)) (this (nth (5 + 9 * 1) m 0%Qc))) | _ => (0, true) end = (81, false).
Proof. vm_compute. reflexivity. Qed.

Lemma exchange_examples :
  exact qc_scalar /\ exact_cast qc_scalar /\ legal_runtime (s_add qc_scalar) demo_rt /\
  (forall O, fitting O -> dense_setting (sided_externals true) 256 O demo_options (fun _ _ => 2) (fun _ => 2) Triangle screen2_linear screen2_linear) /\
  exchange_setting (sided_externals true) (fun _ _ => 2) screen2_linear screen2_linear /\
  symmetric_kernel (mkKernel Value demo_green) /\ antisymmetric_gradient qc_scalar (mkKernel ValueDeriv demo_green) /\
  exists m, run true = Ok m /\ nth (1 + 9 * 5) m 0%Qc <> 0%Qc.
Proof.
  split; [exact qc_exact|]. split; [exact qc_cast|]. split; [apply sequential_legal|]. split; [intros; now apply sided_dense|].
  split; [exact both_exchange|]. split; [apply demo_symmetric|]. split; [exact demo_antisymmetric|].
  pose proof both_summary as H. destruct (run true) as [m| | |]; try discriminate H. exists m. split; [reflexivity|].
  intros E. rewrite E in H. discriminate H.
Qed.

Lemma rules_matter : exists (X : externals Qc) rt wmod (O : operator Qc Qc) o deg pts ct fs m i j x y,
  exact qc_scalar /\ exact_cast qc_scalar /\ legal_runtime (s_add qc_scalar) rt /\ dense_setting X wmod O o deg pts ct fs fs /\
  pointwise_geometry X (fs_grid fs) /\ pointwise_basis fs /\ symmetric_integrand (op_integrand O) /\ symmetric_kernel (op_kernel O) /\
  assemble qc_scalar X rt wmod O o fs fs = Ok m /\ i < global_size (fs_space fs) /\ j < global_size (fs_space fs) /\
  nth_error m (i + global_size (fs_space fs) * j) = Some x /\ nth_error m (j + global_size (fs_space fs) * i) = Some y /\ x <> y.
Proof.
  pose proof one_summary as H. destruct (run false) as [m| | |] eqn:Em; try discriminate H.
  assert (F : fitting (laplace_single_layer (T := Qc) demo_green)) by (apply (shipped_fitting qc_scalar); constructor).
  assert (G9 : global_size (fs_space screen2_linear) = 9) by (vm_compute; reflexivity).
  assert (D := sided_dense false _ F).
  assert (L : length m = 81) by exact (f_equal fst H). apply (f_equal snd) in H. cbn [snd] in H.
  exists (sided_externals false), demo_rt, 256, (laplace_single_layer demo_green), demo_options, (fun _ _ => 2), (fun _ => 2), Triangle, screen2_linear, m, 1, 5,
    (nth (1 + 9 * 5) m 0%Qc), (nth (5 + 9 * 1) m 0%Qc).
  split; [exact qc_exact|]. split; [exact qc_cast|]. split; [apply sequential_legal|]. split; [exact D|].
  split; [apply slanted_pointwise|]. split; [exact linear_pointwise|]. split; [constructor|]. split; [apply demo_symmetric|]. split; [exact Em|].
  rewrite G9. split; [lia|]. split; [lia|]. split; [apply nth_error_nth'; rewrite L; lia|]. split; [apply nth_error_nth'; rewrite L; lia|].
  intros E. rewrite E in H. rewrite (proj2 (Qeq_bool_iff _ _) (Qeq_refl _)) in H. discriminate H.
Qed.
