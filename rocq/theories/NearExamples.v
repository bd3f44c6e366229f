(** * The singular part in two arithmetics: examples *)
From Coq Require Import Reals Lra Qcanon.
From Verif Require Import Base BaseFacts Topology DofMap SpecDof DofExamples Process Space Options Adjacency SpecAdjacency AdjacencyExamples Scalar Integrand CellPair Operators SpecLocal
  LocalResults LocalExamples Interleave Assembly SpecAssembly AssemblySingular AssemblyResults AssemblyExamples SpecDistributed DistributedResults DistributedExamples
  SpecOrder SpecTransfer TransferResults TransferExamples
  SpecScalars ScalarsResults AlgebraExamples ScalarsExamples SpecRounding GradedResults RoundingResults RoundingModels RoundingPositive RoundingExamples SpecNear NearResults.
Local Open Scope R_scope.

(** The second process of the strip of cells on two processes; the first cell of the
    strip is only a ghost there. *)
Definition real_strip_p1 : fspace R R := real_space (strip_p1 1).
Definition real_strip_dp0 : fspace R R := real_space (strip_dp0 1).

Lemma real_member fs : member fs -> member (real_space fs).
Proof.
  intros (N & all & r & [A1 A2 A3 A4 A5] & Hr & <-). exists N, (fun q => real_space (all q)), r. split; [constructor; assumption|]. split; [exact Hr|reflexivity].
Qed.

Lemma real_strip (O : operator R R) : fitting O -> singular_setting real_externals 256 O demo_options (fun _ _ => 2%nat) real_strip_p1 real_strip_dp0.
Proof.
  intros Fo. assert (H1 : (1 < 2)%nat) by lia.
  destruct (part_setting _ _ _ _ _ _ _ _ _ _ _ strip_setting 1 H1) as [A1 A2 A3 A4 A5 A6 A7 A8 A9 A10 A11 A12 A13 A14].
  constructor; try assumption; try (now apply real_member); try exact real_proper.
  intros t s p k _ _ _ _. eexists. reflexivity.
Qed.

Section Same.
Context (u : R) (Hu : 0 <= u < 1) (n : nat).
Lemma real_near_externals : near_externals (real_close u n) (nonzero_close u n) (real_close u n) eq real_externals real_externals.
Proof. destruct (real_externals_close u Hu n) as [_ A B]. constructor; assumption. Qed.
Lemma real_near_kernel (O O' : operator R R) g : kn_value (op_kernel O) = kn_value (op_kernel O') ->
  near_kernel (close u Rabs reals n) real_externals real_externals O O' (fun _ _ => 2%nat) g.
Proof. intros EO t s pairs kind dim q q' p i. intros. rewrite EO. assert (q' = q) by congruence. subst q'. now apply close_refl. Qed.
End Same.

Lemma real_near_points types : near_points_at_most real_externals (fun _ _ => 2%nat) types 2.
Proof. intros t s k d p q _ _ E. injection E as <-. cbn. lia. Qed.

(** The hypersingular operator of the Helmholtz equation with 53 bits. *)
Lemma near_example :
  0 <= half53 < 1 /\ valued reals Rabs /\ rounds half53 Rabs reals (floats 53) /\
  singular_setting real_externals 256 (helmholtz_hypersingular (floats 53) (fun _ => real_green) 3) demo_options (fun _ _ => 2%nat) real_strip_p1 real_strip_dp0 /\
  singular_setting real_externals 256 (helmholtz_hypersingular reals (fun _ => real_green) 3) demo_options (fun _ _ => 2%nat) real_strip_p1 real_strip_dp0 /\
  near_externals (real_close half53 1) (nonzero_close half53 1) (real_close half53 1) eq real_externals real_externals /\
  near_kernel (close half53 Rabs reals 1) real_externals real_externals (helmholtz_hypersingular (floats 53) (fun _ => real_green) 3)
    (helmholtz_hypersingular reals (fun _ => real_green) 3) (fun _ _ => 2%nat) (fs_grid real_strip_p1) /\
  related_basis (close half53 Rabs reals 1) eq (helmholtz_hypersingular (floats 53) (fun _ => real_green) 3) real_strip_p1 real_strip_p1 /\
  related_basis (close half53 Rabs reals 1) eq (helmholtz_hypersingular (floats 53) (fun _ => real_green) 3) real_strip_dp0 real_strip_dp0 /\
  related_form (close half53 Rabs reals 1) (op_integrand (helmholtz_hypersingular (floats 53) (fun _ => real_green) 3))
    (op_integrand (helmholtz_hypersingular reals (fun _ => real_green) 3)) /\
  near_points_at_most real_externals (fun _ _ => 2%nat) (g_types (fs_grid real_strip_p1) 2) 2 /\
  fs_processes real_strip_p1 = 2%nat /\
  match assemble_singular_part qc_scalar strip_externals demo_rt 256 demo_op demo_options (6%nat, 4%nat) (strip_dp0 1) (strip_p1 1) with
  | Ok m => length (triplets m) | _ => 0%nat end = 33%nat.
Proof.
  destruct rounding_example as (Hu & Hv & Hr & _ & _ & _ & _ & _ & _ & Hf & _).
  split; [exact Hu|]. split; [exact Hv|]. split; [exact Hr|].
  split; [apply real_strip; apply (shipped_fitting (floats 53)); constructor|].
  split; [apply real_strip; apply (shipped_fitting reals); constructor|].
  split; [now apply real_near_externals|]. split; [now apply real_near_kernel|]. split; [now apply real_basis_close|]. split; [now apply real_basis_close|].
  split; [exact Hf|]. split; [apply real_near_points|]. split; [reflexivity|]. vm_compute. reflexivity.
Qed.

Lemma near_accuracy_example :
  0 <= half53 < 1 /\ rounds half53 Rabs reals (floats 53) /\
  singular_setting real_externals 256 (laplace_single_layer real_green) demo_options (fun _ _ => 2%nat) real_strip_p1 real_strip_dp0 /\
  near_externals (real_close half53 0) (nonzero_close half53 0) (real_close half53 0) eq real_externals real_externals /\
  near_kernel (close half53 Rabs reals 0) real_externals real_externals (laplace_single_layer real_green) (laplace_single_layer real_green)
    (fun _ _ => 2%nat) (fs_grid real_strip_p1) /\
  related_basis (close half53 Rabs reals 0) eq (laplace_single_layer real_green) real_strip_p1 real_strip_p1 /\
  related_basis (close half53 Rabs reals 0) eq (laplace_single_layer real_green) real_strip_dp0 real_strip_dp0 /\
  near_points_at_most real_externals (fun _ _ => 2%nat) (g_types (fs_grid real_strip_p1) 2) 2 /\
  positive_externals (Rle 0) real_externals /\ (forall x y, 0 <= real_green 0 x y) /\
  positive_basis (Rle 0) real_externals real_strip_p1 /\ positive_basis (Rle 0) real_externals real_strip_dp0.
Proof.
  pose proof half53_range as Hu. split; [exact Hu|]. split; [exact (floats_round 53)|].
  split; [apply real_strip; apply (shipped_fitting reals); constructor|].
  split; [now apply real_near_externals|]. split; [now apply real_near_kernel|]. split; [now apply real_basis_close|]. split; [now apply real_basis_close|].
  split; [apply real_near_points|]. split; [exact real_externals_positive|]. split; [exact real_green_positive|]. split; apply real_basis_positive.
Qed.

(** Rational numbers as complex numbers, with the operator of the examples. *)
Definition complex_op : operator (Qc * Qc) Qc :=
  mkOperator (map_integrand embed (op_integrand demo_op)) (mkKernel (kn_type (op_kernel demo_op)) (fun i x y => embed (kn_value (op_kernel demo_op) i x y)))
    (op_deriv_size demo_op) (op_table_derivs demo_op).

Lemma near_scalars_example :
  scalar_map qc_scalar gauss_scalar embed /\ op_integrand complex_op = map_integrand embed (op_integrand demo_op) /\ mapped_kernel embed demo_op complex_op /\ fitting complex_op /\
  mapped_space embed (strip_p1 1) (complex_space (strip_p1 1)) /\ mapped_space embed (strip_dp0 1) (complex_space (strip_dp0 1)) /\
  singular_setting strip_externals 256 demo_op demo_options (fun _ _ => 2%nat) (strip_p1 1) (strip_dp0 1).
Proof.
  split; [exact embed_map|]. split; [reflexivity|]. split; [intros i x y; reflexivity|].
  split; [destruct demo_fitting as (F1 & F2 & F3); split; [exact F1|split; [exact F2|exact F3]]|].
  split; [constructor; reflexivity|]. split; [constructor; reflexivity|].
  assert (H1 : (1 < 2)%nat) by lia. exact (part_setting _ _ _ _ _ _ _ _ _ _ _ strip_setting 1 H1).
Qed.
