(** * Accuracy on the built-in shapes: an example *)
From Coq Require Import Reals Lra.
From Verif Require Import Base Topology DofMap SpecDof DofExamples Process Space Shapes SpecShapes ShapesExamples Options Scalar Integrand CellPair Operators SpecLocal Interleave Assembly SpecAssembly
  AssemblyExamples AssemblyResults SpecOrder SpecTransfer SpecScalars SpecRounding RoundingResults RoundingModels RoundingPositive RoundingExamples SpecShapeSpaces SpecCounts CountsExamples
  AlgebraFacts SpecDigits DigitsFacts DigitsResults.
Local Open Scope R_scope.

Lemma screen_carried :
  map (fun i => length (filter (fun c => existsb (Nat.eqb i) (dofs_at real_p1 c)) (seq 0 (ent_count screen2 2)))) (seq 0 9) = [2; 3; 6; 3; 1; 3; 3; 1; 2]%nat.
Proof. vm_compute. reflexivity. Qed.

Lemma digits_example :
  (12 <= 53)%nat /\ shape_grid (fs_grid real_p1) /\ shape_grid (fs_grid real_dp0) /\ standard (fs_family real_p1) /\ standard (fs_family real_dp0) /\
  (exists rt, legal_runtime (s_add (floats 53)) rt) /\ (exists rt, legal_runtime Rplus rt) /\
  dense_setting real_externals 256 (laplace_single_layer real_green) demo_options (fun _ _ => 2%nat) (fun _ => 2%nat) Triangle real_p1 real_dp0 /\
  same_dofs real_p1 real_p1 /\ same_dofs real_dp0 real_dp0 /\
  related_externals (real_close half53 0) (nonzero_close half53 0) (real_close half53 0) eq real_externals real_externals /\
  related_kernel (close half53 Rabs reals 0) real_externals real_externals (laplace_single_layer real_green) (laplace_single_layer real_green)
    (fun _ _ => 2%nat) (fun _ => 2%nat) real_p1 real_dp0 /\
  related_basis (close half53 Rabs reals 0) eq (laplace_single_layer real_green) real_p1 real_p1 /\
  related_basis (close half53 Rabs reals 0) eq (laplace_single_layer real_green) real_dp0 real_dp0 /\
  points_at_most real_externals (fun _ _ => 2%nat) (fun _ => 2%nat) Triangle 4 /\ (7 * 0 + 42 + 4 <= 2 ^ 11)%nat /\
  positive_externals (Rle 0) real_externals /\ (forall x y, 0 <= real_green 0 x y) /\
  positive_basis (Rle 0) real_externals real_p1 /\ positive_basis (Rle 0) real_externals real_dp0 /\
  cells_per_dof Triangle (fs_family real_p1) 6 /\ cells_per_dof Triangle (fs_family real_dp0) 1.
Proof.
  destruct accuracy_example as (_ & _ & D & A & B & C & E & F & G & H & I & J).
  destruct counts_example as (SG & _).
  split; [lia|]. split; [exact SG|]. split; [exact SG|]. split; [apply standard_continuous; lia|]. split; [apply standard_discontinuous; auto with arith|].
  split; [exists (sequential (s_add (floats 53))); apply sequential_legal|]. split; [exists (sequential Rplus); apply sequential_legal|].
  split; [exact D|]. split; [repeat split|]. split; [repeat split|]. split; [exact A|]. split; [exact B|]. split; [exact C|]. split; [exact E|]. split; [exact F|].
  split; [cbn; lia|]. split; [exact G|]. split; [exact H|]. split; [exact I|]. split; [exact J|]. split; [now constructor|constructor].
Qed.
