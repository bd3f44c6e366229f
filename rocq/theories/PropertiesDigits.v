(** * Property C113: the accuracy does not get worse with refinement *)
From Coq Require Import Reals.
From Verif Require Import Base Topology DofMap SpecDof DofExamples Process Space Shapes SpecShapes Options Scalar Integrand CellPair Operators SpecLocal Interleave Assembly SpecAssembly
  SpecOrder SpecTransfer SpecScalars SpecRounding RoundingResults RoundingModels AssemblyExamples RoundingExamples SpecShapeSpaces SpecCounts
  SpecDigits DigitsFacts DigitsResults DigitsExamples.
Local Open Scope R_scope.

(** C113: a DOF belongs to the cells that contain its entity. *)
Theorem C113_cells_of_dof : forall (T R : Type) (fs : fspace T R) d e k i, serial_space fs -> listed (sp_dofmap (fs_space fs)) d e k i ->
  forall c, carried fs i c <-> contains (fs_grid fs) c d e.
Proof. exact (@carried_entity). Qed.
Print Assumptions C113_cells_of_dof.

(** On the sphere these are four or six cells for the DOFs of vertices, at every level. *)
Theorem C113_sphere : forall (T R : Type) Rm L b i (fs : fspace T R) v k n,
  regular_sphere Rm L 1 = Ok b -> fs_grid fs = built_grid i Triangle b -> serial_space fs ->
  (v < 2 + 4 ^ (L + 1))%nat -> listed (sp_dofmap (fs_space fs)) 0 v k n -> exactly (if (v <? 6)%nat then 4 else 6) (carried fs n).
Proof. exact (@vertex_dof). Qed.
Print Assumptions C113_sphere.

(** On all shapes there are at most six cells of triangles, four quadrilaterals, or
    one cell if the space is discontinuous. *)
Theorem C113_cells : forall (T R : Type) (fs : fspace T R) t k i,
  shape_grid (fs_grid fs) -> serial_space fs -> g_types (fs_grid fs) 2 = [t] -> cells_per_dof t (fs_family fs) k -> at_most k (carried fs i).
Proof. exact (@shape_carried). Qed.
Print Assumptions C113_cells.

(** The number of terms of an entry is the product of the numbers of cells. *)
Theorem C113_terms : forall (T R : Type) (test trial : fspace T R) i j k m, serial_space test -> serial_space trial ->
  exactly k (carried test i) -> exactly m (carried trial j) -> exactly (k * m) (contributes test trial i j).
Proof. exact (@terms_exactly). Qed.
Print Assumptions C113_terms.

Theorem C113_terms_bounded : forall (T R : Type) (test trial : fspace T R) t i j k m,
  shape_grid (fs_grid test) -> shape_grid (fs_grid trial) -> serial_space test -> serial_space trial ->
  g_types (fs_grid test) 2 = [t] -> g_types (fs_grid trial) 2 = [t] -> cells_per_dof t (fs_family test) k -> cells_per_dof t (fs_family trial) m ->
  at_most (k * m) (contributes test trial i j).
Proof. exact (@shape_terms). Qed.
Print Assumptions C113_terms_bounded.

(** Hence the bound of C71 on the rounding errors is the same for all refinement
    levels and all degrees of the elements ... *)
Theorem C113_error : forall (T : Type) u, 0 <= u < 1 -> forall (norm : T -> R) (E S : scalar T R), valued E norm -> rounds u norm E S ->
  forall (X X' : externals R) wmod wmod' (O O' : operator T R) o o' deg pts ct (test trial test' trial' : fspace T R) relP rt rt' rt'' n P,
  shape_grid (fs_grid test) -> shape_grid (fs_grid trial) -> standard (fs_family test) -> standard (fs_family trial) ->
  legal_runtime (s_add S) rt -> legal_runtime (s_add E) rt' -> legal_runtime Rplus rt'' ->
  dense_setting X wmod O o deg pts ct test trial -> dense_setting X' wmod' O' o' deg pts ct test' trial' ->
  same_dofs test test' -> same_dofs trial trial' ->
  related_externals (real_close u n) (nonzero_close u n) (real_close u n) relP X X' ->
  related_kernel (close u norm E n) X X' O O' deg pts test trial ->
  related_basis (close u norm E n) relP O test test' -> related_basis (close u norm E n) relP O trial trial' ->
  related_form (close u norm E n) (op_integrand O) (op_integrand O') -> points_at_most X deg pts ct P ->
  exists m e a,
    assemble S X rt wmod O o trial test = Ok m /\ assemble E X' rt' wmod' O' o' trial' test' = Ok e /\
    assemble absolute X' rt'' wmod' (absolute_operator norm O') o' (absolute_space norm trial') (absolute_space norm test') = Ok a /\
    length e = length m /\ length a = length m /\
    forall k x y z, nth_error m k = Some x -> nth_error e k = Some y -> nth_error a k = Some z ->
      norm y <= z /\ norm (s_sub E x y) <= (growth u (roundings n (op_integrand O) + 4 * n + 40 + P) - 1) * z.
Proof. exact shape_error. Qed.
Print Assumptions C113_error.

(** ... and so is the bound of C72 on the relative errors of the single layer matrix. *)
Theorem C113_accuracy : forall u, 0 <= u < 1 -> forall (S : scalar R R), rounds u Rabs reals S ->
  forall (X X' : externals R) wmod wmod' (G G' : green) o o' deg pts ct (test trial test' trial' : fspace R R) relP rt rt' n P,
  shape_grid (fs_grid test) -> shape_grid (fs_grid trial) -> standard (fs_family test) -> standard (fs_family trial) ->
  legal_runtime (s_add S) rt -> legal_runtime Rplus rt' ->
  dense_setting X wmod (laplace_single_layer G) o deg pts ct test trial -> dense_setting X' wmod' (laplace_single_layer G') o' deg pts ct test' trial' ->
  same_dofs test test' -> same_dofs trial trial' ->
  related_externals (real_close u n) (nonzero_close u n) (real_close u n) relP X X' ->
  related_kernel (close u Rabs reals n) X X' (laplace_single_layer G) (laplace_single_layer G') deg pts test trial ->
  related_basis (close u Rabs reals n) relP (laplace_single_layer G) test test' -> related_basis (close u Rabs reals n) relP (laplace_single_layer G) trial trial' ->
  points_at_most X deg pts ct P ->
  positive_externals (Rle 0) X' -> (forall x y, 0 <= G' 0%nat x y) -> positive_basis (Rle 0) X' test' -> positive_basis (Rle 0) X' trial' ->
  exists m e,
    assemble S X rt wmod (laplace_single_layer G) o trial test = Ok m /\ assemble reals X' rt' wmod' (laplace_single_layer G') o' trial' test' = Ok e /\
    length e = length m /\
    forall k x y, nth_error m k = Some x -> nth_error e k = Some y -> 0 <= y /\ within_part (growth u (7 * n + 42 + P) - 1) x y.
Proof. exact shape_accuracy. Qed.
Print Assumptions C113_accuracy.

(** In numbers: twelve bits at most are lost if the sums over the points have at most [2^11 - 42]
    terms, so that 41 bits of the numbers with 53 bits are right. *)
Theorem C113_digits : forall p, (12 <= p)%nat ->
  forall (X X' : externals R) wmod wmod' (G G' : green) o o' deg pts ct (test trial test' trial' : fspace R R) relP rt rt' n P,
  shape_grid (fs_grid test) -> shape_grid (fs_grid trial) -> standard (fs_family test) -> standard (fs_family trial) ->
  legal_runtime (s_add (floats p)) rt -> legal_runtime Rplus rt' ->
  dense_setting X wmod (laplace_single_layer G) o deg pts ct test trial -> dense_setting X' wmod' (laplace_single_layer G') o' deg pts ct test' trial' ->
  same_dofs test test' -> same_dofs trial trial' ->
  related_externals (real_close ((/ 2) ^ p) n) (nonzero_close ((/ 2) ^ p) n) (real_close ((/ 2) ^ p) n) relP X X' ->
  related_kernel (close ((/ 2) ^ p) Rabs reals n) X X' (laplace_single_layer G) (laplace_single_layer G') deg pts test trial ->
  related_basis (close ((/ 2) ^ p) Rabs reals n) relP (laplace_single_layer G) test test' ->
  related_basis (close ((/ 2) ^ p) Rabs reals n) relP (laplace_single_layer G) trial trial' ->
  points_at_most X deg pts ct P -> (7 * n + 42 + P <= 2 ^ 11)%nat ->
  positive_externals (Rle 0) X' -> (forall x y, 0 <= G' 0%nat x y) -> positive_basis (Rle 0) X' test' -> positive_basis (Rle 0) X' trial' ->
  exists m e,
    assemble (floats p) X rt wmod (laplace_single_layer G) o trial test = Ok m /\ assemble reals X' rt' wmod' (laplace_single_layer G') o' trial' test' = Ok e /\
    length e = length m /\
    forall k x y, nth_error m k = Some x -> nth_error e k = Some y -> 0 <= y /\ within_part ((/ 2) ^ (p - 12)) x y.
Proof. exact shape_digits. Qed.
Print Assumptions C113_digits.

(** Non-vacuity: a screen of eight triangles, and how many cells each DOF has there. *)
Example C113_hypotheses_met : (
(12 <= 53)%nat /\ shape_grid (fs_grid real_p1) /\ shape_grid (fs_grid real_dp0) /\ standard (fs_family real_p1) /\ standard (fs_family real_dp0) /\
  (exists rt, legal_runtime (s_add (floats 53)) rt) /\ (exists rt, legal_runtime Rplus rt) /\
  dense_setting real_externals 256 (laplace_single_layer real_green) demo_options (fun _ _ => 2%nat) (fun _ => 2%nat) Triangle real_p1 real_dp0 /\
  same_dofs real_p1 real_p1 /\ same_dofs real_dp0 real_dp0 /\
  related_externals (real_close half53 0) (nonzero_close half53 0) (real_close half53 0) eq real_externals real_externals /\
  related_kernel (close half53 Rabs reals 0) real_externals real_externals (laplace_single_layer real_green) (laplace_single_layer real_green)
    (fun _ _ => 2%nat) (fun _ => 2%nat) real_p1 real_dp0 /\
  related_basis (close half53 Rabs reals 0) eq (laplace_single_layer real_green) real_p1 real_p1 /\
  related_basis (close half53 Rabs reals 0) eq (laplace_single_layer real_green) real_dp0 real_dp0 /\
  points_at_most real_externals (fun _ _ => 2%nat) (fun _ => 2%nat) Triangle 4 /\ (7 * 0 + 42 + 4 <= 2 ^ 11)%nat /\
  positive_externals (Rle 0) real_externals /\ (forall x y, 0 <= real_green 0 x y) /\
  positive_basis (Rle 0) real_externals real_p1 /\ positive_basis (Rle 0) real_externals real_dp0 /\
  cells_per_dof Triangle (fs_family real_p1) 6 /\ cells_per_dof Triangle (fs_family real_dp0) 1) /\
  map (fun i => length (filter (fun c => existsb (Nat.eqb i) (dofs_at real_p1 c)) (seq 0 (ent_count screen2 2)))) (seq 0 9) = [2; 3; 6; 3; 1; 3; 3; 1; 2]%nat.
Proof. exact (conj digits_example screen_carried). Qed.
