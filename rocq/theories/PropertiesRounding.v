(** * Properties C71 and C72: rounding errors *)
From Coq Require Import Reals.
From Verif Require Import Base Topology DofMap Space Options Scalar Integrand CellPair Operators SpecLocal Interleave Assembly SpecAssembly
  SpecOrder SpecTransfer SpecScalars SpecRounding RoundingResults RoundingModels RoundingPositive AssemblyExamples RoundingExamples.
Local Open Scope R_scope.

(** C71: each entry of the matrix that the assembly computes with relative errors of
    at most [u], from data with [n] roundings, differs from the exact entry by at
    most [(1 - u)^-N - 1] times the entry computed from absolute values.  [N] counts the
    roundings in the integrand, the points of the rules and the contributions to the
    entry; it does not depend on schedules, batch sizes and numbers of threads. *)
Theorem C71_rounding_error : forall (T : Type) u, 0 <= u < 1 -> forall (norm : T -> R) (E S : scalar T R), valued E norm -> rounds u norm E S ->
  forall (X X' : externals R) wmod wmod' (O O' : operator T R) o o' deg pts ct (test trial test' trial' : fspace T R) relP rt rt' rt'' n P,
  legal_runtime (s_add S) rt -> legal_runtime (s_add E) rt' -> legal_runtime Rplus rt'' ->
  dense_setting X wmod O o deg pts ct test trial -> dense_setting X' wmod' O' o' deg pts ct test' trial' ->
  same_dofs test test' -> same_dofs trial trial' ->
  related_externals (real_close u n) (nonzero_close u n) (real_close u n) relP X X' ->
  related_kernel (close u norm E n) X X' O O' deg pts test trial ->
  related_basis (close u norm E n) relP O test test' -> related_basis (close u norm E n) relP O trial trial' ->
  related_form (close u norm E n) (op_integrand O) (op_integrand O') -> points_at_most X deg pts ct P ->
  exists m e a,
    assemble S X rt wmod O o trial test = Ok m /\ assemble E X' rt' wmod' O' o' trial' test' = Ok e /\
    assemble absolute X' rt'' wmod' (absolute_operator norm O') o' (absolute_space norm trial') (absolute_space norm test') = Ok a /\
    length m = (global_size (fs_space test) * global_size (fs_space trial))%nat /\ length e = length m /\ length a = length m /\
    forall i j, (i < global_size (fs_space test))%nat -> (j < global_size (fs_space trial))%nat ->
      exists ks x y z, NoDup ks /\ (forall k, In k ks <-> contributes test trial i j k) /\
        nth_error m (i + global_size (fs_space test) * j) = Some x /\ nth_error e (i + global_size (fs_space test) * j) = Some y /\
        nth_error a (i + global_size (fs_space test) * j) = Some z /\ norm y <= z /\
        norm (s_sub E x y) <= (growth u (roundings n (op_integrand O) + 4 * n + 4 + P + length ks) - 1) * z.
Proof. exact (@rounding_error). Qed.
Print Assumptions C71_rounding_error.

(** The factor is at most [N u / (1 - N u)]. *)
Theorem C71_growth : forall u n, 0 <= u -> INR n * u < 1 -> u < 1 -> growth u n - 1 <= INR n * u / (1 - INR n * u).
Proof. exact growth_bound. Qed.
Print Assumptions C71_growth.

(** The real and the complex numbers, numbers with mantissas of [p] bits, and complex
    numbers whose parts are such numbers. *)
Theorem C71_real_numbers : valued reals Rabs.
Proof. exact reals_valued. Qed.
Print Assumptions C71_real_numbers.
Theorem C71_complex_numbers : valued complexes cnorm.
Proof. exact complexes_valued. Qed.
Print Assumptions C71_complex_numbers.
Theorem C71_floats : forall p, rounds ((/ 2) ^ p) Rabs reals (floats p).
Proof. exact floats_round. Qed.
Print Assumptions C71_floats.
Theorem C71_complex_arithmetic : forall u, 0 <= u < 1 -> forall S, rounds u Rabs reals S -> rounds (growth u 5 - 1) cnorm complexes (complex_of S).
Proof. exact complex_rounds. Qed.
Print Assumptions C71_complex_arithmetic.

(** Non-vacuity: the hypersingular operator of the Helmholtz equation with 53 bits. *)
Example C71_hypotheses_met :
  0 <= half53 < 1 /\ valued reals Rabs /\ rounds half53 Rabs reals (floats 53) /\
  dense_setting real_externals 256 (helmholtz_hypersingular (floats 53) (fun _ => real_green) 3) demo_options (fun _ _ => 2%nat) (fun _ => 2%nat) Triangle real_p1 real_dp0 /\
  dense_setting real_externals 256 (helmholtz_hypersingular reals (fun _ => real_green) 3) demo_options (fun _ _ => 2%nat) (fun _ => 2%nat) Triangle real_p1 real_dp0 /\
  related_externals (real_close half53 1) (nonzero_close half53 1) (real_close half53 1) eq real_externals real_externals /\
  related_kernel (close half53 Rabs reals 1) real_externals real_externals (helmholtz_hypersingular (floats 53) (fun _ => real_green) 3)
    (helmholtz_hypersingular reals (fun _ => real_green) 3) (fun _ _ => 2%nat) (fun _ => 2%nat) real_p1 real_dp0 /\
  related_basis (close half53 Rabs reals 1) eq (helmholtz_hypersingular (floats 53) (fun _ => real_green) 3) real_p1 real_p1 /\
  related_basis (close half53 Rabs reals 1) eq (helmholtz_hypersingular (floats 53) (fun _ => real_green) 3) real_dp0 real_dp0 /\
  related_form (close half53 Rabs reals 1) (op_integrand (helmholtz_hypersingular (floats 53) (fun _ => real_green) 3))
    (op_integrand (helmholtz_hypersingular reals (fun _ => real_green) 3)) /\
  points_at_most real_externals (fun _ _ => 2%nat) (fun _ => 2%nat) Triangle 4 /\
  global_size (fs_space real_p1) = 9%nat /\ global_size (fs_space real_dp0) = 8%nat.
Proof. exact rounding_example. Qed.

(** C72: the entries of the single layer matrix have small relative errors if no
    data are negative. *)
Theorem C72_single_layer_accuracy : forall u, 0 <= u < 1 -> forall (S : scalar R R), rounds u Rabs reals S ->
  forall (X X' : externals R) wmod wmod' (G G' : green) o o' deg pts ct (test trial test' trial' : fspace R R) relP rt rt' n P,
  legal_runtime (s_add S) rt -> legal_runtime Rplus rt' ->
  dense_setting X wmod (laplace_single_layer G) o deg pts ct test trial -> dense_setting X' wmod' (laplace_single_layer G') o' deg pts ct test' trial' ->
  same_dofs test test' -> same_dofs trial trial' ->
  related_externals (real_close u n) (nonzero_close u n) (real_close u n) relP X X' ->
  related_kernel (close u Rabs reals n) X X' (laplace_single_layer G) (laplace_single_layer G') deg pts test trial ->
  related_basis (close u Rabs reals n) relP (laplace_single_layer G) test test' -> related_basis (close u Rabs reals n) relP (laplace_single_layer G) trial trial' ->
  points_at_most X deg pts ct P ->
  positive_externals (Rle 0) X' -> (forall x y, 0 <= G' 0%nat x y) -> positive_basis (Rle 0) X' test' -> positive_basis (Rle 0) X' trial' ->
  exists m e,
    assemble S X rt wmod (laplace_single_layer G) o trial test = Ok m /\ assemble reals X' rt' wmod' (laplace_single_layer G') o' trial' test' = Ok e /\
    length m = (global_size (fs_space test) * global_size (fs_space trial))%nat /\ length e = length m /\
    forall i j, (i < global_size (fs_space test))%nat -> (j < global_size (fs_space trial))%nat ->
      exists ks x y, NoDup ks /\ (forall k, In k ks <-> contributes test trial i j k) /\
        nth_error m (i + global_size (fs_space test) * j) = Some x /\ nth_error e (i + global_size (fs_space test) * j) = Some y /\ 0 <= y /\
        Rabs (x - y) <= (growth u (7 * n + 6 + P + length ks) - 1) * y.
Proof. exact single_layer_accuracy. Qed.
Print Assumptions C72_single_layer_accuracy.

Example C72_hypotheses_met :
  0 <= half53 < 1 /\ rounds half53 Rabs reals (floats 53) /\
  dense_setting real_externals 256 (laplace_single_layer real_green) demo_options (fun _ _ => 2%nat) (fun _ => 2%nat) Triangle real_p1 real_dp0 /\
  related_externals (real_close half53 0) (nonzero_close half53 0) (real_close half53 0) eq real_externals real_externals /\
  related_kernel (close half53 Rabs reals 0) real_externals real_externals (laplace_single_layer real_green) (laplace_single_layer real_green)
    (fun _ _ => 2%nat) (fun _ => 2%nat) real_p1 real_dp0 /\
  related_basis (close half53 Rabs reals 0) eq (laplace_single_layer real_green) real_p1 real_p1 /\
  related_basis (close half53 Rabs reals 0) eq (laplace_single_layer real_green) real_dp0 real_dp0 /\
  points_at_most real_externals (fun _ _ => 2%nat) (fun _ => 2%nat) Triangle 4 /\
  positive_externals (Rle 0) real_externals /\ (forall x y, 0 <= real_green 0 x y) /\
  positive_basis (Rle 0) real_externals real_p1 /\ positive_basis (Rle 0) real_externals real_dp0.
Proof. exact accuracy_example. Qed.
