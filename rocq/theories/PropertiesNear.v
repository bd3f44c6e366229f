(** * Property C105: the singular part in two arithmetics *)
From Coq Require Import Reals Qcanon.
From Verif Require Import Base Topology DofMap Space Options Scalar Integrand CellPair Operators SpecLocal Interleave Assembly SpecAssembly AssemblySingular
  SpecOrder SpecTransfer SpecScalars SpecRounding SpecNear NearResults LocalExamples AssemblyExamples DistributedExamples ScalarsExamples RoundingModels RoundingExamples NearExamples.
Local Open Scope nat_scope.

(** C105: two arithmetics whose numbers are related and whose operations respect the
    relation give singular parts with the same triplets in the same order, and related
    values, on every process and for all types of cells.  Only the Duffy rules, the
    geometry and the kernel at their points have to be related. *)
Theorem C105_transfer : forall (T R T' R' : Type) (relT : T -> T' -> Prop) (relR relD relN : R -> R' -> Prop) (relP : list R -> list R' -> Prop)
    (S : scalar T R) (S' : scalar T' R'), related_arithmetic relT relR relD S S' ->
  forall X X' wmod wmod' O O' o o' deg (test trial : fspace T R) (test' trial' : fspace T' R') rt rt',
  legal_runtime (s_add S) rt -> legal_runtime (s_add S') rt' ->
  singular_setting X wmod O o deg test trial -> singular_setting X' wmod' O' o' deg test' trial' ->
  same_dofs test test' -> same_dofs trial trial' ->
  near_externals relR relD relN relP X X' -> near_kernel relT X X' O O' deg (fs_grid test) ->
  related_basis relT relP O test test' -> related_basis relT relP O trial trial' ->
  related_integrand relT relD relN S S' (op_integrand O) (op_integrand O') ->
  exists m m', assemble_singular_part S X rt wmod O o (shape_of test trial) trial test = Ok m /\
    assemble_singular_part S' X' rt' wmod' O' o' (shape_of test' trial') trial' test' = Ok m' /\
    sm_shape m = shape_of test trial /\ related_parts relT m m'.
Proof. exact (@near_transfer). Qed.
Print Assumptions C105_transfer.

(** A map of scalars that respects the operations is applied to every value. *)
Theorem C105_change_of_scalars : forall (T T' R : Type) (S : scalar T R) (S' : scalar T' R) (f : T -> T') (X : externals R)
    wmod O O' o deg test trial test' trial' rt rt',
  scalar_map S S' f -> legal_runtime (s_add S) rt -> legal_runtime (s_add S') rt' ->
  op_integrand O' = map_integrand f (op_integrand O) -> mapped_kernel f O O' -> fitting O' ->
  mapped_space f test test' -> mapped_space f trial trial' -> singular_setting X wmod O o deg test trial ->
  exists m m', assemble_singular_part S X rt wmod O o (shape_of test trial) trial test = Ok m /\
    assemble_singular_part S' X rt' wmod O' o (shape_of test' trial') trial' test' = Ok m' /\
    sm_shape m = shape_of test trial /\ sm_shape m' = sm_shape m /\ sm_rows m' = sm_rows m /\ sm_cols m' = sm_cols m /\ sm_data m' = map f (sm_data m).
Proof. exact (@near_scalars). Qed.
Print Assumptions C105_change_of_scalars.

(** Non-vacuity: the second of two processes, complex numbers with rational parts. *)
Example C105_scalars_met :
  scalar_map qc_scalar gauss_scalar embed /\ op_integrand complex_op = map_integrand embed (op_integrand demo_op) /\ mapped_kernel embed demo_op complex_op /\ fitting complex_op /\
  mapped_space embed (strip_p1 1) (complex_space (strip_p1 1)) /\ mapped_space embed (strip_dp0 1) (complex_space (strip_dp0 1)) /\
  singular_setting strip_externals 256 demo_op demo_options (fun _ _ => 2) (strip_p1 1) (strip_dp0 1).
Proof. exact near_scalars_example. Qed.

Local Open Scope R_scope.

(** Each value that is computed with relative errors of at most [u], from data with
    [n] roundings, differs from the exact value by at most [(1 - u)^-N - 1] times the
    value computed from absolute values, where [N] counts the roundings in the
    integrand and the points of the rules. *)
Theorem C105_rounding_error : forall (T : Type) u, 0 <= u < 1 -> forall (norm : T -> R) (E S : scalar T R), valued E norm -> rounds u norm E S ->
  forall (X X' : externals R) wmod wmod' (O O' : operator T R) o o' deg (test trial test' trial' : fspace T R) relP rt rt' rt'' n P,
  legal_runtime (s_add S) rt -> legal_runtime (s_add E) rt' -> legal_runtime Rplus rt'' ->
  singular_setting X wmod O o deg test trial -> singular_setting X' wmod' O' o' deg test' trial' ->
  same_dofs test test' -> same_dofs trial trial' ->
  near_externals (real_close u n) (nonzero_close u n) (real_close u n) relP X X' ->
  near_kernel (close u norm E n) X X' O O' deg (fs_grid test) ->
  related_basis (close u norm E n) relP O test test' -> related_basis (close u norm E n) relP O trial trial' ->
  related_form (close u norm E n) (op_integrand O) (op_integrand O') -> near_points_at_most X deg (g_types (fs_grid test) 2) P ->
  exists m e a,
    assemble_singular_part S X rt wmod O o (shape_of test trial) trial test = Ok m /\
    assemble_singular_part E X' rt' wmod' O' o' (shape_of test' trial') trial' test' = Ok e /\
    assemble_singular_part absolute X' rt'' wmod' (absolute_operator norm O') o' (shape_of test' trial')
      (absolute_space norm trial') (absolute_space norm test') = Ok a /\
    related_parts (fun y z => norm y <= z) e a /\
    sm_shape e = sm_shape m /\ sm_rows e = sm_rows m /\ sm_cols e = sm_cols m /\ length (sm_data e) = length (sm_data m) /\
    forall k x y z, nth_error (sm_data m) k = Some x -> nth_error (sm_data e) k = Some y -> nth_error (sm_data a) k = Some z ->
      norm (s_sub E x y) <= (growth u (roundings n (op_integrand O) + 4 * n + 4 + P) - 1) * z.
Proof. exact (@near_rounding_error). Qed.
Print Assumptions C105_rounding_error.

(** Non-vacuity: the second of two processes, the hypersingular operator of the
    Helmholtz equation with 53 bits; there are 33 triplets. *)
Example C105_hypotheses_met :
  0 <= half53 < 1 /\ valued reals Rabs /\ rounds half53 Rabs reals (floats 53) /\
  singular_setting real_externals 256 (helmholtz_hypersingular (floats 53) (fun _ => real_green) 3) demo_options (fun _ _ => 2%nat) real_strip_p1 real_strip_dp0 /\
  singular_setting real_externals 256 (helmholtz_hypersingular reals (fun _ => real_green) 3) demo_options (fun _ _ => 2%nat) real_strip_p1 real_strip_dp0 /\
  near_externals (real_close half53 1) (nonzero_close half53 1) (real_close half53 1) eq real_externals real_externals /\
  near_kernel (close half53 Rabs reals 1) real_externals real_externals (helmholtz_hypersingular (floats 53) (fun _ => real_green) 3)
    (helmholtz_hypersingular reals (fun _ => real_green) 3) (fun _ _ => 2%nat) (fs_grid real_strip_p1) /\
  related_basis (close half53 Rabs reals 1) eq (helmholtz_hypersingular (floats 53) (fun _ => real_green) 3) real_strip_p1 real_strip_p1 /\
  related_basis (close half53 Rabs reals 1) eq (helmholtz_hypersingular (floats 53) (fun _ => real_green) 3) real_strip_dp0 real_strip_dp0 /\
  related_form (close half53 Rabs reals 1) (op_integrand (helmholtz_hypersingular (floats 53) (fun _ => real_green) 3))
    (op_integrand (helmholtz_hypersingular reals (fun _ => real_green) 3)) /\
  near_points_at_most real_externals (fun _ _ => 2%nat) (g_types (fs_grid real_strip_p1) 2) 2 /\
  fs_processes real_strip_p1 = 2%nat /\
  match assemble_singular_part qc_scalar strip_externals demo_rt 256 demo_op demo_options (6%nat, 4%nat) (strip_dp0 1) (strip_p1 1) with
  | Ok m => length (triplets m) | _ => 0%nat end = 33%nat.
Proof. exact near_example. Qed.

(** The values of the single layer operator have small relative errors if no data are
    negative. *)
Theorem C105_single_layer_accuracy : forall u, 0 <= u < 1 -> forall (S : scalar R R), rounds u Rabs reals S ->
  forall (X X' : externals R) wmod wmod' (G G' : green) o o' deg (test trial test' trial' : fspace R R) relP rt rt' n P,
  legal_runtime (s_add S) rt -> legal_runtime Rplus rt' ->
  singular_setting X wmod (laplace_single_layer G) o deg test trial -> singular_setting X' wmod' (laplace_single_layer G') o' deg test' trial' ->
  same_dofs test test' -> same_dofs trial trial' ->
  near_externals (real_close u n) (nonzero_close u n) (real_close u n) relP X X' ->
  near_kernel (close u Rabs reals n) X X' (laplace_single_layer G) (laplace_single_layer G') deg (fs_grid test) ->
  related_basis (close u Rabs reals n) relP (laplace_single_layer G) test test' -> related_basis (close u Rabs reals n) relP (laplace_single_layer G) trial trial' ->
  near_points_at_most X deg (g_types (fs_grid test) 2) P ->
  positive_externals (Rle 0) X' -> (forall x y, 0 <= G' 0%nat x y) -> positive_basis (Rle 0) X' test' -> positive_basis (Rle 0) X' trial' ->
  exists m e,
    assemble_singular_part S X rt wmod (laplace_single_layer G) o (shape_of test trial) trial test = Ok m /\
    assemble_singular_part reals X' rt' wmod' (laplace_single_layer G') o' (shape_of test' trial') trial' test' = Ok e /\
    related_parts (fun x y => 0 <= y /\ Rabs (x - y) <= (growth u (7 * n + 6 + P) - 1) * y) m e.
Proof. exact near_single_layer_accuracy. Qed.
Print Assumptions C105_single_layer_accuracy.

Example C105_accuracy_met :
  0 <= half53 < 1 /\ rounds half53 Rabs reals (floats 53) /\
  singular_setting real_externals 256 (laplace_single_layer real_green) demo_options (fun _ _ => 2%nat) real_strip_p1 real_strip_dp0 /\
  near_externals (real_close half53 0) (nonzero_close half53 0) (real_close half53 0) eq real_externals real_externals /\
  near_kernel (close half53 Rabs reals 0) real_externals real_externals (laplace_single_layer real_green) (laplace_single_layer real_green)
    (fun _ _ => 2%nat) (fs_grid real_strip_p1) /\
  related_basis (close half53 Rabs reals 0) eq (laplace_single_layer real_green) real_strip_p1 real_strip_p1 /\
  related_basis (close half53 Rabs reals 0) eq (laplace_single_layer real_green) real_strip_dp0 real_strip_dp0 /\
  near_points_at_most real_externals (fun _ _ => 2%nat) (g_types (fs_grid real_strip_p1) 2) 2 /\
  positive_externals (Rle 0) real_externals /\ (forall x y, 0 <= real_green 0 x y) /\
  positive_basis (Rle 0) real_externals real_strip_p1 /\ positive_basis (Rle 0) real_externals real_strip_dp0.
Proof. exact near_accuracy_example. Qed.
