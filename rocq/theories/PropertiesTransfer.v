(** * Properties C68 and C70: related arithmetics, signs *)
From Coq Require Import QArith Qcanon.
From Verif Require Import Base Topology DofMap Space Options Scalar Integrand CellPair Operators SpecLocal Interleave Assembly SpecAssembly AssemblyResults
  SpecOrder SpecTransfer TransferResults LocalExamples AssemblyExamples TransferExamples.
Local Open Scope nat_scope.

(** C68: a relation between two arithmetics that the operations respect, and that
    holds between the data of two assemblies on the same DOFs, holds between all
    entries, whatever the schedules, batch sizes and number of threads. *)
Theorem C68_transfer : forall (T R T' R' : Type) (relT : T -> T' -> Prop) (relR relD relN : R -> R' -> Prop) relP (S : scalar T R) (S' : scalar T' R'),
  related_arithmetic relT relR relD S S' ->
  forall (X : externals R) (X' : externals R') wmod wmod' O O' o o' deg pts ct test trial test' trial',
  same_dofs test test' -> same_dofs trial trial' ->
  dense_setting X wmod O o deg pts ct test trial -> dense_setting X' wmod' O' o' deg pts ct test' trial' ->
  related_externals relR relD relN relP X X' -> related_kernel relT X X' O O' deg pts test trial ->
  related_basis relT relP O test test' -> related_basis relT relP O trial trial' ->
  related_integrand relT relD relN S S' (op_integrand O) (op_integrand O') ->
  forall rt rt' output output', legal_runtime (s_add S) rt -> legal_runtime (s_add S') rt' ->
  length output = global_size (fs_space test) * global_size (fs_space trial) -> Forall2 relT output output' ->
  exists m m', assemble_into_memory S X rt wmod O o trial test output = Ran (Ok m) /\
    assemble_into_memory S' X' rt' wmod' O' o' trial' test' output' = Ran (Ok m') /\ Forall2 relT m m'.
Proof. exact (@transfer). Qed.
Print Assumptions C68_transfer.

(** The same from zero. *)
Theorem C68_transfer_matrix : forall (T R T' R' : Type) (relT : T -> T' -> Prop) (relR relD relN : R -> R' -> Prop) relP (S : scalar T R) (S' : scalar T' R'),
  related_arithmetic relT relR relD S S' ->
  forall (X : externals R) (X' : externals R') wmod wmod' O O' o o' deg pts ct test trial test' trial',
  same_dofs test test' -> same_dofs trial trial' ->
  dense_setting X wmod O o deg pts ct test trial -> dense_setting X' wmod' O' o' deg pts ct test' trial' ->
  related_externals relR relD relN relP X X' -> related_kernel relT X X' O O' deg pts test trial ->
  related_basis relT relP O test test' -> related_basis relT relP O trial trial' ->
  related_integrand relT relD relN S S' (op_integrand O) (op_integrand O') ->
  forall rt rt', legal_runtime (s_add S) rt -> legal_runtime (s_add S') rt' ->
  exists m m', assemble S X rt wmod O o trial test = Ok m /\ assemble S' X' rt' wmod' O' o' trial' test' = Ok m' /\ Forall2 relT m m'.
Proof. exact (@transfer_matrix). Qed.
Print Assumptions C68_transfer_matrix.

(** The integrands of the library respect every relation that the operations
    respect. *)
Theorem C68_integrands : forall (T R T' R' : Type) (relT : T -> T' -> Prop) (relR relD relN : R -> R' -> Prop) (S : scalar T R) (S' : scalar T' R'),
  related_arithmetic relT relR relD S S' -> forall f f',
  related_operations relT relD relN S S' -> related_form relT f f' -> related_integrand relT relD relN S S' f f'.
Proof. exact (@related_form_value). Qed.
Print Assumptions C68_integrands.

(** Non-vacuity: numbers that are not negative and larger ones; a kernel and a larger
    one; all entries of the second matrix are larger. *)
Example C68_hypotheses_met :
  related_arithmetic below below below qc_scalar qc_scalar /\
  related_externals below below (fun _ _ => True) demo_points demo_externals demo_externals /\
  related_kernel below demo_externals demo_externals (laplace_single_layer demo_green) (laplace_single_layer raised_green) (fun _ _ => 2) (fun _ => 2) screen2_p1 screen2_dp0 /\
  related_basis below demo_points (laplace_single_layer demo_green) screen2_p1 screen2_p1 /\
  related_basis below demo_points (laplace_single_layer demo_green) screen2_dp0 screen2_dp0 /\
  related_integrand below below (fun _ _ => True) qc_scalar qc_scalar SingleLayer SingleLayer /\
  dense_setting demo_externals 256 (laplace_single_layer demo_green) demo_options (fun _ _ => 2) (fun _ => 2) Triangle screen2_p1 screen2_dp0 /\
  dense_setting demo_externals 256 (laplace_single_layer raised_green) demo_options (fun _ _ => 2) (fun _ => 2) Triangle screen2_p1 screen2_dp0 /\
  (length single_matrix, length raised_matrix, forallb (fun xy => Qle_bool (this (fst xy) + 1) (this (snd xy))) (combine single_matrix raised_matrix)) = (72, 72, true).
Proof. exact transfer_example. Qed.

(** C70: in any arithmetic whose operations keep the sign, the single layer matrix has
    no negative entries if the Green's function, the basis functions, the weights
    and the determinants are not negative. *)
Theorem C70_single_layer_sign : forall (T R : Type) (S : scalar T R) (pos : T -> Prop) (posR : R -> Prop),
  closed_signs S pos posR -> forall (X : externals R) wmod (G : green) o deg pts ct test trial rt,
  legal_runtime (s_add S) rt -> dense_setting X wmod (laplace_single_layer G) o deg pts ct test trial ->
  positive_externals posR X -> (forall x y, pos (G 0 x y)) -> positive_basis pos X test -> positive_basis pos X trial ->
  exists m, assemble S X rt wmod (laplace_single_layer G) o trial test = Ok m /\ Forall pos m.
Proof. exact (@single_layer_sign). Qed.
Print Assumptions C70_single_layer_sign.

Example C70_hypotheses_met :
  closed_signs qc_scalar nonneg nonneg /\ positive_externals nonneg demo_externals /\ (forall x y, nonneg (demo_green 0 x y)) /\
  positive_basis nonneg demo_externals screen2_p1 /\ positive_basis nonneg demo_externals screen2_dp0 /\
  dense_setting demo_externals 256 (laplace_single_layer demo_green) demo_options (fun _ _ => 2) (fun _ => 2) Triangle screen2_p1 screen2_dp0 /\
  (length single_matrix, forallb (fun x => Qle_bool (1 # 1) (this x)) single_matrix) = (72, true).
Proof. exact signs_example. Qed.
