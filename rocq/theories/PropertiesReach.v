(** * Property C110: which entries depend on which data *)
From Coq Require Import Qcanon.
From Verif Require Import Base Topology DofMap Space Options Scalar Integrand CellPair Operators SpecLocal Interleave Assembly SpecAssembly AssemblySingular
  AssemblyResults SpecOrder SpecReach ReachResults LocalExamples AssemblyExamples ReachExamples.
Local Open Scope nat_scope.

(** C110: in any arithmetic, two assemblies with the same DOFs, rules and integrand
    give the same bits in every entry whose DOFs are on cells with the same geometry,
    basis functions and kernel values, whatever happens elsewhere. *)
Theorem C110_changes_stay_local : forall (T R : Type) (S : scalar T R) X X' rt rt' wmod wmod' O O' o o' deg pts ct (test trial test' trial' : fspace T R),
  legal_runtime (s_add S) rt -> legal_runtime (s_add S) rt' ->
  dense_setting X wmod O o deg pts ct test trial -> dense_setting X' wmod' O' o' deg pts ct test' trial' ->
  same_dofs test test' -> same_dofs trial trial' -> same_rules X X' -> op_integrand O' = op_integrand O ->
  exists m m', assemble S X rt wmod O o trial test = Ok m /\ assemble S X' rt' wmod' O' o' trial' test' = Ok m' /\
    forall i j, i < global_size (fs_space test) -> j < global_size (fs_space trial) -> untouched X X' O O' test trial test' trial' i j ->
      exists x, nth_error m (i + global_size (fs_space test) * j) = Some x /\ nth_error m' (i + global_size (fs_space test) * j) = Some x.
Proof. exact (@changes_stay_local). Qed.
Print Assumptions C110_changes_stay_local.

(** The same for the triplets of the singular part, on every process and for all types
    of cells. *)
Theorem C110_singular_part : forall (T R : Type) (S : scalar T R) X X' rt rt' wmod wmod' O O' o o' deg (test trial test' trial' : fspace T R),
  legal_runtime (s_add S) rt -> legal_runtime (s_add S) rt' ->
  singular_setting X wmod O o deg test trial -> singular_setting X' wmod' O' o' deg test' trial' ->
  same_dofs test test' -> same_dofs trial trial' -> same_rules X X' -> op_integrand O' = op_integrand O ->
  exists m m', assemble_singular_part S X rt wmod O o (shape_of test trial) trial test = Ok m /\
    assemble_singular_part S X' rt' wmod' O' o' (shape_of test' trial') trial' test' = Ok m' /\
    same_triplets (fun r c => forall i j, global_dof_index (fs_space test) i = Ok r -> global_dof_index (fs_space trial) j = Ok c ->
      untouched X X' O O' test trial test' trial' i j) m m'.
Proof. exact (@singular_changes_local). Qed.
Print Assumptions C110_singular_part.

(** Non-vacuity: the last of eight cells is moved; the entry [(1, 0)] is untouched, and
    the entries that change are exactly the 30 of DOFs on that cell. *)
Example C110_hypotheses_met :
  dense_setting demo_externals 256 demo_op demo_options (fun _ _ => 2) (fun _ => 2) Triangle screen2_p1 screen2_dp0 /\
  dense_setting moved_externals 256 demo_op demo_options (fun _ _ => 2) (fun _ => 2) Triangle screen2_p1 screen2_dp0 /\
  singular_setting moved_externals 256 demo_op demo_options (fun _ _ => 2) screen2_p1 screen2_dp0 /\
  same_dofs screen2_p1 screen2_p1 /\ same_dofs screen2_dp0 screen2_dp0 /\ same_rules demo_externals moved_externals /\
  untouched demo_externals moved_externals demo_op demo_op screen2_p1 screen2_dp0 screen2_p1 screen2_dp0 1 0 /\
  match assemble qc_scalar demo_externals demo_rt 256 demo_op demo_options screen2_dp0 screen2_p1,
        assemble qc_scalar moved_externals demo_rt 256 demo_op demo_options screen2_dp0 screen2_p1 with
  | Ok m, Ok m' => differences m m' = entries_of_cell_7 /\ length entries_of_cell_7 = 30
  | _, _ => False end.
Proof. exact reach_example. Qed.

(** A bad number (such as a NaN) that the integrand has at one pair of points is in
    every entry of the DOFs of the two basis functions. *)
Theorem C110_bad_numbers_show : forall (T R : Type) (S : scalar T R) (bad : T -> Prop) X rt wmod O o deg pts ct (test trial : fspace T R),
  absorbing S bad -> legal_runtime (s_add S) rt -> dense_setting X wmod O o deg pts ct test trial ->
  exists m, assemble S X rt wmod O o trial test = Ok m /\
    forall i j t s a b, contributes test trial i j ((t, s), (a, b)) -> spoiled S X O deg pts test trial bad t s a b ->
      exists x, nth_error m (i + global_size (fs_space test) * j) = Some x /\ bad x.
Proof. exact (@bad_shows). Qed.
Print Assumptions C110_bad_numbers_show.

(** And in no other: an entry is good if the values of its own pairs of basis functions
    are good, and sums of good numbers are. *)
Theorem C110_good_entries : forall (T R : Type) (S : scalar T R) (good : T -> Prop) X rt wmod O o deg pts ct (test trial : fspace T R),
  good (s_zero S) -> (forall x y, good x -> good y -> good (s_add S x y)) ->
  legal_runtime (s_add S) rt -> dense_setting X wmod O o deg pts ct test trial ->
  exists m, assemble S X rt wmod O o trial test = Ok m /\
    forall i j, i < global_size (fs_space test) -> j < global_size (fs_space trial) ->
      (forall t s a b v, contributes test trial i j ((t, s), (a, b)) -> pair_value S X O deg pts test trial t s a b v -> good v) ->
      exists x, nth_error m (i + global_size (fs_space test) * j) = Some x /\ good x.
Proof. exact (@good_stays). Qed.
Print Assumptions C110_good_entries.

(** Non-vacuity: a kernel without value at one point of the last cell; exactly the 24
    entries of its three test DOFs are not numbers. *)
Example C110_bad_numbers_met :
  absorbing nan_scalar (fun x => x = None) /\
  dense_setting demo_externals 256 (laplace_single_layer nan_green) demo_options (fun _ _ => 2) (fun _ => 2) Triangle (nan_space screen2_p1) (nan_space screen2_dp0) /\
  contributes (nan_space screen2_p1) (nan_space screen2_dp0) 8 2 ((7, 2), (1, 0)) /\
  spoiled nan_scalar demo_externals (laplace_single_layer nan_green) (fun _ _ => 2) (fun _ => 2) (nan_space screen2_p1) (nan_space screen2_dp0)
    (fun x => x = None) 7 2 1 0 /\
  match assemble nan_scalar demo_externals (sequential (s_add nan_scalar)) 256 (laplace_single_layer nan_green) demo_options (nan_space screen2_dp0) (nan_space screen2_p1) with
  | Ok m => nans m = filter (fun k => existsb (Nat.eqb (k mod 9)) (dofs_at screen2_p1 7)) (seq 0 72) /\ length (nans m) = 24
  | _ => False end.
Proof. exact nan_example. Qed.
