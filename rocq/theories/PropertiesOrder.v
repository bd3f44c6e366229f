(** * Property C67: the order of the additions *)
From Coq Require Import ZArith Qcanon.
From Verif Require Import Base Topology DofMap Space Options Scalar Integrand CellPair Operators SpecLocal Interleave Assembly SpecAssembly AssemblyResults
  SpecOrder OrderResults LocalExamples AssemblyExamples OrderExamples.
Open Scope nat_scope.

(** C67: in any arithmetic, also floating point, every entry of the assembled matrix
    is the old value plus, one after the other, the values of all pairs of basis
    functions with the DOFs of the entry, each exactly once.  The order is fixed by
    the grids and the DOFs: it does not depend on the scheduling of the tasks, the
    options, the operator, the quadrature rules or the type of the numbers. *)
Theorem C67_order_of_additions : forall (T0 R0 : Type) ct (test0 trial0 : fspace T0 R0), order_setting ct test0 trial0 ->
  exists ord : nat -> nat -> list label,
    (forall i j, NoDup (ord i j) /\ forall k, In k (ord i j) <-> contributes test0 trial0 i j k) /\
    forall (T R : Type) (S : scalar T R) (X : externals R) rt wmod O o deg pts (test trial : fspace T R) output,
      same_dofs test0 test -> same_dofs trial0 trial ->
      legal_runtime (s_add S) rt -> dense_setting X wmod O o deg pts ct test trial ->
      length output = global_size (fs_space test) * global_size (fs_space trial) ->
      exists result val,
        assemble_into_memory S X rt wmod O o trial test output = Ran (Ok result) /\
        (forall t s a b, t < ent_count (fs_grid test) 2 -> s < ent_count (fs_grid trial) 2 ->
           pair_value S X O deg pts test trial t s a b (val t s a b)) /\
        length result = length output /\
        forall i j old, i < global_size (fs_space test) -> j < global_size (fs_space trial) ->
          nth_error output (i + global_size (fs_space test) * j) = Some old ->
          nth_error result (i + global_size (fs_space test) * j) = Some (accumulate (s_add S) val (ord i j) old).
Proof. exact (@ordered_entries). Qed.
Print Assumptions C67_order_of_additions.

(** Non-vacuity: an entry to which three pairs of basis functions contribute. *)
Example C67_hypotheses_met :
  order_setting Triangle screen2_p1 screen2_dp0 /\ same_dofs screen2_p1 screen2_p1 /\
  dense_setting demo_externals 256 demo_op demo_options (fun _ _ => 2) (fun _ => 2) Triangle screen2_p1 screen2_dp0 /\
  (forall k, contributes screen2_p1 screen2_dp0 1 0 k <-> In k [((0, 0), (1, 0)); ((2, 0), (0, 0)); ((3, 0), (0, 0))]).
Proof. exact order_example. Qed.
