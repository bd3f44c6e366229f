(** * Property C73: the spaces of serial.rs *)
From Verif Require Import Base Topology TopologyFacts DofMap SpecDof DofExamples Colouring Process Space SpecSpace SpaceResults SpaceExamples
  Serial SpecSerial SerialResults.

(** C73: on one process a [LocalFunctionSpace] gives the same answers as the
    [FunctionSpace] on the same grid. *)
Theorem C73_one_process : forall g fam dm eager sp,
  wf_grid g -> wf_family (g_types g 2) fam ->
  (forall c d i e p x, sub_at g c d i e -> g_own g d e <> Ghost p x) ->
  assign_dofs 0 g fam = Ok dm -> creates 1 eager (fun _ => dm) sp ->
  exists ls, local_new g fam = Ok ls /\
    local_is_serial ls = is_serial 1 /\ local_local_size ls = local_size (sp 0) /\ local_global_size ls = global_size (sp 0) /\
    (forall c, local_cell_dofs ls c = cell_dofs (sp_dofmap (sp 0)) c) /\
    (forall d e, local_get_local_dof_numbers ls d e = get_local_dof_numbers (sp_dofmap (sp 0)) d e) /\
    (forall i, i < local_size (sp 0) ->
       local_global_dof_index ls i = global_dof_index (sp 0) i /\ local_ownership ls i = ownership_of (sp 0) i).
Proof. exact local_serial. Qed.
Print Assumptions C73_one_process.

(** On several processes the local tables still agree: the rank of the process has
    no influence on them. *)
Theorem C73_local_tables : forall N g fam dm eager sp r,
  wf_dist N g fam -> dofmaps N g fam dm -> creates N eager dm sp -> r < N ->
  exists ls, local_new (g r) fam = Ok ls /\
    local_local_size ls = local_size (sp r) /\
    (forall c, local_cell_dofs ls c = cell_dofs (sp_dofmap (sp r)) c) /\
    (forall d e, local_get_local_dof_numbers ls d e = get_local_dof_numbers (sp_dofmap (sp r)) d e) /\
    local_cell_colouring ls = cell_colouring (g r) fam.
Proof. exact local_tables. Qed.
Print Assumptions C73_local_tables.

(** The global sizes do not: every ghost is counted again. *)
Theorem C73_ghosts_counted_again : forall N g fam dm eager sp ls q,
  wf_dist N g fam -> dofmaps N g fam dm -> creates N eager dm sp -> q < N ->
  (forall r, r < N -> local_new (g r) fam = Ok (ls r)) ->
  sum_list (map (fun r => local_global_size (ls r)) (seq 0 N)) =
    global_size (sp q) + sum_list (map (fun r => ghost_count (sp r)) (seq 0 N)).
Proof. exact local_sum. Qed.
Print Assumptions C73_ghosts_counted_again.

Example C73_hypotheses_met :
  (exists dm sp, (forall c d i e p x, sub_at screen2 c d i e -> g_own screen2 d e <> Ghost p x) /\
    assign_dofs 0 screen2 (lagrange 2) = Ok dm /\ creates 1 synchronous (fun _ => dm) sp) /\
  (wf_dist 2 pair_grid (lagrange 1) /\ dofmaps 2 pair_grid (lagrange 1) pair_dm /\
   exists ls sp, (forall r, r < 2 -> local_new (pair_grid r) (lagrange 1) = Ok (ls r)) /\
     creates 2 buffered pair_dm sp /\ sum_list (map (fun r => local_global_size (ls r)) [0; 1]) = 8 /\
     global_size (sp 0) = 4 /\ map (fun r => ghost_count (sp r)) [0; 1] = [1; 3]).
Proof. exact (conj serial_example (conj (proj1 pair_facts) (conj (proj1 (proj2 pair_facts)) local_pair))). Qed.
