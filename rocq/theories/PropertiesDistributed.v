(** * Properties C29 and C59: several processes and one *)
From Verif Require Import Base Topology DofMap SpecDof Process Space SpecSpace Options Adjacency SpecAdjacency Scalar Integrand CellPair Operators SpecLocal
  Interleave Assembly SpecAssembly SpecDistributed DistributedResults SpecAlgebra SpecRenumber RenumberResults LocalExamples AssemblyExamples DistributedExamples.

(** C59: the global DOF numbers of a space on several processes are those of the
    space on one process with the whole grid, renumbered. *)
Theorem C59_numbering : forall N G g L fam dm eager sp sdm,
  partition N G g L -> wf_grid G -> wf_family (g_types G 2) fam -> wf_dist N g fam -> dofmaps N g fam dm ->
  creates N eager dm sp -> assign_dofs 0 G fam = Ok sdm ->
  exists number, renumbering (dm_size sdm) number /\ (forall r, r < N -> global_size (sp r) = dm_size sdm) /\
    forall r c l l0, r < N -> has_cell_dofs (dm r) c l -> has_cell_dofs sdm (L r 2 c) l0 ->
      mapM (global_dof_index (sp r)) l = Ok (map number l0).
Proof. exact distributed_numbering. Qed.
Print Assumptions C59_numbering.

(** C29: every process assembles its contribution, and together they contain each
    pair of functions on touching cells once, if the owner of the test cell stores
    the trial cell; and nothing else. *)
Theorem C29_pairs : forall (T R : Type) (S : scalar T R) (X : externals R) wmod (O : operator T R) o deg N L test trial wtest wtrial,
  distributed_setting X wmod O o deg N L test trial wtest wtrial ->
  forall rt, (forall r, r < N -> legal_runtime (s_add S) (rt r)) ->
  exists ms ks,
    (forall r, r < N ->
      assemble_singular_part S X (rt r) wmod O o (global_size (fs_space (test r)), global_size (fs_space (trial r))) (trial r) (test r) = Ok (ms r) /\
      sm_shape (ms r) = (global_size (fs_space wtest), global_size (fs_space wtrial)) /\
      Forall2 (fun k x => triplet_of (test r) (trial r) (singular_value S X O deg (test r) (trial r))
                 (fst (fst k)) (snd (fst k)) (fst (snd k)) (snd (snd k)) x) (ks r) (triplets (ms r))) /\
    NoDup (flat_map (fun r => map (whole_label L r) (ks r)) (seq 0 N)) /\
    (forall C C' a b, In ((C, C'), (a, b)) (flat_map (fun r => map (whole_label L r) (ks r)) (seq 0 N)) <->
       touch (fs_grid wtest) C C' /\
       (exists r, r < N /\ owned_cell (fun r => fs_grid (test r)) L r C /\ stored (fun r => fs_grid (test r)) L r C') /\
       a < length (dofs_at wtest C) /\ b < length (dofs_at wtrial C')).
Proof. exact (@distributed_pairs). Qed.
Print Assumptions C29_pairs.

(** If every process stores all the cells touching its own, then the contributions
    of all processes are the triplets computed on one process with the whole grid,
    with the DOFs renumbered as in C59: none is lost, none is repeated. *)
Theorem C29_same_as_one_process : forall (T R : Type) (S : scalar T R) (X : externals R) wmod (O : operator T R) o deg N L test trial wtest wtrial,
  distributed_setting X wmod O o deg N L test trial wtest wtrial ->
  forall rt wrt, (forall r, r < N -> legal_runtime (s_add S) (rt r)) -> legal_runtime (s_add S) wrt ->
  vertex_layer N (fs_grid wtest) (fun r => fs_grid (test r)) L ->
  exists ms m f h,
    (forall r, r < N ->
      assemble_singular_part S X (rt r) wmod O o (global_size (fs_space (test r)), global_size (fs_space (trial r))) (trial r) (test r) = Ok (ms r) /\
      sm_shape (ms r) = sm_shape m) /\
    assemble_singular_part S X wrt wmod O o (global_size (fs_space wtest), global_size (fs_space wtrial)) wtrial wtest = Ok m /\
    renumbering (global_size (fs_space wtest)) f /\ renumbering (global_size (fs_space wtrial)) h /\
    (forall r c, r < N -> c < ent_count (fs_grid (test r)) 2 ->
      mapM (global_dof_index (fs_space (test r))) (dofs_at (test r) c) = Ok (map f (dofs_at wtest (L r 2 c))) /\
      mapM (global_dof_index (fs_space (trial r))) (dofs_at (trial r) c) = Ok (map h (dofs_at wtrial (L r 2 c)))) /\
    Permutation (flat_map (fun r => triplets (ms r)) (seq 0 N)) (map (renumber f h) (triplets m)).
Proof. exact (@distributed_serial). Qed.
Print Assumptions C29_same_as_one_process.

(** In exact arithmetic the sum of the matrices of the processes is the matrix of one
    process, with the DOFs renumbered. *)
Theorem C29_sum : forall (T R : Type) (S : scalar T R) (X : externals R) wmod (O : operator T R) o deg N L test trial wtest wtrial,
  distributed_setting X wmod O o deg N L test trial wtest wtrial ->
  forall rt wrt, exact S -> (forall r, r < N -> legal_runtime (s_add S) (rt r)) -> legal_runtime (s_add S) wrt ->
  vertex_layer N (fs_grid wtest) (fun r => fs_grid (test r)) L ->
  exists ms m f h,
    (forall r, r < N ->
      assemble_singular_part S X (rt r) wmod O o (global_size (fs_space (test r)), global_size (fs_space (trial r))) (trial r) (test r) = Ok (ms r)) /\
    assemble_singular_part S X wrt wmod O o (global_size (fs_space wtest), global_size (fs_space wtrial)) wtrial wtest = Ok m /\
    renumbering (global_size (fs_space wtest)) f /\ renumbering (global_size (fs_space wtrial)) h /\
    (forall r c, r < N -> c < ent_count (fs_grid (test r)) 2 ->
      mapM (global_dof_index (fs_space (test r))) (dofs_at (test r) c) = Ok (map f (dofs_at wtest (L r 2 c))) /\
      mapM (global_dof_index (fs_space (trial r))) (dofs_at (trial r) c) = Ok (map h (dofs_at wtrial (L r 2 c)))) /\
    forall i j, i < global_size (fs_space wtest) -> j < global_size (fs_space wtrial) ->
      total S (seq 0 N) (fun r => sparse_entry S (ms r) (f i) (h j)) = sparse_entry S m i j.
Proof. exact (@distributed_entries). Qed.
Print Assumptions C29_sum.

(** Non-vacuity: four triangles on two processes, the first of which does not store
    all of them; vertex functions tested with cell functions. *)
Example C29_C59_hypotheses_met :
  distributed_setting strip_externals 256 demo_op demo_options (fun _ _ => 2) 2 strip_map strip_p1 strip_dp0 whole_p1 whole_dp0 /\
  vertex_layer 2 (fs_grid whole_p1) (fun r => fs_grid (strip_p1 r)) strip_map /\
  ~ touch (fs_grid whole_p1) 0 3 /\ ent_count (fs_grid (strip_p1 0)) 2 = 3 /\
  map (fun r => sp_global_dofs (fs_space (strip_p1 r))) [0; 1] = [[0; 1; 5; 2; 4]; [2; 3; 4; 5; 1; 0]] /\
  map (fun r => match assemble_singular_part qc_scalar strip_externals demo_rt 256 demo_op demo_options (6, 4) (strip_dp0 r) (strip_p1 r) with
                | Ok m => length (triplets m) | _ => 0 end) [0; 1] = [9; 33] /\
  match assemble_singular_part qc_scalar strip_externals demo_rt 256 demo_op demo_options (6, 4) whole_dp0 whole_p1 with
                | Ok m => length (triplets m) | _ => 0 end = 42.
Proof. exact strip_example. Qed.
