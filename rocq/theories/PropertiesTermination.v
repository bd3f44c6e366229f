(** * Property C20: assembly with batch size 0 *)
From Verif Require Import Base Topology DofMap SpecDof Process Space SpecSpace Options Adjacency SpecAdjacency
  Scalar Integrand CellPair Operators SpecLocal Interleave Assembly SpecAssembly AssemblySingular AssemblyDense
  AssemblyTermination LocalExamples AssemblyExamples.

(** C20: wherever assembly succeeds with the options [o], it never ends with the same
    options and batch size 0: the singular part as soon as the process owns a cell,
    and only then, ... *)
Theorem C20_singular_never_ends : forall (T R : Type) (S : scalar T R) (X : externals R) rt wmod (O : operator T R) o deg test trial,
  singular_setting X wmod O o deg test trial ->
  ((exists c, c < ent_count (fs_grid test) 2 /\ g_own (fs_grid test) 2 c = Owned) ->
   assemble_singular_part S X rt wmod O (set_batch_size 0 o) (global_size (fs_space test), global_size (fs_space trial)) trial test = Hang) /\
  ((forall c, c < ent_count (fs_grid test) 2 -> g_own (fs_grid test) 2 c <> Owned) ->
   exists m, assemble_singular_part S X rt wmod O (set_batch_size 0 o) (global_size (fs_space test), global_size (fs_space trial)) trial test = Ok m).
Proof. exact (@singular_part_zero). Qed.
Print Assumptions C20_singular_never_ends.

Theorem C20_sparse_never_ends : forall (T R : Type) (S : scalar T R) (X : externals R) rt wmod (O : operator T R) o deg test trial,
  singular_setting X wmod O o deg test trial ->
  (exists c, c < ent_count (fs_grid test) 2 /\ g_own (fs_grid test) 2 c = Owned) ->
  assemble_singular S X rt wmod O (set_batch_size 0 o) trial test = Hang.
Proof. exact (@singular_zero_hangs). Qed.
Print Assumptions C20_sparse_never_ends.

(** ... the dense matrix as soon as the grids have cells. *)
Theorem C20_dense_never_ends : forall (T R : Type) (S : scalar T R) (X : externals R) rt wmod (O : operator T R) o deg pts ct test trial,
  dense_setting X wmod O o deg pts ct test trial -> 0 < ent_count (fs_grid test) 2 -> 0 < ent_count (fs_grid trial) 2 ->
  (forall output, length output = global_size (fs_space test) * global_size (fs_space trial) ->
     assemble_into_memory S X rt wmod O (set_batch_size 0 o) trial test output = Ran Hang) /\
  assemble S X rt wmod O (set_batch_size 0 o) trial test = Hang.
Proof. exact (@dense_zero_hangs). Qed.
Print Assumptions C20_dense_never_ends.

(** Non-vacuity: [screen_triangles(2)]. *)
Example C20_assembly_example :
  dense_setting demo_externals 256 demo_op demo_options (fun _ _ => 2) (fun _ => 2) Triangle screen2_p1 screen2_dp0 /\
  singular_setting demo_externals 256 demo_op demo_options (fun _ _ => 2) screen2_p1 screen2_dp0 /\
  ent_count (fs_grid screen2_p1) 2 = 8 /\ ent_count (fs_grid screen2_dp0) 2 = 8 /\ g_own (fs_grid screen2_p1) 2 0 = Owned.
Proof. split; [exact demo_dense|]. split; [exact demo_singular_setting|]. vm_compute. auto. Qed.
