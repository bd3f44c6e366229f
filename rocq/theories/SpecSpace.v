(** * Specification vocabulary for distributed spaces *)
From Verif Require Import Base Topology DofMap SpecDof Process Space.

(** What the local grids of a distributed grid on [N] processes have in common:
    a ghost entity of a cell names an entity that its owner does own, that is part
    of a cell there, and that carries the same number of DOFs.  An assumption on
    the grid distribution (external crate [ndgrid]). *)
Record wf_dist (N : nat) (g : nat -> grid) (fam : family) : Prop := {
  wd_grid : forall r, r < N -> wf_grid (g r);
  wd_fam : forall r, r < N -> wf_family (g_types (g r) 2) fam;
  wd_ghost : forall r c d i e p x, r < N -> sub_at (g r) c d i e -> g_own (g r) d e = Ghost p x ->
    p < N /\ p <> r /\ (forall q y, g_own (g p) d x <> Ghost q y) /\
    exists c' i', sub_at (g p) c' d i' x /\
      el_ndofs (fam (g_ctype (g p) c')) d i' = el_ndofs (fam (g_ctype (g r) c)) d i
}.

(** The DOF maps of the processes. *)
Definition dofmaps (N : nat) (g : nat -> grid) (fam : family) (dm : nat -> dofmap) : Prop :=
  forall r, r < N -> assign_dofs r (g r) fam = Ok (dm r).

(** The system of [N] processes creating their spaces. *)
Definition start (N : nat) (dm : nat -> dofmap) : net space := initial (fun r => fs_new r N (dm r)).

(** Some execution ends with these spaces. *)
Definition creates (N : nat) (eager : msg -> bool) (dm : nat -> dofmap) (sp : nat -> space) : Prop :=
  exists n s, steps N eager n (start N dm) s /\ finished N s sp.

(** DOF [i] of process [r] is owned, with global number [n]. *)
Definition owned_as (sp : nat -> space) (r i n : nat) : Prop :=
  ownership_of (sp r) i = Ok Owned /\ global_dof_index (sp r) i = Ok n.

(** The mesh entity is not a ghost. *)
Definition owned_entity (g : grid) (d e : nat) : Prop := forall p x, g_own g d e <> Ghost p x.

(** Number of DOFs of a space whose ownership is [Owned]. *)
Definition owned_count (sp : space) : nat :=
  length (filter (fun i => match ownership_of sp i with Ok o => is_owned o | _ => false end)
                 (seq 0 (local_size sp))).

(** DOF [i] of process [r] lies on an entity owned by process [p]. *)
Definition ghost_dof (g : nat -> grid) (dm : nat -> dofmap) (r p i : nat) : Prop :=
  exists d e k x, listed (dm r) d e k i /\ g_own (g r) d e = Ghost p x.

(** An MPI implementation that buffers vectors of up to [limit] entries (and
    single numbers) and hands over longer ones directly. *)
Definition eager_limit (limit : nat) : msg -> bool :=
  fun m => match m with MNum _ => true | MVec l => length l <=? limit end.
