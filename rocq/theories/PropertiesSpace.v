(** * Properties C08-C13 and C51: distributed function spaces *)
From Verif Require Import Base BaseFacts Topology TopologyFacts DofMap SpecDof Process Space SpecSpace
  SpaceResults SpaceExamples.

(** C08: the owned DOFs of all processes have the global numbers below
    [global_size], each exactly once, increasing with the rank and with the local
    number.  For every buffering behaviour of the message passing. *)
Theorem C08_global_numbering : forall N g fam dm eager sp,
  wf_dist N g fam -> dofmaps N g fam dm -> creates N eager dm sp ->
  (forall r i n, r < N -> owned_as sp r i n -> forall q, q < N -> n < global_size (sp q)) /\
  (forall n q, q < N -> n < global_size (sp q) -> exists r i, r < N /\ owned_as sp r i n) /\
  (forall r r' i i' n, r < N -> r' < N -> owned_as sp r i n -> owned_as sp r' i' n -> r = r' /\ i = i') /\
  (forall r r' i i' n n', r < N -> r' < N -> owned_as sp r i n -> owned_as sp r' i' n' ->
     r < r' \/ (r = r' /\ i < i') -> n < n').
Proof. exact global_numbers. Qed.
Print Assumptions C08_global_numbering.

(** C09: a ghost is the copy of an owned DOF of another process: same mesh entity,
    same position, same global number. *)
Theorem C09_ghosts_agree_with_owner : forall N g fam dm eager sp r i p l,
  wf_dist N g fam -> dofmaps N g fam dm -> creates N eager dm sp -> r < N ->
  ownership_of (sp r) i = Ok (Ghost p l) ->
  p < N /\ p <> r /\ ownership_of (sp p) l = Ok Owned /\
  (exists n, global_dof_index (sp r) i = Ok n /\ global_dof_index (sp p) l = Ok n) /\
  exists d e k x, listed (sp_dofmap (sp r)) d e k i /\ g_own (g r) d e = Ghost p x /\ listed (sp_dofmap (sp p)) d x k l.
Proof. exact ghosts_agree. Qed.
Print Assumptions C09_ghosts_agree_with_owner.

(** C10: every process has the same [global_size], the number of owned DOFs of all
    processes; a DOF is owned where its entity is. *)
Theorem C10_global_size : forall N g fam dm eager sp,
  wf_dist N g fam -> dofmaps N g fam dm -> creates N eager dm sp ->
  (forall r, r < N -> global_size (sp r) = sum_list (map (fun q => owned_count (sp q)) (seq 0 N))) /\
  (forall r d e k i, r < N -> listed (sp_dofmap (sp r)) d e k i ->
     (ownership_of (sp r) i = Ok Owned <-> owned_entity (g r) d e) /\
     (forall p, (exists l, ownership_of (sp r) i = Ok (Ghost p l)) <-> exists x, g_own (g r) d e = Ghost p x)).
Proof. exact global_size_agreed. Qed.
Print Assumptions C10_global_size.

(** C11: one process. *)
Theorem C11_serial_identity : forall g fam dm eager sp,
  wf_grid g -> wf_family (g_types g 2) fam ->
  (forall c d i e p x, sub_at g c d i e -> g_own g d e <> Ghost p x) ->
  assign_dofs 0 g fam = Ok dm -> creates 1 eager (fun _ => dm) sp ->
  is_serial 1 = true /\ global_size (sp 0) = local_size (sp 0) /\ local_size (sp 0) = dm_size dm /\
  (forall i, i < local_size (sp 0) -> global_dof_index (sp 0) i = Ok i /\ ownership_of (sp 0) i = Ok Owned) /\
  (forall i, local_size (sp 0) <= i -> global_dof_index (sp 0) i = Panic) /\
  (forall n s, steps 1 eager n (start 1 (fun _ => dm)) s -> n = 0).
Proof. exact serial_identity. Qed.
Print Assumptions C11_serial_identity.

(** C12: with buffered sends every execution is finite, no process fails, and an
    execution that cannot go on has finished, with the same spaces every time and
    no message left over. *)
Theorem C12_buffered_creation : forall N g fam dm,
  wf_dist N g fam -> dofmaps N g fam dm ->
  exists sp bound, creates N buffered dm sp /\
  forall n s, steps N buffered n (start N dm) s ->
    n <= bound /\
    (forall r, r < N -> n_proc s r <> Crash) /\
    ((exists s', step N buffered s s') \/
     (finished N s sp /\ forall r q, r < N -> q < N -> n_chan s r q = [])).
Proof. exact buffered_creation. Qed.
Print Assumptions C12_buffered_creation.

(** C13 is false: when sends of vectors wait for the receiver, no process ever
    returns, for any grid on two or more processes. *)
Theorem C13_synchronous_never_completes : forall N g fam dm eager,
  wf_dist N g fam -> dofmaps N g fam dm -> 2 <= N -> (forall l, eager (MVec l) = false) ->
  forall n s, steps N eager n (start N dm) s -> forall r a, r < N -> n_proc s r <> Ret a.
Proof. exact synchronous_never. Qed.
Print Assumptions C13_synchronous_never_completes.

Theorem C13_synchronous_refuted :
  exists N g fam dm eager, wf_dist N g fam /\ dofmaps N g fam dm /\ (forall m, eager m = false) /\
    ~ exists sp, creates N eager dm sp.
Proof. exact synchronous_refuted. Qed.
Print Assumptions C13_synchronous_refuted.

(** C51: message passing that buffers vectors up to a limit.  Below the limit
    everything completes as with unlimited buffering. *)
Theorem C51_below_limit_completes : forall N g fam dm limit,
  wf_dist N g fam -> dofmaps N g fam dm ->
  (forall r p l, r < N -> NoDup l -> (forall i, In i l -> ghost_dof g dm r p i) -> length l <= limit) ->
  exists sp bound, creates N buffered dm sp /\
  forall n s, steps N (eager_limit limit) n (start N dm) s ->
    n <= bound /\
    (forall r, r < N -> n_proc s r <> Crash) /\
    ((exists s', step N (eager_limit limit) s s') \/
     (finished N s sp /\ forall r q, r < N -> q < N -> n_chan s r q = [])).
Proof. exact limited_completes. Qed.
Print Assumptions C51_below_limit_completes.

(** Processes that each have more ghosts than the limit owned by another of them
    never return. *)
Theorem C51_above_limit_never_completes : forall N g fam dm limit (S : nat -> Prop),
  wf_dist N g fam -> dofmaps N g fam dm ->
  (forall r, S r -> r < N /\ exists p l, S p /\ NoDup l /\ limit < length l /\
      forall i, In i l -> ghost_dof g dm r p i) ->
  forall n s, steps N (eager_limit limit) n (start N dm) s -> forall r a, S r -> n_proc s r <> Ret a.
Proof. exact limited_stuck. Qed.
Print Assumptions C51_above_limit_never_completes.

Theorem C51_every_limit_refuted : forall limit,
  exists N g fam dm, wf_dist N g fam /\ dofmaps N g fam dm /\
    ~ exists sp, creates N (eager_limit limit) dm sp.
Proof. exact every_limit_refuted. Qed.
Print Assumptions C51_every_limit_refuted.

(** Non-vacuity: two triangles on two processes with different local numberings. *)
Example C08_C13_hypotheses_met :
  wf_dist 2 pair_grid (lagrange 1) /\ dofmaps 2 pair_grid (lagrange 1) pair_dm /\
  exists sp, creates 2 buffered pair_dm sp /\
    map (fun r => sp_global_dofs (sp r)) [0; 1] = [[0; 1; 2; 3]; [1; 3; 2; 0]] /\
    map (fun r => sp_ownership (sp r)) [0; 1] =
      [[Owned; Owned; Owned; Ghost 1 1]; [Ghost 0 1; Owned; Ghost 0 2; Ghost 0 0]] /\
    map (fun r => global_size (sp r)) [0; 1] = [4; 4].
Proof. exact pair_facts. Qed.

Example C51_hypothesis_met : forall r p l, r < 2 -> NoDup l ->
  (forall i, In i l -> ghost_dof pair_grid pair_dm r p i) -> length l <= 4.
Proof. exact pair_limit_ok. Qed.

(** Serial case: [screen_triangles(2)] in [PropertiesDof] has no ghosts. *)
Example C11_hypotheses_met :
  exists dm sp, (forall c d i e p x, sub_at DofExamples.screen2 c d i e -> g_own DofExamples.screen2 d e <> Ghost p x) /\
    assign_dofs 0 DofExamples.screen2 (lagrange 2) = Ok dm /\ creates 1 synchronous (fun _ => dm) sp.
Proof. exact serial_example. Qed.
