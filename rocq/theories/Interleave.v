(** * Parallel execution

    What rayon may do with the parallel iterators of src/boundary_assemblers.rs: the
    tasks of [(0..numtasks).into_par_iter().map(..).sum()] (lines 494-515) run at
    the same time on one memory, and [reduce] (lines 385-392) joins neighbouring
    results in any grouping. *)
From Verif Require Import Base.

Section Memory.
Context {T : Type} (add : T -> T -> T).

(** [*output.data.add(a) += v], src/boundary_assemblers.rs:766. *)
Definition op : Type := (nat * T)%type.

(** A task that is running: the operations left, and the value already loaded by the
    first of them. A task of src/boundary_assemblers.rs:494-515. *)
Record thread : Type := mkThread { th_ops : list op; th_loaded : option T }.

(** The running tasks and [output], src/boundary_assemblers.rs:494-515. *)
Record config : Type := mkConfig { cf_threads : list thread; cf_memory : list T }.

(** [into_par_iter], src/boundary_assemblers.rs:495. *)
Definition launch (tasks : list (list op)) (memory : list T) : config :=
  mkConfig (map (fun ops => mkThread ops None) tasks) memory.

(** One load or one store of one task. Of src/boundary_assemblers.rs:766. *)
Inductive mstep : config -> config -> Prop :=
| mstep_load : forall c i a v rest x,
    nth_error (cf_threads c) i = Some (mkThread ((a, v) :: rest) None) ->
    nth_error (cf_memory c) a = Some x ->
    mstep c (mkConfig (set_nth (cf_threads c) i (mkThread ((a, v) :: rest) (Some x))) (cf_memory c))
| mstep_store : forall c i a v rest x,
    nth_error (cf_threads c) i = Some (mkThread ((a, v) :: rest) (Some x)) ->
    a < length (cf_memory c) ->
    mstep c (mkConfig (set_nth (cf_threads c) i (mkThread rest None)) (set_nth (cf_memory c) a (add x v))).

(** Any number of them, src/boundary_assemblers.rs:766. *)
Inductive msteps : nat -> config -> config -> Prop :=
| msteps_0 : forall c, msteps 0 c c
| msteps_S : forall n c1 c2 c3, msteps n c1 c2 -> mstep c2 c3 -> msteps (S n) c1 c3.

(** [sum] returns when all tasks have, src/boundary_assemblers.rs:515. *)
Definition complete (c : config) : Prop := forall t, In t (cf_threads c) -> t = mkThread [] None.

(** The next operation of some task is outside the memory.
    At src/boundary_assemblers.rs:766. *)
Definition faulty (c : config) : Prop :=
  exists t a v rest, In t (cf_threads c) /\ th_ops t = (a, v) :: rest /\ length (cf_memory c) <= a.

(** The outcomes of running the tasks on a memory.
    Of src/boundary_assemblers.rs:494-515. *)
Inductive outcome (tasks : list (list op)) (memory : list T) : res (list T) -> Prop :=
| outcome_ok : forall n c, msteps n (launch tasks memory) c -> complete c -> outcome tasks memory (Ok (cf_memory c))
| outcome_ub : forall n c, msteps n (launch tasks memory) c -> faulty c -> outcome tasks memory UB.

End Memory.

(** The results of [reduce] on a list: the identity may be used anywhere, and results
    of neighbouring parts are joined. src/boundary_assemblers.rs:385-392. *)
Inductive reduces {A : Type} (identity : A) (join : A -> A -> A) : list A -> A -> Prop :=
| reduces_nil : reduces identity join [] identity
| reduces_one : forall x, reduces identity join [x] x
| reduces_app : forall l1 l2 a b, reduces identity join l1 a -> reduces identity join l2 b ->
    reduces identity join (l1 ++ l2) (join a b).
