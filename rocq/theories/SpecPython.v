(** * Specification vocabulary for the Python layer *)
From Verif Require Import Base Topology Options Python.

(** What happens to function spaces: one is created, a creation raises, one is
    deleted.  Spaces are numbered in the order of their creation. *)
Inductive event : Type :=
| Created (g f : nat)
| Failed (g f : nat)
| Deleted (s : nat).

(** The histories, latest event last, with the worlds they lead to. *)
Inductive history (E : outside) : list event -> world -> Prop :=
| history_start : history E [] initial_world
| history_created : forall h w g f s w', history E h w -> function_space E g f w = Return s w' -> history E (h ++ [Created g f]) w'
| history_failed : forall h w g f w', history E h w -> function_space E g f w = Raise w' -> history E (h ++ [Failed g f]) w'
| history_deleted : forall h w s w', history E h w -> In s (map fst (w_spaces w)) -> delete_space s w = Return tt w' -> history E (h ++ [Deleted s]) w'.

(** The spaces alive after a history, from the events alone: number, grid and
    family. *)
Definition survivors_step (st : nat * list (nat * (nat * nat))) (e : event) : nat * list (nat * (nat * nat)) :=
  match e with
  | Created g f => (S (fst st), (fst st, (g, f)) :: snd st)
  | Failed _ _ => st
  | Deleted s => (fst st, filter (fun x => negb (fst x =? s)) (snd st))
  end.
Definition survivors (h : list event) : list (nat * (nat * nat)) := snd (fold_left survivors_step h (0, [])).

(** The native object at an address is used by a live space. *)
Definition in_use (w : world) (a : nat) : Prop :=
  exists s p, In (s, p) (w_spaces w) /\
    (ps_handle p = a \/ at_handle (w_grid w (ps_grid p)) = Some a \/ at_handle (w_family w (ps_family p)) = Some a).

(** ** Options *)

(** The options object a call tries to change. *)
Definition setter_of (c : call) : option nat :=
  match c with
  | SetRegularDegree i _ _ | SetSingularDegree i _ _ _ | SetBatchSize i _ => Some i
  | _ => None
  end.

(** The object has been given to an assembler. *)
Definition given (s : session) (i : nat) : Prop := exists a, In a (se_assemblers s) /\ pa_options a = i.

(** A program gets hold of object 0, the default argument, only as the options of
    an assembler. *)
Definition accessible (s : session) (c : call) : Prop :=
  setter_of c = Some 0 -> given s 0.

(** The sessions a sequence of calls can lead to: a call may return or raise. *)
Inductive leads_to : session -> list call -> session -> Prop :=
| leads_none : forall s, leads_to s [] s
| leads_done : forall s c s' cs s'', accessible s c -> execute c s = Done s' -> leads_to s' cs s'' -> leads_to s (c :: cs) s''
| leads_raised : forall s c s' cs s'', accessible s c -> execute c s = Raised s' -> leads_to s' cs s'' -> leads_to s (c :: cs) s''.

(** All values that can be read from two options objects (of two sessions) agree. *)
Definition same_values (s : session) (i : nat) (s' : session) (i' : nat) : Prop :=
  (forall t, py_regular_degree s i t = py_regular_degree s' i' t) /\
  (forall t0 t1, py_singular_degree s i t0 t1 = py_singular_degree s' i' t0 t1) /\
  py_batch_size s i = py_batch_size s' i'.

(** The native options of an options object. *)
Definition values (s : session) (i : nat) : option options :=
  match nth_error (se_options s) i with
  | Some p => nth_error (se_native s) (po_handle p)
  | None => None
  end.
