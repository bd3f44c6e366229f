(** * Process: message passing programs

    The part of MPI used in src/function.rs:134-224: blocking receives
    ([receive], [receive_vec]) and sends that are waited for at once
    ([let _ = WaitGuard::from(process.immediate_send(..))] drops, hence waits
    for, the request immediately).  Messages between two processes on one
    communicator with one tag do not overtake each other, so there is one FIFO
    channel for each ordered pair of processes. *)
From Verif Require Import Base.

(** A [usize] or a [Vec<usize>]. Sent at src/function.rs:155, 162, 177-181, 203-204. *)
Inductive msg : Type :=
| MNum (n : nat)
| MVec (l : list nat).

(** A program of one process that ends with a value of type [A].
    As src/function.rs:134-224 is one. *)
Inductive proc (A : Type) : Type :=
| Ret (a : A)
| Send (to : nat) (m : msg) (k : proc A)
| Recv (from : nat) (k : msg -> proc A)
| Crash.
Arguments Ret {A}.
Arguments Send {A}.
Arguments Recv {A}.
Arguments Crash {A}.

(** Local computation inside a program: anything but [Ok] aborts the process.
    E.g. src/function.rs:139-151. *)
Definition local {A B : Type} (r : res A) (k : A -> proc B) : proc B :=
  match r with Ok a => k a | _ => Crash end.

(** [receive::<usize>()]: a message of another type is an MPI error.
    src/function.rs:137, 167. *)
Definition recv_num {A : Type} (from : nat) (k : nat -> proc A) : proc A :=
  Recv from (fun m => match m with MNum n => k n | MVec _ => Crash end).

(** [receive_vec::<usize>()]. src/function.rs:190-192, 214-215. *)
Definition recv_vec {A : Type} (from : nat) (k : list nat -> proc A) : proc A :=
  Recv from (fun m => match m with MVec l => k l | MNum _ => Crash end).

(** State of [N] processes: what each still has to do, and the messages under way
    from one process to another. For src/function.rs:134-224 on all processes. *)
Record net (A : Type) : Type := mkNet {
  n_proc : nat -> proc A;
  n_chan : nat -> nat -> list msg
}.
Arguments mkNet {A}.
Arguments n_proc {A}.
Arguments n_chan {A}.

(** Update of a function; vocabulary for [step], src/function.rs:134-224. *)
Definition upd {V : Type} (f : nat -> V) (i : nat) (v : V) : nat -> V :=
  fun j => if j =? i then v else f j.

(** The same with two arguments, src/function.rs:134-224. *)
Definition upd2 {V : Type} (f : nat -> nat -> V) (i j : nat) (v : V) : nat -> nat -> V :=
  fun a b => if (a =? i) && (b =? j) then v else f a b.

(** One step of the system.  A message for which [eager] holds is buffered: the
    sender continues at once.  Any other message is handed over only when the
    receiver is at the matching receive and no earlier message is under way.
    The steps of src/function.rs:134-224. *)
Inductive step {A : Type} (N : nat) (eager : msg -> bool) : net A -> net A -> Prop :=
| step_send : forall s r q m k, r < N -> q < N ->
    n_proc s r = Send q m k -> eager m = true ->
    step N eager s (mkNet (upd (n_proc s) r k) (upd2 (n_chan s) r q (n_chan s r q ++ [m])))
| step_recv : forall s r q m ms k, r < N -> q < N ->
    n_proc s r = Recv q k -> n_chan s q r = m :: ms ->
    step N eager s (mkNet (upd (n_proc s) r (k m)) (upd2 (n_chan s) q r ms))
| step_sync : forall s r q m k k', r < N -> q < N -> r <> q ->
    n_proc s r = Send q m k -> n_proc s q = Recv r k' -> n_chan s r q = [] ->
    step N eager s (mkNet (upd (upd (n_proc s) r k) q (k' m)) (n_chan s)).

(** Executions of a given number of steps. Those of src/function.rs:134-224. *)
Inductive steps {A : Type} (N : nat) (eager : msg -> bool) : nat -> net A -> net A -> Prop :=
| steps_0 : forall s, steps N eager 0 s s
| steps_S : forall n s1 s2 s3, steps N eager n s1 s2 -> step N eager s2 s3 -> steps N eager (S n) s1 s3.

(** All processes enter [FunctionSpace::new], src/function.rs:106, and no message is
    under way. *)
Definition initial {A : Type} (p : nat -> proc A) : net A := mkNet p (fun _ _ => []).

(** All processes have returned. From [FunctionSpace::new], src/function.rs:226-236. *)
Definition finished {A : Type} (N : nat) (s : net A) (result : nat -> A) : Prop :=
  forall r, r < N -> n_proc s r = Ret (result r).

(** Sends never wait. One of the two extremes for the sends at src/function.rs:155-204. *)
Definition buffered : msg -> bool := fun _ => true.

(** Sends always wait for the matching receive, as the MPI standard permits for
    standard mode sends. The other extreme for the sends at src/function.rs:155-204. *)
Definition synchronous : msg -> bool := fun _ => false.
