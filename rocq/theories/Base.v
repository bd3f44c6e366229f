(** * Base: outcomes of Rust computations, vectors and loops

    This file contains the vocabulary in which the Rust code is modelled: the
    outcome of a computation that may panic, vectors with checked and unchecked
    access, and loops over sequences.  It models no particular function. *)
From Coq Require Export List Arith Bool Lia Permutation.
Export ListNotations.

(** Outcome of a computation.
    - [Ok a]: it returns [a];
    - [Panic]: it panics ([unwrap] on [None], index out of bounds,
      [assert!], [panic!], [unimplemented!]);
    - [UB]: it performs an unchecked access outside the allocation;
    - [Hang]: it does not return within the fuel given to the model.
    Vocabulary, no code of its own; panics are e.g. at
    src/boundary_assemblers.rs:181-188, unchecked accesses at
    src/boundary_assemblers/cell_pair_assemblers.rs:144-145. *)
Inductive res (A : Type) : Type :=
| Ok (a : A)
| Panic
| UB
| Hang.
Arguments Ok {A} a.
Arguments Panic {A}.
Arguments UB {A}.
Arguments Hang {A}.

(** What comes after a computation that returned ([;] in Rust, e.g.
    src/function.rs:117-125). *)
Definition bind {A B : Type} (r : res A) (k : A -> res B) : res B :=
  match r with
  | Ok a => k a
  | Panic => Panic
  | UB => UB
  | Hang => Hang
  end.

Declare Scope res_scope.
Delimit Scope res_scope with res.
Notation "x <- e ;; k" := (bind e (fun x => k))
  (at level 100, e at next level, right associativity) : res_scope.
Notation "' p <- e ;; k" := (bind e (fun p => k))
  (at level 100, p pattern, e at next level, right associativity) : res_scope.
Open Scope res_scope.

(** [Option::unwrap]. E.g. src/function.rs:422, 428. *)
Definition unwrap {A : Type} (o : option A) : res A :=
  match o with Some a => Ok a | None => Panic end.

(** [v[i]] (checked access). E.g. src/function.rs:259, 424. *)
Definition vget {A : Type} (l : list A) (i : nat) : res A := unwrap (nth_error l i).

(** [v.get_unchecked(i)]. E.g. src/function.rs:272. *)
Definition uget {A : Type} (l : list A) (i : nat) : res A :=
  match nth_error l i with Some a => Ok a | None => UB end.

(** Replace position [i], leaving the list alone if there is none.
    Used for assignments such as src/function.rs:220-221. *)
Fixpoint set_nth {A : Type} (l : list A) (i : nat) (x : A) : list A :=
  match l, i with
  | [], _ => []
  | _ :: t, 0 => x :: t
  | h :: t, S i' => h :: set_nth t i' x
  end.

(** [v[i] = x] (checked access). E.g. src/function.rs:220-221. *)
Definition vset {A : Type} (l : list A) (i : nat) (x : A) : res (list A) :=
  if i <? length l then Ok (set_nth l i x) else Panic.

(** [for x in l { s = f(s, x) }]. E.g. src/function.rs:141-151, 413-442. *)
Fixpoint foldM {S A : Type} (f : S -> A -> res S) (l : list A) (s : S) : res S :=
  match l with
  | [] => Ok s
  | x :: t => s' <- f s x ;; foldM f t s'
  end.

(** [l.iter().map(f).collect()] for an [f] that may panic.
    E.g. src/function.rs:193-200. *)
Fixpoint mapM {A B : Type} (f : A -> res B) (l : list A) : res (list B) :=
  match l with
  | [] => Ok []
  | x :: t => y <- f x ;; ys <- mapM f t ;; Ok (y :: ys)
  end.

(** [l.iter().enumerate()]. E.g. src/function.rs:141, 420-425. *)
Definition enumerate {A : Type} (l : list A) : list (nat * A) :=
  combine (seq 0 (length l)) l.

(** Look-up in a [HashMap] given as an association list.
    E.g. src/function.rs:254-256, src/boundary_assemblers.rs:357. *)
Fixpoint assoc {K V : Type} (eqb : K -> K -> bool) (k : K) (m : list (K * V)) : option V :=
  match m with
  | [] => None
  | (k', v) :: t => if eqb k k' then Some v else assoc eqb k t
  end.

(** [HashMap::insert]: replaces the value of an existing key.
    E.g. src/function.rs:285, src/boundary_assemblers.rs:291. *)
Fixpoint assoc_insert {K V : Type} (eqb : K -> K -> bool) (k : K) (v : V) (m : list (K * V))
  : list (K * V) :=
  match m with
  | [] => [(k, v)]
  | (k', v') :: t => if eqb k k' then (k', v) :: t else (k', v') :: assoc_insert eqb k v t
  end.

(** [Vec::contains]. E.g. src/function.rs:322, src/boundary_assemblers.rs:815. *)
Definition memb (x : nat) (l : list nat) : bool := existsb (Nat.eqb x) l.

(** [iter().sum()], e.g. src/function.rs:389-396. *)
Definition sum_list (l : list nat) : nat := fold_right Nat.add 0 l.
