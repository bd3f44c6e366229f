(** * Scalars and arrays

    The number types [T: RlstScalar] and [T::Real], and the arrays of the external
    crate [rlst].  Nothing is assumed about the operations: a statement about all
    [scalar]s holds for floating point numbers too. *)
From Coq Require Import Ring_theory.
From Verif Require Import Base.

(** The operations on [T] and [T::Real] used in src/boundary_assemblers.rs,
    src/boundary_assemblers/cell_pair_assemblers.rs and
    src/boundary_assemblers/integrands/*.rs. *)
Record scalar (T R : Type) : Type := mkScalar {
  s_zero : T;                       (** [T::zero()] *)
  s_add : T -> T -> T;
  s_mul : T -> T -> T;
  s_sub : T -> T -> T;
  s_neg : T -> T;
  s_div : T -> T -> T;
  r_zero : R;                       (** [T::Real::zero()] *)
  r_mul : R -> R -> R;
  r_neg : R -> R;
  s_cast : R -> T;                  (** [num::cast::<T::Real, T>(x).unwrap()], [T::from(x).unwrap()] *)
  s_large : T -> bool               (** [x.abs() > 1e-10] (src/boundary_assemblers.rs:134-135) *)
}.
Arguments s_zero {T R}.
Arguments s_add {T R}.
Arguments s_mul {T R}.
Arguments s_sub {T R}.
Arguments s_neg {T R}.
Arguments s_div {T R}.
Arguments r_zero {T R}.
Arguments r_mul {T R}.
Arguments r_neg {T R}.
Arguments s_cast {T R}.
Arguments s_large {T R}.

(** Exact arithmetic: a commutative ring, in which division by [b] is a
    multiplication.  Used only in the theorems that say so.
    An assumption on the operations of src/boundary_assemblers/integrands/*.rs, no
    code. *)
Definition exact {T R : Type} (S : scalar T R) : Prop :=
  (exists one, ring_theory (s_zero S) one (s_add S) (s_mul S) (s_sub S) (s_neg S) eq) /\
  (exists inv : T -> T, forall a b, s_div S a b = s_mul S a (inv b)).

(** [Array<T, BaseArray<T, VectorContainer<T>, DIM>, DIM>] (helpers.rs:56-57): the
    shape and the entries, the first index running fastest. *)
Record array (T : Type) : Type := mkArray { a_shape : list nat; a_data : list T }.
Arguments mkArray {T}.
Arguments a_shape {T}.
Arguments a_data {T}.

(** The position of an entry; [None] outside the shape.
    Data of [rlst], for the accesses at src/boundary_assemblers/integrands.rs:91-169.
    *)
Fixpoint flat_index (shape idx : list nat) : option nat :=
  match shape, idx with
  | [], [] => Some 0
  | n :: shape', i :: idx' =>
      if i <? n then
        match flat_index shape' idx' with Some k => Some (i + n * k) | None => None end
      else None
  | _, _ => None
  end.

(** [a.get_unchecked(idx)].  Leaving the shape counts as undefined behaviour even
    if the position computed by the code is still inside the allocation.
    src/boundary_assemblers/integrands.rs:91, 111, 136, 159-174. *)
Definition aget {T : Type} (a : array T) (idx : list nat) : res T :=
  match flat_index (a_shape a) idx with Some k => uget (a_data a) k | None => UB end.

(** The number of entries, for src/boundary_assemblers/cell_pair_assemblers.rs:72-80,
    244-252. *)
Definition size_of (shape : list nat) : nat := fold_right Nat.mul 1 shape.

(** [rlst_dynamic_array!(T, shape)]: filled with zeros.
    src/boundary_assemblers/cell_pair_assemblers.rs:72-80, 244-252,
    src/boundary_assemblers.rs:660, 742. *)
Definition new_array {T : Type} (z : T) (shape : list nat) : array T := mkArray shape (repeat z (size_of shape)).

(** An external function overwrites the entries of an array ([a.data_mut()]).
    src/boundary_assemblers/cell_pair_assemblers.rs:90-96, 110-114, 284-288. *)
Definition fill {T : Type} (a : array T) (data : list T) : array T := mkArray (a_shape a) data.

(** The entries of an array given by a function of the indices.
    For what [GeometryMap] writes,
    src/boundary_assemblers/cell_pair_assemblers.rs:90-107. *)
Definition table2 {T : Type} (n m : nat) (f : nat -> nat -> T) : list T :=
  flat_map (fun j => map (fun i => f i j) (seq 0 n)) (seq 0 m).
(** For the kernel values, src/boundary_assemblers/cell_pair_assemblers.rs:284-288. *)
Definition table3 {T : Type} (n m p : nat) (f : nat -> nat -> nat -> T) : list T :=
  flat_map (fun k => table2 n m (fun i j => f i j k)) (seq 0 p).
(** For [tabulate], src/boundary_assemblers.rs:323, 342, 457, 464. *)
Definition table4 {T : Type} (n m p q : nat) (f : nat -> nat -> nat -> nat -> T) : list T :=
  flat_map (fun l => table3 n m p (fun i j k => f i j k l)) (seq 0 q).
