(** * Specification vocabulary: moved and scaled grids *)
From Verif Require Import Base Topology Scalar Integrand CellPair Operators SpecLocal SpecOperators Assembly.

Section Similar.
Context {T R : Type} (S : scalar T R).
Local Notation "a *! b" := (s_mul S a b) (at level 40, left associativity).
Local Notation cast := (s_cast S).

(** A linear map of three dimensions, by its rows, that preserves the scalar product:
    a rotation or a reflection. *)
Definition orthogonal (A : nat -> nat -> T) : Prop :=
  forall u v, dot S (fun i => dot S (A i) u) (fun i => dot S (A i) v) = dot S u v.

(** The geometry of a cell after a motion of space with linear part [scale] times
    [A]: positions move, the columns of the Jacobian are transformed by the linear
    part, areas are multiplied with the square of [scale], normals are transformed by
    [A] and, if the orientation changes, by the sign. *)
Record similar_cell (move : R * R * R -> R * R * R) (A : nat -> nat -> T) (scale sign : T) (x x' : cell_map R) : Prop := {
  sc_position : forall p, position x' p = move (position x p);
  sc_normal : forall p i, i < 3 -> cast (cm_normal x' p i) = sign *! dot S (A i) (fun j => cast (cm_normal x p j));
  sc_column : forall p k i, k < 2 -> i < 3 ->
    cast (cm_jacobian x' p (3 * k + i)) = scale *! dot S (A i) (fun j => cast (cm_jacobian x p (3 * k + j)));
  sc_area : forall p, cast (cm_jdet x' p) = scale *! scale *! cast (cm_jdet x p)
}.

(** The grid [g] in two places: the rules are the same and the cells are moved. *)
Record similar_externals (move : R * R * R -> R * R * R) (A : nat -> nat -> T) (scale sign : T) (g : grid) (X X' : externals R) : Prop := {
  sx_simplex : x_simplex X' = x_simplex X;
  sx_duffy : x_duffy X' = x_duffy X;
  sx_geometry : forall t points c, c < ent_count g 2 ->
    similar_cell move A scale sign (x_geometry X g t points c) (x_geometry X' g t points c)
}.

(** How the Green's function and its gradient change under the motion, up to the
    factor [mu]; for 1/(4 pi r) it is the reciprocal of [scale]. *)
Record similar_green (move : R * R * R -> R * R * R) (A : nat -> nat -> T) (scale mu : T) (G G' : @green T R) : Prop := {
  sgr_value : forall x y, G' 0 (move x) (move y) = mu *! G 0 x y;
  sgr_gradient : forall i x y, i < 3 -> scale *! G' (1 + i) (move x) (move y) = mu *! dot S (A i) (fun j => G (1 + j) x y)
}.

(** Division by a multiple. *)
Definition divides_out (scale : T) : Prop := forall a b, s_div S a (scale *! b) *! scale = s_div S a b.

(** The factor of the matrix of each kind of operator. *)
Definition similarity_factor (scale sign mu : T) (kd : kind) : T :=
  match kd with
  | Single => mu *! (scale *! scale) *! (scale *! scale)
  | Double | Adjoint => sign *! mu *! scale *! (scale *! scale)
  | Hypersingular => mu *! (scale *! scale)
  end.
End Similar.
