(** * Specification vocabulary: acute triangles, convex surfaces, and the signs of entries *)
From Coq Require Import SpecFloat Reals.
From Verif Require Import Base Topology DofMap Space Adjacency SpecAdjacency Scalar Integrand CellPair Operators SpecLocal Assembly SpecAssembly
  SpecTransfer SpecOperators Shapes SpecShapes SpecSphere SpecWidth SpecDecay SpecTurns SpecPlanes.

(** [neg] is closed under sums and products with numbers in [pos], [below] consists of
    numbers in [neg] that stay in [below] if numbers of [neg] are added or if they are
    multiplied by numbers in [above]. *)
Record signs {T R : Type} (S : scalar T R) (neg below pos above : T -> Prop) : Prop := {
  sg_zero : neg (s_zero S);
  sg_add : forall x y, neg x -> neg y -> neg (s_add S x y);
  sg_mul : forall x y, neg x -> pos y -> neg (s_mul S x y);
  sg_below : forall x, below x -> neg x;
  sg_left : forall x y, below x -> neg y -> below (s_add S x y);
  sg_right : forall x y, neg x -> below y -> below (s_add S x y);
  sg_strict : forall x y, below x -> above y -> below (s_mul S x y)
}.

(** The derivative of the kernel in the direction of the normal, with the sign that the
    operator gives it: the normal of the trial cell for the double layer operator, minus
    that of the test cell for its adjoint. *)
Definition normal_derivative {T R : Type} (S : scalar T R) (kd : kind) (G : @green T R) (x : cell_map R) (p : nat) (y : cell_map R) (q : nat) : T :=
  match kd with
  | Adjoint => s_neg S (dot S (fun i => G (1 + i) (SpecLocal.position x p) (SpecLocal.position y q)) (SpecLocal.normal S x p))
  | _ => dot S (fun i => G (1 + i) (SpecLocal.position x p) (SpecLocal.position y q)) (SpecLocal.normal S y q)
  end.

(** It has values in [P] at all points that are used for the two cells. *)
Definition derivative_in {T R : Type} (S : scalar T R) (P : T -> Prop) (X : externals R) (kd : kind) (G : @green T R)
    (deg : cell_type -> cell_type -> nat) (pts : cell_type -> nat) (test trial : fspace T R) (t s : nat) : Prop :=
  forall x p y q, used_points X deg pts test trial t s x p y q -> P (normal_derivative S kd G x p y q).

(** The basis functions, and the weights times the determinants, are in [P]. *)
Record data_in {T R : Type} (S : scalar T R) (P : T -> Prop) (X : externals R) (test trial : fspace T R) : Prop := {
  di_basis : forall fs t points p a, fs = test \/ fs = trial -> rule_points X points -> 2 * p < length points -> a < el_dim (fs_family fs t) ->
    P (fs_basis fs t points 0 p a 0);
  di_simplex : forall fs t n q p w c, fs = test \/ fs = trial -> x_simplex X t n = Some q -> nth_error (qd_weights q) p = Some w -> c < ent_count (fs_grid fs) 2 ->
    P (s_cast S (r_mul S w (cm_jdet (x_geometry X (fs_grid fs) t (qd_points q) c) p)));
  di_duffy : forall t s kind dim pairs n q p w c d, x_duffy X kind dim pairs n = Some q -> nth_error (pq_weights q) p = Some w ->
    c < ent_count (fs_grid test) 2 -> d < ent_count (fs_grid test) 2 ->
    P (s_cast S (r_mul S w (r_mul S (cm_jdet (x_geometry X (fs_grid test) t (pq_test q) c) p) (cm_jdet (x_geometry X (fs_grid test) s (pq_trial q) d) p))))
}.

(** No rule is empty. *)
Definition some_points {R : Type} (X : externals R) : Prop :=
  (forall t n q, x_simplex X t n = Some q -> qd_weights q <> []) /\ (forall k d p n q, x_duffy X k d p n = Some q -> pq_weights q <> []).

Local Open Scope R_scope.

(** All three angles are less than right angles. *)
Definition acute (p q r : vec) : Prop :=
  0 < inner (vsub q p) (vsub r p) /\ 0 < inner (vsub r q) (vsub p q) /\ 0 < inner (vsub p r) (vsub q r).

(** How far [x] is above the plane of a triangle, times twice its area. *)
Definition above_plane (p q r x : vec) : R := inner (normal p q r) (vsub x p).

(** Weights of the inner points of a triangle. *)
Definition inner_weights (s t o : R) : Prop := 0 < s /\ 0 < t /\ 0 < o /\ s + t + o = 1.

(** The gradient of the kernel is in the direction from the second point to the first
    (as for the gradient of a decreasing function of the distance with respect to the
    second point). *)
Definition repelling (G : @green R R) : Prop :=
  exists psi : R -> R, (forall d, 0 < d -> 0 < psi d) /\
    forall i x y, (i < 3)%nat -> G (1 + i)%nat x y = psi (chord2 x y) * coordinate i (vsub x y).

(** The weights of the rules are in [P]. *)
Definition weights_in (P : R -> Prop) (X : externals R) : Prop :=
  (forall t n q, x_simplex X t n = Some q -> Forall P (qd_weights q)) /\ (forall k d p n q, x_duffy X k d p n = Some q -> Forall P (pq_weights q)).

(** The points of the rules for triangles are inner points of the reference triangle. *)
Definition inner_rules (X : externals R) : Prop :=
  (forall n q p, x_simplex X Triangle n = Some q -> (p < length (qd_weights q))%nat ->
    0 < nth (2 * p) (qd_points q) 0 /\ 0 < nth (2 * p + 1) (qd_points q) 0 /\ nth (2 * p) (qd_points q) 0 + nth (2 * p + 1) (qd_points q) 0 < 1) /\
  (forall dim pairs n q p, x_duffy X TriangleDuffy dim pairs n = Some q -> (p < length (pq_weights q))%nat ->
    0 < nth (2 * p) (pq_test q) 0 /\ 0 < nth (2 * p + 1) (pq_test q) 0 /\ nth (2 * p) (pq_test q) 0 + nth (2 * p + 1) (pq_test q) 0 < 1 /\
    0 < nth (2 * p) (pq_trial q) 0 /\ 0 < nth (2 * p + 1) (pq_trial q) 0 /\ nth (2 * p) (pq_trial q) 0 + nth (2 * p + 1) (pq_trial q) 0 < 1).

(** Floating point numbers that are not greater than zero, and not less than zero
    (NaN is neither greater nor less). *)
Definition not_above (x : SpecFloat.spec_float) : Prop := match x with SpecFloat.S754_infinity false | SpecFloat.S754_finite false _ _ => False | _ => True end.
Definition not_below (x : SpecFloat.spec_float) : Prop := match x with SpecFloat.S754_infinity true | SpecFloat.S754_finite true _ _ => False | _ => True end.
