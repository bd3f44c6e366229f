(** * Specification vocabulary: which entries depend on which data *)
From Verif Require Import Base Topology DofMap Space Options Adjacency SpecAdjacency Scalar Integrand CellPair Operators SpecLocal Assembly SpecAssembly SpecOrder.

Section Reach.
Context {T R : Type}.

(** The same quadrature rules; nothing is said of the geometry. *)
Definition same_rules (X X' : externals R) : Prop :=
  (forall t n, x_simplex X' t n = x_simplex X t n) /\ (forall k d p n, x_duffy X' k d p n = x_duffy X k d p n).

(** The cell [c] has the same geometry, at all points of every list of points. *)
Definition same_geometry (X X' : externals R) (g : grid) (c : nat) : Prop :=
  forall points p, 2 * p < length points ->
    let x := x_geometry X g (g_ctype g c) points c in let x' := x_geometry X' g (g_ctype g c) points c in
    (forall i, cm_point x' p i = cm_point x p i) /\ (forall i, cm_normal x' p i = cm_normal x p i) /\
    (forall i, cm_jacobian x' p i = cm_jacobian x p i) /\ cm_jdet x' p = cm_jdet x p.

(** On the cell [c] the basis function [a] is the same. *)
Definition same_function (fs fs' : fspace T R) (c a : nat) : Prop :=
  forall points d p, 2 * p < length points ->
    fs_basis fs' (g_ctype (fs_grid fs) c) points d p a 0 = fs_basis fs (g_ctype (fs_grid fs) c) points d p a 0.

(** For the points of the cells [t] and [s] the kernel has the same values. *)
Definition same_kernel (X : externals R) (O O' : operator T R) (test trial : fspace T R) (t s : nat) : Prop :=
  forall points points' p q n, 2 * p < length points -> 2 * q < length points' ->
    let x := position (x_geometry X (fs_grid test) (g_ctype (fs_grid test) t) points t) p in
    let y := position (x_geometry X (fs_grid trial) (g_ctype (fs_grid trial) s) points' s) q in
    kn_value (op_kernel O') n x y = kn_value (op_kernel O) n x y.

(** Nothing that belongs to the test DOF [i] and the trial DOF [j] is changed: neither
    the geometry of a cell of theirs, nor their basis functions, nor the kernel on two
    such cells. *)
Definition untouched (X X' : externals R) (O O' : operator T R) (test trial test' trial' : fspace T R) (i j : nat) : Prop :=
  forall t s a b, contributes test trial i j ((t, s), (a, b)) ->
    same_geometry X X' (fs_grid test) t /\ same_geometry X X' (fs_grid trial) s /\
    same_function test test' t a /\ same_function trial trial' s b /\ same_kernel X O O' test trial t s.

(** A kind of number that no addition and no multiplication makes good again, such as
    the numbers that are not numbers of floating point arithmetic. *)
Record absorbing (S : scalar T R) (bad : T -> Prop) : Prop := {
  ab_add_l : forall x y, bad x -> bad (s_add S x y);
  ab_add_r : forall x y, bad y -> bad (s_add S x y);
  ab_mul_l : forall x y, bad x -> bad (s_mul S x y)
}.

(** For the test function [a] on cell [t] and the trial function [b] on cell [s] the
    integrand is bad at some pair of points of the rule: that for the types of the two
    cells if they do not touch, that for their position to each other if they do. *)
Definition spoiled (S : scalar T R) (X : externals R) (O : operator T R) (deg : cell_type -> cell_type -> nat) (pts : cell_type -> nat)
    (test trial : fspace T R) (bad : T -> Prop) (t s a b : nat) : Prop :=
  let g := fs_grid test in
  let tt := g_ctype g t in
  let st := g_ctype (fs_grid trial) s in
  let at_points (points points' : list R) (p q : nat) :=
    let x := x_geometry X g tt points t in let y := x_geometry X (fs_grid trial) st points' s in
    bad (integrand_value S (op_integrand O) (fun n => kn_value (op_kernel O) n (position x p) (position y q))
      (fun d => fs_basis test tt points d p a 0) (fun d => fs_basis trial st points' d q b 0) x p y q) in
  (touching test trial t s /\ exists pairs kind dim q p, adjacency g t s pairs /\ duffy_for tt st = Some kind /\ shared_dimension g t s dim /\
     x_duffy X kind dim pairs (deg tt st) = Some q /\ p < length (pq_weights q) /\ at_points (pq_test q) (pq_trial q) p p) \/
  (~ touching test trial t s /\ exists qt qs p q, x_simplex X tt (pts tt) = Some qt /\ x_simplex X st (pts st) = Some qs /\
     p < length (qd_weights qt) /\ q < length (qd_weights qs) /\ at_points (qd_points qt) (qd_points qs) p q).

(** Two sparse matrices have triplets at the same places, with the same value at those
    that are related. *)
Definition same_triplets (same : nat -> nat -> Prop) (m m' : sparse T) : Prop :=
  sm_shape m' = sm_shape m /\ sm_rows m' = sm_rows m /\ sm_cols m' = sm_cols m /\ length (sm_data m') = length (sm_data m) /\
  forall k r c, nth_error (sm_rows m) k = Some r -> nth_error (sm_cols m) k = Some c -> same r c ->
    nth_error (sm_data m') k = nth_error (sm_data m) k.
End Reach.
