(** * Specification vocabulary: two related arithmetics *)
From Verif Require Import Base Topology DofMap Space Options Adjacency SpecAdjacency Scalar Integrand CellPair Operators SpecLocal Assembly SpecAssembly.

Section Related.
Context {T R T' R' : Type}.

(** [relT] and [relR] relate the numbers of two arithmetics, [relD] the determinants
    (by which some integrands divide), [relN] the components of normals and
    Jacobians, [relP] the lists of points. *)
Variables (relT : T -> T' -> Prop) (relR relD relN : R -> R' -> Prop) (relP : list R -> list R' -> Prop).

(** The operations that every assembly uses respect the relations. *)
Record related_arithmetic (S : scalar T R) (S' : scalar T' R') : Prop := {
  ra_zero : relT (s_zero S) (s_zero S');
  ra_add : forall x x' y y', relT x x' -> relT y y' -> relT (s_add S x y) (s_add S' x' y');
  ra_mul : forall x x' y y', relT x x' -> relT y y' -> relT (s_mul S x y) (s_mul S' x' y');
  ra_cast : forall r r', relR r r' -> relT (s_cast S r) (s_cast S' r');
  ra_real_mul : forall r r' s s', relR r r' -> relR s s' -> relR (r_mul S r s) (r_mul S' r' s');
  ra_denominator : forall r r', relD r r' -> relR r r'
}.

(** And the operations that only some integrands use. *)
Record related_operations (S : scalar T R) (S' : scalar T' R') : Prop := {
  ro_sub : forall x x' y y', relT x x' -> relT y y' -> relT (s_sub S x y) (s_sub S' x' y');
  ro_cast : forall r r', relN r r' -> relT (s_cast S r) (s_cast S' r');
  ro_neg : forall x x', relT x x' -> relT (s_neg S x) (s_neg S' x');
  ro_div : forall x x' r r', relT x x' -> relD r r' -> relT (s_div S x (s_cast S r)) (s_div S' x' (s_cast S' r'))
}.

(** Normal, Jacobian and determinant at a point. *)
Definition related_point (x : cell_map R) (x' : cell_map R') (p : nat) : Prop :=
  (forall i, relN (cm_normal x p i) (cm_normal x' p i)) /\
  (forall i, relN (cm_jacobian x p i) (cm_jacobian x' p i)) /\
  relD (cm_jdet x p) (cm_jdet x' p).

(** The integrands have related values, for related values of the parts of the kernel
    and the derivatives of the basis functions that the first one uses. *)
Definition related_integrand (S : scalar T R) (S' : scalar T' R') (f : integrand T) (f' : integrand T') : Prop :=
  forall k k' phi phi' psi psi' x x' p y y' q,
    (forall n, n < kernel_used f -> relT (k n) (k' n)) ->
    (forall n, n < deriv_count (derivs_used f) -> relT (phi n) (phi' n)) ->
    (forall n, n < deriv_count (derivs_used f) -> relT (psi n) (psi' n)) ->
    related_point x x' p -> related_point y y' q ->
    relT (integrand_value S f k phi psi x p y q) (integrand_value S' f' k' phi' psi' x' p y' q).

(** The same integrand with related factors. *)
Fixpoint related_form (f : integrand T) (f' : integrand T') : Prop :=
  match f, f' with
  | SingleLayer, SingleLayer | DoubleLayer, DoubleLayer | AdjointDoubleLayer, AdjointDoubleLayer
  | HypersingularCurlCurl, HypersingularCurlCurl | HypersingularNormalNormal, HypersingularNormalNormal => True
  | Sum f0 f1, Sum f0' f1' => related_form f0 f0' /\ related_form f1 f1'
  | TimesScalar c f0, TimesScalar c' f0' => relT c c' /\ related_form f0 f0'
  | _, _ => False
  end.

(** Related quadrature rules and related geometry of the cells; a list of points has
    two coordinates for each. *)
Record related_externals (X : externals R) (X' : externals R') : Prop := {
  rx_simplex : forall t n q q', x_simplex X t n = Some q -> x_simplex X' t n = Some q' ->
    relP (qd_points q) (qd_points q') /\ Forall2 relR (qd_weights q) (qd_weights q');
  rx_duffy : forall k d p n q q', x_duffy X k d p n = Some q -> x_duffy X' k d p n = Some q' ->
    relP (pq_test q) (pq_test q') /\ relP (pq_trial q) (pq_trial q') /\ Forall2 relR (pq_weights q) (pq_weights q');
  rx_geometry : forall g t points points' c p, relP points points' -> 2 * p < length points -> c < ent_count g 2 ->
    related_point (x_geometry X g t points c) (x_geometry X' g t points' c) p
}.

(** Related basis functions, with the derivatives that the operator uses. *)
Definition related_basis (O : operator T R) (fs : fspace T R) (fs' : fspace T' R') : Prop :=
  forall t points points' d p b, relP points points' -> 2 * p < length points ->
    d < deriv_count (op_table_derivs O) -> b < el_dim (fs_family fs t) ->
    relT (fs_basis fs t points d p b 0) (fs_basis fs' t points' d p b 0).

(** Related values of the kernel where it is evaluated: all pairs of points of the
    regular rules for two cells that do not touch, and the pairs of points of the
    Duffy rule for two cells that touch. *)
Record related_kernel (X : externals R) (X' : externals R') (O : operator T R) (O' : operator T' R')
    (deg : cell_type -> cell_type -> nat) (pts : cell_type -> nat) (test trial : fspace T R) : Prop := {
  rk_regular : forall t s qt qt' qs qs' p q n,
    let tt := g_ctype (fs_grid test) t in let st := g_ctype (fs_grid trial) s in
    t < ent_count (fs_grid test) 2 -> s < ent_count (fs_grid trial) 2 -> ~ touching test trial t s ->
    x_simplex X tt (pts tt) = Some qt -> x_simplex X' tt (pts tt) = Some qt' ->
    x_simplex X st (pts st) = Some qs -> x_simplex X' st (pts st) = Some qs' ->
    p < length (qd_weights qt) -> q < length (qd_weights qs) -> n < op_deriv_size O ->
    relT (kn_value (op_kernel O) n (position (x_geometry X (fs_grid test) tt (qd_points qt) t) p)
            (position (x_geometry X (fs_grid trial) st (qd_points qs) s) q))
         (kn_value (op_kernel O') n (position (x_geometry X' (fs_grid test) tt (qd_points qt') t) p)
            (position (x_geometry X' (fs_grid trial) st (qd_points qs') s) q));
  rk_singular : forall t s pairs kind dim q q' p n,
    let g := fs_grid test in let tt := g_ctype g t in let st := g_ctype g s in
    t < ent_count g 2 -> s < ent_count g 2 -> touching test trial t s ->
    adjacency g t s pairs -> duffy_for tt st = Some kind -> shared_dimension g t s dim ->
    x_duffy X kind dim pairs (deg tt st) = Some q -> x_duffy X' kind dim pairs (deg tt st) = Some q' ->
    p < length (pq_weights q) -> n < op_deriv_size O ->
    relT (kn_value (op_kernel O) n (position (x_geometry X g tt (pq_test q) t) p) (position (x_geometry X g st (pq_trial q) s) p))
         (kn_value (op_kernel O') n (position (x_geometry X' g tt (pq_test q') t) p) (position (x_geometry X' g st (pq_trial q') s) p))
}.
End Related.

(** The operations keep the numbers in [pos] and [posR], such as the numbers that are
    not negative. *)
Record closed_signs {T R : Type} (S : scalar T R) (pos : T -> Prop) (posR : R -> Prop) : Prop := {
  cs_zero : pos (s_zero S);
  cs_add : forall x y, pos x -> pos y -> pos (s_add S x y);
  cs_mul : forall x y, pos x -> pos y -> pos (s_mul S x y);
  cs_cast : forall r, posR r -> pos (s_cast S r);
  cs_real_mul : forall r s, posR r -> posR s -> posR (r_mul S r s)
}.

(** The points of the rules. *)
Definition rule_points {R : Type} (X : externals R) (points : list R) : Prop :=
  (exists t n q, x_simplex X t n = Some q /\ points = qd_points q) \/
  (exists k d p n q, x_duffy X k d p n = Some q /\ (points = pq_test q \/ points = pq_trial q)).

(** Weights and determinants are in [posR]. *)
Record positive_externals {R : Type} (posR : R -> Prop) (X : externals R) : Prop := {
  px_simplex : forall t n q, x_simplex X t n = Some q -> Forall posR (qd_weights q);
  px_duffy : forall k d p n q, x_duffy X k d p n = Some q -> Forall posR (pq_weights q);
  px_geometry : forall g t points c p, rule_points X points -> 2 * p < length points -> c < ent_count g 2 ->
    posR (cm_jdet (x_geometry X g t points c) p)
}.

(** The basis functions have values in [pos] at the points of the rules. *)
Definition positive_basis {T R : Type} (pos : T -> Prop) (X : externals R) (fs : fspace T R) : Prop :=
  forall t points p b, rule_points X points -> 2 * p < length points -> b < el_dim (fs_family fs t) -> pos (fs_basis fs t points 0 p b 0).
