(** * Specification vocabulary: cells in one plane *)
From Coq Require Import ZArith SpecFloat Reals.
From Verif Require Import Base Topology DofMap Space Adjacency SpecAdjacency Scalar Integrand CellPair Operators SpecLocal Assembly SpecAssembly
  SpecTransfer SpecOperators SpecSphere SpecDigits SpecTurns.

(** The pairs of points of the rules for test cell [t] and trial cell [s]: point [p] of
    the geometry [x] of the test cell and point [q] of the geometry [y] of the trial
    cell. *)
Inductive used_points {T R : Type} (X : externals R) (deg : cell_type -> cell_type -> nat) (pts : cell_type -> nat) (test trial : fspace T R) (t s : nat) :
    cell_map R -> nat -> cell_map R -> nat -> Prop :=
| used_touching : forall pairs kind dim q p, touching test trial t s ->
    adjacency (fs_grid test) t s pairs -> duffy_for (g_ctype (fs_grid test) t) (g_ctype (fs_grid test) s) = Some kind -> shared_dimension (fs_grid test) t s dim ->
    x_duffy X kind dim pairs (deg (g_ctype (fs_grid test) t) (g_ctype (fs_grid test) s)) = Some q -> p < length (pq_weights q) ->
    used_points X deg pts test trial t s
      (x_geometry X (fs_grid test) (g_ctype (fs_grid test) t) (pq_test q) t) p
      (x_geometry X (fs_grid test) (g_ctype (fs_grid test) s) (pq_trial q) s) p
| used_distant : forall qt qs p p', ~ touching test trial t s ->
    x_simplex X (g_ctype (fs_grid test) t) (pts (g_ctype (fs_grid test) t)) = Some qt ->
    x_simplex X (g_ctype (fs_grid trial) s) (pts (g_ctype (fs_grid trial) s)) = Some qs ->
    p < length (qd_weights qt) -> p' < length (qd_weights qs) ->
    used_points X deg pts test trial t s
      (x_geometry X (fs_grid test) (g_ctype (fs_grid test) t) (qd_points qt) t) p
      (x_geometry X (fs_grid trial) (g_ctype (fs_grid trial) s) (qd_points qs) s) p'.

(** [zero] are the zeros of the arithmetic (in floating point two of them) and [fin]
    the finite numbers: sums and negatives of zeros, and products of zeros with finite
    numbers, are zeros. *)
Record zeros {T R : Type} (S : scalar T R) (zero fin : T -> Prop) : Prop := {
  zr_zero : zero (s_zero S);
  zr_add : forall x y, zero x -> zero y -> zero (s_add S x y);
  zr_neg : forall x, zero x -> zero (s_neg S x);
  zr_left : forall x y, zero x -> fin y -> zero (s_mul S x y);
  zr_right : forall x y, fin x -> zero y -> zero (s_mul S x y)
}.

(** The values of the basis functions and the weights times the determinants are
    finite. *)
Record finite_data {T R : Type} (S : scalar T R) (fin : T -> Prop) (X : externals R) (test trial : fspace T R) : Prop := {
  fd_basis : forall fs t points p a, fs = test \/ fs = trial -> rule_points X points -> 2 * p < length points -> a < el_dim (fs_family fs t) ->
    fin (fs_basis fs t points 0 p a 0);
  fd_simplex : forall fs t n q p w c, fs = test \/ fs = trial -> x_simplex X t n = Some q -> nth_error (qd_weights q) p = Some w -> c < ent_count (fs_grid fs) 2 ->
    fin (s_cast S (r_mul S w (cm_jdet (x_geometry X (fs_grid fs) t (qd_points q) c) p)));
  fd_duffy : forall t s kind dim pairs n q p w c d, x_duffy X kind dim pairs n = Some q -> nth_error (pq_weights q) p = Some w ->
    c < ent_count (fs_grid test) 2 -> d < ent_count (fs_grid test) 2 ->
    fin (s_cast S (r_mul S w (r_mul S (cm_jdet (x_geometry X (fs_grid test) t (pq_test q) c) p) (cm_jdet (x_geometry X (fs_grid test) s (pq_trial q) d) p))))
}.

(** The derivative of the kernel along the normal that the operator uses is zero at all
    points of the rules: the normal of the trial cell for the double layer operator, of
    the test cell for its adjoint. *)
Definition no_normal_derivative {T R : Type} (S : scalar T R) (zero : T -> Prop) (X : externals R) (kd : kind) (G : @green T R)
    (deg : cell_type -> cell_type -> nat) (pts : cell_type -> nat) (test trial : fspace T R) (t s : nat) : Prop :=
  forall x p y q, used_points X deg pts test trial t s x p y q ->
    zero (dot S (fun i => G (1 + i) (SpecLocal.position x p) (SpecLocal.position y q))
            (match kd with Adjoint => SpecLocal.normal S x p | _ => SpecLocal.normal S y q end)).

(** At all points of the rules the inner product of the normals of the two cells is one. *)
Definition equal_normals {T R : Type} (S : scalar T R) (X : externals R) (deg : cell_type -> cell_type -> nat) (pts : cell_type -> nat) (test trial : fspace T R) : Prop :=
  forall t s x p y q v, t < ent_count (fs_grid test) 2 -> s < ent_count (fs_grid trial) 2 -> used_points X deg pts test trial t s x p y q ->
    s_mul S (dot S (SpecLocal.normal S x p) (SpecLocal.normal S y q)) v = v.

(** All cells are at height [h] above the plane of the first two coordinates, and the
    normals have the direction of the third axis. *)
Definition level_grid {T R : Type} (S : scalar T R) (zero fin : T -> Prop) (X : externals R) (g : grid) (h : R) : Prop :=
  forall t points c p, c < ent_count g 2 -> rule_points X points -> 2 * p < length points ->
    cm_point (x_geometry X g t points c) p 2 = h /\
    zero (SpecLocal.normal S (x_geometry X g t points c) p 0) /\ zero (SpecLocal.normal S (x_geometry X g t points c) p 1) /\
    fin (SpecLocal.normal S (x_geometry X g t points c) p 2).

(** At the points of the rules the gradient of the kernel is finite, and its third
    component is zero for points of the same height. *)
Definition level_kernel {T R : Type} (zero fin : T -> Prop) (X : externals R) (G : @green T R)
    (deg : cell_type -> cell_type -> nat) (pts : cell_type -> nat) (test trial : fspace T R) : Prop :=
  forall t s x p y q, t < ent_count (fs_grid test) 2 -> s < ent_count (fs_grid trial) 2 -> used_points X deg pts test trial t s x p y q ->
    fin (G 1 (SpecLocal.position x p) (SpecLocal.position y q)) /\ fin (G 2 (SpecLocal.position x p) (SpecLocal.position y q)) /\
    (cm_point x p 2 = cm_point y q 2 -> zero (G 3 (SpecLocal.position x p) (SpecLocal.position y q))).

(** ** Floating point numbers

    The formats of IEEE 754 with the operations of the standard library of Coq
    (rounding to the nearest number), with infinities, NaN and two zeros. *)
Definition binary (prec emax : Z) (limit : spec_float) : scalar spec_float spec_float :=
  mkScalar spec_float spec_float (S754_zero false) (SFadd prec emax) (SFmul prec emax) (SFsub prec emax) SFopp (SFdiv prec emax)
    (S754_zero false) (SFmul prec emax) SFopp (fun x => x) (fun x => SFltb limit (SFabs x)).

(** [f64] and [f32]; the limit is 1e-10, rounded. *)
Definition binary64 : scalar spec_float spec_float := binary 53 1024 (S754_finite false 7737125245533627 (-86)).
Definition binary32 : scalar spec_float spec_float := binary 24 128 (S754_finite false 14411519 (-57)).

Definition float_zero (x : spec_float) : Prop := exists s, x = S754_zero s.
Definition float_finite (x : spec_float) : Prop := float_zero x \/ exists s m e, x = S754_finite s m e.

(** Complex numbers as pairs, as in [complex_of] (SpecRounding), with the given test
    for numbers of large modulus. *)
Definition pairs_of {F : Type} (S : scalar F F) (large : F * F -> bool) : scalar (F * F) F :=
  mkScalar (F * F) F (s_zero S, s_zero S)
    (fun x y => (s_add S (fst x) (fst y), s_add S (snd x) (snd y)))
    (fun x y => (s_sub S (s_mul S (fst x) (fst y)) (s_mul S (snd x) (snd y)), s_add S (s_mul S (fst x) (snd y)) (s_mul S (snd x) (fst y))))
    (fun x y => (s_sub S (fst x) (fst y), s_sub S (snd x) (snd y)))
    (fun x => (s_neg S (fst x), s_neg S (snd x)))
    (fun x y => let n := s_add S (s_mul S (fst y) (fst y)) (s_mul S (snd y) (snd y)) in
       (s_div S (s_add S (s_mul S (fst x) (fst y)) (s_mul S (snd x) (snd y))) n,
        s_div S (s_sub S (s_mul S (snd x) (fst y)) (s_mul S (fst x) (snd y))) n))
    (r_zero S) (r_mul S) (r_neg S) (fun r => (s_cast S r, s_zero S)) large.

Definition both {F : Type} (P : F -> Prop) (x : F * F) : Prop := P (fst x) /\ P (snd x).

Local Open Scope R_scope.

(** Cell [c] of a grid lies in the plane of the points [x] with [inner N x = d], and its
    normals are multiples of [N]. *)
Definition in_plane (X : externals R) (g : grid) (N : vec) (d : R) (c : nat) : Prop :=
  forall t points p, rule_points X points -> (2 * p < length points)%nat ->
    inner N (SpecLocal.position (x_geometry X g t points c) p) = d /\
    exists l, forall i, (i < 3)%nat -> cm_normal (x_geometry X g t points c) p i = l * coordinate i N.
