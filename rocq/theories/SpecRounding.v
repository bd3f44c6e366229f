(** * Specification vocabulary: rounding errors *)
From Coq Require Import Reals ZArith Bool.
From Verif Require Import Base Topology DofMap Space Scalar Integrand CellPair Operators SpecLocal Assembly SpecAssembly SpecScalars.
Local Open Scope R_scope.

(** Exact arithmetic on [T], such as the real or the complex numbers, with an
    absolute value. *)
Record valued {T : Type} (E : scalar T R) (norm : T -> R) : Prop := {
  va_exact : exact E;
  va_zero : norm (s_zero E) = 0;
  va_add : forall x y, norm (s_add E x y) <= norm x + norm y;
  va_mul : forall x y, norm (s_mul E x y) = norm x * norm y;
  va_neg : forall x, norm (s_neg E x) = norm x;
  va_cast : forall r, norm (s_cast E r) = Rabs r;
  va_cast_sub : forall r s, s_cast E (r - s) = s_sub E (s_cast E r) (s_cast E s);
  va_div : forall x r, r <> 0 -> s_div E x (s_cast E r) = s_mul E x (s_cast E (/ r));
  va_real_mul : forall r s, r_mul E r s = r * s
}.

(** [S] computes with relative errors of at most [u]: the standard model of floating
    point arithmetic (without overflow and underflow).  Signs and conversions of real
    numbers are exact. *)
Record rounds {T : Type} (u : R) (norm : T -> R) (E S : scalar T R) : Prop := {
  ru_zero : s_zero S = s_zero E;
  ru_add : forall x y, norm (s_sub E (s_add S x y) (s_add E x y)) <= u * norm (s_add E x y);
  ru_sub : forall x y, norm (s_sub E (s_sub S x y) (s_sub E x y)) <= u * norm (s_sub E x y);
  ru_mul : forall x y, norm (s_sub E (s_mul S x y) (s_mul E x y)) <= u * norm (s_mul E x y);
  ru_div : forall x r, r <> 0 -> norm (s_sub E (s_div S x (s_cast S r)) (s_div E x (s_cast E r))) <= u * norm (s_div E x (s_cast E r));
  ru_neg : forall x, s_neg S x = s_neg E x;
  ru_cast : forall r, s_cast S r = s_cast E r;
  ru_real_mul : forall r s, Rabs (r_mul S r s - r * s) <= u * Rabs (r * s)
}.

(** The error of [n] roundings: [(1 - u)^-n - 1], close to [n * u]. *)
Definition growth (u : R) (n : nat) : R := (/ (1 - u)) ^ n.

(** [x] is [y] up to [n] roundings. *)
Definition close {T : Type} (u : R) (norm : T -> R) (E : scalar T R) (n : nat) (x y : T) : Prop :=
  norm (s_sub E x y) <= (growth u n - 1) * norm y.
Definition real_close (u : R) (n : nat) (r s : R) : Prop :=
  exists theta, r = s * theta /\ / growth u n <= theta /\ theta <= growth u n.
Definition nonzero_close (u : R) (n : nat) (r s : R) : Prop := real_close u n r s /\ s <> 0.

(** The number of roundings in an integrand whose data have [n]. *)
Fixpoint roundings {T : Type} (n : nat) (f : integrand T) : nat :=
  match f with
  | SingleLayer => 3 * n + 2
  | DoubleLayer | AdjointDoubleLayer => 4 * n + 5
  | HypersingularCurlCurl => 7 * n + 10
  | HypersingularNormalNormal => 5 * n + 6
  | Sum f0 f1 => Nat.max (roundings n f0) (roundings n f1) + 1
  | TimesScalar _ f0 => roundings n f0 + n + 1
  end.

(** The arithmetic of absolute values: no cancellation. *)
Definition absolute : scalar R R :=
  mkScalar R R 0 Rplus Rmult Rplus (fun x => x) Rdiv 0 Rmult Ropp Rabs (fun _ => true).

(** The same operator with absolute values of the kernel and the factors, the same
    space with absolute values of the basis functions. *)
Definition absolute_operator {T : Type} (norm : T -> R) (O : operator T R) : operator R R :=
  mkOperator (map_integrand norm (op_integrand O)) (mkKernel (kn_type (op_kernel O)) (fun i x y => norm (kn_value (op_kernel O) i x y)))
    (op_deriv_size O) (op_table_derivs O).
Definition absolute_space {T : Type} (norm : T -> R) (fs : fspace T R) : fspace R R :=
  mkFspace R R (fs_grid fs) (fs_family fs) (fs_processes fs) (fs_space fs) (fs_components fs)
    (fun t points d p b j => norm (fs_basis fs t points d p b j)).

(** The rules for pairs of cells have at most [P] points. *)
Definition points_at_most (X : externals R) (deg : cell_type -> cell_type -> nat) (pts : cell_type -> nat) (ct : cell_type) (P : nat) : Prop :=
  (pts ct * pts ct <= P)%nat /\
  forall k d p q, x_duffy X k d p (deg ct ct) = Some q -> (length (pq_weights q) <= P)%nat.

(** ** Arithmetics *)

(** The real numbers. *)
Definition reals : scalar R R := mkScalar R R 0 Rplus Rmult Rminus Ropp Rdiv 0 Rmult Ropp (fun r => r) (fun _ => true).

(** Complex numbers as pairs, with the operations as the crate num-complex computes
    them from those of the parts. *)
Definition complex_of (S : scalar R R) : scalar (R * R) R :=
  mkScalar (R * R) R (s_zero S, s_zero S)
    (fun x y => (s_add S (fst x) (fst y), s_add S (snd x) (snd y)))
    (fun x y => (s_sub S (s_mul S (fst x) (fst y)) (s_mul S (snd x) (snd y)), s_add S (s_mul S (fst x) (snd y)) (s_mul S (snd x) (fst y))))
    (fun x y => (s_sub S (fst x) (fst y), s_sub S (snd x) (snd y)))
    (fun x => (s_neg S (fst x), s_neg S (snd x)))
    (fun x y => let n := s_add S (s_mul S (fst y) (fst y)) (s_mul S (snd y) (snd y)) in
       (s_div S (s_add S (s_mul S (fst x) (fst y)) (s_mul S (snd x) (snd y))) n,
        s_div S (s_sub S (s_mul S (snd x) (fst y)) (s_mul S (fst x) (snd y))) n))
    (r_zero S) (r_mul S) (r_neg S) (fun r => (s_cast S r, s_zero S)) (fun x => s_large S (fst x) || s_large S (snd x)).
Definition complexes : scalar (R * R) R := complex_of reals.
Definition cnorm (x : R * R) : R := sqrt (fst x * fst x + snd x * snd x).

(** The nearest integer, the exponent of a number, and the nearest number with a
    mantissa of [p] bits (the exponents are not bounded). *)
Definition nearest (x : R) : Z := (up (x + / 2) - 1)%Z.
Definition exponent (x : R) : Z := (up (ln (Rabs x) / ln 2) - 1)%Z.
Definition fl (p : nat) (x : R) : R :=
  if Req_EM_T x 0 then 0
  else IZR (nearest (x * powerRZ 2 (Z.of_nat p - 1 - exponent x))) * powerRZ 2 (exponent x + 1 - Z.of_nat p).

(** Floating point numbers with [p] bits. *)
Definition floats (p : nat) : scalar R R :=
  mkScalar R R 0 (fun x y => fl p (x + y)) (fun x y => fl p (x * y)) (fun x y => fl p (x - y)) Ropp (fun x y => fl p (x / y))
    0 (fun x y => fl p (x * y)) Ropp (fun r => r) (fun _ => true).
