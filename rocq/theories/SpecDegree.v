(** * Specification vocabulary: the degree of a quadrature rule *)
From Coq Require Import Reals.
From Verif Require Import Base Topology Scalar CellPair Operators SpecLocal Assembly Shapes SpecSphere SpecDecay.

Local Open Scope R_scope.

(** The sum of the weights times the monomial [x^i y^j] at the points, *)
Definition monomial_sum (q : quadrature R) (i j : nat) : R :=
  fold_right Rplus 0 (map (fun p => nth p (qd_weights q) 0 * (nth (2 * p) (qd_points q) 0 ^ i * nth (2 * p + 1) (qd_points q) 0 ^ j)) (seq 0 (length (qd_weights q)))).

(** and the integral of the monomial over the reference triangle or square. *)
Definition monomial_integral (t : cell_type) (i j : nat) : R :=
  match t with
  | Triangle => INR (fact i) * INR (fact j) / INR (fact (i + j + 2))
  | _ => 1 / (INR (i + 1) * INR (j + 1))
  end.

(** The regular rule with [n] points is exact for polynomials of degree [k]. *)
Definition exact_to (X : externals R) (t : cell_type) (n k : nat) : Prop :=
  forall q, x_simplex X t n = Some q -> forall i j, (i + j <= k)%nat -> monomial_sum q i j = monomial_integral t i j.

(** The integral of a function over an interval, and of a function of two variables over
    the reference cell. *)
Definition integral (f : R -> R) (a b value : R) : Prop := exists F, (forall x, derivable_pt_lim F x (f x)) /\ F b - F a = value.
Definition cell_integral (t : cell_type) (f : R -> R -> R) (value : R) : Prop :=
  exists inner, (forall x, integral (f x) 0 (match t with Triangle => 1 - x | _ => 1 end) (inner x)) /\ integral inner 0 1 value.

(** The same for functions of two points; and the integral of a function of two points of
    the reference cell that is approximated uniformly by such functions. *)
Definition iterated (t : cell_type) (f : R -> R -> R -> R -> R) (value : R) : Prop :=
  exists outer, (forall x y, cell_integral t (f x y) (outer x y)) /\ cell_integral t outer value.
Definition pair_integral (t : cell_type) (f : R -> R -> R -> R -> R) (value : R) : Prop :=
  forall eps, 0 < eps -> exists g w, iterated t g w /\ Rabs (w - value) <= eps /\
    forall x y x' y', inside t x y -> inside t x' y' -> Rabs (f x y x' y' - g x y x' y') <= eps.

(** The integral of a function of two points over the flat cells with corners [p], [q],
    [r] and [p'], [q'], [r']. *)
Definition surface_integral (t : cell_type) (p q r p' q' r' : vec) (kernel : vec -> vec -> R) (value : R) : Prop :=
  exists v, pair_integral t (fun x y x' y' => kernel (vadd p (vadd (vscale x (vsub q p)) (vscale y (vsub r p)))) (vadd p' (vadd (vscale x' (vsub q' p')) (vscale y' (vsub r' p'))))) v /\
    value = sqrt (inner (normal p q r) (normal p q r)) * sqrt (inner (normal p' q' r') (normal p' q' r')) * v.
