(** * Specification vocabulary: the kernel and the wavenumber *)
From Coq Require Import Reals.
From Verif Require Import Base Topology DofMap Space Scalar Integrand CellPair Operators SpecLocal Assembly SpecAssembly SpecTransfer SpecScalars SpecOperators SpecRounding.
Local Open Scope R_scope.

(** The parts of the kernel that an integrand uses: 0 is the value, 1-3 the
    gradient. *)
Fixpoint part_used {T : Type} (f : integrand T) (n : nat) : Prop :=
  match f with
  | SingleLayer | HypersingularCurlCurl | HypersingularNormalNormal => n = 0%nat
  | DoubleLayer | AdjointDoubleLayer => (1 <= n <= 3)%nat
  | Sum f0 f1 => part_used f0 n \/ part_used f1 n
  | TimesScalar _ f0 => part_used f0 n
  end.

(** The same operator with another kernel. *)
Definition with_kernel {T R : Type} (O : operator T R) (G : @green T R) : operator T R :=
  mkOperator (op_integrand O) (mkKernel (kn_type (op_kernel O)) G) (op_deriv_size O) (op_table_derivs O).

(** The bound of an operator: absolute values of the factors in the integrand, and
    the kernel [B]. *)
Definition bound_operator {T : Type} (norm : T -> R) (O : operator T R) (B : @green R R) : operator R R :=
  mkOperator (map_integrand norm (op_integrand O)) (mkKernel (kn_type (op_kernel O)) B) (op_deriv_size O) (op_table_derivs O).

(** [B] is not negative and bounds the parts of the kernel that are used. *)
Definition kernel_bound {T : Type} (norm : T -> R) (O : operator T R) (B : @green R R) : Prop :=
  (forall n x y, (n < op_deriv_size O)%nat -> 0 <= B n x y) /\
  (forall n x y, part_used (op_integrand O) n -> norm (kn_value (op_kernel O) n x y) <= B n x y).

(** No cell is degenerate: the determinants are not zero. *)
Definition nonzero_determinants (X : externals R) : Prop :=
  forall g t points c p, (c < ent_count g 2)%nat -> (2 * p < length points)%nat -> rule_points X points ->
    cm_jdet (x_geometry X g t points c) p <> 0.

(** ** The Green's functions *)

(** The difference of two points and their distance. *)
Definition offset (n : nat) (x y : R * R * R) : R :=
  let '(x1, x2, x3) := x in let '(y1, y2, y3) := y in
  match n with 1%nat => x1 - y1 | 2%nat => x2 - y2 | _ => x3 - y3 end.
Definition distance (x y : R * R * R) : R :=
  sqrt (offset 1 x y * offset 1 x y + offset 2 x y * offset 2 x y + offset 3 x y * offset 3 x y).

(** The Green's function [exp (i k r) / (4 pi r)] of the Helmholtz equation and its
    derivatives, with respect to the first point if [e] is 1 and to the second if
    [e] is -1; zero for points that coincide. *)
Definition waves (e k : R) (n : nat) (x y : R * R * R) : R * R :=
  let r := distance x y in
  if Req_EM_T r 0 then (0, 0) else
  match n with
  | 0%nat => (cos (k * r) / (4 * PI * r), sin (k * r) / (4 * PI * r))
  | _ => let c := e * offset n x y / (4 * PI * (r * r * r)) in
         (c * (- cos (k * r) - k * r * sin (k * r)), c * (k * r * cos (k * r) - sin (k * r)))
  end.

(** The Green's function [1 / (4 pi r)] of the Laplace equation. *)
Definition newton (e : R) (n : nat) (x y : R * R * R) : R :=
  let r := distance x y in
  if Req_EM_T r 0 then 0 else
  match n with
  | 0%nat => 1 / (4 * PI * r)
  | _ => - (e * offset n x y / (4 * PI * (r * r * r)))
  end.

(** The point with coordinate [n] replaced. *)
Definition moved (n : nat) (x : R * R * R) (s : R) : R * R * R :=
  let '(x1, x2, x3) := x in
  match n with 1%nat => (s, x2, x3) | 2%nat => (x1, s, x3) | _ => (x1, x2, s) end.
Definition coordinate (n : nat) (x : R * R * R) : R :=
  let '(x1, x2, x3) := x in match n with 1%nat => x1 | 2%nat => x2 | _ => x3 end.

(** The matrices [m] and [m'] differ, entry by entry, by at most the matrix [b]. *)
Definition within {T R0 : Type} (norm : T -> R) (E : scalar T R0) (m m' : list T) (b : list R) : Prop :=
  length m' = length m /\ length b = length m /\
  forall i x x' z, nth_error m i = Some x -> nth_error m' i = Some x' -> nth_error b i = Some z -> norm (s_sub E x x') <= z.

(** The bound with kernel 1, for which only the geometry and the basis functions
    matter. *)
Definition ones (n : nat) (x y : R * R * R) : R := 1.

(** The part of the hypersingular operator with the normals. *)
Definition normal_operator {T R : Type} (G : @green T R) : operator T R := mkOperator HypersingularNormalNormal (mkKernel ValueDeriv G) 4 1.
