(** * Specification vocabulary for local matrices *)
From Verif Require Import Base Scalar Integrand CellPair Operators.

Section Formulas.
Context {T R : Type} (S : scalar T R).
Local Notation "a +! b" := (s_add S a b) (at level 50, left associativity).
Local Notation "a -! b" := (s_sub S a b) (at level 50, left associativity).
Local Notation "a *! b" := (s_mul S a b) (at level 40, left associativity).
Local Notation "a /! b" := (s_div S a b) (at level 40, left associativity).

(** Scalar product of two vectors in three dimensions. *)
Definition dot (u v : nat -> T) : T := u 0 *! v 0 +! u 1 *! v 1 +! u 2 *! v 2.

(** Position, normal and determinant at point [p] of a cell. *)
Definition position (x : cell_map R) (p : nat) : R * R * R := (cm_point x p 0, cm_point x p 1, cm_point x p 2).
Definition normal (x : cell_map R) (p i : nat) : T := s_cast S (cm_normal x p i).
Definition jdet (x : cell_map R) (p : nat) : T := s_cast S (cm_jdet x p).

(** The surface curl, times the determinant, of a function with derivatives
    [phi 1], [phi 2] in the two reference directions; the columns of the Jacobian
    are the components 0-2 and 3-5. *)
Definition curl (x : cell_map R) (p : nat) (phi : nat -> T) (i : nat) : T :=
  s_cast S (cm_jacobian x p (3 + i)) *! phi 1 -! s_cast S (cm_jacobian x p i) *! phi 2.

(** The integrand at test point [p] of cell [x] and trial point [q] of cell [y], for
    kernel values [k] (0: value, 1-3: gradient) and functions [phi], [psi] (0: value,
    1, 2: derivatives). *)
Fixpoint integrand_value (f : integrand T) (k phi psi : nat -> T) (x : cell_map R) (p : nat) (y : cell_map R) (q : nat) : T :=
  match f with
  | SingleLayer => k 0 *! phi 0 *! psi 0
  | DoubleLayer => dot (fun i => k (1 + i)) (normal y q) *! phi 0 *! psi 0
  | AdjointDoubleLayer => s_neg S (dot (fun i => k (1 + i)) (normal x p)) *! phi 0 *! psi 0
  | HypersingularCurlCurl => k 0 *! dot (curl x p phi) (curl y q psi) /! jdet x p /! jdet y q
  | HypersingularNormalNormal => k 0 *! dot (normal y q) (normal x p) *! phi 0 *! psi 0
  | Sum i0 i1 => integrand_value i0 k phi psi x p y q +! integrand_value i1 k phi psi x p y q
  | TimesScalar c i => c *! integrand_value i k phi psi x p y q
  end.

(** Basis functions on the reference cell at the quadrature points: derivative,
    point, function. *)
Definition basis : Type := nat -> nat -> nat -> T.

(** The tensor quadrature formula for test function [a] and trial function [b], with
    the order of the additions. *)
Definition tensor_entry (f : integrand T) (G : green) (x y : cell_map R) (phi psi : basis)
    (test_weights trial_weights : list R) (a b : nat) : T :=
  fold_left (fun acc pw =>
    fold_left (fun acc qw =>
      acc +! integrand_value f (fun i => G i (position x (fst pw)) (position y (fst qw)))
               (fun d => phi d (fst pw) a) (fun d => psi d (fst qw) b) x (fst pw) y (fst qw)
             *! s_cast S (r_mul S (snd qw) (cm_jdet y (fst qw)))
             *! s_cast S (r_mul S (snd pw) (cm_jdet x (fst pw))))
      (enumerate trial_weights) acc)
    (enumerate test_weights) (s_zero S).

(** The formula with pairs of points. *)
Definition pairwise_entry (f : integrand T) (G : green) (x y : cell_map R) (phi psi : basis)
    (weights : list R) (a b : nat) : T :=
  fold_left (fun acc pw =>
      acc +! integrand_value f (fun i => G i (position x (fst pw)) (position y (fst pw)))
               (fun d => phi d (fst pw) a) (fun d => psi d (fst pw) b) x (fst pw) y (fst pw)
             *! s_cast S (r_mul S (snd pw) (r_mul S (cm_jdet x (fst pw)) (cm_jdet y (fst pw)))))
    (enumerate weights) (s_zero S).

End Formulas.

(** Number of partial derivatives of order up to [d] in two dimensions. *)
Definition deriv_count (d : nat) : nat := (d + 1) * (d + 2) / 2.

(** A tabulated element: [derivatives, points, functions, components]. *)
Definition tabulated {T : Type} (derivs npts dim vs : nat) (f : nat -> nat -> nat -> nat -> T) : array T :=
  mkArray [deriv_count derivs; npts; dim; vs] (table4 (deriv_count derivs) npts dim vs f).

(** Kernel components and order of derivatives that an integrand uses. *)
Fixpoint kernel_used {T : Type} (f : integrand T) : nat :=
  match f with
  | SingleLayer | HypersingularCurlCurl | HypersingularNormalNormal => 1
  | DoubleLayer | AdjointDoubleLayer => 4
  | Sum i0 i1 => Nat.max (kernel_used i0) (kernel_used i1)
  | TimesScalar _ i => kernel_used i
  end.
Fixpoint derivs_used {T : Type} (f : integrand T) : nat :=
  match f with
  | SingleLayer | DoubleLayer | AdjointDoubleLayer | HypersingularNormalNormal => 0
  | HypersingularCurlCurl => 1
  | Sum i0 i1 => Nat.max (derivs_used i0) (derivs_used i1)
  | TimesScalar _ i => derivs_used i
  end.

(** The data of an operator fit together: the kernel has as many components as the
    arrays made for them, and the integrand uses no more than there is. *)
Definition fitting {T R : Type} (op : operator T R) : Prop :=
  components (kn_type (op_kernel op)) = op_deriv_size op /\
  kernel_used (op_integrand op) <= op_deriv_size op /\
  derivs_used (op_integrand op) <= op_table_derivs op.

(** Histories of calls of an assembler. *)
Inductive call : Set := SetTest (c : nat) | SetTrial (c : nat) | Assemble.

Fixpoint last_test (h : list call) (d : option nat) : option nat :=
  match h with
  | [] => d
  | SetTest c :: t => last_test t (Some c)
  | _ :: t => last_test t d
  end.
Fixpoint last_trial (h : list call) (d : option nat) : option nat :=
  match h with
  | [] => d
  | SetTrial c :: t => last_trial t (Some c)
  | _ :: t => last_trial t d
  end.

Section Histories.
Context {T R : Type} (S : scalar T R).

Definition singular_call (st : @singular_assembler T R * array T) (x : call) : res (@singular_assembler T R * array T) :=
  match x with
  | SetTest c => a <- singular_set_test c (fst st) ;; Ok (a, snd st)
  | SetTrial c => a <- singular_set_trial c (fst st) ;; Ok (a, snd st)
  | Assemble => singular_assemble S (fst st) (snd st)
  end.

Definition nonsingular_call (st : @nonsingular_assembler T R * array T) (x : call) : res (@nonsingular_assembler T R * array T) :=
  match x with
  | SetTest c => a <- nonsingular_set_test c (fst st) ;; Ok (a, snd st)
  | SetTrial c => a <- nonsingular_set_trial c (fst st) ;; Ok (a, snd st)
  | Assemble => nonsingular_assemble S (fst st) (snd st)
  end.

End Histories.

(** The eight operators of the two modules. *)
Inductive shipped {T R : Type} (S : scalar T R) : operator T R -> Prop :=
| sh_laplace_single : forall G, shipped S (laplace_single_layer G)
| sh_laplace_double : forall G, shipped S (laplace_double_layer G)
| sh_laplace_adjoint : forall G, shipped S (laplace_adjoint_double_layer G)
| sh_laplace_hyper : forall G, shipped S (laplace_hypersingular G)
| sh_helmholtz_single : forall G k, shipped S (helmholtz_single_layer G k)
| sh_helmholtz_double : forall G k, shipped S (helmholtz_double_layer G k)
| sh_helmholtz_adjoint : forall G k, shipped S (helmholtz_adjoint_double_layer G k)
| sh_helmholtz_hyper : forall G k, shipped S (helmholtz_hypersingular S G k).

(** An array as allocated for a shape. *)
Definition allocated {A : Type} (shape : list nat) (a : array A) : Prop :=
  a_shape a = shape /\ length (a_data a) = size_of shape.

(** The geometry arrays of a cell with [n] quadrature points. *)
Definition geometry_allocated {R : Type} (n : nat) (g : geometry R) : Prop :=
  allocated [3; n] (ge_normals g) /\ allocated [6; n] (ge_jacobians g) /\ length (ge_jdets g) = n.
