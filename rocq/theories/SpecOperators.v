(** * Specification vocabulary: what the operators compute *)
From Verif Require Import Base Scalar Integrand CellPair Operators SpecLocal.

Section Forms.
Context {T R : Type} (S : scalar T R).
Local Notation "a +! b" := (s_add S a b) (at level 50, left associativity).
Local Notation "a *! b" := (s_mul S a b) (at level 40, left associativity).
Local Notation "a /! b" := (s_div S a b) (at level 40, left associativity).

(** The four kinds of operators of the documentation. *)
Inductive kind : Set := Single | Double | Adjoint | Hypersingular.

(** The integrand of the bilinear form of a kind, at point [p] of the test cell [x]
    and point [q] of the trial cell [y]: [k 0] is the Green's function, [k 1 .. k 3]
    its gradient, [phi] and [psi] are the test and the trial function.  Written
    without the integrand types of the library.  [factor] is the coefficient of the
    term with the normals in the hypersingular operator, if there is one. *)
Definition form (kd : kind) (factor : option T) (k phi psi : nat -> T) (x : cell_map R) (p : nat) (y : cell_map R) (q : nat) : T :=
  match kd with
  | Single => k 0 *! phi 0 *! psi 0
  | Double =>
      (k 1 *! s_cast S (cm_normal y q 0) +! k 2 *! s_cast S (cm_normal y q 1) +! k 3 *! s_cast S (cm_normal y q 2))
        *! phi 0 *! psi 0
  | Adjoint =>
      s_neg S (k 1 *! s_cast S (cm_normal x p 0) +! k 2 *! s_cast S (cm_normal x p 1) +! k 3 *! s_cast S (cm_normal x p 2))
        *! phi 0 *! psi 0
  | Hypersingular =>
      let curls := k 0 *! dot S (curl S x p phi) (curl S y q psi) /! s_cast S (cm_jdet x p) /! s_cast S (cm_jdet y q) in
      match factor with
      | None => curls
      | Some c => curls +! c *! (k 0 *! dot S (normal S y q) (normal S x p) *! phi 0 *! psi 0)
      end
  end.

(** The constructors of the modules [laplace] and [helmholtz]. *)
Definition laplace_operator (kd : kind) (G : green) : operator T R :=
  match kd with
  | Single => laplace_single_layer G
  | Double => laplace_double_layer G
  | Adjoint => laplace_adjoint_double_layer G
  | Hypersingular => laplace_hypersingular G
  end.
Definition helmholtz_operator (kd : kind) (G : R -> green) (wavenumber : R) : operator T R :=
  match kd with
  | Single => helmholtz_single_layer G wavenumber
  | Double => helmholtz_double_layer G wavenumber
  | Adjoint => helmholtz_adjoint_double_layer G wavenumber
  | Hypersingular => helmholtz_hypersingular S G wavenumber
  end.

(** The operator has kernel [G] and the integrand [F], the kernel is evaluated with
    its derivatives if they are needed, and tables have derivatives exactly if they
    are. *)
Definition computes (O : operator T R) (G : green)
    (F : (nat -> T) -> (nat -> T) -> (nat -> T) -> cell_map R -> nat -> cell_map R -> nat -> T) : Prop :=
  kn_value (op_kernel O) = G /\ fitting O /\ op_table_derivs O = derivs_used (op_integrand O) /\
  forall k phi psi x p y q, integrand_value S (op_integrand O) k phi psi x p y q = F k phi psi x p y q.

End Forms.
