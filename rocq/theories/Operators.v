(** * The operators

    Model of src/laplace.rs and src/helmholtz.rs: what each constructor gives to
    [BoundaryAssembler::new] (src/boundary_assemblers.rs:217-231). *)
From Verif Require Import Base Scalar Integrand CellPair.

(** [BoundaryAssembler], src/boundary_assemblers.rs:105-116, without the options. *)
Record operator (T R : Type) : Type := mkOperator {
  op_integrand : integrand T;
  op_kernel : kernel T R;
  op_deriv_size : nat;
  op_table_derivs : nat
}.
Arguments mkOperator {T R}.
Arguments op_integrand {T R}.
Arguments op_kernel {T R}.
Arguments op_deriv_size {T R}.
Arguments op_table_derivs {T R}.

Section Operators.
Context {T R : Type} (S : scalar T R).

(** Values of the Green's function and its derivatives ([green_kernels]).
    [Laplace3dKernel], [Helmholtz3dKernel], src/laplace.rs:5, src/helmholtz.rs:5. *)
Definition green : Type := nat -> R * R * R -> R * R * R -> T.

(** src/laplace.rs:34-39. *)
Definition laplace_single_layer (G : green) : operator T R :=
  mkOperator SingleLayer (mkKernel Value G) 1 0.
(** src/laplace.rs:42-48. *)
Definition laplace_double_layer (G : green) : operator T R :=
  mkOperator DoubleLayer (mkKernel ValueDeriv G) 4 0.
(** src/laplace.rs:51-63. *)
Definition laplace_adjoint_double_layer (G : green) : operator T R :=
  mkOperator AdjointDoubleLayer (mkKernel ValueDeriv G) 4 0.
(** src/laplace.rs:66-78. *)
Definition laplace_hypersingular (G : green) : operator T R :=
  mkOperator HypersingularCurlCurl (mkKernel ValueDeriv G) 4 1.

(** src/helmholtz.rs:44-54; the Helmholtz kernel depends on the wavenumber. *)
Definition helmholtz_single_layer (G : R -> green) (wavenumber : R) : operator T R :=
  mkOperator SingleLayer (mkKernel Value (G wavenumber)) 1 0.
(** src/helmholtz.rs:57-67. *)
Definition helmholtz_double_layer (G : R -> green) (wavenumber : R) : operator T R :=
  mkOperator DoubleLayer (mkKernel ValueDeriv (G wavenumber)) 4 0.
(** src/helmholtz.rs:70-86. *)
Definition helmholtz_adjoint_double_layer (G : R -> green) (wavenumber : R) : operator T R :=
  mkOperator AdjointDoubleLayer (mkKernel ValueDeriv (G wavenumber)) 4 0.
(** src/helmholtz.rs:89-107; [powi(2)] is one multiplication. *)
Definition helmholtz_hypersingular (G : R -> green) (wavenumber : R) : operator T R :=
  mkOperator (Sum HypersingularCurlCurl
                (TimesScalar (s_cast S (r_neg S (r_mul S wavenumber wavenumber))) HypersingularNormalNormal))
    (mkKernel ValueDeriv (G wavenumber)) 4 1.

End Operators.
