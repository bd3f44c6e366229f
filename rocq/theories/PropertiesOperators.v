(** * Property C61: the operators *)
From Verif Require Import Base Scalar Integrand CellPair Operators SpecLocal SpecOperators OperatorsResults.

(** C61: each constructor gives the operator it is named after, with its own Green's
    function; C32, C36 and C37 say what is assembled from it. *)
Theorem C61_laplace : forall (T R : Type) (S : scalar T R) kd (G : green), computes S (laplace_operator kd G) G (form S kd None).
Proof. exact (@laplace_computes). Qed.
Print Assumptions C61_laplace.

(** ... in the Helmholtz hypersingular operator the factor is minus the square of
    the wavenumber. *)
Theorem C61_helmholtz : forall (T R : Type) (S : scalar T R) kd (G : R -> green) wavenumber,
  computes S (helmholtz_operator S kd G wavenumber) (G wavenumber)
    (form S kd (Some (s_cast S (r_neg S (r_mul S wavenumber wavenumber))))).
Proof. exact (@helmholtz_computes). Qed.
Print Assumptions C61_helmholtz.

(** The forms are different from each other. *)
Example C61_forms_differ : length form_values = 5 /\ distinct form_values = true.
Proof. split; [reflexivity|exact forms_differ]. Qed.
