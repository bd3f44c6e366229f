(** * Integrands

    Model of src/boundary_assemblers/integrands.rs and integrands/*.rs. *)
From Verif Require Import Base Scalar.

(** The types implementing [BoundaryIntegrand]: integrands/single_layer.rs,
    double_layer.rs, adjoint_double_layer.rs, hypersingular.rs and
    [BoundaryIntegrandSum], [BoundaryIntegrandTimesScalar] (integrands.rs:243-317). *)
Inductive integrand (T : Type) : Type :=
| SingleLayer
| DoubleLayer
| AdjointDoubleLayer
| HypersingularCurlCurl
| HypersingularNormalNormal
| Sum (i0 i1 : integrand T)
| TimesScalar (c : T) (i : integrand T).
Arguments SingleLayer {T}.
Arguments DoubleLayer {T}.
Arguments AdjointDoubleLayer {T}.
Arguments HypersingularCurlCurl {T}.
Arguments HypersingularNormalNormal {T}.
Arguments Sum {T}.
Arguments TimesScalar {T}.

(** [GeometryAccess], integrands.rs:41-64. *)
Record geometry_access (T : Type) : Type := mkGeometryAccess {
  ga_normal : nat -> res T;
  ga_jacobian : nat -> res T;
  ga_jdet : res T
}.
Arguments ga_normal {T}.
Arguments ga_jacobian {T}.
Arguments ga_jdet {T}.

(** [AssemblerGeometry], helpers.rs:117-141 (the points are not used by any
    integrand). *)
Record geometry (R : Type) : Type := mkGeometry {
  ge_normals : array R;
  ge_jacobians : array R;
  ge_jdets : list R
}.
Arguments mkGeometry {R}.
Arguments ge_normals {R}.
Arguments ge_jacobians {R}.
Arguments ge_jdets {R}.

Section Evaluate.
Context {T R : Type} (S : scalar T R).
Local Notation "a +! b" := (s_add S a b) (at level 50, left associativity).
Local Notation "a -! b" := (s_sub S a b) (at level 50, left associativity).
Local Notation "a *! b" := (s_mul S a b) (at level 40, left associativity).
Local Notation "a /! b" := (s_div S a b) (at level 40, left associativity).

(** [Geometry], integrands.rs:139-176. *)
Definition geometry_at (g : geometry R) (point : nat) : geometry_access T :=
  {| ga_normal := fun i => x <- aget (ge_normals g) [i; point] ;; Ok (s_cast S x);
     ga_jacobian := fun i => x <- aget (ge_jacobians g) [i; point] ;; Ok (s_cast S x);
     ga_jdet := x <- uget (ge_jdets g) point ;; Ok (s_cast S x) |}.

(** [Table], integrands.rs:113-136. *)
Definition table_at (table : array T) (point basis : nat) (i j : nat) : res T := aget table [i; point; basis; j].

(** [evaluate] of the integrands: single_layer.rs:23-32, double_layer.rs:23-38,
    adjoint_double_layer.rs:23-38, hypersingular.rs:31-57 and 83-99,
    integrands.rs:270-283 and 304-316.  The reads are written before the arithmetic;
    they have no effect on each other. *)
Fixpoint evaluate (f : integrand T) (k : nat -> res T) (test_table trial_table : nat -> nat -> res T)
    (test_geometry trial_geometry : geometry_access T) : res T :=
  match f with
  | SingleLayer =>
      k0 <- k 0 ;; a <- test_table 0 0 ;; b <- trial_table 0 0 ;;
      Ok (k0 *! a *! b)
  | DoubleLayer =>
      k1 <- k 1 ;; n0 <- ga_normal trial_geometry 0 ;;
      k2 <- k 2 ;; n1 <- ga_normal trial_geometry 1 ;;
      k3 <- k 3 ;; n2 <- ga_normal trial_geometry 2 ;;
      a <- test_table 0 0 ;; b <- trial_table 0 0 ;;
      Ok ((k1 *! n0 +! k2 *! n1 +! k3 *! n2) *! a *! b)
  | AdjointDoubleLayer =>
      k1 <- k 1 ;; n0 <- ga_normal test_geometry 0 ;;
      k2 <- k 2 ;; n1 <- ga_normal test_geometry 1 ;;
      k3 <- k 3 ;; n2 <- ga_normal test_geometry 2 ;;
      a <- test_table 0 0 ;; b <- trial_table 0 0 ;;
      Ok (s_neg S (k1 *! n0 +! k2 *! n1 +! k3 *! n2) *! a *! b)
  | HypersingularCurlCurl =>
      test0 <- test_table 1 0 ;; test1 <- test_table 2 0 ;;
      trial0 <- trial_table 1 0 ;; trial1 <- trial_table 2 0 ;;
      k0 <- k 0 ;;
      t3 <- ga_jacobian test_geometry 3 ;; t0 <- ga_jacobian test_geometry 0 ;;
      s3 <- ga_jacobian trial_geometry 3 ;; s0 <- ga_jacobian trial_geometry 0 ;;
      t4 <- ga_jacobian test_geometry 4 ;; t1 <- ga_jacobian test_geometry 1 ;;
      s4 <- ga_jacobian trial_geometry 4 ;; s1 <- ga_jacobian trial_geometry 1 ;;
      t5 <- ga_jacobian test_geometry 5 ;; t2 <- ga_jacobian test_geometry 2 ;;
      s5 <- ga_jacobian trial_geometry 5 ;; s2 <- ga_jacobian trial_geometry 2 ;;
      dt <- ga_jdet test_geometry ;; ds <- ga_jdet trial_geometry ;;
      Ok (k0 *! ((t3 *! test0 -! t0 *! test1) *! (s3 *! trial0 -! s0 *! trial1)
                 +! (t4 *! test0 -! t1 *! test1) *! (s4 *! trial0 -! s1 *! trial1)
                 +! (t5 *! test0 -! t2 *! test1) *! (s5 *! trial0 -! s2 *! trial1))
          /! dt /! ds)
  | HypersingularNormalNormal =>
      k0 <- k 0 ;;
      s0 <- ga_normal trial_geometry 0 ;; t0 <- ga_normal test_geometry 0 ;;
      s1 <- ga_normal trial_geometry 1 ;; t1 <- ga_normal test_geometry 1 ;;
      s2 <- ga_normal trial_geometry 2 ;; t2 <- ga_normal test_geometry 2 ;;
      a <- test_table 0 0 ;; b <- trial_table 0 0 ;;
      Ok (k0 *! (s0 *! t0 +! s1 *! t1 +! s2 *! t2) *! a *! b)
  | Sum i0 i1 =>
      x <- evaluate i0 k test_table trial_table test_geometry trial_geometry ;;
      y <- evaluate i1 k test_table trial_table test_geometry trial_geometry ;;
      Ok (x +! y)
  | TimesScalar c i =>
      x <- evaluate i k test_table trial_table test_geometry trial_geometry ;;
      Ok (c *! x)
  end.

(** [evaluate_nonsingular], integrands.rs:199-218 (hypersingular.rs:101-120 repeats
    it), with [NonSingularKernel], integrands.rs:66-91. *)
Definition evaluate_nonsingular (f : integrand T) (test_table trial_table : array T)
    (test_point trial_point test_basis trial_basis : nat) (k : array T)
    (test_geometry trial_geometry : geometry R) : res T :=
  evaluate f (fun i => aget k [i; test_point; trial_point])
    (table_at test_table test_point test_basis) (table_at trial_table trial_point trial_basis)
    (geometry_at test_geometry test_point) (geometry_at trial_geometry trial_point).

(** [evaluate_singular], integrands.rs:222-240 (hypersingular.rs:122-140 repeats it),
    with [SingularKernel], integrands.rs:93-111. *)
Definition evaluate_singular (f : integrand T) (test_table trial_table : array T)
    (point test_basis trial_basis : nat) (k : array T) (test_geometry trial_geometry : geometry R) : res T :=
  evaluate f (fun i => aget k [i; point])
    (table_at test_table point test_basis) (table_at trial_table point trial_basis)
    (geometry_at test_geometry point) (geometry_at trial_geometry point).

End Evaluate.
