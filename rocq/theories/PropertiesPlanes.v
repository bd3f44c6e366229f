(** * Property C116: cells in one plane *)
From Coq Require Import ZArith SpecFloat Reals.
From Verif Require Import Base Topology DofMap SpecDof Space Options Scalar Integrand CellPair Operators SpecLocal SpecOperators Assembly SpecAssembly SpecAlgebra SpecTransfer SpecDigits SpecGauss
  Shapes SpecShapes SpecSphere SpecScreen SpecTurns TurnExamples SpecRounding SpecShapeSpaces SpecToeplitz SpecOptions Interleave AssemblyResults SpecPlanes PlaneResults PlaneFloats PlaneExact PlaneHyper PlaneExamples.

(** C116: in any arithmetic an entry of a double layer matrix (or of its adjoint) is zero if
    the normal derivative is zero at all points that are used for the cells of the two
    functions. *)
Theorem C116_entries : forall (T R : Type) (S : scalar T R) (zero fin : T -> Prop), zeros S zero fin ->
  forall (X : externals R) kd (G : @green T R), kd = Double \/ kd = Adjoint -> forall deg pts (test trial : fspace T R),
  proper_rules X -> finite_data S fin X test trial -> forall rt wmod o ct,
  legal_runtime (s_add S) rt -> dense_setting X wmod (laplace_operator kd G) o deg pts ct test trial ->
  exists m, assemble S X rt wmod (laplace_operator kd G) o trial test = Ok m /\
  forall i j, i < global_size (fs_space test) -> j < global_size (fs_space trial) ->
    (forall t s, carried test i t -> carried trial j s -> no_normal_derivative S zero X kd G deg pts test trial t s) ->
    exists v, nth_error m (i + global_size (fs_space test) * j) = Some v /\ zero v.
Proof. exact (@zero_entries). Qed.
Print Assumptions C116_entries.

(** Grids at one height, in any arithmetic: the matrix has only zeros, the sparse matrix
    has no entries. *)
Theorem C116_level : forall (T R : Type) (S : scalar T R) (zero fin : T -> Prop), zeros S zero fin ->
  forall (X : externals R) kd (G : @green T R), kd = Double \/ kd = Adjoint -> forall deg pts ct (test trial : fspace T R) wmod o,
  dense_setting X wmod (laplace_operator kd G) o deg pts ct test trial -> finite_data S fin X test trial -> forall rt h,
  legal_runtime (s_add S) rt -> level_grid S zero fin X (fs_grid test) h -> level_grid S zero fin X (fs_grid trial) h ->
  level_kernel zero fin X G deg pts test trial ->
  exists m, assemble S X rt wmod (laplace_operator kd G) o trial test = Ok m /\
    length m = global_size (fs_space test) * global_size (fs_space trial) /\ Forall zero m /\
    ((forall v, zero v -> s_large S v = false) ->
      assemble_singular S X rt wmod (laplace_operator kd G) o trial test = Ok (CsrEmpty (global_size (fs_space test), global_size (fs_space trial)))).
Proof. exact (@level_zero). Qed.
Print Assumptions C116_level.

(** Double and single precision, real and complex, are such arithmetics, and their zeros
    are below the limit. *)
Theorem C116_binary : forall prec emax limit, zeros (binary prec emax limit) float_zero float_finite.
Proof. exact binary_zeros. Qed.
Print Assumptions C116_binary.

Theorem C116_complex : forall prec emax limit large, zeros (pairs_of (binary prec emax limit) large) (both float_zero) (both float_finite).
Proof. exact complex_binary_zeros. Qed.
Print Assumptions C116_complex.

Theorem C116_limit : forall prec emax m e x, float_zero x -> s_large (binary prec emax (S754_finite false m e)) x = false.
Proof. exact binary_small. Qed.
Print Assumptions C116_limit.

(** The limits are the numbers of the two formats that are nearest to [10 ^ -10]. *)
Theorem C116_formats : forall S prec, (S, prec) = (binary64, 53%Z) \/ (S, prec) = (binary32, 24%Z) -> exists m e,
  (forall x, s_large S x = SFltb (S754_finite false m e) (SFabs x)) /\
  (2 ^ (prec - 1) <= Zpos m < 2 ^ prec)%Z /\ (e < 0)%Z /\ (2 * Z.abs (Zpos m * 10 ^ 10 - 2 ^ (- e)) <= 10 ^ 10)%Z.
Proof. exact binary_limits. Qed.
Print Assumptions C116_formats.

(** The two formats have their range: for the largest finite number all operations are exact with 0 or 1, and its double overflows. *)
Example C116_range : forall S x one, (S, x, one) = (binary64, S754_finite false 9007199254740991 971, S754_finite false 4503599627370496 (-52)) \/
    (S, x, one) = (binary32, S754_finite false 16777215 104, S754_finite false 8388608 (-23)) ->
  s_add S x (S754_zero false) = x /\ s_sub S x (S754_zero false) = x /\ s_mul S x one = x /\ s_div S x one = x /\ r_mul S x one = x /\
  s_add S x one = x /\ s_sub S x one = x /\ s_add S x x = S754_infinity false /\ s_sub S (s_neg S x) x = S754_infinity true /\
  s_mul S x x = S754_infinity false /\ r_mul S x x = S754_infinity false /\ s_div S x (s_div S one x) = S754_infinity false.
Proof. exact binary_range. Qed.

(** The operators of the Helmholtz equation are those with the kernel for the wavenumber. *)
Theorem C116_helmholtz : forall (T R : Type) (S : scalar T R) kd (G : R -> @green T R) k, kd = Double \/ kd = Adjoint ->
  helmholtz_operator S kd G k = laplace_operator kd (G k).
Proof. exact (@same_double). Qed.
Print Assumptions C116_helmholtz.

(** Exact arithmetic: functions whose cells lie in one plane. *)
Theorem C116_plane : forall (T : Type) (S : scalar T R) (X : externals R) rt wmod kd (G : @green T R) o deg pts ct (test trial : fspace T R),
  exact S -> exact_cast S -> real_cast S -> kd = Double \/ kd = Adjoint -> radial S G -> legal_runtime (s_add S) rt ->
  dense_setting X wmod (laplace_operator kd G) o deg pts ct test trial ->
  exists m, assemble S X rt wmod (laplace_operator kd G) o trial test = Ok m /\
  forall N d i j, (i < global_size (fs_space test))%nat -> (j < global_size (fs_space trial))%nat ->
    (forall t, carried test i t -> in_plane X (fs_grid test) N d t) -> (forall s, carried trial j s -> in_plane X (fs_grid trial) N d s) ->
    nth_error m (i + global_size (fs_space test) * j) = Some (s_zero S).
Proof. exact exact_plane_entries. Qed.
Print Assumptions C116_plane.

(** On the sphere, functions of the same cell. *)
Theorem C116_sphere : forall (T : Type) (S : scalar T R) (X : externals R) rt wmod kd (G : @green T R) o deg pts level id b (test trial : fspace T R),
  exact S -> exact_cast S -> real_cast S -> kd = Double \/ kd = Adjoint -> radial S G -> legal_runtime (s_add S) rt ->
  dense_setting X wmod (laplace_operator kd G) o deg pts Triangle test trial ->
  regular_sphere real_numbers level 1 = Ok b -> fs_grid test = built_grid id Triangle b -> fs_grid trial = built_grid id Triangle b -> flat_cells X (built_grid id Triangle b) b ->
  interior_family [Triangle] (fs_family test) -> interior_family [Triangle] (fs_family trial) ->
  exists m, assemble S X rt wmod (laplace_operator kd G) o trial test = Ok m /\
  forall c i j, (c < ent_count (fs_grid test) 2)%nat -> In i (dofs_at test c) -> In j (dofs_at trial c) ->
    nth_error m (i + global_size (fs_space test) * j) = Some (s_zero S).
Proof. exact sphere_blocks. Qed.
Print Assumptions C116_sphere.

(** On screens the whole matrices. *)
Theorem C116_screens : forall (T : Type) (S : scalar T R) (X : externals R) rt wmod kd (G : @green T R) o deg pts n id ct b (test trial : fspace T R),
  exact S -> exact_cast S -> real_cast S -> kd = Double \/ kd = Adjoint -> radial S G -> legal_runtime (s_add S) rt ->
  dense_setting X wmod (laplace_operator kd G) o deg pts ct test trial ->
  screen n ct b -> fs_grid test = built_grid id ct b -> fs_grid trial = built_grid id ct b -> flat_screen n X (built_grid id ct b) b ->
  assemble S X rt wmod (laplace_operator kd G) o trial test = Ok (repeat (s_zero S) (global_size (fs_space test) * global_size (fs_space trial))) /\
  (s_large S (s_zero S) = false ->
    assemble_singular S X rt wmod (laplace_operator kd G) o trial test = Ok (CsrEmpty (global_size (fs_space test), global_size (fs_space trial)))).
Proof. exact screens_zero. Qed.
Print Assumptions C116_screens.

(** Equal normals: the Helmholtz hypersingular matrix from the curl part and the single
    layer matrix. *)
Theorem C116_hypersingular : forall (T R : Type) (S : scalar T R) (X : externals R) rt wmod (G : R -> green) k o deg pts ct (test trial : fspace T R),
  exact S -> exact_cast S -> legal_runtime (s_add S) rt -> dense_setting X wmod (helmholtz_hypersingular S G k) o deg pts ct test trial ->
  equal_normals S X deg pts test trial ->
  exists curl_part single m,
    assemble S X rt wmod (laplace_hypersingular (G k)) o trial test = Ok curl_part /\
    assemble S X rt wmod (helmholtz_single_layer G k) o trial test = Ok single /\
    assemble S X rt wmod (helmholtz_hypersingular S G k) o trial test = Ok m /\
    entrywise (fun x y => s_sub S x (s_mul S (s_mul S (s_cast S k) (s_cast S k)) y)) curl_part single m.
Proof. exact planar_hypersingular. Qed.
Print Assumptions C116_hypersingular.

Theorem C116_screen_hypersingular : forall (T : Type) (S : scalar T R) (X : externals R) rt wmod (G : R -> @green T R) k o deg pts n id ct b (test trial : fspace T R),
  exact S -> exact_cast S -> real_cast S -> (forall v, s_mul S (s_cast S 1%R) v = v) -> legal_runtime (s_add S) rt ->
  dense_setting X wmod (helmholtz_hypersingular S G k) o deg pts ct test trial ->
  screen n ct b -> fs_grid test = built_grid id ct b -> fs_grid trial = built_grid id ct b -> flat_screen n X (built_grid id ct b) b ->
  exists curl_part single m,
    assemble S X rt wmod (laplace_hypersingular (G k)) o trial test = Ok curl_part /\
    assemble S X rt wmod (helmholtz_single_layer G k) o trial test = Ok single /\
    assemble S X rt wmod (helmholtz_hypersingular S G k) o trial test = Ok m /\
    entrywise (fun x y => s_sub S x (s_mul S (s_mul S (s_cast S k) (s_cast S k)) y)) curl_part single m.
Proof. exact screen_hypersingular. Qed.
Print Assumptions C116_screen_hypersingular.

(** The hypotheses can be met: double precision, real and complex numbers. *)
Example C116_float_example : forall n t id tf, (0 < n)%nat -> t = Triangle \/ t = Quadrilateral -> standard tf -> exists b (test : fspace spec_float spec_float) deg pts wmod,
  screen n t b /\ fs_grid test = built_grid id t b /\ made_on (built_grid id t b) tf test /\
  (forall kd, kd = Double \/ kd = Adjoint -> dense_setting float_externals wmod (laplace_operator kd float_green) (after [SetBatch 3]) deg pts t test test) /\
  finite_data binary64 float_finite float_externals test test /\
  level_grid binary64 float_zero float_finite float_externals (fs_grid test) (S754_zero false) /\
  level_kernel float_zero float_finite float_externals float_green deg pts test test.
Proof. exact float_example. Qed.

Example C116_float_zero : forall n t id tf, (0 < n)%nat -> t = Triangle \/ t = Quadrilateral -> standard tf -> exists b (test : fspace spec_float spec_float) wmod,
  screen n t b /\ made_on (built_grid id t b) tf test /\
  exists m, assemble binary64 float_externals (sequential (s_add binary64)) wmod (laplace_double_layer float_green) (after [SetBatch 3]) test test = Ok m /\
    length m = (global_size (fs_space test) * global_size (fs_space test))%nat /\ Forall float_zero m.
Proof. exact float_screens_zero. Qed.

Example C116_sphere_example : forall (T : Type), scalar T R -> forall level id tf (G : @green T R) (basis : cell_type -> list R -> nat -> nat -> nat -> nat -> T), standard tf -> exists b X (test : fspace T R) deg pts wmod,
  regular_sphere real_numbers level 1 = Ok b /\ fs_grid test = built_grid id Triangle b /\ made_on (built_grid id Triangle b) tf test /\ fs_basis test = basis /\
  flat_cells X (built_grid id Triangle b) b /\
  forall kd, kd = Double \/ kd = Adjoint -> dense_setting X wmod (laplace_operator kd G) (after [SetBatch 3]) deg pts Triangle test test.
Proof. exact plane_sphere_example. Qed.

Example C116_screen_example : forall (T : Type) (S : scalar T R), forall n t id tf (G : R -> @green T R) (k : R) (basis : cell_type -> list R -> nat -> nat -> nat -> nat -> T), (0 < n)%nat -> t = Triangle \/ t = Quadrilateral -> standard tf ->
  exists b X (test : fspace T R) deg pts wmod,
  screen n t b /\ fs_grid test = built_grid id t b /\ made_on (built_grid id t b) tf test /\ fs_basis test = basis /\
  flat_screen n X (built_grid id t b) b /\
  (forall kd, kd = Double \/ kd = Adjoint -> dense_setting X wmod (laplace_operator kd (G k)) (after [SetBatch 3]) deg pts t test test) /\
  dense_setting X wmod (helmholtz_hypersingular S G k) (after [SetBatch 3]) deg pts t test test.
Proof. exact plane_screen_example. Qed.

Example C116_limited : exact limited /\ exact_cast limited /\ real_cast limited /\ radial limited laplace_green /\ s_large limited (s_zero limited) = false /\ s_large limited 1%R = true.
Proof. exact limited_exact. Qed.

Example C116_scalars : exact reals /\ exact_cast reals /\ real_cast reals /\ (forall v, s_mul reals (s_cast reals 1%R) v = v) /\ radial reals laplace_green /\
  exact complexes /\ exact_cast complexes /\ real_cast complexes /\ (forall v, s_mul complexes (s_cast complexes 1%R) v = v) /\ (forall k, radial complexes (helmholtz_green k)).
Proof. exact scalars_example. Qed.
