(** * Property C62: real and complex scalars *)
From Coq Require Import ZArith Qcanon.
From Verif Require Import Base Topology DofMap Space Options Scalar Integrand CellPair Operators SpecLocal Interleave Assembly SpecAssembly AssemblyResults
  SpecOperators SpecScalars ScalarsResults LocalExamples AssemblyExamples AlgebraExamples ScalarsExamples.
Open Scope nat_scope.

(** C62: in any arithmetic, also floating point, a map of scalars that respects the
    operations, applied to the kernel, the basis functions and the factors in the
    integrand, is applied to every entry of the matrix. *)
Theorem C62_change_of_scalars : forall (T T' R : Type) (S : scalar T R) (S' : scalar T' R) (f : T -> T') (X : externals R)
    wmod (O : operator T R) (O' : operator T' R) o deg pts ct test trial test' trial' rt rt',
  scalar_map S S' f -> legal_runtime (s_add S) rt -> legal_runtime (s_add S') rt' ->
  op_integrand O' = map_integrand f (op_integrand O) -> mapped_kernel f O O' -> fitting O' ->
  mapped_space f test test' -> mapped_space f trial trial' ->
  dense_setting X wmod O o deg pts ct test trial ->
  exists m, assemble S X rt wmod O o trial test = Ok m /\ assemble S' X rt' wmod O' o trial' test' = Ok (map f m).
Proof. exact (@change_of_scalars). Qed.
Print Assumptions C62_change_of_scalars.

(** With wavenumber zero, where the Helmholtz Green's function is the Laplace one,
    each Helmholtz operator gives the matrix of the Laplace operator, embedded into
    the complex numbers. *)
Theorem C62_wavenumber_zero : forall (T T' R : Type) (S : scalar T R) (S' : scalar T' R) (f : T -> T') (X : externals R)
    wmod kd (G : green) (G' : R -> green) w o deg pts ct test trial test' trial' rt rt',
  scalar_map S S' f -> legal_runtime (s_add S) rt -> legal_runtime (s_add S') rt' ->
  s_cast S' (r_neg S' (r_mul S' w w)) = s_zero S' -> null_factor S' -> (forall i x y, G' w i x y = f (G i x y)) ->
  mapped_space f test test' -> mapped_space f trial trial' ->
  dense_setting X wmod (laplace_operator kd G) o deg pts ct test trial ->
  exists m, assemble S X rt wmod (laplace_operator kd G) o trial test = Ok m /\
    assemble S' X rt' wmod (helmholtz_operator S' kd G' w) o trial' test' = Ok (map f m).
Proof. exact (@wavenumber_zero). Qed.
Print Assumptions C62_wavenumber_zero.

(** Opposite wavenumbers, where the Green's functions are conjugate, give conjugate
    matrices if the basis functions are real. *)
Theorem C62_opposite_wavenumber : forall (T R : Type) (S : scalar T R) (X : externals R)
    wmod kd (G : R -> green) w w' o deg pts ct test trial rt rt' (conj : T -> T),
  scalar_map S S conj -> legal_runtime (s_add S) rt -> legal_runtime (s_add S) rt' ->
  r_mul S w' w' = r_mul S w w -> (forall i x y, G w' i x y = conj (G w i x y)) ->
  mapped_space conj test test -> mapped_space conj trial trial ->
  dense_setting X wmod (helmholtz_operator S kd G w) o deg pts ct test trial ->
  exists m, assemble S X rt wmod (helmholtz_operator S kd G w) o trial test = Ok m /\
    assemble S X rt' wmod (helmholtz_operator S kd G w') o trial test = Ok (map conj m).
Proof. exact (@opposite_wavenumber). Qed.
Print Assumptions C62_opposite_wavenumber.

(** Non-vacuity: complex numbers with rational parts, a kernel that depends on the
    wavenumber, all four kinds of operators. *)
Example C62_hypotheses_met :
  null_factor gauss_scalar /\ scalar_map qc_scalar gauss_scalar embed /\ scalar_map gauss_scalar gauss_scalar conj /\
  legal_runtime (s_add gauss_scalar) (sequential (s_add gauss_scalar)) /\
  mapped_space embed screen2_linear (complex_space screen2_linear) /\
  mapped_space conj (complex_space screen2_linear) (complex_space screen2_linear) /\
  (forall kd, dense_setting demo_externals 256 (laplace_operator kd demo_green) demo_options (fun _ _ => 2) (fun _ => 2) Triangle screen2_linear screen2_linear) /\
  (forall kd w, dense_setting demo_externals 256 (helmholtz_operator gauss_scalar kd wave_green w) demo_options (fun _ _ => 2) (fun _ => 2) Triangle
    (complex_space screen2_linear) (complex_space screen2_linear)) /\
  s_cast gauss_scalar (r_neg gauss_scalar (r_mul gauss_scalar 0%Qc 0%Qc)) = s_zero gauss_scalar /\
  (forall i x y, wave_green 0%Qc i x y = embed (demo_green i x y)) /\
  (forall w i x y, wave_green (r_neg gauss_scalar w) i x y = conj (wave_green w i x y)) /\
  (forall w, r_mul gauss_scalar (r_neg gauss_scalar w) (r_neg gauss_scalar w) = r_mul gauss_scalar w w) /\
  map (fun kd => (length (wave_matrix kd (qz 3)), not_real (wave_matrix kd (qz 3)))) [Single; Double; Adjoint; Hypersingular] =
    [(81, 77); (81, 79); (81, 79); (81, 77)].
Proof. exact scalars_example. Qed.

(** Non-vacuity: rounded arithmetic that is neither exact nor associative. *)
Example C62_rounded :
  ~ exact fixed_scalar /\ scalar_map fixed_scalar fixed_scalar fixed_conj /\
  r_mul fixed_scalar (qz (-3)) (qz (-3)) = r_mul fixed_scalar (qz 3) (qz 3) /\
  (forall i x y, fixed_green (qz (-3)) i x y = fixed_conj (fixed_green (qz 3) i x y)) /\
  mapped_space fixed_conj (fixed_space screen2_linear) (fixed_space screen2_linear) /\
  (forall kd w, dense_setting demo_externals 256 (helmholtz_operator fixed_scalar kd fixed_green w) demo_options (fun _ _ => 2) (fun _ => 2) Triangle
    (fixed_space screen2_linear) (fixed_space screen2_linear)) /\
  map (fun kd => (length (fixed_matrix kd (qz 3)), length (filter (fun a => negb (snd a =? 0)%Z) (fixed_matrix kd (qz 3))))) [Single; Double; Adjoint; Hypersingular] =
    [(81, 77); (81, 79); (81, 79); (81, 77)].
Proof. exact fixed_example. Qed.
