(** * Property C112: matrices depend linearly on the kernel and continuously on the
    wavenumber *)
From Coq Require Import Reals.
From Verif Require Import Base Topology DofMap Space Options Scalar Integrand CellPair Operators SpecLocal Interleave Assembly SpecAssembly AssemblyResults SpecAlgebra
  SpecOrder SpecTransfer SpecScalars SpecOperators SpecRounding RoundingModels AssemblyExamples RoundingExamples SpecWaves KernelResults WaveKernel WaveResults WaveLimits WavePositive WaveExamples.
Local Open Scope R_scope.

(** In exact arithmetic the matrix is linear in the kernel.  Only the parts of the
    kernel matter that the integrand uses: the value for the single layer and the
    hypersingular operators, the gradient for the two double layer operators. *)
Theorem C112_linear_in_kernel : forall (T R : Type) (S : scalar T R) (X : externals R) rt wmod (O : operator T R) (G1 G2 : @green T R) c d o deg pts ct test trial,
  exact S -> legal_runtime (s_add S) rt -> dense_setting X wmod O o deg pts ct test trial ->
  (forall n x y, part_used (op_integrand O) n -> kn_value (op_kernel O) n x y = s_add S (s_mul S c (G1 n x y)) (s_mul S d (G2 n x y))) ->
  exists m1 m2 m,
    assemble S X rt wmod (with_kernel O G1) o trial test = Ok m1 /\ assemble S X rt wmod (with_kernel O G2) o trial test = Ok m2 /\
    assemble S X rt wmod O o trial test = Ok m /\ entrywise (fun x y => s_add S (s_mul S c x) (s_mul S d y)) m1 m2 m.
Proof. exact (@exact_linear_in_kernel). Qed.
Print Assumptions C112_linear_in_kernel.

(** Two kernels whose difference is bounded by [B] give matrices whose difference is
    bounded by the matrix of [B], computed from absolute values. *)
Theorem C112_kernel_change : forall (T : Type) (norm : T -> R) (E : scalar T R), valued E norm ->
  forall (X : externals R) rt rt' wmod (O : operator T R) (G : @green T R) (B : @green R R) o deg pts ct test trial,
  legal_runtime (s_add E) rt -> legal_runtime Rplus rt' -> dense_setting X wmod O o deg pts ct test trial -> nonzero_determinants X ->
  kernel_bound norm (with_kernel O (fun n x y => s_sub E (kn_value (op_kernel O) n x y) (G n x y))) B ->
  exists m m' b, assemble E X rt wmod O o trial test = Ok m /\ assemble E X rt wmod (with_kernel O G) o trial test = Ok m' /\
    assemble absolute X rt' wmod (bound_operator norm O B) o (absolute_space norm trial) (absolute_space norm test) = Ok b /\ within norm E m m' b.
Proof. exact (@kernel_change). Qed.
Print Assumptions C112_kernel_change.

(** The kernel of the Helmholtz equation: parts 1-3 are the partial derivatives of
    part 0, in the coordinates of the first or of the second point; wavenumber zero
    gives the kernel of the Laplace equation. *)
Theorem C112_first_gradient : forall k n x y, (1 <= n <= 3)%nat -> distance x y <> 0 ->
  derivable_pt_lim (fun s => fst (waves 1 k 0 (moved n x s) y)) (coordinate n x) (fst (waves 1 k n x y)) /\
  derivable_pt_lim (fun s => snd (waves 1 k 0 (moved n x s) y)) (coordinate n x) (snd (waves 1 k n x y)).
Proof. exact gradient_first. Qed.
Print Assumptions C112_first_gradient.
Theorem C112_second_gradient : forall k n x y, (1 <= n <= 3)%nat -> distance x y <> 0 ->
  derivable_pt_lim (fun s => fst (waves (-1) k 0 x (moved n y s))) (coordinate n y) (fst (waves (-1) k n x y)) /\
  derivable_pt_lim (fun s => snd (waves (-1) k 0 x (moved n y s))) (coordinate n y) (snd (waves (-1) k n x y)).
Proof. exact gradient_second. Qed.
Print Assumptions C112_second_gradient.
Theorem C112_zero : forall e n x y, waves e 0 n x y = (newton e n x y, 0).
Proof. exact waves_zero. Qed.
Print Assumptions C112_zero.

(** The single layer operator: the entries are Lipschitz continuous in the
    wavenumber, with constant [1 / (4 pi)] times the entry for kernel 1. *)
Theorem C112_single_layer : forall (X : externals R) rt rt' wmod e o deg pts ct test trial,
  legal_runtime (s_add complexes) rt -> legal_runtime Rplus rt' -> nonzero_determinants X -> forall k k',
  dense_setting X wmod (helmholtz_single_layer (waves e) k) o deg pts ct test trial ->
  exists m m' b,
    assemble complexes X rt wmod (helmholtz_single_layer (waves e) k) o trial test = Ok m /\
    assemble complexes X rt wmod (helmholtz_single_layer (waves e) k') o trial test = Ok m' /\
    assemble absolute X rt' wmod (laplace_single_layer ones) o (absolute_space cnorm trial) (absolute_space cnorm test) = Ok b /\
    within cnorm complexes m m' (map (Rmult (Rabs (k - k') / (4 * PI))) b).
Proof. exact single_change. Qed.
Print Assumptions C112_single_layer.

(** The two double layer operators: Lipschitz continuous in the square of the
    wavenumber. *)
Theorem C112_double_layers : forall (X : externals R) rt rt' wmod e o deg pts ct test trial,
  legal_runtime (s_add complexes) rt -> legal_runtime Rplus rt' -> nonzero_determinants X -> forall kd k k',
  Rabs e = 1 -> kd = Double \/ kd = Adjoint -> 0 <= k -> 0 <= k' ->
  dense_setting X wmod (helmholtz_operator complexes kd (waves e) k) o deg pts ct test trial ->
  exists m m' b,
    assemble complexes X rt wmod (helmholtz_operator complexes kd (waves e) k) o trial test = Ok m /\
    assemble complexes X rt wmod (helmholtz_operator complexes kd (waves e) k') o trial test = Ok m' /\
    assemble absolute X rt' wmod (laplace_operator kd ones) o (absolute_space cnorm trial) (absolute_space cnorm test) = Ok b /\
    within cnorm complexes m m' (map (Rmult (Rabs (k * k - k' * k') / (8 * PI))) b).
Proof. exact double_change. Qed.
Print Assumptions C112_double_layers.

(** The hypersingular operator. *)
Theorem C112_hypersingular : forall (X : externals R) rt rt' wmod e o deg pts ct test trial,
  legal_runtime (s_add complexes) rt -> legal_runtime Rplus rt' -> nonzero_determinants X -> forall k k',
  dense_setting X wmod (helmholtz_hypersingular complexes (waves e) k) o deg pts ct test trial ->
  exists m m' b0 b1 b2,
    assemble complexes X rt wmod (helmholtz_hypersingular complexes (waves e) k) o trial test = Ok m /\
    assemble complexes X rt wmod (helmholtz_hypersingular complexes (waves e) k') o trial test = Ok m' /\
    assemble absolute X rt' wmod (laplace_hypersingular ones) o (absolute_space cnorm trial) (absolute_space cnorm test) = Ok b0 /\
    assemble absolute X rt' wmod (normal_operator ones) o (absolute_space cnorm trial) (absolute_space cnorm test) = Ok b1 /\
    assemble absolute X rt' wmod (normal_operator (fun _ => newton e 0)) o (absolute_space cnorm trial) (absolute_space cnorm test) = Ok b2 /\
    length b0 = length m /\ length b1 = length m /\ length b2 = length m /\ length m' = length m /\
    forall i x x' z0 z1 z2, nth_error m i = Some x -> nth_error m' i = Some x' -> nth_error b0 i = Some z0 -> nth_error b1 i = Some z1 -> nth_error b2 i = Some z2 ->
      cnorm (s_sub complexes x x') <= Rabs (k - k') / (4 * PI) * (z0 + k * k * z1) + Rabs (k * k - k' * k') * z2.
Proof. exact hypersingular_change. Qed.
Print Assumptions C112_hypersingular.

(** All four operators: locally Lipschitz continuous in the wavenumber, with one
    constant for all entries. *)
Theorem C112_continuous : forall (X : externals R) rt wmod e o deg pts ct test trial,
  legal_runtime (s_add complexes) rt -> nonzero_determinants X -> Rabs e = 1 -> forall kd k0, 0 <= k0 ->
  dense_setting X wmod (helmholtz_operator complexes kd (waves e) k0) o deg pts ct test trial ->
  exists C, 0 < C /\ forall k, 0 <= k -> Rabs (k - k0) <= 1 ->
    exists m m0,
      assemble complexes X rt wmod (helmholtz_operator complexes kd (waves e) k) o trial test = Ok m /\
      assemble complexes X rt wmod (helmholtz_operator complexes kd (waves e) k0) o trial test = Ok m0 /\
      Forall2 (fun x y => cnorm (s_sub complexes x y) <= C * Rabs (k - k0)) m m0.
Proof. exact locally_lipschitz. Qed.
Print Assumptions C112_continuous.

(** For wavenumbers that tend to zero, the matrices of the Helmholtz equation tend to
    those of the Laplace equation. *)
Theorem C112_laplace_limit : forall (X : externals R) rt rt' wmod e kd o deg pts ct test trial test' trial' eps,
  legal_runtime Rplus rt -> legal_runtime (s_add complexes) rt' -> nonzero_determinants X -> Rabs e = 1 -> 0 < eps ->
  mapped_space embed_real test test' -> mapped_space embed_real trial trial' ->
  dense_setting X wmod (laplace_operator kd (newton e)) o deg pts ct test trial ->
  exists m, assemble reals X rt wmod (laplace_operator kd (newton e)) o trial test = Ok m /\
    exists delta, 0 < delta /\ forall k, 0 <= k < delta ->
      exists m', assemble complexes X rt' wmod (helmholtz_operator complexes kd (waves e) k) o trial' test' = Ok m' /\
        Forall2 (fun x y => cnorm (fst x - y, snd x) < eps) m' m.
Proof. exact laplace_limit. Qed.
Print Assumptions C112_laplace_limit.

(** Without negative basis functions, weights and determinants, each entry of the
    single layer matrix is, for every wavenumber, at most as large as that for the
    Laplace equation, and its change is bounded by the entry for kernel 1. *)
Theorem C112_dominated : forall (X : externals R) wmod o deg pts ct test trial test' trial',
  positive_externals (Rle 0) X -> positive_basis (Rle 0) X test -> positive_basis (Rle 0) X trial ->
  mapped_space embed_real test test' -> mapped_space embed_real trial trial' -> forall rt rt' e k,
  legal_runtime Rplus rt -> legal_runtime (s_add complexes) rt' -> nonzero_determinants X ->
  dense_setting X wmod (laplace_single_layer (newton e)) o deg pts ct test trial ->
  exists m m', assemble reals X rt wmod (laplace_single_layer (newton e)) o trial test = Ok m /\
    assemble complexes X rt' wmod (helmholtz_single_layer (waves e) k) o trial' test' = Ok m' /\ Forall2 (fun x y => cnorm x <= y) m' m.
Proof. exact positive_dominated. Qed.
Print Assumptions C112_dominated.
Theorem C112_positive_change : forall (X : externals R) wmod o deg pts ct test trial test' trial',
  positive_externals (Rle 0) X -> positive_basis (Rle 0) X test -> positive_basis (Rle 0) X trial ->
  mapped_space embed_real test test' -> mapped_space embed_real trial trial' -> forall rt rt' e k k',
  legal_runtime Rplus rt -> legal_runtime (s_add complexes) rt' -> nonzero_determinants X ->
  dense_setting X wmod (laplace_single_layer ones) o deg pts ct test trial ->
  exists b m m', assemble reals X rt wmod (laplace_single_layer ones) o trial test = Ok b /\
    assemble complexes X rt' wmod (helmholtz_single_layer (waves e) k) o trial' test' = Ok m /\
    assemble complexes X rt' wmod (helmholtz_single_layer (waves e) k') o trial' test' = Ok m' /\
    within cnorm complexes m m' (map (Rmult (Rabs (k - k') / (4 * PI))) b).
Proof. exact positive_change. Qed.
Print Assumptions C112_positive_change.

(** Non-vacuity: all hypotheses hold for a screen with 8 cells; the kernels for the
    wavenumbers 0 and pi differ. *)
Example C112_hypotheses_met :
  legal_runtime (s_add complexes) (sequential (s_add complexes)) /\ nonzero_determinants real_externals /\ Rabs (-1) = 1 /\
  (forall kd k, dense_setting real_externals 256 (helmholtz_operator complexes kd (waves (-1)) k) demo_options (fun _ _ => 2%nat) (fun _ => 2%nat) Triangle complex_p1 complex_dp0) /\
  (forall kd, dense_setting real_externals 256 (laplace_operator kd (newton (-1))) demo_options (fun _ _ => 2%nat) (fun _ => 2%nat) Triangle real_p1 real_dp0) /\
  mapped_space embed_real real_p1 complex_p1 /\ mapped_space embed_real real_dp0 complex_dp0 /\
  positive_externals (Rle 0) real_externals /\ positive_basis (Rle 0) real_externals real_p1 /\ positive_basis (Rle 0) real_externals real_dp0 /\
  waves (-1) PI 0 (0, 0, 0) (1, 0, 0) = (- / (4 * PI), 0) /\ waves (-1) 0 0 (0, 0, 0) (1, 0, 0) = (/ (4 * PI), 0) /\
  cnorm (s_sub complexes (waves (-1) PI 0 (0, 0, 0) (1, 0, 0)) (waves (-1) 0 0 (0, 0, 0) (1, 0, 0))) = / (2 * PI) /\
  waves (-1) PI 1 (0, 0, 0) (1, 0, 0) = (/ (4 * PI), - / 4) /\ newton (-1) 1 (0, 0, 0) (1, 0, 0) = - / (4 * PI).
Proof. exact wave_example. Qed.
