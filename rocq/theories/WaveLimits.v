(** * Continuity in the wavenumber, and the limit of small wavenumbers *)
From Coq Require Import Ring_theory Reals Lra.
From Verif Require Import Base BaseFacts Topology TopologyFacts DofMap SpecDof Process Space SpecSpace Options Adjacency SpecAdjacency
  Scalar Integrand CellPair Operators SpecLocal LocalFacts LocalResults Interleave Assembly SpecAssembly
  AssemblyExact AssemblyResults SpecAlgebra AlgebraFacts AlgebraResults SpecOrder SpecTransfer TransferResults SpecScalars ScalarsResults
  SpecOperators OperatorsResults SpecRounding RoundingResults RoundingModels SpecWaves KernelResults WaveKernel WaveResults.
Local Open Scope R_scope.

Lemma list_bound (b : list R) : exists M, 0 < M /\ forall i z, nth_error b i = Some z -> z <= M.
Proof.
  induction b as [|a b (M & P & H)].
  - exists 1. split; [lra|]. intros [|i] z E; discriminate.
  - exists (Rmax a M). split; [apply Rlt_le_trans with M; [exact P|apply Rmax_r]|]. intros [|i] z E.
    + injection E as <-. apply Rmax_l.
    + apply Rle_trans with M; [apply (H i z E)|apply Rmax_r].
Qed.

Lemma within_bound (m m' : list (R * R)) b c M B : 0 <= c -> (forall i z, nth_error b i = Some z -> z <= M) -> c * M <= B ->
  within cnorm complexes m m' (map (Rmult c) b) -> Forall2 (fun x y => cnorm (s_sub complexes x y) <= B) m m'.
Proof.
  intros Hc HM HB (L1 & L2 & H). rewrite map_length in L2. apply at_Forall2; [auto|]. intros i x y Hx Hy.
  destruct (at_index m b i x L2 Hx) as (z & Hz). apply Rle_trans with (c * z).
  - apply (H i); auto. now rewrite nth_error_map, Hz.
  - apply Rle_trans with (c * M); auto. apply Rmult_le_compat_l; auto. now apply (HM i).
Qed.

Lemma squares k k0 : 0 <= k -> 0 <= k0 -> Rabs (k - k0) <= 1 -> Rabs (k * k - k0 * k0) <= Rabs (k - k0) * (2 * k0 + 1) /\ k <= k0 + 1.
Proof.
  intros Hk Hk0 H. assert (K : k <= k0 + 1) by (pose proof (Rle_abs (k - k0)); lra). split; [|exact K].
  replace (k * k - k0 * k0) with ((k - k0) * (k + k0)) by ring. rewrite Rabs_mult. apply Rmult_le_compat_l; [apply Rabs_pos|]. rewrite Rabs_pos_eq; lra.
Qed.

Section Limits.
Context (X : externals R) (rt : runtime (R * R)) (wmod : nat) (e : R) (o : options)
  (deg : cell_type -> cell_type -> nat) (pts : cell_type -> nat) (ct : cell_type) (test trial : fspace (R * R) R).
Context (L : legal_runtime (s_add complexes) rt) (N : nonzero_determinants X) (He : Rabs e = 1).
Local Notation setting O := (dense_setting X wmod O o deg pts ct test trial).
Local Notation result O m := (assemble complexes X rt wmod O o trial test = Ok m).

Lemma helmholtz_fitting kd k : fitting (helmholtz_operator complexes kd (waves e) k).
Proof. apply (shipped_fitting complexes). destruct kd; constructor. Qed.

Lemma helmholtz_setting kd k k' : setting (helmholtz_operator complexes kd (waves e) k) -> setting (helmholtz_operator complexes kd (waves e) k').
Proof. apply dense_operator, helmholtz_fitting. Qed.

Theorem locally_lipschitz kd k0 : 0 <= k0 -> setting (helmholtz_operator complexes kd (waves e) k0) ->
  exists C, 0 < C /\ forall k, 0 <= k -> Rabs (k - k0) <= 1 ->
    exists m m0, result (helmholtz_operator complexes kd (waves e) k) m /\ result (helmholtz_operator complexes kd (waves e) k0) m0 /\
      Forall2 (fun x y => cnorm (s_sub complexes x y) <= C * Rabs (k - k0)) m m0.
Proof.
  intros H0 D. pose proof PI_RGT_0 as HP. set (seq := sequential Rplus). assert (Ls : legal_runtime Rplus seq) by apply sequential_legal.
  assert (I4 : 0 < / (4 * PI)) by (apply Rinv_0_lt_compat; lra). assert (I8 : 0 < / (8 * PI)) by (apply Rinv_0_lt_compat; lra).
  assert (Two : kd = Double \/ kd = Adjoint -> exists C, 0 < C /\ forall k, 0 <= k -> Rabs (k - k0) <= 1 ->
    exists m m0, result (helmholtz_operator complexes kd (waves e) k) m /\ result (helmholtz_operator complexes kd (waves e) k0) m0 /\
      Forall2 (fun x y => cnorm (s_sub complexes x y) <= C * Rabs (k - k0)) m m0).
  { intros Hd. destruct (double_change X rt seq wmod e o deg pts ct test trial L Ls N kd k0 k0 He Hd H0 H0 D) as (_ & _ & b & _ & _ & Eb & _).
    destruct (list_bound b) as (M & PM & HM). exists ((2 * k0 + 1) * / (8 * PI) * M). split.
    { assert (0 < (2 * k0 + 1) * / (8 * PI)) by nra. nra. }
    intros k Hk Hd1. destruct (squares k k0 Hk H0 Hd1) as (Sq & _).
    destruct (double_change X rt seq wmod e o deg pts ct test trial L Ls N kd k k0 He Hd Hk H0 (helmholtz_setting _ _ _ D)) as (m & m0 & b' & E1 & E2 & Eb' & W).
    assert (b' = b) by congruence. subst b'. exists m, m0. split; [exact E1|]. split; [exact E2|].
    apply (within_bound m m0 b (Rabs (k * k - k0 * k0) / (8 * PI)) M); auto; [apply Rmult_le_pos; [apply Rabs_pos|lra]|].
    unfold Rdiv. replace ((2 * k0 + 1) * / (8 * PI) * M * Rabs (k - k0)) with (Rabs (k - k0) * (2 * k0 + 1) * / (8 * PI) * M) by ring.
    apply Rmult_le_compat_r; [lra|]. apply Rmult_le_compat_r; [lra|exact Sq]. }
  destruct kd.
  - destruct (single_change X rt seq wmod e o deg pts ct test trial L Ls N k0 k0 D) as (_ & _ & b & _ & _ & Eb & _).
    destruct (list_bound b) as (M & PM & HM). exists (/ (4 * PI) * M). split; [nra|].
    intros k Hk _.
    destruct (single_change X rt seq wmod e o deg pts ct test trial L Ls N k k0 (helmholtz_setting Single _ _ D)) as (m & m0 & b' & E1 & E2 & Eb' & W).
    assert (b' = b) by congruence. subst b'. exists m, m0. split; [exact E1|]. split; [exact E2|].
    apply (within_bound m m0 b (Rabs (k - k0) / (4 * PI)) M); auto; [apply Rmult_le_pos; [apply Rabs_pos|lra]|]. unfold Rdiv. right. ring.
  - apply Two. auto.
  - apply Two. auto.
  - destruct (hypersingular_change X rt seq wmod e o deg pts ct test trial L Ls N k0 k0 D) as (_ & _ & b0 & b1 & b2 & _ & _ & Eb0 & Eb1 & Eb2 & _).
    destruct (list_bound b0) as (M0 & P0 & HM0). destruct (list_bound b1) as (M1 & P1 & HM1). destruct (list_bound b2) as (M2 & P2 & HM2).
    exists (/ (4 * PI) * (M0 + (k0 + 1) * (k0 + 1) * M1) + (2 * k0 + 1) * M2). split.
    { assert (0 < (k0 + 1) * (k0 + 1) * M1) by (apply Rmult_lt_0_compat; nra). assert (0 < / (4 * PI) * (M0 + (k0 + 1) * (k0 + 1) * M1)) by nra. nra. }
    intros k Hk Hd1. destruct (squares k k0 Hk H0 Hd1) as (Sq & Up).
    destruct (hypersingular_change X rt seq wmod e o deg pts ct test trial L Ls N k k0 (helmholtz_setting Hypersingular _ _ D))
      as (m & m0 & c0 & c1 & c2 & E1 & E2 & Ec0 & Ec1 & Ec2 & L0 & L1 & L2 & Lm & W).
    assert (c0 = b0) by congruence. assert (c1 = b1) by congruence. assert (c2 = b2) by congruence. subst c0 c1 c2.
    exists m, m0. split; [exact E1|]. split; [exact E2|]. apply at_Forall2; [auto|]. intros i x y Hx Hy.
    destruct (at_index m b0 i x L0 Hx) as (z0 & Hz0). destruct (at_index m b1 i x L1 Hx) as (z1 & Hz1). destruct (at_index m b2 i x L2 Hx) as (z2 & Hz2).
    eapply Rle_trans; [apply (W i x y z0 z1 z2); auto|].
    pose proof (HM0 _ _ Hz0) as B0. pose proof (HM1 _ _ Hz1) as B1. pose proof (HM2 _ _ Hz2) as B2. pose proof (Rabs_pos (k - k0)) as Pd.
    rewrite Rmult_plus_distr_r. apply Rplus_le_compat.
    + unfold Rdiv. replace (/ (4 * PI) * (M0 + (k0 + 1) * (k0 + 1) * M1) * Rabs (k - k0)) with (Rabs (k - k0) * / (4 * PI) * (M0 + (k0 + 1) * (k0 + 1) * M1)) by ring.
      apply Rmult_le_compat_l; [nra|]. apply Rplus_le_compat; [exact B0|].
      apply Rle_trans with (k * k * M1); [apply Rmult_le_compat_l; [nra|exact B1]|]. apply Rmult_le_compat_r; [lra|nra].
    + apply Rle_trans with (Rabs (k * k - k0 * k0) * M2); [apply Rmult_le_compat_l; [apply Rabs_pos|exact B2]|].
      replace ((2 * k0 + 1) * M2 * Rabs (k - k0)) with (Rabs (k - k0) * (2 * k0 + 1) * M2) by ring. apply Rmult_le_compat_r; [lra|exact Sq].
Qed.

Theorem wave_continuous kd k0 eps : 0 <= k0 -> 0 < eps -> setting (helmholtz_operator complexes kd (waves e) k0) ->
  exists delta, 0 < delta /\ forall k, 0 <= k -> Rabs (k - k0) < delta ->
    exists m m0, result (helmholtz_operator complexes kd (waves e) k) m /\ result (helmholtz_operator complexes kd (waves e) k0) m0 /\
      Forall2 (fun x y => cnorm (s_sub complexes x y) < eps) m m0.
Proof.
  intros H0 Pe D. destruct (locally_lipschitz kd k0 H0 D) as (C & PC & H). exists (Rmin 1 (eps / C)).
  assert (0 < eps / C) by (apply Rdiv_lt_0_compat; auto). split; [apply Rmin_glb_lt; lra|]. intros k Hk Hd.
  pose proof (Rmin_l 1 (eps / C)). pose proof (Rmin_r 1 (eps / C)).
  destruct (H k Hk ltac:(lra)) as (m & m0 & E1 & E2 & F). exists m, m0. split; [exact E1|]. split; [exact E2|].
  apply Forall2_at in F as (Ll & F). apply at_Forall2; auto. intros i x y Hx Hy. specialize (F i x y Hx Hy). rename F into Hxy. cbv beta in *. eapply Rle_lt_trans; [exact Hxy|].
  apply Rlt_le_trans with (C * (eps / C)); [apply Rmult_lt_compat_l; lra|]. right. field. lra.
Qed.
End Limits.

(** ** From the real to the complex numbers *)

Definition embed_real (r : R) : R * R := (r, 0).

Lemma embed_real_map : scalar_map reals complexes embed_real.
Proof.
  constructor; intros; unfold embed_real; cbn; try (f_equal; ring).
  destruct (Req_dec b 0) as [-> |Z].
  - replace (0 * 0 + 0 * 0) with 0 by ring. unfold Rdiv. rewrite Rinv_0. f_equal; ring.
  - f_equal; field; exact Z.
Qed.

Theorem laplace_limit X rt rt' wmod e kd o deg pts ct test trial test' trial' eps :
  legal_runtime Rplus rt -> legal_runtime (s_add complexes) rt' -> nonzero_determinants X -> Rabs e = 1 -> 0 < eps ->
  mapped_space embed_real test test' -> mapped_space embed_real trial trial' ->
  dense_setting X wmod (laplace_operator kd (newton e)) o deg pts ct test trial ->
  exists m, assemble reals X rt wmod (laplace_operator kd (newton e)) o trial test = Ok m /\
    exists delta, 0 < delta /\ forall k, 0 <= k < delta ->
      exists m', assemble complexes X rt' wmod (helmholtz_operator complexes kd (waves e) k) o trial' test' = Ok m' /\
        Forall2 (fun x y => cnorm (fst x - y, snd x) < eps) m' m.
Proof.
  intros Lr L N He Pe Mt Ms D.
  destruct (wavenumber_zero reals complexes embed_real X wmod kd (newton e) (waves e) 0 o deg pts ct test trial test' trial' rt rt') as (m & E1 & E2); auto using embed_real_map.
  { cbn. f_equal; ring. } { split; intros; cbn; [f_equal; ring|]. destruct a. cbn. f_equal; ring. } { intros i x y. apply waves_zero. }
  exists m. split; [exact E1|].
  assert (D' : dense_setting X wmod (helmholtz_operator complexes kd (waves e) 0) o deg pts ct test' trial').
  { apply (mapped_setting embed_real X wmod (laplace_operator kd (newton e)) (helmholtz_operator complexes kd (waves e) 0) o deg pts ct test trial); auto. apply helmholtz_fitting. }
  destruct (wave_continuous X rt' wmod e o deg pts ct test' trial' L N He kd 0 eps (Rle_refl 0) Pe D') as (delta & Pd & H).
  exists delta. split; [exact Pd|]. intros k (Hk & Hkd). destruct (H k Hk) as (m' & m0 & F1 & F2 & F3).
  { rewrite Rminus_0_r, Rabs_pos_eq; lra. }
  exists m'. split; [exact F1|]. assert (m0 = map embed_real m) by congruence. subst m0. apply Forall2_at in F3 as (Ll & F3). rewrite map_length in Ll.
  apply at_Forall2; auto. intros i x y Hx Hy. specialize (F3 i x (embed_real y) Hx). rewrite nth_error_map, Hy in F3. specialize (F3 eq_refl).
  cbn in F3. now rewrite Rminus_0_r in F3.
Qed.
