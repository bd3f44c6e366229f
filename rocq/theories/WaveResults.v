(** * How matrices depend on the wavenumber *)
From Coq Require Import Ring_theory Reals Lra.
From Verif Require Import Base BaseFacts Topology TopologyFacts DofMap SpecDof Process Space SpecSpace Options Adjacency SpecAdjacency
  Scalar Integrand CellPair Operators SpecLocal LocalFacts LocalResults Interleave Assembly SpecAssembly
  AssemblyExact AssemblyResults SpecAlgebra AlgebraFacts AlgebraResults SpecOrder SpecTransfer TransferResults SpecScalars ScalarsResults
  SpecOperators SpecRounding RoundingResults RoundingModels SpecWaves KernelResults WaveKernel.
Local Open Scope R_scope.

Lemma Forall2_at {A B : Type} (P : A -> B -> Prop) l l' : Forall2 P l l' -> length l = length l' /\
  forall i x y, nth_error l i = Some x -> nth_error l' i = Some y -> P x y.
Proof.
  intros F. split; [induction F; cbn; congruence|]. induction F as [|a b l l' H F IH]; intros [|i] x y Hx Hy; cbn in *; try discriminate.
  - injection Hx as <-. now injection Hy as <-.
  - eauto.
Qed.
Lemma at_Forall2 {A B : Type} (P : A -> B -> Prop) l l' : length l = length l' ->
  (forall i x y, nth_error l i = Some x -> nth_error l' i = Some y -> P x y) -> Forall2 P l l'.
Proof.
  revert l'. induction l as [|a l IH]; intros [|b l'] L H; try discriminate; constructor.
  - now apply (H 0%nat).
  - apply IH; [now injection L|]. intros i x y Hx Hy. now apply (H (S i)).
Qed.
Lemma at_index {A B : Type} (l : list A) (l' : list B) i x : length l' = length l -> nth_error l i = Some x -> exists y, nth_error l' i = Some y.
Proof. intros L H. assert (i < length l)%nat by (apply nth_error_Some; congruence). destruct (nth_error l' i) as [y|] eqn:E; eauto. apply nth_error_None in E. lia. Qed.

Section Change.
Context {T : Type} (norm : T -> R) (E : scalar T R) (V : valued E norm).

Section Ring.
Context (one : T) (RT : ring_theory (s_zero E) one (s_add E) (s_mul E) (s_sub E) (s_neg E) eq).
Add Ring change_ring : RT.
Lemma one_multiple x y c : s_sub E (s_add E (s_mul E one x) (s_mul E c y)) x = s_mul E c y. Proof. ring. Qed.
Lemma one_difference x y : x = s_add E (s_mul E one y) (s_mul E one (s_sub E x y)). Proof. ring. Qed.
Lemma one_left x y : s_add E (s_mul E one x) y = s_add E x y. Proof. ring. Qed.
Lemma split_difference x x' y y' k k' : s_sub E (s_sub E x (s_mul E k y)) (s_sub E x' (s_mul E k' y')) =
  s_sub E (s_sub E (s_sub E x x') (s_mul E k (s_sub E y y'))) (s_mul E (s_sub E k k') y').
Proof. ring. Qed.
End Ring.

(** The kernels differ by [c] times something that is at most 1. *)
Lemma scaled_change X rt rt' wmod (O : operator T R) (G D : @green T R) c o deg pts ct test trial :
  legal_runtime (s_add E) rt -> legal_runtime Rplus rt' -> dense_setting X wmod O o deg pts ct test trial -> nonzero_determinants X ->
  (forall n x y, part_used (op_integrand O) n -> kn_value (op_kernel O) n x y = s_add E (G n x y) (s_mul E c (D n x y)) /\ norm (D n x y) <= 1) ->
  exists m m' b, assemble E X rt wmod O o trial test = Ok m /\ assemble E X rt wmod (with_kernel O G) o trial test = Ok m' /\
    assemble absolute X rt' wmod (bound_operator norm O ones) o (absolute_space norm trial) (absolute_space norm test) = Ok b /\
    within norm E m m' (map (Rmult (norm c)) b).
Proof.
  intros L L' Ds N H. destruct (va_exact _ _ V) as ((one & RT) & (inv & Hdiv)).
  destruct (linear_in_kernel E one RT inv Hdiv X rt wmod O G D one c o deg pts ct test trial L Ds) as (m' & d & m & E1 & E2 & E3 & L1 & L2 & Hm).
  { intros n x y U. destruct (H n x y U) as (-> & _). symmetry. now apply one_left. }
  destruct (bounded_with_kernel norm E V X rt rt' wmod (with_kernel O D) ones o deg pts ct test trial) as (d' & b & E4 & E5 & F); auto using kernel_setting.
  { split; [intros; unfold ones; lra|]. intros n x y U. now apply H. }
  assert (d' = d) by congruence. subst d'. apply Forall2_at in F as (Lb & F).
  exists m, m', b. do 3 (split; [assumption|]). split; [exact L1|]. rewrite map_length. split; [congruence|].
  intros i x x' z Hx Hx' Hz. destruct (at_index m d i x L2 Hx) as (y & Hy). rewrite (Hm i x' y Hx' Hy) in Hx. injection Hx as <-.
  rewrite (one_multiple one RT), (va_mul _ _ V). rewrite nth_error_map in Hz. destruct (nth_error b i) as [z0|] eqn:Ez; [|discriminate]. injection Hz as <-.
  apply Rmult_le_compat_l; [apply (norm_pos norm E V)|]. eapply F; eauto.
Qed.

(** The matrices differ by at most the matrix of a bound of the difference of the
    kernels. *)
Theorem kernel_change X rt rt' wmod (O : operator T R) (G : @green T R) (B : @green R R) o deg pts ct test trial :
  legal_runtime (s_add E) rt -> legal_runtime Rplus rt' -> dense_setting X wmod O o deg pts ct test trial -> nonzero_determinants X ->
  kernel_bound norm (with_kernel O (fun n x y => s_sub E (kn_value (op_kernel O) n x y) (G n x y))) B ->
  exists m m' b, assemble E X rt wmod O o trial test = Ok m /\ assemble E X rt wmod (with_kernel O G) o trial test = Ok m' /\
    assemble absolute X rt' wmod (bound_operator norm O B) o (absolute_space norm trial) (absolute_space norm test) = Ok b /\ within norm E m m' b.
Proof.
  intros L L' Ds N H. destruct (va_exact _ _ V) as ((one & RT) & (inv & Hdiv)).
  set (D := fun n x y => s_sub E (kn_value (op_kernel O) n x y) (G n x y)) in *.
  destruct (linear_in_kernel E one RT inv Hdiv X rt wmod O G D one one o deg pts ct test trial L Ds) as (m' & d & m & E1 & E2 & E3 & L1 & L2 & Hm).
  { intros n x y U. now apply one_difference. }
  destruct (bounded_with_kernel norm E V X rt rt' wmod (with_kernel O D) B o deg pts ct test trial) as (d' & b & E4 & E5 & F); auto using kernel_setting.
  assert (d' = d) by congruence. subst d'. apply Forall2_at in F as (Lb & F).
  exists m, m', b. do 3 (split; [assumption|]). split; [exact L1|]. split; [congruence|].
  intros i x x' z Hx Hx' Hz. destruct (at_index m d i x L2 Hx) as (y & Hy). rewrite (Hm i x' y Hx' Hy) in Hx. injection Hx as <-.
  rewrite (one_multiple one RT). rewrite (Rmul_1_l RT). eapply F; eauto.
Qed.
End Change.

(** ** The complex numbers *)

Lemma complexes_exact : exact complexes.
Proof. exact (va_exact _ _ complexes_valued). Qed.

Lemma complex_change X rt rt' wmod (O : operator (R * R) R) (G : @green (R * R) R) c o deg pts ct test trial :
  legal_runtime (s_add complexes) rt -> legal_runtime Rplus rt' -> dense_setting X wmod O o deg pts ct test trial -> nonzero_determinants X ->
  (forall n x y, part_used (op_integrand O) n -> cnorm (s_sub complexes (kn_value (op_kernel O) n x y) (G n x y)) <= c) -> 0 <= c ->
  exists m m' b, assemble complexes X rt wmod O o trial test = Ok m /\ assemble complexes X rt wmod (with_kernel O G) o trial test = Ok m' /\
    assemble absolute X rt' wmod (bound_operator cnorm O ones) o (absolute_space cnorm trial) (absolute_space cnorm test) = Ok b /\
    within cnorm complexes m m' (map (Rmult c) b).
Proof.
  intros L L' Ds N H Hc.
  set (D := fun n x y => let d := s_sub complexes (kn_value (op_kernel O) n x y) (G n x y) in (/ c * fst d, / c * snd d)).
  destruct (scaled_change cnorm complexes complexes_valued X rt rt' wmod O G D (c, 0) o deg pts ct test trial L L' Ds N) as (m & m' & b & E1 & E2 & E3 & W).
  - intros n x y U. specialize (H n x y U). unfold D. destruct (kn_value (op_kernel O) n x y) as [p q], (G n x y) as [p' q'].
    cbn [complexes complex_of reals s_sub s_add s_mul fst snd] in *. destruct (Req_dec c 0) as [-> |Z].
    + pose proof (cnorm_sq (p - p', q - q')) as Sq. cbn [fst snd] in Sq. pose proof (cnorm_pos (p - p', q - q')).
      assert (C : cnorm (p - p', q - q') = 0) by lra. rewrite C in Sq. pose proof (Rle_0_sqr (p - p')). pose proof (Rle_0_sqr (q - q')). unfold Rsqr in *.
      assert (p - p' = 0) by nra. assert (q - q' = 0) by nra. split; [f_equal; nra|].
      rewrite H3, H4, !Rmult_0_r. rewrite (cnorm_eq (0, 0) 0) by (cbn; lra). lra.
    + split; [f_equal; field; exact Z|]. rewrite cnorm_multiple, Rabs_inv, (Rabs_pos_eq c) by lra.
      apply Rmult_le_reg_l with c; [lra|]. rewrite <- Rmult_assoc, Rinv_r by exact Z. lra.
  - exists m, m', b. do 3 (split; [assumption|]). rewrite (cnorm_eq (c, 0) c) in W by (cbn; lra). exact W.
Qed.

Section Waves.
Context (X : externals R) (rt : runtime (R * R)) (rt' : runtime R) (wmod : nat) (e : R) (o : options)
  (deg : cell_type -> cell_type -> nat) (pts : cell_type -> nat) (ct : cell_type) (test trial : fspace (R * R) R).
Context (L : legal_runtime (s_add complexes) rt) (L' : legal_runtime Rplus rt') (N : nonzero_determinants X).
Local Notation setting O := (dense_setting X wmod O o deg pts ct test trial).
Local Notation result O m := (assemble complexes X rt wmod O o trial test = Ok m).
Local Notation bound O b := (assemble absolute X rt' wmod O o (absolute_space cnorm trial) (absolute_space cnorm test) = Ok b).

Lemma pi_pos : 0 < PI. Proof. exact PI_RGT_0. Qed.

Theorem single_change k k' : setting (helmholtz_single_layer (waves e) k) ->
  exists m m' b, result (helmholtz_single_layer (waves e) k) m /\ result (helmholtz_single_layer (waves e) k') m' /\
    bound (laplace_single_layer ones) b /\ within cnorm complexes m m' (map (Rmult (Rabs (k - k') / (4 * PI))) b).
Proof.
  intros D. apply (complex_change X rt rt' wmod (helmholtz_single_layer (waves e) k) (waves e k') _ o deg pts ct test trial L L' D N).
  - intros n x y ->. apply value_lipschitz.
  - apply Rmult_le_pos; [apply Rabs_pos|]. left. apply Rinv_0_lt_compat. pose proof pi_pos. lra.
Qed.

Theorem double_change kd k k' : Rabs e = 1 -> kd = Double \/ kd = Adjoint -> 0 <= k -> 0 <= k' -> setting (helmholtz_operator complexes kd (waves e) k) ->
  exists m m' b, result (helmholtz_operator complexes kd (waves e) k) m /\ result (helmholtz_operator complexes kd (waves e) k') m' /\
    bound (laplace_operator kd ones) b /\ within cnorm complexes m m' (map (Rmult (Rabs (k * k - k' * k') / (8 * PI))) b).
Proof.
  intros He Hd Hk Hk' D.
  destruct (complex_change X rt rt' wmod (helmholtz_operator complexes kd (waves e) k) (waves e k') (Rabs (k * k - k' * k') / (8 * PI)) o deg pts ct test trial L L' D N) as (m & m' & b & H).
  - intros n x y U. assert (Hn : (1 <= n <= 3)%nat) by (destruct Hd as [-> | ->]; exact U).
    destruct Hd as [-> | ->]; apply gradient_lipschitz; auto; lia.
  - apply Rmult_le_pos; [apply Rabs_pos|]. left. apply Rinv_0_lt_compat. pose proof pi_pos. lra.
  - exists m, m', b. destruct Hd as [-> | ->]; exact H.
Qed.

Lemma complexes_cast : exact_cast complexes.
Proof. split; intros; cbn; f_equal; ring. Qed.

Theorem single_dominated k : setting (helmholtz_single_layer (waves e) k) ->
  exists m b, result (helmholtz_single_layer (waves e) k) m /\ bound (laplace_single_layer (newton e)) b /\ Forall2 (fun x z => cnorm x <= z) m b.
Proof.
  intros D. apply (bounded_with_kernel cnorm complexes complexes_valued X rt rt' wmod (helmholtz_single_layer (waves e) k) (newton e) o deg pts ct test trial L L' D N).
  split.
  - intros n x y Hn. cbn in Hn. destruct n; [|lia]. apply newton_nonneg.
  - intros n x y ->. right. apply waves_size.
Qed.

Lemma normal_dominated k : setting (normal_operator (waves e k)) ->
  exists m b, result (normal_operator (waves e k)) m /\ bound (normal_operator (fun _ => newton e 0)) b /\ Forall2 (fun x z => cnorm x <= z) m b.
Proof.
  intros D. apply (bounded_with_kernel cnorm complexes complexes_valued X rt rt' wmod (normal_operator (waves e k)) (fun _ => newton e 0) o deg pts ct test trial L L' D N).
  split.
  - intros n x y Hn. apply newton_nonneg.
  - intros n x y ->. right. apply waves_size.
Qed.

Theorem hypersingular_change k k' : setting (helmholtz_hypersingular complexes (waves e) k) ->
  exists m m' b0 b1 b2, result (helmholtz_hypersingular complexes (waves e) k) m /\ result (helmholtz_hypersingular complexes (waves e) k') m' /\
    bound (laplace_hypersingular ones) b0 /\ bound (normal_operator ones) b1 /\ bound (normal_operator (fun _ => newton e 0)) b2 /\
    length b0 = length m /\ length b1 = length m /\ length b2 = length m /\ length m' = length m /\
    forall i x x' z0 z1 z2, nth_error m i = Some x -> nth_error m' i = Some x' -> nth_error b0 i = Some z0 -> nth_error b1 i = Some z1 -> nth_error b2 i = Some z2 ->
      cnorm (s_sub complexes x x') <= Rabs (k - k') / (4 * PI) * (z0 + k * k * z1) + Rabs (k * k - k' * k') * z2.
Proof.
  intros D.
  assert (Sub : forall O, fitting O -> setting O) by (intros O F; now apply (dense_operator X wmod (helmholtz_hypersingular complexes (waves e) k))).
  assert (D' : setting (helmholtz_hypersingular complexes (waves e) k')) by (apply Sub; apply (shipped_fitting complexes); constructor).
  assert (DL : setting (laplace_hypersingular (waves e k))) by (apply Sub; apply (shipped_fitting complexes); constructor).
  assert (DN : forall k, setting (normal_operator (waves e k))) by (intros q; apply Sub; unfold fitting; cbn; lia).
  assert (Cp : 0 <= Rabs (k - k') / (4 * PI)).
  { apply Rmult_le_pos; [apply Rabs_pos|]. left. apply Rinv_0_lt_compat. pose proof pi_pos. lra. }
  destruct (exact_helmholtz_hypersingular complexes X rt wmod (waves e) k o deg pts ct test trial complexes_exact complexes_cast L D) as (c & n & m & E1 & E2 & E3 & Q1 & Q2 & Hm).
  destruct (exact_helmholtz_hypersingular complexes X rt wmod (waves e) k' o deg pts ct test trial complexes_exact complexes_cast L D') as (c' & n' & m' & E1' & E2' & E3' & Q1' & Q2' & Hm').
  destruct (complex_change X rt rt' wmod (laplace_hypersingular (waves e k)) (waves e k') (Rabs (k - k') / (4 * PI)) o deg pts ct test trial L L' DL N) as (c1 & c1' & b0 & F1 & F2 & F3 & W1 & W2 & W3).
  { intros j x y ->. apply value_lipschitz. } { exact Cp. }
  destruct (complex_change X rt rt' wmod (normal_operator (waves e k)) (waves e k') (Rabs (k - k') / (4 * PI)) o deg pts ct test trial L L' (DN k) N) as (n1 & n1' & b1 & G1 & G2 & G3 & Y1 & Y2 & Y3).
  { intros j x y ->. apply value_lipschitz. } { exact Cp. }
  destruct (normal_dominated k' (DN k')) as (n2 & b2 & H1 & H2 & H3). apply Forall2_at in H3 as (Z1 & Z2).
  change (with_kernel (laplace_hypersingular (waves e k)) (waves e k')) with (@laplace_hypersingular (R * R) R (waves e k')) in F2.
  change (with_kernel (normal_operator (waves e k)) (waves e k')) with (@normal_operator (R * R) R (waves e k')) in G2.
  change (mkOperator HypersingularNormalNormal (mkKernel ValueDeriv (waves e k)) 4 1) with (@normal_operator (R * R) R (waves e k)) in E2.
  change (mkOperator HypersingularNormalNormal (mkKernel ValueDeriv (waves e k')) 4 1) with (@normal_operator (R * R) R (waves e k')) in E2'.
  assert (c1 = c) by congruence. assert (c1' = c') by congruence. assert (n1 = n) by congruence. assert (n1' = n') by congruence. assert (n2 = n') by congruence.
  subst c1 c1' n1 n1' n2. rewrite map_length in W2, Y2.
  exists m, m', b0, b1, b2. do 5 (split; [assumption|]).
  split; [congruence|]. split; [congruence|]. split; [congruence|]. split; [congruence|].
  intros i x x' z0 z1 z2 Hx Hx' Hz0 Hz1 Hz2.
  destruct (at_index m c i x Q1 Hx) as (u & Hu). destruct (at_index m n i x Q2 Hx) as (v & Hv).
  destruct (at_index m' c' i x' Q1' Hx') as (u' & Hu'). destruct (at_index m' n' i x' Q2' Hx') as (v' & Hv').
  rewrite (Hm i u v Hu Hv) in Hx. rewrite (Hm' i u' v' Hu' Hv') in Hx'.
  assert (Ex : x = s_sub complexes u (s_mul complexes (s_mul complexes (s_cast complexes k) (s_cast complexes k)) v)) by congruence.
  assert (Ex' : x' = s_sub complexes u' (s_mul complexes (s_mul complexes (s_cast complexes k') (s_cast complexes k')) v')) by congruence.
  rewrite Ex, Ex'. clear Hx Hx' Ex Ex'.
  destruct complexes_exact as ((one & RT) & _). rewrite (split_difference complexes one RT).
  assert (A1 : cnorm (s_sub complexes u u') <= Rabs (k - k') / (4 * PI) * z0) by (apply (W3 i); auto; rewrite nth_error_map, Hz0; reflexivity).
  assert (A2 : cnorm (s_sub complexes v v') <= Rabs (k - k') / (4 * PI) * z1) by (apply (Y3 i); auto; rewrite nth_error_map, Hz1; reflexivity).
  assert (A3 : cnorm v' <= z2) by (apply (Z2 i); auto).
  assert (Ck : forall k, s_mul complexes (s_cast complexes k) (s_cast complexes k) = s_cast complexes (k * k)) by (intros; cbn; f_equal; ring).
  rewrite !Ck. rewrite <- (va_cast_sub _ _ complexes_valued).
  eapply Rle_trans; [apply (norm_sub cnorm complexes complexes_valued)|]. rewrite (va_mul _ _ complexes_valued), (va_cast _ _ complexes_valued).
  eapply Rle_trans; [apply Rplus_le_compat_r, (norm_sub cnorm complexes complexes_valued)|]. rewrite (va_mul _ _ complexes_valued), (va_cast _ _ complexes_valued).
  rewrite (Rabs_pos_eq (k * k)) by nra.
  apply Rplus_le_compat.
  - rewrite Rmult_plus_distr_l. apply Rplus_le_compat; [exact A1|]. replace (Rabs (k - k') / (4 * PI) * (k * k * z1)) with (k * k * (Rabs (k - k') / (4 * PI) * z1)) by ring.
    apply Rmult_le_compat_l; [nra|exact A2].
  - apply Rmult_le_compat_l; [apply Rabs_pos|exact A3].
Qed.
End Waves.
