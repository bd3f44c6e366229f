(** * Rounded Helmholtz entries of functions with distant supports and the integrals *)
From Coq Require Import Reals Lra.
From Verif Require Import Base BaseFacts Topology DofMap SpecDof Process Space Options SpecOptions Scalar Integrand CellPair Operators SpecLocal LocalResults Interleave Assembly SpecAssembly AssemblyResults
  SpecOrder SpecTransfer SpecAlgebra SpecScalars ScalarsResults SpecRounding RoundingResults RoundingModels SpecShapeSpaces SpecCounts DigitsResults SpecBroken SpecGalerkin SpecMeasure Shapes SpecShapes ShapesResults SpecSphere SpecScreen SpecWidth SpecTurns SpecShift SpecToeplitz ToeplitzResults
  SpecShare WaveKernel SpecWaves SpecDecay SpecDigits SpecMoments SpecDegree SpecPieces SpecFluxes SpecSwirls SpecSurges WaveLimits EchoShapes DriftShapes SurgeShapes.

Local Open Scope R_scope.
Local Notation dist := SpecWaves.distance.

Lemma complex_unit p : (15 <= p)%nat -> 0 <= growth ((/ 2) ^ p) 5 - 1 <= (/ 2) ^ (p - 3) /\ (/ 2) ^ (p - 3) < 1.
Proof.
  intros Hp. assert (E : (/ 2) ^ (p - 3) = 8 * (/ 2) ^ p).
  { replace p with ((p - 3) + 3)%nat at 2 by lia. rewrite pow_add. field. }
  assert (S : forall k, 0 < (/ 2) ^ k <= 1).
  { intros k. split; [apply pow_lt; lra|]. induction k as [|k IH]; cbn [pow]; [lra|]. assert (0 < (/ 2) ^ k) by (apply pow_lt; lra). lra. }
  assert (H : 0 < (/ 2) ^ p <= / 64).
  { split; [apply S|]. replace p with ((p - 6) + 6)%nat by lia. rewrite pow_add. pose proof (S (p - 6)%nat). replace ((/ 2) ^ 6) with (/ 64) by field. lra. }
  rewrite E. set (h := (/ 2) ^ p) in *. clearbody h. split; [|lra]. split.
  - pose proof (growth_ge h ltac:(lra) 5). lra.
  - replace (INR 5) with 5 by (cbn; ring). eapply Rle_trans; [apply growth_bound; [lra|replace (INR 5) with 5 by (cbn; ring); lra|lra]|]. replace (INR 5) with 5 by (cbn; ring).
    apply (Rmult_le_reg_r (1 - 5 * h)); [lra|]. unfold Rdiv. rewrite Rmult_assoc, Rinv_l by lra. nra.
Qed.

Lemma complex_digits p n : (15 <= p)%nat -> (n <= 2 ^ 11)%nat -> growth (growth ((/ 2) ^ p) 5 - 1) n - 1 <= (/ 2) ^ (p - 15).
Proof.
  intros Hp Hn. destruct (complex_unit p Hp) as ((U0 & U1) & U2). replace (p - 15)%nat with ((p - 3) - 12)%nat by lia.
  eapply Rle_trans; [|apply (growth_digits (p - 3) n); [lia|exact Hn]]. apply Rplus_le_compat_r. unfold growth at 1 3. apply pow_incr. split.
  - left. apply Rinv_0_lt_compat. lra.
  - apply Rinv_le_contravar; lra.
Qed.

Lemma part_le x : Rabs (fst x) <= cnorm x /\ Rabs (snd x) <= cnorm x.
Proof.
  unfold cnorm. pose proof (Rle_0_sqr (fst x)). pose proof (Rle_0_sqr (snd x)). unfold Rsqr in *.
  split; rewrite <- sqrt_Rsqr_abs; apply sqrt_le_1_alt; unfold Rsqr; lra.
Qed.

Lemma waves_toll p (O O' : operator (R * R) R) ct : (15 <= p)%nat -> let u := growth ((/ 2) ^ p) 5 - 1 in
  forall (X X' : externals R) wmod wmod' o o' deg pts (test trial test' trial' : fspace (R * R) R) relP rt n N,
  shape_grid (fs_grid test') -> shape_grid (fs_grid trial') -> standard (fs_family test') -> standard (fs_family trial') -> legal_runtime (s_add (complex_of (floats p))) rt ->
  dense_setting X wmod O o deg pts ct test trial -> dense_setting X' wmod' O' o' deg pts ct test' trial' ->
  same_dofs test test' -> same_dofs trial trial' ->
  related_externals (real_close u n) (nonzero_close u n) (real_close u n) relP X X' ->
  related_kernel (close u cnorm complexes n) X X' O O' deg pts test trial ->
  related_basis (close u cnorm complexes n) relP O test test' -> related_basis (close u cnorm complexes n) relP O trial trial' ->
  related_form (close u cnorm complexes n) (op_integrand O) (op_integrand O') ->
  points_at_most X deg pts ct N -> (roundings n (op_integrand O) + 4 * n + 40 + N <= 2 ^ 11)%nat ->
  exists m e a, assemble (complex_of (floats p)) X rt wmod O o trial test = Ok m /\ assemble complexes X' (sequential (s_add complexes)) wmod' O' o' trial' test' = Ok e /\
    assemble absolute X' (sequential Rplus) wmod' (absolute_operator cnorm O') o' (absolute_space cnorm trial') (absolute_space cnorm test') = Ok a /\
    length e = length m /\ length a = length m /\
    forall k x y z, nth_error m k = Some x -> nth_error e k = Some y -> nth_error a k = Some z ->
      Rabs (fst x - fst y) <= (/ 2) ^ (p - 15) * z /\ Rabs (snd x - snd y) <= (/ 2) ^ (p - 15) * z.
Proof.
  intros Hp u X X' wmod wmod' o o' deg pts test trial test' trial' relP rt n N Sh Sh' St Ss L D D' A1 A2 H1 H2 H3 H4 H4' H5 H6.
  destruct (complex_unit p Hp) as ((U0 & U1) & U2). assert (Hu : 0 <= u < 1) by (unfold u; lra).
  assert (Hh : 0 <= (/ 2) ^ p < 1) by (split; [apply pow_le; lra|apply pow_lt_1_compat; [lra|lia]]).
  destruct (A1) as (E1 & E2 & E3), (A2) as (E4 & E5 & E6).
  destruct (shape_error (R * R) u Hu cnorm complexes (complex_of (floats p)) complexes_valued (complex_rounds _ Hh _ (floats_round p)) X X' wmod wmod' O O' o o' deg pts ct test trial test' trial' relP rt (sequential (s_add complexes)) (sequential Rplus) n N)
    as (m & e & a & Em & Ee & Ea & Le & La & H); auto; try (rewrite ?E1, ?E4; assumption); try (rewrite ?E2, ?E5; assumption); try apply sequential_legal.
  exists m, e, a. split; [exact Em|]. split; [exact Ee|]. split; [exact Ea|]. split; [exact Le|]. split; [exact La|].
  intros k x y z Hx Hy Hz. destruct (H k x y z Hx Hy Hz) as (A & B).
  assert (C : cnorm (fst x - fst y, snd x - snd y) <= (/ 2) ^ (p - 15) * z).
  { eapply Rle_trans; [exact B|]. assert (0 <= cnorm y) by (unfold cnorm; apply sqrt_pos). apply Rmult_le_compat_r; [lra|]. now apply complex_digits. }
  destruct (part_le (fst x - fst y, snd x - snd y)) as (P1 & P2). cbn [fst snd] in P1, P2. lra.
Qed.

Lemma near_near x y w q B : Rabs (x - y) <= q -> Rabs (y - w) <= B -> Rabs (x - w) <= q + B.
Proof. intros H1 H2. replace (x - w) with ((x - y) + (y - w)) by ring. eapply Rle_trans; [apply Rabs_triang|]. lra. Qed.

Theorem sphere_toll : forall prec, (15 <= prec)%nat -> let u := growth ((/ 2) ^ prec) 5 - 1 in
  forall (X X' : externals R) level id wmod wmod' (G : R -> @green (R * R) R) kappa' e kappa o o' deg pts (b : builder vec) (test trial : fspace R R) (test' trial' rtest rtrial : fspace (R * R) R) relP rt P F F' k d n N,
  regular_sphere real_numbers level 1 = Ok b -> fs_grid test = built_grid id Triangle b -> fs_grid trial = built_grid id Triangle b ->
  dense_setting X' wmod' (laplace_single_layer (newton e)) o' deg pts Triangle test trial -> mapped_space embed_real test test' -> mapped_space embed_real trial trial' ->
  positive_externals (Rle 0) X' -> inside_rules X' Triangle -> exact_to X' Triangle (pts Triangle) (k + d) -> flat_cells X' (built_grid id Triangle b) b ->
  element_functions test Triangle d F -> element_functions trial Triangle d F' -> (forall t p q r, corners_of b t p q r -> P t = (p, q, r)) ->
  standard (fs_family test) -> standard (fs_family trial) -> legal_runtime (s_add (complex_of (floats prec))) rt -> dense_setting X wmod (helmholtz_single_layer G kappa') o deg pts Triangle rtest rtrial ->
  same_dofs rtest test' -> same_dofs rtrial trial' -> related_externals (real_close u n) (nonzero_close u n) (real_close u n) relP X X' ->
  related_kernel (close u cnorm complexes n) X X' (helmholtz_single_layer G kappa') (helmholtz_single_layer (waves e) kappa) deg pts rtest rtrial ->
  related_basis (close u cnorm complexes n) relP (helmholtz_single_layer G kappa') rtest test' -> related_basis (close u cnorm complexes n) relP (helmholtz_single_layer G kappa') rtrial trial' ->
  points_at_most X deg pts Triangle N -> (7 * n + 42 + N <= 2 ^ 11)%nat ->
  exists m A, assemble (complex_of (floats prec)) X rt wmod (helmholtz_single_layer G kappa') o rtrial rtest = Ok m /\
  assemble absolute X' (sequential Rplus) wmod' (absolute_operator cnorm (helmholtz_single_layer (waves e) kappa)) o' (absolute_space cnorm trial') (absolute_space cnorm test') = Ok A /\
  forall t s i j p q r p' q' r' M M' sigma, corners_of b t p q r -> corners_of b s p' q' r' -> In i (dofs_at test t) -> In j (dofs_at trial s) ->
    (forall z x y, In z (support test i) -> inside Triangle x y -> Rabs (piece test F i z x y) <= M) ->
    (forall z x y, In z (support trial j) -> inside Triangle x y -> Rabs (piece trial F' j z x y) <= M') ->
    let reach := 3 * sqrt (32 / (3 * (4 ^ level + 2))) in let a := dist (centre Triangle p q r) (centre Triangle p' q' r') in reach < a -> 0 < sigma < 1 -> reach / a <= sigma ->
    exists v w w' l, nth_error m (i + global_size (fs_space test) * j) = Some v /\ nth_error A (i + global_size (fs_space test) * j) = Some l /\ functions_integral Triangle test trial F F' P P (fun x y => fst (waves e kappa 0 x y)) i j w /\ functions_integral Triangle test trial F F' P P (fun x y => snd (waves e kappa 0 x y)) i j w' /\
      let bound := 2 * (sigma ^ (k + 1) / (1 - reach / a)) * exp (Rabs kappa * (a + reach) / sigma) * (M * support_area test Triangle P i * (M' * support_area trial Triangle P j) / (4 * PI * a)) in
      Rabs (fst v - w) <= (/ 2) ^ (prec - 15) * l + bound /\ Rabs (snd v - w') <= (/ 2) ^ (prec - 15) * l + bound.
Proof.
  intros prec Hp u X X' level id wmod wmod' G kappa' e kappa o o' deg pts b test trial test' trial' rtest rtrial relP rt P F F' k d n N E Gt Gs D Mt Ms HX Ins Ex Fl Ef Ef' HP St Ss L Dr A1 A2 H1 H2 H3 H4 H5 H6.
  pose proof (shape_sphere real_numbers level id b E) as Sh. destruct (A1) as (E1 & E2 & E3).
  assert (D' : dense_setting X' wmod' (helmholtz_single_layer (waves e) kappa) o' deg pts Triangle test' trial').
  { eapply mapped_setting; [exact Mt|exact Ms| |exact D]. apply (shipped_fitting complexes), sh_helmholtz_single. }
  pose proof (mp_grid _ _ _ Mt) as G1. pose proof (mp_grid _ _ _ Ms) as G2. pose proof (mp_family _ _ _ Mt) as F1e. pose proof (mp_family _ _ _ Ms) as F2e. pose proof (mp_space _ _ _ Mt) as S1.
  destruct (waves_toll prec (helmholtz_single_layer G kappa') (helmholtz_single_layer (waves e) kappa) Triangle Hp X X' wmod wmod' o o' deg pts rtest rtrial test' trial' relP rt n N) as (m & m' & A & Em & Em' & EA & Lm & LA & H); auto;
    try (rewrite ?G1, ?G2, ?Gt, ?Gs; exact Sh); try (rewrite ?F1e, ?F2e; assumption); try exact I; try (cbn [roundings op_integrand helmholtz_single_layer helmholtz_double_layer helmholtz_adjoint_double_layer helmholtz_hypersingular]; lia).
  destruct (sphere_echoes X' level id wmod' e kappa o' deg pts b test trial test' trial' P F F' k d E Gt Gs D Mt Ms HX Ins Ex Fl Ef Ef' HP (sequential (s_add complexes)) (sequential_legal _)) as (m2 & Em2 & H').
  assert (m2 = m') by congruence. subst m2. exists m, A. split; [exact Em|]. split; [exact EA|].
  intros t s i j p0 q r p' q' r' M M' sigma Co Co' Hi Hj Bd Bd' reach a Far Hs Rs. destruct (H' t s i j p0 q r p' q' r' M M' sigma Co Co' Hi Hj Bd Bd' Far Hs Rs) as (y0 & w & w' & Ey & Iw & Iw' & Bw & Bw').
  set (pos := (i + global_size (fs_space test) * j)%nat) in *. assert (Lk : (pos < length m)%nat) by (rewrite <- Lm; apply nth_error_Some; congruence).
  destruct (nth_error m pos) as [v|] eqn:Ev; [|apply nth_error_None in Ev; lia].
  destruct (nth_error A pos) as [l|] eqn:El; [|apply nth_error_None in El; lia].
  destruct (H _ _ _ _ Ev Ey El) as (B1 & B2). exists v, w, w', l. split; [reflexivity|]. split; [reflexivity|]. split; [exact Iw|]. split; [exact Iw'|].
  split; eapply near_near; eassumption.
Qed.

Theorem screen_toll : forall prec, (15 <= prec)%nat -> let u := growth ((/ 2) ^ prec) 5 - 1 in
  forall (X X' : externals R) h id wmod wmod' ct (G : R -> @green (R * R) R) kappa' e kappa o o' deg pts (b : builder (nat * nat)) (test trial : fspace R R) (test' trial' rtest rtrial : fspace (R * R) R) relP rt P F F' k d n N,
  screen h ct b -> fs_grid test = built_grid id ct b -> fs_grid trial = built_grid id ct b ->
  dense_setting X' wmod' (laplace_single_layer (newton e)) o' deg pts ct test trial -> mapped_space embed_real test test' -> mapped_space embed_real trial trial' ->
  positive_externals (Rle 0) X' -> inside_rules X' ct -> exact_to X' ct (pts ct) (k + d) -> flat_screen h X' (built_grid id ct b) b ->
  element_functions test ct d F -> element_functions trial ct d F' ->
  (forall t p q r, corner b t 0 p -> corner b t 1 q -> corner b t 2 r -> P t = (screen_position h p, screen_position h q, screen_position h r)) ->
  standard (fs_family test) -> standard (fs_family trial) -> legal_runtime (s_add (complex_of (floats prec))) rt -> dense_setting X wmod (helmholtz_single_layer G kappa') o deg pts ct rtest rtrial ->
  same_dofs rtest test' -> same_dofs rtrial trial' -> related_externals (real_close u n) (nonzero_close u n) (real_close u n) relP X X' ->
  related_kernel (close u cnorm complexes n) X X' (helmholtz_single_layer G kappa') (helmholtz_single_layer (waves e) kappa) deg pts rtest rtrial ->
  related_basis (close u cnorm complexes n) relP (helmholtz_single_layer G kappa') rtest test' -> related_basis (close u cnorm complexes n) relP (helmholtz_single_layer G kappa') rtrial trial' ->
  points_at_most X deg pts ct N -> (7 * n + 42 + N <= 2 ^ 11)%nat ->
  exists m A, assemble (complex_of (floats prec)) X rt wmod (helmholtz_single_layer G kappa') o rtrial rtest = Ok m /\
  assemble absolute X' (sequential Rplus) wmod' (absolute_operator cnorm (helmholtz_single_layer (waves e) kappa)) o' (absolute_space cnorm trial') (absolute_space cnorm test') = Ok A /\
  forall t s i j p q r p' q' r' M M' sigma, corner b t 0 p -> corner b t 1 q -> corner b t 2 r -> corner b s 0 p' -> corner b s 1 q' -> corner b s 2 r' -> In i (dofs_at test t) -> In j (dofs_at trial s) ->
    (forall z x y, In z (support test i) -> inside ct x y -> Rabs (piece test F i z x y) <= M) ->
    (forall z x y, In z (support trial j) -> inside ct x y -> Rabs (piece trial F' j z x y) <= M') ->
    let a := dist (centre ct (screen_position h p) (screen_position h q) (screen_position h r)) (centre ct (screen_position h p') (screen_position h q') (screen_position h r')) in
    let reach := 3 * (sqrt (spread ct / 2) / INR (h + 1)) in reach < a -> 0 < sigma < 1 -> reach / a <= sigma ->
    exists v w w' l, nth_error m (i + global_size (fs_space test) * j) = Some v /\ nth_error A (i + global_size (fs_space test) * j) = Some l /\ functions_integral ct test trial F F' P P (fun x y => fst (waves e kappa 0 x y)) i j w /\ functions_integral ct test trial F F' P P (fun x y => snd (waves e kappa 0 x y)) i j w' /\
      let bound := 2 * (sigma ^ (k + 1) / (1 - reach / a)) * exp (Rabs kappa * (a + reach) / sigma) * (M * support_area test ct P i * (M' * support_area trial ct P j) / (4 * PI * a)) in
      Rabs (fst v - w) <= (/ 2) ^ (prec - 15) * l + bound /\ Rabs (snd v - w') <= (/ 2) ^ (prec - 15) * l + bound.
Proof.
  intros prec Hp u X X' h id wmod wmod' ct G kappa' e kappa o o' deg pts b test trial test' trial' rtest rtrial relP rt P F F' k d n N E Gt Gs D Mt Ms HX Ins Ex Fl Ef Ef' HP St Ss L Dr A1 A2 H1 H2 H3 H4 H5 H6.
  assert (Sh : shape_grid (built_grid id ct b)) by (destruct E as [b E|b E]; [now apply (shape_triangles h)|now apply (shape_quadrilaterals h)]). destruct (A1) as (E1 & E2 & E3).
  assert (D' : dense_setting X' wmod' (helmholtz_single_layer (waves e) kappa) o' deg pts ct test' trial').
  { eapply mapped_setting; [exact Mt|exact Ms| |exact D]. apply (shipped_fitting complexes), sh_helmholtz_single. }
  pose proof (mp_grid _ _ _ Mt) as G1. pose proof (mp_grid _ _ _ Ms) as G2. pose proof (mp_family _ _ _ Mt) as F1e. pose proof (mp_family _ _ _ Ms) as F2e. pose proof (mp_space _ _ _ Mt) as S1.
  destruct (waves_toll prec (helmholtz_single_layer G kappa') (helmholtz_single_layer (waves e) kappa) ct Hp X X' wmod wmod' o o' deg pts rtest rtrial test' trial' relP rt n N) as (m & m' & A & Em & Em' & EA & Lm & LA & H); auto;
    try (rewrite ?G1, ?G2, ?Gt, ?Gs; exact Sh); try (rewrite ?F1e, ?F2e; assumption); try exact I; try (cbn [roundings op_integrand helmholtz_single_layer helmholtz_double_layer helmholtz_adjoint_double_layer helmholtz_hypersingular]; lia).
  destruct (screen_echoes X' h id wmod' ct e kappa o' deg pts b test trial test' trial' P F F' k d E Gt Gs D Mt Ms HX Ins Ex Fl Ef Ef' HP (sequential (s_add complexes)) (sequential_legal _)) as (m2 & Em2 & H').
  assert (m2 = m') by congruence. subst m2. exists m, A. split; [exact Em|]. split; [exact EA|].
  intros t s i j p0 q r p' q' r' M M' sigma C0 C1 C2 C0' C1' C2' Hi Hj Bd Bd' a reach Far Hs Rs. destruct (H' t s i j p0 q r p' q' r' M M' sigma C0 C1 C2 C0' C1' C2' Hi Hj Bd Bd' Far Hs Rs) as (y0 & w & w' & Ey & Iw & Iw' & Bw & Bw').
  set (pos := (i + global_size (fs_space test) * j)%nat) in *. assert (Lk : (pos < length m)%nat) by (rewrite <- Lm; apply nth_error_Some; congruence).
  destruct (nth_error m pos) as [v|] eqn:Ev; [|apply nth_error_None in Ev; lia].
  destruct (nth_error A pos) as [l|] eqn:El; [|apply nth_error_None in El; lia].
  destruct (H _ _ _ _ Ev Ey El) as (B1 & B2). exists v, w, w', l. split; [reflexivity|]. split; [reflexivity|]. split; [exact Iw|]. split; [exact Iw'|].
  split; eapply near_near; eassumption.
Qed.

Theorem sphere_toll_double : forall prec, (15 <= prec)%nat -> let u := growth ((/ 2) ^ prec) 5 - 1 in
  forall (X X' : externals R) level id wmod wmod' (G : R -> @green (R * R) R) kappa' e kappa o o' deg pts (b : builder vec) (test trial : fspace R R) (test' trial' rtest rtrial : fspace (R * R) R) relP rt P F F' k d n N,
  regular_sphere real_numbers level 1 = Ok b -> fs_grid test = built_grid id Triangle b -> fs_grid trial = built_grid id Triangle b ->
  dense_setting X' wmod' (laplace_double_layer (newton e)) o' deg pts Triangle test trial -> mapped_space embed_real test test' -> mapped_space embed_real trial trial' ->
  positive_externals (Rle 0) X' -> inside_rules X' Triangle -> exact_to X' Triangle (pts Triangle) (k + d + 1) -> flat_cells X' (built_grid id Triangle b) b ->
  element_functions test Triangle d F -> element_functions trial Triangle d F' -> (forall t p q r, corners_of b t p q r -> P t = (p, q, r)) ->
  standard (fs_family test) -> standard (fs_family trial) -> legal_runtime (s_add (complex_of (floats prec))) rt -> dense_setting X wmod (helmholtz_double_layer G kappa') o deg pts Triangle rtest rtrial ->
  same_dofs rtest test' -> same_dofs rtrial trial' -> related_externals (real_close u n) (nonzero_close u n) (real_close u n) relP X X' ->
  related_kernel (close u cnorm complexes n) X X' (helmholtz_double_layer G kappa') (helmholtz_double_layer (waves e) kappa) deg pts rtest rtrial ->
  related_basis (close u cnorm complexes n) relP (helmholtz_double_layer G kappa') rtest test' -> related_basis (close u cnorm complexes n) relP (helmholtz_double_layer G kappa') rtrial trial' ->
  points_at_most X deg pts Triangle N -> (8 * n + 45 + N <= 2 ^ 11)%nat ->
  exists m A, assemble (complex_of (floats prec)) X rt wmod (helmholtz_double_layer G kappa') o rtrial rtest = Ok m /\
  assemble absolute X' (sequential Rplus) wmod' (absolute_operator cnorm (helmholtz_double_layer (waves e) kappa)) o' (absolute_space cnorm trial') (absolute_space cnorm test') = Ok A /\
  forall t s i j p q r p' q' r' M M' sigma, corners_of b t p q r -> corners_of b s p' q' r' -> In i (dofs_at test t) -> In j (dofs_at trial s) ->
    (forall z x y, In z (support test i) -> inside Triangle x y -> Rabs (piece test F i z x y) <= M) ->
    (forall z x y, In z (support trial j) -> inside Triangle x y -> Rabs (piece trial F' j z x y) <= M') ->
    let reach := 3 * sqrt (32 / (3 * (4 ^ level + 2))) in let a := dist (centre Triangle p q r) (centre Triangle p' q' r') in reach < a -> 0 < sigma < 1 -> reach / a <= sigma * sigma ->
    exists v w w' l, nth_error m (i + global_size (fs_space test) * j) = Some v /\ nth_error A (i + global_size (fs_space test) * j) = Some l /\ double_integral Triangle test trial F F' P P (fun n x y => fst (waves e kappa n x y)) i j w /\ double_integral Triangle test trial F F' P P (fun n x y => snd (waves e kappa n x y)) i j w' /\
      let bound := 6 * (1 + reach / a) * sigma ^ (k + 1) / ((1 - sigma) ^ 3) * exp (2 * (Rabs kappa * (a + reach) / sigma)) * (Rabs e * (M * support_area test Triangle P i * (M' * support_area trial Triangle P j)) / (4 * PI * (a * a))) in
      Rabs (fst v - w) <= (/ 2) ^ (prec - 15) * l + bound /\ Rabs (snd v - w') <= (/ 2) ^ (prec - 15) * l + bound.
Proof.
  intros prec Hp u X X' level id wmod wmod' G kappa' e kappa o o' deg pts b test trial test' trial' rtest rtrial relP rt P F F' k d n N E Gt Gs D Mt Ms HX Ins Ex Fl Ef Ef' HP St Ss L Dr A1 A2 H1 H2 H3 H4 H5 H6.
  pose proof (shape_sphere real_numbers level id b E) as Sh. destruct (A1) as (E1 & E2 & E3).
  assert (D' : dense_setting X' wmod' (helmholtz_double_layer (waves e) kappa) o' deg pts Triangle test' trial').
  { eapply mapped_setting; [exact Mt|exact Ms| |exact D]. apply (shipped_fitting complexes), sh_helmholtz_double. }
  pose proof (mp_grid _ _ _ Mt) as G1. pose proof (mp_grid _ _ _ Ms) as G2. pose proof (mp_family _ _ _ Mt) as F1e. pose proof (mp_family _ _ _ Ms) as F2e. pose proof (mp_space _ _ _ Mt) as S1.
  destruct (waves_toll prec (helmholtz_double_layer G kappa') (helmholtz_double_layer (waves e) kappa) Triangle Hp X X' wmod wmod' o o' deg pts rtest rtrial test' trial' relP rt n N) as (m & m' & A & Em & Em' & EA & Lm & LA & H); auto;
    try (rewrite ?G1, ?G2, ?Gt, ?Gs; exact Sh); try (rewrite ?F1e, ?F2e; assumption); try exact I; try (cbn [roundings op_integrand helmholtz_single_layer helmholtz_double_layer helmholtz_adjoint_double_layer helmholtz_hypersingular]; lia).
  destruct (sphere_drift_double X' level id wmod' e kappa o' deg pts b test trial test' trial' P F F' k d E Gt Gs D Mt Ms HX Ins Ex Fl Ef Ef' HP (sequential (s_add complexes)) (sequential_legal _)) as (m2 & Em2 & H').
  assert (m2 = m') by congruence. subst m2. exists m, A. split; [exact Em|]. split; [exact EA|].
  intros t s i j p0 q r p' q' r' M M' sigma Co Co' Hi Hj Bd Bd' reach a Far Hs Rs. destruct (H' t s i j p0 q r p' q' r' M M' sigma Co Co' Hi Hj Bd Bd' Far Hs Rs) as (y0 & w & w' & Ey & Iw & Iw' & Bw & Bw').
  set (pos := (i + global_size (fs_space test) * j)%nat) in *. assert (Lk : (pos < length m)%nat) by (rewrite <- Lm; apply nth_error_Some; congruence).
  destruct (nth_error m pos) as [v|] eqn:Ev; [|apply nth_error_None in Ev; lia].
  destruct (nth_error A pos) as [l|] eqn:El; [|apply nth_error_None in El; lia].
  destruct (H _ _ _ _ Ev Ey El) as (B1 & B2). exists v, w, w', l. split; [reflexivity|]. split; [reflexivity|]. split; [exact Iw|]. split; [exact Iw'|].
  split; eapply near_near; eassumption.
Qed.

Theorem sphere_toll_adjoint : forall prec, (15 <= prec)%nat -> let u := growth ((/ 2) ^ prec) 5 - 1 in
  forall (X X' : externals R) level id wmod wmod' (G : R -> @green (R * R) R) kappa' e kappa o o' deg pts (b : builder vec) (test trial : fspace R R) (test' trial' rtest rtrial : fspace (R * R) R) relP rt P F F' k d n N,
  regular_sphere real_numbers level 1 = Ok b -> fs_grid test = built_grid id Triangle b -> fs_grid trial = built_grid id Triangle b ->
  dense_setting X' wmod' (laplace_adjoint_double_layer (newton e)) o' deg pts Triangle test trial -> mapped_space embed_real test test' -> mapped_space embed_real trial trial' ->
  positive_externals (Rle 0) X' -> inside_rules X' Triangle -> exact_to X' Triangle (pts Triangle) (k + d + 1) -> flat_cells X' (built_grid id Triangle b) b ->
  element_functions test Triangle d F -> element_functions trial Triangle d F' -> (forall t p q r, corners_of b t p q r -> P t = (p, q, r)) ->
  standard (fs_family test) -> standard (fs_family trial) -> legal_runtime (s_add (complex_of (floats prec))) rt -> dense_setting X wmod (helmholtz_adjoint_double_layer G kappa') o deg pts Triangle rtest rtrial ->
  same_dofs rtest test' -> same_dofs rtrial trial' -> related_externals (real_close u n) (nonzero_close u n) (real_close u n) relP X X' ->
  related_kernel (close u cnorm complexes n) X X' (helmholtz_adjoint_double_layer G kappa') (helmholtz_adjoint_double_layer (waves e) kappa) deg pts rtest rtrial ->
  related_basis (close u cnorm complexes n) relP (helmholtz_adjoint_double_layer G kappa') rtest test' -> related_basis (close u cnorm complexes n) relP (helmholtz_adjoint_double_layer G kappa') rtrial trial' ->
  points_at_most X deg pts Triangle N -> (8 * n + 45 + N <= 2 ^ 11)%nat ->
  exists m A, assemble (complex_of (floats prec)) X rt wmod (helmholtz_adjoint_double_layer G kappa') o rtrial rtest = Ok m /\
  assemble absolute X' (sequential Rplus) wmod' (absolute_operator cnorm (helmholtz_adjoint_double_layer (waves e) kappa)) o' (absolute_space cnorm trial') (absolute_space cnorm test') = Ok A /\
  forall t s i j p q r p' q' r' M M' sigma, corners_of b t p q r -> corners_of b s p' q' r' -> In i (dofs_at test t) -> In j (dofs_at trial s) ->
    (forall z x y, In z (support test i) -> inside Triangle x y -> Rabs (piece test F i z x y) <= M) ->
    (forall z x y, In z (support trial j) -> inside Triangle x y -> Rabs (piece trial F' j z x y) <= M') ->
    let reach := 3 * sqrt (32 / (3 * (4 ^ level + 2))) in let a := dist (centre Triangle p q r) (centre Triangle p' q' r') in reach < a -> 0 < sigma < 1 -> reach / a <= sigma * sigma ->
    exists v w w' l, nth_error m (i + global_size (fs_space test) * j) = Some v /\ nth_error A (i + global_size (fs_space test) * j) = Some l /\ adjoint_integral Triangle test trial F F' P P (fun n x y => fst (waves e kappa n x y)) i j w /\ adjoint_integral Triangle test trial F F' P P (fun n x y => snd (waves e kappa n x y)) i j w' /\
      let bound := 6 * (1 + reach / a) * sigma ^ (k + 1) / ((1 - sigma) ^ 3) * exp (2 * (Rabs kappa * (a + reach) / sigma)) * (Rabs e * (M * support_area test Triangle P i * (M' * support_area trial Triangle P j)) / (4 * PI * (a * a))) in
      Rabs (fst v - w) <= (/ 2) ^ (prec - 15) * l + bound /\ Rabs (snd v - w') <= (/ 2) ^ (prec - 15) * l + bound.
Proof.
  intros prec Hp u X X' level id wmod wmod' G kappa' e kappa o o' deg pts b test trial test' trial' rtest rtrial relP rt P F F' k d n N E Gt Gs D Mt Ms HX Ins Ex Fl Ef Ef' HP St Ss L Dr A1 A2 H1 H2 H3 H4 H5 H6.
  pose proof (shape_sphere real_numbers level id b E) as Sh. destruct (A1) as (E1 & E2 & E3).
  assert (D' : dense_setting X' wmod' (helmholtz_adjoint_double_layer (waves e) kappa) o' deg pts Triangle test' trial').
  { eapply mapped_setting; [exact Mt|exact Ms| |exact D]. apply (shipped_fitting complexes), sh_helmholtz_adjoint. }
  pose proof (mp_grid _ _ _ Mt) as G1. pose proof (mp_grid _ _ _ Ms) as G2. pose proof (mp_family _ _ _ Mt) as F1e. pose proof (mp_family _ _ _ Ms) as F2e. pose proof (mp_space _ _ _ Mt) as S1.
  destruct (waves_toll prec (helmholtz_adjoint_double_layer G kappa') (helmholtz_adjoint_double_layer (waves e) kappa) Triangle Hp X X' wmod wmod' o o' deg pts rtest rtrial test' trial' relP rt n N) as (m & m' & A & Em & Em' & EA & Lm & LA & H); auto;
    try (rewrite ?G1, ?G2, ?Gt, ?Gs; exact Sh); try (rewrite ?F1e, ?F2e; assumption); try exact I; try (cbn [roundings op_integrand helmholtz_single_layer helmholtz_double_layer helmholtz_adjoint_double_layer helmholtz_hypersingular]; lia).
  destruct (sphere_drift_adjoint X' level id wmod' e kappa o' deg pts b test trial test' trial' P F F' k d E Gt Gs D Mt Ms HX Ins Ex Fl Ef Ef' HP (sequential (s_add complexes)) (sequential_legal _)) as (m2 & Em2 & H').
  assert (m2 = m') by congruence. subst m2. exists m, A. split; [exact Em|]. split; [exact EA|].
  intros t s i j p0 q r p' q' r' M M' sigma Co Co' Hi Hj Bd Bd' reach a Far Hs Rs. destruct (H' t s i j p0 q r p' q' r' M M' sigma Co Co' Hi Hj Bd Bd' Far Hs Rs) as (y0 & w & w' & Ey & Iw & Iw' & Bw & Bw').
  set (pos := (i + global_size (fs_space test) * j)%nat) in *. assert (Lk : (pos < length m)%nat) by (rewrite <- Lm; apply nth_error_Some; congruence).
  destruct (nth_error m pos) as [v|] eqn:Ev; [|apply nth_error_None in Ev; lia].
  destruct (nth_error A pos) as [l|] eqn:El; [|apply nth_error_None in El; lia].
  destruct (H _ _ _ _ Ev Ey El) as (B1 & B2). exists v, w, w', l. split; [reflexivity|]. split; [reflexivity|]. split; [exact Iw|]. split; [exact Iw'|].
  split; eapply near_near; eassumption.
Qed.

Theorem sphere_toll_hypersingular : forall prec, (15 <= prec)%nat -> let u := growth ((/ 2) ^ prec) 5 - 1 in
  forall (X X' : externals R) level id wmod wmod' (G : R -> @green (R * R) R) kappa' e kappa o o' deg pts (b : builder vec) (test trial : fspace R R) (test' trial' rtest rtrial : fspace (R * R) R) relP rt P F F1 F2 F' F1' F2' k d n N,
  regular_sphere real_numbers level 1 = Ok b -> fs_grid test = built_grid id Triangle b -> fs_grid trial = built_grid id Triangle b ->
  dense_setting X' wmod' (laplace_hypersingular (newton e)) o' deg pts Triangle test trial -> mapped_space embed_real test test' -> mapped_space embed_real trial trial' ->
  positive_externals (Rle 0) X' -> inside_rules X' Triangle -> exact_to X' Triangle (pts Triangle) (k + d) -> flat_cells X' (built_grid id Triangle b) b ->
  element_slopes test Triangle d F F1 F2 -> element_slopes trial Triangle d F' F1' F2' -> element_functions test Triangle d F -> element_functions trial Triangle d F' -> (forall t p q r, corners_of b t p q r -> P t = (p, q, r)) ->
  standard (fs_family test) -> standard (fs_family trial) -> legal_runtime (s_add (complex_of (floats prec))) rt -> dense_setting X wmod (helmholtz_hypersingular (complex_of (floats prec)) G kappa') o deg pts Triangle rtest rtrial ->
  same_dofs rtest test' -> same_dofs rtrial trial' -> related_externals (real_close u n) (nonzero_close u n) (real_close u n) relP X X' ->
  related_kernel (close u cnorm complexes n) X X' (helmholtz_hypersingular (complex_of (floats prec)) G kappa') (helmholtz_hypersingular complexes (waves e) kappa) deg pts rtest rtrial ->
  related_basis (close u cnorm complexes n) relP (helmholtz_hypersingular (complex_of (floats prec)) G kappa') rtest test' -> related_basis (close u cnorm complexes n) relP (helmholtz_hypersingular (complex_of (floats prec)) G kappa') rtrial trial' ->
  related_form (close u cnorm complexes n) (op_integrand (helmholtz_hypersingular (complex_of (floats prec)) G kappa')) (op_integrand (helmholtz_hypersingular complexes (waves e) kappa)) ->
  points_at_most X deg pts Triangle N -> (11 * n + 51 + N <= 2 ^ 11)%nat ->
  exists m A, assemble (complex_of (floats prec)) X rt wmod (helmholtz_hypersingular (complex_of (floats prec)) G kappa') o rtrial rtest = Ok m /\
  assemble absolute X' (sequential Rplus) wmod' (absolute_operator cnorm (helmholtz_hypersingular complexes (waves e) kappa)) o' (absolute_space cnorm trial') (absolute_space cnorm test') = Ok A /\
  forall t s i j p q r p' q' r' M M' B B' sigma, corners_of b t p q r -> corners_of b s p' q' r' -> In i (dofs_at test t) -> In j (dofs_at trial s) ->
    0 <= M -> (forall z x y, In z (support test i) -> inside Triangle x y -> inner (piece_swirl test F1 F2 P i z x y) (piece_swirl test F1 F2 P i z x y) <= M * M) ->
    0 <= M' -> (forall z x y, In z (support trial j) -> inside Triangle x y -> inner (piece_swirl trial F1' F2' P j z x y) (piece_swirl trial F1' F2' P j z x y) <= M' * M') ->
    (forall z x y, In z (support test i) -> inside Triangle x y -> Rabs (piece test F i z x y) <= B) -> (forall z x y, In z (support trial j) -> inside Triangle x y -> Rabs (piece trial F' j z x y) <= B') ->
    let reach := 3 * sqrt (32 / (3 * (4 ^ level + 2))) in let a := dist (centre Triangle p q r) (centre Triangle p' q' r') in reach < a -> 0 < sigma < 1 -> reach / a <= sigma ->
    exists v w w' l, nth_error m (i + global_size (fs_space test) * j) = Some v /\ nth_error A (i + global_size (fs_space test) * j) = Some l /\ surges_integral Triangle test trial F F1 F2 F' F1' F2' P P kappa (fun x y => fst (waves e kappa 0 x y)) i j w /\ surges_integral Triangle test trial F F1 F2 F' F1' F2' P P kappa (fun x y => snd (waves e kappa 0 x y)) i j w' /\
      let bound := 2 * (sigma ^ (k + 1) / (1 - reach / a)) * exp (Rabs kappa * (a + reach) / sigma) * ((M * M' + kappa * kappa * (B * B')) * (support_area test Triangle P i * support_area trial Triangle P j) / (4 * PI * a)) in
      Rabs (fst v - w) <= (/ 2) ^ (prec - 15) * l + bound /\ Rabs (snd v - w') <= (/ 2) ^ (prec - 15) * l + bound.
Proof.
  intros prec Hp u X X' level id wmod wmod' G kappa' e kappa o o' deg pts b test trial test' trial' rtest rtrial relP rt P F F1 F2 F' F1' F2' k d n N E Gt Gs D Mt Ms HX Ins Ex Fl Sl Sl' Ef Ef' HP St Ss L Dr A1 A2 H1 H2 H3 H4 H4' H5 H6.
  pose proof (shape_sphere real_numbers level id b E) as Sh. destruct (A1) as (E1 & E2 & E3).
  assert (D' : dense_setting X' wmod' (helmholtz_hypersingular complexes (waves e) kappa) o' deg pts Triangle test' trial').
  { eapply mapped_setting; [exact Mt|exact Ms| |exact D]. apply (shipped_fitting complexes), sh_helmholtz_hyper. }
  pose proof (mp_grid _ _ _ Mt) as G1. pose proof (mp_grid _ _ _ Ms) as G2. pose proof (mp_family _ _ _ Mt) as F1e. pose proof (mp_family _ _ _ Ms) as F2e. pose proof (mp_space _ _ _ Mt) as S1.
  destruct (waves_toll prec (helmholtz_hypersingular (complex_of (floats prec)) G kappa') (helmholtz_hypersingular complexes (waves e) kappa) Triangle Hp X X' wmod wmod' o o' deg pts rtest rtrial test' trial' relP rt n N) as (m & m' & A & Em & Em' & EA & Lm & LA & H); auto;
    try (rewrite ?G1, ?G2, ?Gt, ?Gs; exact Sh); try (rewrite ?F1e, ?F2e; assumption); try exact I; try (cbn [roundings op_integrand helmholtz_single_layer helmholtz_double_layer helmholtz_adjoint_double_layer helmholtz_hypersingular]; lia).
  destruct (sphere_surges X' level id wmod' e kappa o' deg pts b test trial test' trial' P F F1 F2 F' F1' F2' k d E Gt Gs D Mt Ms HX Ins Ex Fl Sl Sl' Ef Ef' HP (sequential (s_add complexes)) (sequential_legal _)) as (m2 & Em2 & H').
  assert (m2 = m') by congruence. subst m2. exists m, A. split; [exact Em|]. split; [exact EA|].
  intros t s i j p0 q r p' q' r' M M' B B' sigma Co Co' Hi Hj PM HM PM' HM' Bd Bd' reach a Far Hs Rs. destruct (H' t s i j p0 q r p' q' r' M M' B B' sigma Co Co' Hi Hj PM HM PM' HM' Bd Bd' Far Hs Rs) as (y0 & w & w' & Ey & Iw & Iw' & Bw & Bw').
  set (pos := (i + global_size (fs_space test) * j)%nat) in *. assert (Lk : (pos < length m)%nat) by (rewrite <- Lm; apply nth_error_Some; congruence).
  destruct (nth_error m pos) as [v|] eqn:Ev; [|apply nth_error_None in Ev; lia].
  destruct (nth_error A pos) as [l|] eqn:El; [|apply nth_error_None in El; lia].
  destruct (H _ _ _ _ Ev Ey El) as (B1 & B2). exists v, w, w', l. split; [reflexivity|]. split; [reflexivity|]. split; [exact Iw|]. split; [exact Iw'|].
  split; eapply near_near; eassumption.
Qed.

Theorem screen_toll_hypersingular : forall prec, (15 <= prec)%nat -> let u := growth ((/ 2) ^ prec) 5 - 1 in
  forall (X X' : externals R) h id wmod wmod' ct (G : R -> @green (R * R) R) kappa' e kappa o o' deg pts (b : builder (nat * nat)) (test trial : fspace R R) (test' trial' rtest rtrial : fspace (R * R) R) relP rt P F F1 F2 F' F1' F2' k d n N,
  screen h ct b -> fs_grid test = built_grid id ct b -> fs_grid trial = built_grid id ct b ->
  dense_setting X' wmod' (laplace_hypersingular (newton e)) o' deg pts ct test trial -> mapped_space embed_real test test' -> mapped_space embed_real trial trial' ->
  positive_externals (Rle 0) X' -> inside_rules X' ct -> exact_to X' ct (pts ct) (k + d) -> flat_screen h X' (built_grid id ct b) b ->
  element_slopes test ct d F F1 F2 -> element_slopes trial ct d F' F1' F2' -> element_functions test ct d F -> element_functions trial ct d F' ->
  (forall t p q r, corner b t 0 p -> corner b t 1 q -> corner b t 2 r -> P t = (screen_position h p, screen_position h q, screen_position h r)) ->
  standard (fs_family test) -> standard (fs_family trial) -> legal_runtime (s_add (complex_of (floats prec))) rt -> dense_setting X wmod (helmholtz_hypersingular (complex_of (floats prec)) G kappa') o deg pts ct rtest rtrial ->
  same_dofs rtest test' -> same_dofs rtrial trial' -> related_externals (real_close u n) (nonzero_close u n) (real_close u n) relP X X' ->
  related_kernel (close u cnorm complexes n) X X' (helmholtz_hypersingular (complex_of (floats prec)) G kappa') (helmholtz_hypersingular complexes (waves e) kappa) deg pts rtest rtrial ->
  related_basis (close u cnorm complexes n) relP (helmholtz_hypersingular (complex_of (floats prec)) G kappa') rtest test' -> related_basis (close u cnorm complexes n) relP (helmholtz_hypersingular (complex_of (floats prec)) G kappa') rtrial trial' ->
  related_form (close u cnorm complexes n) (op_integrand (helmholtz_hypersingular (complex_of (floats prec)) G kappa')) (op_integrand (helmholtz_hypersingular complexes (waves e) kappa)) ->
  points_at_most X deg pts ct N -> (11 * n + 51 + N <= 2 ^ 11)%nat ->
  exists m A, assemble (complex_of (floats prec)) X rt wmod (helmholtz_hypersingular (complex_of (floats prec)) G kappa') o rtrial rtest = Ok m /\
  assemble absolute X' (sequential Rplus) wmod' (absolute_operator cnorm (helmholtz_hypersingular complexes (waves e) kappa)) o' (absolute_space cnorm trial') (absolute_space cnorm test') = Ok A /\
  forall t s i j p q r p' q' r' M M' B B' sigma, corner b t 0 p -> corner b t 1 q -> corner b t 2 r -> corner b s 0 p' -> corner b s 1 q' -> corner b s 2 r' -> In i (dofs_at test t) -> In j (dofs_at trial s) ->
    0 <= M -> (forall z x y, In z (support test i) -> inside ct x y -> inner (piece_swirl test F1 F2 P i z x y) (piece_swirl test F1 F2 P i z x y) <= M * M) ->
    0 <= M' -> (forall z x y, In z (support trial j) -> inside ct x y -> inner (piece_swirl trial F1' F2' P j z x y) (piece_swirl trial F1' F2' P j z x y) <= M' * M') ->
    (forall z x y, In z (support test i) -> inside ct x y -> Rabs (piece test F i z x y) <= B) -> (forall z x y, In z (support trial j) -> inside ct x y -> Rabs (piece trial F' j z x y) <= B') ->
    let a := dist (centre ct (screen_position h p) (screen_position h q) (screen_position h r)) (centre ct (screen_position h p') (screen_position h q') (screen_position h r')) in
    let reach := 3 * (sqrt (spread ct / 2) / INR (h + 1)) in reach < a -> 0 < sigma < 1 -> reach / a <= sigma ->
    exists v w w' l, nth_error m (i + global_size (fs_space test) * j) = Some v /\ nth_error A (i + global_size (fs_space test) * j) = Some l /\ surges_integral ct test trial F F1 F2 F' F1' F2' P P kappa (fun x y => fst (waves e kappa 0 x y)) i j w /\ surges_integral ct test trial F F1 F2 F' F1' F2' P P kappa (fun x y => snd (waves e kappa 0 x y)) i j w' /\
      let bound := 2 * (sigma ^ (k + 1) / (1 - reach / a)) * exp (Rabs kappa * (a + reach) / sigma) * ((M * M' + kappa * kappa * (B * B')) * (support_area test ct P i * support_area trial ct P j) / (4 * PI * a)) in
      Rabs (fst v - w) <= (/ 2) ^ (prec - 15) * l + bound /\ Rabs (snd v - w') <= (/ 2) ^ (prec - 15) * l + bound.
Proof.
  intros prec Hp u X X' h id wmod wmod' ct G kappa' e kappa o o' deg pts b test trial test' trial' rtest rtrial relP rt P F F1 F2 F' F1' F2' k d n N E Gt Gs D Mt Ms HX Ins Ex Fl Sl Sl' Ef Ef' HP St Ss L Dr A1 A2 H1 H2 H3 H4 H4' H5 H6.
  assert (Sh : shape_grid (built_grid id ct b)) by (destruct E as [b E|b E]; [now apply (shape_triangles h)|now apply (shape_quadrilaterals h)]). destruct (A1) as (E1 & E2 & E3).
  assert (D' : dense_setting X' wmod' (helmholtz_hypersingular complexes (waves e) kappa) o' deg pts ct test' trial').
  { eapply mapped_setting; [exact Mt|exact Ms| |exact D]. apply (shipped_fitting complexes), sh_helmholtz_hyper. }
  pose proof (mp_grid _ _ _ Mt) as G1. pose proof (mp_grid _ _ _ Ms) as G2. pose proof (mp_family _ _ _ Mt) as F1e. pose proof (mp_family _ _ _ Ms) as F2e. pose proof (mp_space _ _ _ Mt) as S1.
  destruct (waves_toll prec (helmholtz_hypersingular (complex_of (floats prec)) G kappa') (helmholtz_hypersingular complexes (waves e) kappa) ct Hp X X' wmod wmod' o o' deg pts rtest rtrial test' trial' relP rt n N) as (m & m' & A & Em & Em' & EA & Lm & LA & H); auto;
    try (rewrite ?G1, ?G2, ?Gt, ?Gs; exact Sh); try (rewrite ?F1e, ?F2e; assumption); try exact I; try (cbn [roundings op_integrand helmholtz_single_layer helmholtz_double_layer helmholtz_adjoint_double_layer helmholtz_hypersingular]; lia).
  destruct (screen_surges X' h id wmod' ct e kappa o' deg pts b test trial test' trial' P F F1 F2 F' F1' F2' k d E Gt Gs D Mt Ms HX Ins Ex Fl Sl Sl' Ef Ef' HP (sequential (s_add complexes)) (sequential_legal _)) as (m2 & Em2 & H').
  assert (m2 = m') by congruence. subst m2. exists m, A. split; [exact Em|]. split; [exact EA|].
  intros t s i j p0 q r p' q' r' M M' B B' sigma C0 C1 C2 C0' C1' C2' Hi Hj PM HM PM' HM' Bd Bd' a reach Far Hs Rs. destruct (H' t s i j p0 q r p' q' r' M M' B B' sigma C0 C1 C2 C0' C1' C2' Hi Hj PM HM PM' HM' Bd Bd' Far Hs Rs) as (y0 & w & w' & Ey & Iw & Iw' & Bw & Bw').
  set (pos := (i + global_size (fs_space test) * j)%nat) in *. assert (Lk : (pos < length m)%nat) by (rewrite <- Lm; apply nth_error_Some; congruence).
  destruct (nth_error m pos) as [v|] eqn:Ev; [|apply nth_error_None in Ev; lia].
  destruct (nth_error A pos) as [l|] eqn:El; [|apply nth_error_None in El; lia].
  destruct (H _ _ _ _ Ev Ey El) as (B1 & B2). exists v, w, w', l. split; [reflexivity|]. split; [reflexivity|]. split; [exact Iw|]. split; [exact Iw'|].
  split; eapply near_near; eassumption.
Qed.
