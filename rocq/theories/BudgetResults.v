(** * Rounded distant entries and the integrals *)
From Coq Require Import Reals Lra.
From Verif Require Import Base BaseFacts Topology DofMap SpecDof Process Space Options SpecOptions Scalar Integrand CellPair Operators SpecLocal Interleave Assembly SpecAssembly AssemblyResults
  SpecOrder SpecTransfer SpecAlgebra SpecScalars SpecRounding RoundingModels SpecShapeSpaces SpecCounts DigitsResults SpecBroken SpecGalerkin SpecMeasure Shapes SpecShapes ShapesResults SpecSphere SpecScreen SpecWidth SpecTurns SpecShift SpecToeplitz ToeplitzResults
  SpecShare WaveKernel SpecWaves SpecDecay SpecDigits SpecMoments SpecDegree SpecPieces SpecFluxes SpecSwirls SwirlShapes ContinuousShapes.

Local Open Scope R_scope.
Local Notation dist := SpecWaves.distance.

Lemma budget q x y w B : 0 <= q -> 0 <= y -> within_part q x y -> Rabs (y - w) <= B -> Rabs (x - w) <= q * Rabs w + (1 + q) * B.
Proof.
  intros Hq Hy Hx Hw. unfold within_part in Hx. replace (x - w) with ((x - y) + (y - w)) by ring.
  eapply Rle_trans; [apply Rabs_triang|]. assert (L : y <= Rabs w + B).
  { pose proof (Rle_abs (y - w)). pose proof (Rle_abs w). lra. }
  assert (q * y <= q * (Rabs w + B)) by (apply Rmult_le_compat_l; assumption). lra.
Qed.

Lemma half_power_pos n : 0 <= (/ 2) ^ n.
Proof. apply pow_le. lra. Qed.

Theorem sphere_budget : forall p, (12 <= p)%nat ->
  forall (X X' : externals R) wmod wmod' (G : green) e o o' deg pts level id (b : builder vec) (test trial test' trial' : fspace R R) relP rt P F F' k d n N,
  regular_sphere real_numbers level 1 = Ok b -> fs_grid test' = built_grid id Triangle b -> fs_grid trial' = built_grid id Triangle b ->
  standard (fs_family test') -> standard (fs_family trial') -> legal_runtime (s_add (floats p)) rt ->
  dense_setting X wmod (laplace_single_layer G) o deg pts Triangle test trial -> dense_setting X' wmod' (laplace_single_layer (newton e)) o' deg pts Triangle test' trial' ->
  same_dofs test test' -> same_dofs trial trial' ->
  related_externals (real_close ((/ 2) ^ p) n) (nonzero_close ((/ 2) ^ p) n) (real_close ((/ 2) ^ p) n) relP X X' ->
  related_kernel (close ((/ 2) ^ p) Rabs reals n) X X' (laplace_single_layer G) (laplace_single_layer (newton e)) deg pts test trial ->
  related_basis (close ((/ 2) ^ p) Rabs reals n) relP (laplace_single_layer G) test test' ->
  related_basis (close ((/ 2) ^ p) Rabs reals n) relP (laplace_single_layer G) trial trial' ->
  points_at_most X deg pts Triangle N -> (7 * n + 42 + N <= 2 ^ 11)%nat ->
  positive_externals (Rle 0) X' -> positive_basis (Rle 0) X' test' -> positive_basis (Rle 0) X' trial' ->
  inside_rules X' Triangle -> exact_to X' Triangle (pts Triangle) (k + d) -> flat_cells X' (built_grid id Triangle b) b ->
  element_functions test' Triangle d F -> element_functions trial' Triangle d F' -> (forall t p q r, corners_of b t p q r -> P t = (p, q, r)) ->
  exists m, assemble (floats p) X rt wmod (laplace_single_layer G) o trial test = Ok m /\
  forall t s i j x y z x' y' z' M M', corners_of b t x y z -> corners_of b s x' y' z' -> In i (dofs_at test' t) -> In j (dofs_at trial' s) ->
    (forall c u v, In c (support test' i) -> inside Triangle u v -> Rabs (piece test' F i c u v) <= M) -> (forall c u v, In c (support trial' j) -> inside Triangle u v -> Rabs (piece trial' F' j c u v) <= M') ->
    let reach := 3 * sqrt (32 / (3 * (4 ^ level + 2))) in let a := dist (centre Triangle x y z) (centre Triangle x' y' z') in reach < a ->
    exists v w, nth_error m (i + global_size (fs_space test) * j) = Some v /\ functions_integral Triangle test' trial' F F' P P (newton e 0) i j w /\
      Rabs (v - w) <= (/ 2) ^ (p - 12) * Rabs w + (1 + (/ 2) ^ (p - 12)) *
        (2 * ((reach / a) ^ (k + 1) / (1 - reach / a)) * (M * support_area test' Triangle P i * (M' * support_area trial' Triangle P j) / (4 * PI * a))).
Proof.
  intros p Hp X X' wmod wmod' G e o o' deg pts level id b test trial test' trial' relP rt P F F' k d n N E Gt Gs St Ss L D D' A1 A2 H1 H2 H3 H4 H5 H6 H7 H8 H9 Ins Ex Fl Ft Fs HP.
  pose proof (shape_sphere real_numbers level id b E) as Sh. destruct (A1) as (E1 & E2 & E3), (A2) as (E4 & E5 & E6).
  destruct (shape_digits p Hp X X' wmod wmod' G (newton e) o o' deg pts Triangle test trial test' trial' relP rt (sequential Rplus) n N) as (m & m' & Em & Em' & Lm & H); auto;
    try (rewrite ?E1, ?E4, ?Gt, ?Gs; exact Sh); try (rewrite ?E2, ?E5; assumption); try apply sequential_legal; try apply newton_nonneg.
  destruct (sphere_functions X' level id wmod' e o' deg pts b test' trial' P F F' k d E Gt Gs D' H7 Ins Ex Fl Ft Fs HP (sequential Rplus) (sequential_legal _)) as (m2 & Em2 & H').
  assert (m2 = m') by congruence. subst m2. exists m. split; [exact Em|].
  intros t s i j x y z x' y' z' M M' Co Co' Hi Hj Bi Bj reach a Far. destruct (H' t s i j x y z x' y' z' M M' Co Co' Hi Hj Bi Bj Far) as (y0 & w & Ey & Iw & Bw).
  rewrite <- E3 in Ey. assert (Lk : (i + global_size (fs_space test) * j < length m)%nat) by (rewrite <- Lm; apply nth_error_Some; congruence).
  destruct (nth_error m (i + global_size (fs_space test) * j)) as [v|] eqn:Ev; [|apply nth_error_None in Ev; lia].
  destruct (H _ _ _ Ev Ey) as (Py & Wy). exists v, w. split; [reflexivity|]. split; [exact Iw|]. eapply budget; eauto. apply half_power_pos.
Qed.

Theorem screen_budget : forall p, (12 <= p)%nat ->
  forall (X X' : externals R) wmod wmod' ct (G : green) e o o' deg pts m id (b : builder (nat * nat)) (test trial test' trial' : fspace R R) relP rt P F F' k d n N,
  screen m ct b -> fs_grid test' = built_grid id ct b -> fs_grid trial' = built_grid id ct b ->
  standard (fs_family test') -> standard (fs_family trial') -> legal_runtime (s_add (floats p)) rt ->
  dense_setting X wmod (laplace_single_layer G) o deg pts ct test trial -> dense_setting X' wmod' (laplace_single_layer (newton e)) o' deg pts ct test' trial' ->
  same_dofs test test' -> same_dofs trial trial' ->
  related_externals (real_close ((/ 2) ^ p) n) (nonzero_close ((/ 2) ^ p) n) (real_close ((/ 2) ^ p) n) relP X X' ->
  related_kernel (close ((/ 2) ^ p) Rabs reals n) X X' (laplace_single_layer G) (laplace_single_layer (newton e)) deg pts test trial ->
  related_basis (close ((/ 2) ^ p) Rabs reals n) relP (laplace_single_layer G) test test' ->
  related_basis (close ((/ 2) ^ p) Rabs reals n) relP (laplace_single_layer G) trial trial' ->
  points_at_most X deg pts ct N -> (7 * n + 42 + N <= 2 ^ 11)%nat ->
  positive_externals (Rle 0) X' -> positive_basis (Rle 0) X' test' -> positive_basis (Rle 0) X' trial' ->
  inside_rules X' ct -> exact_to X' ct (pts ct) (k + d) -> flat_screen m X' (built_grid id ct b) b ->
  element_functions test' ct d F -> element_functions trial' ct d F' ->
  (forall t x y z, corner b t 0 x -> corner b t 1 y -> corner b t 2 z -> P t = (screen_position m x, screen_position m y, screen_position m z)) ->
  exists A, assemble (floats p) X rt wmod (laplace_single_layer G) o trial test = Ok A /\
  forall t s i j x y z x' y' z' M M', corner b t 0 x -> corner b t 1 y -> corner b t 2 z -> corner b s 0 x' -> corner b s 1 y' -> corner b s 2 z' -> In i (dofs_at test' t) -> In j (dofs_at trial' s) ->
    (forall c u v, In c (support test' i) -> inside ct u v -> Rabs (piece test' F i c u v) <= M) -> (forall c u v, In c (support trial' j) -> inside ct u v -> Rabs (piece trial' F' j c u v) <= M') ->
    let a := dist (centre ct (screen_position m x) (screen_position m y) (screen_position m z)) (centre ct (screen_position m x') (screen_position m y') (screen_position m z')) in
    let reach := 3 * (sqrt (spread ct / 2) / INR (m + 1)) in reach < a ->
    exists v w, nth_error A (i + global_size (fs_space test) * j) = Some v /\ functions_integral ct test' trial' F F' P P (newton e 0) i j w /\
      Rabs (v - w) <= (/ 2) ^ (p - 12) * Rabs w + (1 + (/ 2) ^ (p - 12)) *
        (2 * ((reach / a) ^ (k + 1) / (1 - reach / a)) * (M * support_area test' ct P i * (M' * support_area trial' ct P j) / (4 * PI * a))).
Proof.
  intros p Hp X X' wmod wmod' ct G e o o' deg pts m id b test trial test' trial' relP rt P F F' k d n N E Gt Gs St Ss L D D' A1 A2 H1 H2 H3 H4 H5 H6 H7 H8 H9 Ins Ex Fl Ft Fs HP.
  assert (Sh : shape_grid (built_grid id ct b)).
  { destruct E as [b E|b E]; [now apply (shape_triangles m)|now apply (shape_quadrilaterals m)]. }
  destruct (A1) as (E1 & E2 & E3), (A2) as (E4 & E5 & E6).
  destruct (shape_digits p Hp X X' wmod wmod' G (newton e) o o' deg pts ct test trial test' trial' relP rt (sequential Rplus) n N) as (A & A' & Em & Em' & Lm & H); auto;
    try (rewrite ?E1, ?E4, ?Gt, ?Gs; exact Sh); try (rewrite ?E2, ?E5; assumption); try apply sequential_legal; try apply newton_nonneg.
  destruct (screen_functions X' m id wmod' ct e o' deg pts b test' trial' P F F' k d E Gt Gs D' H7 Ins Ex Fl Ft Fs HP (sequential Rplus) (sequential_legal _)) as (m2 & Em2 & H').
  assert (m2 = A') by congruence. subst m2. exists A. split; [exact Em|].
  intros t s i j x y z x' y' z' M M' C0 C1 C2 C0' C1' C2' Hi Hj Bi Bj a reach Far. destruct (H' t s i j x y z x' y' z' M M' C0 C1 C2 C0' C1' C2' Hi Hj Bi Bj Far) as (y0 & w & Ey & Iw & Bw).
  rewrite <- E3 in Ey. assert (Lk : (i + global_size (fs_space test) * j < length A)%nat) by (rewrite <- Lm; apply nth_error_Some; congruence).
  destruct (nth_error A (i + global_size (fs_space test) * j)) as [v|] eqn:Ev; [|apply nth_error_None in Ev; lia].
  destruct (H _ _ _ Ev Ey) as (Py & Wy). exists v, w. split; [reflexivity|]. split; [exact Iw|]. eapply budget; eauto. apply half_power_pos.
Qed.

Lemma layers_budget p O O' ct : (12 <= p)%nat ->
  forall (X X' : externals R) wmod wmod' o o' deg pts (test trial test' trial' : fspace R R) relP rt n N,
  shape_grid (fs_grid test') -> shape_grid (fs_grid trial') -> standard (fs_family test') -> standard (fs_family trial') -> legal_runtime (s_add (floats p)) rt ->
  dense_setting X wmod O o deg pts ct test trial -> dense_setting X' wmod' O' o' deg pts ct test' trial' ->
  same_dofs test test' -> same_dofs trial trial' ->
  related_externals (real_close ((/ 2) ^ p) n) (nonzero_close ((/ 2) ^ p) n) (real_close ((/ 2) ^ p) n) relP X X' ->
  related_kernel (close ((/ 2) ^ p) Rabs reals n) X X' O O' deg pts test trial ->
  related_basis (close ((/ 2) ^ p) Rabs reals n) relP O test test' -> related_basis (close ((/ 2) ^ p) Rabs reals n) relP O trial trial' ->
  related_form (close ((/ 2) ^ p) Rabs reals n) (op_integrand O) (op_integrand O') ->
  points_at_most X deg pts ct N -> (roundings n (op_integrand O) + 4 * n + 40 + N <= 2 ^ 11)%nat ->
  exists m e a, assemble (floats p) X rt wmod O o trial test = Ok m /\ assemble reals X' (sequential Rplus) wmod' O' o' trial' test' = Ok e /\
    assemble absolute X' (sequential Rplus) wmod' (absolute_operator Rabs O') o' (absolute_space Rabs trial') (absolute_space Rabs test') = Ok a /\
    length e = length m /\ length a = length m /\
    forall k x y z, nth_error m k = Some x -> nth_error e k = Some y -> nth_error a k = Some z -> Rabs (x - y) <= (/ 2) ^ (p - 12) * z.
Proof.
  intros Hp X X' wmod wmod' o o' deg pts test trial test' trial' relP rt n N Sh Sh' St Ss L D D' A1 A2 H1 H2 H3 H4 H4' H5 H6.
  assert (Hu : 0 <= (/ 2) ^ p < 1).
  { destruct p as [|p]; [lia|]. split; [apply pow_le; lra|]. apply pow_lt_1_compat; [lra|lia]. }
  destruct (A1) as (E1 & E2 & E3), (A2) as (E4 & E5 & E6).
  destruct (shape_error R _ Hu Rabs reals (floats p) reals_valued (floats_round p) X X' wmod wmod' O O' o o' deg pts ct test trial test' trial' relP rt (sequential Rplus) (sequential Rplus) n N)
    as (m & e & a & Em & Ee & Ea & Le & La & H); auto; try (rewrite ?E1, ?E4; assumption); try (rewrite ?E2, ?E5; assumption); try apply sequential_legal.
  exists m, e, a. split; [exact Em|]. split; [exact Ee|]. split; [exact Ea|]. split; [exact Le|]. split; [exact La|].
  intros k x y z Hx Hy Hz. destruct (H k x y z Hx Hy Hz) as (A & B). cbn [reals s_sub] in B. eapply Rle_trans; [exact B|]. pose proof (Rabs_pos y).
  apply Rmult_le_compat_r; [lra|]. apply growth_digits; [exact Hp|exact H6].
Qed.

Theorem sphere_budget_double : forall p, (12 <= p)%nat ->
  forall (X X' : externals R) wmod wmod' (G : green) e o o' deg pts level id (b : builder vec) (test trial test' trial' : fspace R R) relP rt P F F' k d n N,
  regular_sphere real_numbers level 1 = Ok b -> fs_grid test' = built_grid id Triangle b -> fs_grid trial' = built_grid id Triangle b ->
  standard (fs_family test') -> standard (fs_family trial') -> legal_runtime (s_add (floats p)) rt ->
  dense_setting X wmod (laplace_double_layer G) o deg pts Triangle test trial -> dense_setting X' wmod' (laplace_double_layer (newton e)) o' deg pts Triangle test' trial' ->
  same_dofs test test' -> same_dofs trial trial' ->
  related_externals (real_close ((/ 2) ^ p) n) (nonzero_close ((/ 2) ^ p) n) (real_close ((/ 2) ^ p) n) relP X X' ->
  related_kernel (close ((/ 2) ^ p) Rabs reals n) X X' (laplace_double_layer G) (laplace_double_layer (newton e)) deg pts test trial ->
  related_basis (close ((/ 2) ^ p) Rabs reals n) relP (laplace_double_layer G) test test' ->
  related_basis (close ((/ 2) ^ p) Rabs reals n) relP (laplace_double_layer G) trial trial' ->
  points_at_most X deg pts Triangle N -> (8 * n + 45 + N <= 2 ^ 11)%nat ->
  positive_externals (Rle 0) X' -> inside_rules X' Triangle -> exact_to X' Triangle (pts Triangle) (k + d + 1) -> flat_cells X' (built_grid id Triangle b) b ->
  element_functions test' Triangle d F -> element_functions trial' Triangle d F' -> (forall t p q r, corners_of b t p q r -> P t = (p, q, r)) ->
  exists m A, assemble (floats p) X rt wmod (laplace_double_layer G) o trial test = Ok m /\
  assemble absolute X' (sequential Rplus) wmod' (absolute_operator Rabs (laplace_double_layer (newton e))) o' (absolute_space Rabs trial') (absolute_space Rabs test') = Ok A /\
  forall t s i j x y z x' y' z' M M' sigma, corners_of b t x y z -> corners_of b s x' y' z' -> In i (dofs_at test' t) -> In j (dofs_at trial' s) ->
    (forall c u v, In c (support test' i) -> inside Triangle u v -> Rabs (piece test' F i c u v) <= M) -> (forall c u v, In c (support trial' j) -> inside Triangle u v -> Rabs (piece trial' F' j c u v) <= M') ->
    let reach := 3 * sqrt (32 / (3 * (4 ^ level + 2))) in let a := dist (centre Triangle x y z) (centre Triangle x' y' z') in reach < a -> reach / a < sigma < 1 ->
    exists v w l, nth_error m (i + global_size (fs_space test) * j) = Some v /\ double_integral Triangle test' trial' F F' P P (newton e) i j w /\
      nth_error A (i + global_size (fs_space test) * j) = Some l /\
      Rabs (v - w) <= (/ 2) ^ (p - 12) * l +
        6 * (1 + reach / a) * (reach / a / sigma) ^ (k + 1) / ((1 - sigma) ^ 3) * (Rabs e * (M * support_area test' Triangle P i * (M' * support_area trial' Triangle P j)) / (4 * PI * (a * a))).
Proof.
  intros p Hp X X' wmod wmod' G e o o' deg pts level id b test trial test' trial' relP rt P F F' k d n N E Gt Gs St Ss L D D' A1 A2 H1 H2 H3 H4 H5 H6 H7 Ins Ex Fl Ft Fs HP.
  pose proof (shape_sphere real_numbers level id b E) as Sh. destruct (A1) as (E1 & E2 & E3).
  destruct (layers_budget p (laplace_double_layer G) (laplace_double_layer (newton e)) Triangle Hp X X' wmod wmod' o o' deg pts test trial test' trial' relP rt n N) as (m & m' & A & Em & Em' & EA & Lm & LA & H); auto;
    try (rewrite ?Gt, ?Gs; exact Sh); try exact I; try (cbn [roundings op_integrand laplace_double_layer laplace_adjoint_double_layer]; lia).
  destruct (sphere_functions_double X' level id wmod' e o' deg pts b test' trial' P F F' k d E Gt Gs D' H7 Ins Ex Fl Ft Fs HP (sequential Rplus) (sequential_legal _)) as (m2 & Em2 & H').
  assert (m2 = m') by congruence. subst m2. exists m, A. split; [exact Em|]. split; [exact EA|].
  intros t s i j x y z x' y' z' M M' sigma Co Co' Hi Hj Bi Bj reach a Far Hs. destruct (H' t s i j x y z x' y' z' M M' sigma Co Co' Hi Hj Bi Bj Far Hs) as (y0 & w & Ey & Iw & Bw).
  rewrite <- E3 in Ey. assert (Lk : (i + global_size (fs_space test) * j < length m)%nat) by (rewrite <- Lm; apply nth_error_Some; congruence).
  destruct (nth_error m (i + global_size (fs_space test) * j)) as [v|] eqn:Ev; [|apply nth_error_None in Ev; lia].
  destruct (nth_error A (i + global_size (fs_space test) * j)) as [l|] eqn:El; [|apply nth_error_None in El; lia].
  exists v, w, l. split; [reflexivity|]. split; [exact Iw|]. split; [reflexivity|].
  replace (v - w) with ((v - y0) + (y0 - w)) by ring. eapply Rle_trans; [apply Rabs_triang|]. apply Rplus_le_compat; [exact (H _ _ _ _ Ev Ey El)|exact Bw].
Qed.

Theorem sphere_budget_adjoint : forall p, (12 <= p)%nat ->
  forall (X X' : externals R) wmod wmod' (G : green) e o o' deg pts level id (b : builder vec) (test trial test' trial' : fspace R R) relP rt P F F' k d n N,
  regular_sphere real_numbers level 1 = Ok b -> fs_grid test' = built_grid id Triangle b -> fs_grid trial' = built_grid id Triangle b ->
  standard (fs_family test') -> standard (fs_family trial') -> legal_runtime (s_add (floats p)) rt ->
  dense_setting X wmod (laplace_adjoint_double_layer G) o deg pts Triangle test trial -> dense_setting X' wmod' (laplace_adjoint_double_layer (newton e)) o' deg pts Triangle test' trial' ->
  same_dofs test test' -> same_dofs trial trial' ->
  related_externals (real_close ((/ 2) ^ p) n) (nonzero_close ((/ 2) ^ p) n) (real_close ((/ 2) ^ p) n) relP X X' ->
  related_kernel (close ((/ 2) ^ p) Rabs reals n) X X' (laplace_adjoint_double_layer G) (laplace_adjoint_double_layer (newton e)) deg pts test trial ->
  related_basis (close ((/ 2) ^ p) Rabs reals n) relP (laplace_adjoint_double_layer G) test test' ->
  related_basis (close ((/ 2) ^ p) Rabs reals n) relP (laplace_adjoint_double_layer G) trial trial' ->
  points_at_most X deg pts Triangle N -> (8 * n + 45 + N <= 2 ^ 11)%nat ->
  positive_externals (Rle 0) X' -> inside_rules X' Triangle -> exact_to X' Triangle (pts Triangle) (k + d + 1) -> flat_cells X' (built_grid id Triangle b) b ->
  element_functions test' Triangle d F -> element_functions trial' Triangle d F' -> (forall t p q r, corners_of b t p q r -> P t = (p, q, r)) ->
  exists m A, assemble (floats p) X rt wmod (laplace_adjoint_double_layer G) o trial test = Ok m /\
  assemble absolute X' (sequential Rplus) wmod' (absolute_operator Rabs (laplace_adjoint_double_layer (newton e))) o' (absolute_space Rabs trial') (absolute_space Rabs test') = Ok A /\
  forall t s i j x y z x' y' z' M M' sigma, corners_of b t x y z -> corners_of b s x' y' z' -> In i (dofs_at test' t) -> In j (dofs_at trial' s) ->
    (forall c u v, In c (support test' i) -> inside Triangle u v -> Rabs (piece test' F i c u v) <= M) -> (forall c u v, In c (support trial' j) -> inside Triangle u v -> Rabs (piece trial' F' j c u v) <= M') ->
    let reach := 3 * sqrt (32 / (3 * (4 ^ level + 2))) in let a := dist (centre Triangle x y z) (centre Triangle x' y' z') in reach < a -> reach / a < sigma < 1 ->
    exists v w l, nth_error m (i + global_size (fs_space test) * j) = Some v /\ adjoint_integral Triangle test' trial' F F' P P (newton e) i j w /\
      nth_error A (i + global_size (fs_space test) * j) = Some l /\
      Rabs (v - w) <= (/ 2) ^ (p - 12) * l +
        6 * (1 + reach / a) * (reach / a / sigma) ^ (k + 1) / ((1 - sigma) ^ 3) * (Rabs e * (M * support_area test' Triangle P i * (M' * support_area trial' Triangle P j)) / (4 * PI * (a * a))).
Proof.
  intros p Hp X X' wmod wmod' G e o o' deg pts level id b test trial test' trial' relP rt P F F' k d n N E Gt Gs St Ss L D D' A1 A2 H1 H2 H3 H4 H5 H6 H7 Ins Ex Fl Ft Fs HP.
  pose proof (shape_sphere real_numbers level id b E) as Sh. destruct (A1) as (E1 & E2 & E3).
  destruct (layers_budget p (laplace_adjoint_double_layer G) (laplace_adjoint_double_layer (newton e)) Triangle Hp X X' wmod wmod' o o' deg pts test trial test' trial' relP rt n N) as (m & m' & A & Em & Em' & EA & Lm & LA & H); auto;
    try (rewrite ?Gt, ?Gs; exact Sh); try exact I; try (cbn [roundings op_integrand laplace_double_layer laplace_adjoint_double_layer]; lia).
  destruct (sphere_functions_adjoint X' level id wmod' e o' deg pts b test' trial' P F F' k d E Gt Gs D' H7 Ins Ex Fl Ft Fs HP (sequential Rplus) (sequential_legal _)) as (m2 & Em2 & H').
  assert (m2 = m') by congruence. subst m2. exists m, A. split; [exact Em|]. split; [exact EA|].
  intros t s i j x y z x' y' z' M M' sigma Co Co' Hi Hj Bi Bj reach a Far Hs. destruct (H' t s i j x y z x' y' z' M M' sigma Co Co' Hi Hj Bi Bj Far Hs) as (y0 & w & Ey & Iw & Bw).
  rewrite <- E3 in Ey. assert (Lk : (i + global_size (fs_space test) * j < length m)%nat) by (rewrite <- Lm; apply nth_error_Some; congruence).
  destruct (nth_error m (i + global_size (fs_space test) * j)) as [v|] eqn:Ev; [|apply nth_error_None in Ev; lia].
  destruct (nth_error A (i + global_size (fs_space test) * j)) as [l|] eqn:El; [|apply nth_error_None in El; lia].
  exists v, w, l. split; [reflexivity|]. split; [exact Iw|]. split; [reflexivity|].
  replace (v - w) with ((v - y0) + (y0 - w)) by ring. eapply Rle_trans; [apply Rabs_triang|]. apply Rplus_le_compat; [exact (H _ _ _ _ Ev Ey El)|exact Bw].
Qed.

Theorem sphere_budget_signed : forall p, (12 <= p)%nat ->
  forall (X X' : externals R) wmod wmod' level (b : builder vec) (G : green) e o o' deg pts id (test trial test' trial' : fspace R R) relP rt P F F' k d n N,
  regular_sphere real_numbers level 1 = Ok b -> fs_grid test' = built_grid id Triangle b -> fs_grid trial' = built_grid id Triangle b ->
  standard (fs_family test') -> standard (fs_family trial') -> legal_runtime (s_add (floats p)) rt ->
  dense_setting X wmod (laplace_single_layer G) o deg pts Triangle test trial -> dense_setting X' wmod' (laplace_single_layer (newton e)) o' deg pts Triangle test' trial' ->
  same_dofs test test' -> same_dofs trial trial' ->
  related_externals (real_close ((/ 2) ^ p) n) (nonzero_close ((/ 2) ^ p) n) (real_close ((/ 2) ^ p) n) relP X X' ->
  related_kernel (close ((/ 2) ^ p) Rabs reals n) X X' (laplace_single_layer G) (laplace_single_layer (newton e)) deg pts test trial ->
  related_basis (close ((/ 2) ^ p) Rabs reals n) relP (laplace_single_layer G) test test' ->
  related_basis (close ((/ 2) ^ p) Rabs reals n) relP (laplace_single_layer G) trial trial' ->
  points_at_most X deg pts Triangle N -> (7 * n + 42 + N <= 2 ^ 11)%nat ->
  positive_externals (Rle 0) X' -> inside_rules X' Triangle -> exact_to X' Triangle (pts Triangle) (k + d) -> flat_cells X' (built_grid id Triangle b) b ->
  element_functions test' Triangle d F -> element_functions trial' Triangle d F' -> (forall t p q r, corners_of b t p q r -> P t = (p, q, r)) ->
  exists m A, assemble (floats p) X rt wmod (laplace_single_layer G) o trial test = Ok m /\
  assemble absolute X' (sequential Rplus) wmod' (absolute_operator Rabs (laplace_single_layer (newton e))) o' (absolute_space Rabs trial') (absolute_space Rabs test') = Ok A /\
  forall t s i j x y z x' y' z' M M', corners_of b t x y z -> corners_of b s x' y' z' -> In i (dofs_at test' t) -> In j (dofs_at trial' s) ->
    (forall c u v, In c (support test' i) -> inside Triangle u v -> Rabs (piece test' F i c u v) <= M) -> (forall c u v, In c (support trial' j) -> inside Triangle u v -> Rabs (piece trial' F' j c u v) <= M') ->
    let reach := 3 * sqrt (32 / (3 * (4 ^ level + 2))) in let a := dist (centre Triangle x y z) (centre Triangle x' y' z') in reach < a ->
    exists v w l, nth_error m (i + global_size (fs_space test) * j) = Some v /\ functions_integral Triangle test' trial' F F' P P (newton e 0) i j w /\
      nth_error A (i + global_size (fs_space test) * j) = Some l /\
      Rabs (v - w) <= (/ 2) ^ (p - 12) * l + 2 * ((reach / a) ^ (k + 1) / (1 - reach / a)) * (M * support_area test' Triangle P i * (M' * support_area trial' Triangle P j) / (4 * PI * a)).
Proof.
  intros p Hp X X' wmod wmod' level b G e o o' deg pts id test trial test' trial' relP rt P F F' k d n N E Gt Gs St Ss L D D' A1 A2 H1 H2 H3 H4 H5 H6 H7 Ins Ex Fl Ft Fs HP.
  pose proof (shape_sphere real_numbers level id b E) as Sh. destruct (A1) as (E1 & E2 & E3).
  destruct (layers_budget p (laplace_single_layer G) (laplace_single_layer (newton e)) Triangle Hp X X' wmod wmod' o o' deg pts test trial test' trial' relP rt n N) as (m & m' & A & Em & Em' & EA & Lm & LA & H); auto;
    try (rewrite ?Gt, ?Gs; exact Sh); try exact I; try (cbn [roundings op_integrand laplace_single_layer]; lia).
  destruct (sphere_functions X' level id wmod' e o' deg pts b test' trial' P F F' k d E Gt Gs D' H7 Ins Ex Fl Ft Fs HP (sequential Rplus) (sequential_legal _)) as (m2 & Em2 & H').
  assert (m2 = m') by congruence. subst m2. exists m, A. split; [exact Em|]. split; [exact EA|].
  intros t s i j x y z x' y' z' M M' Co Co' Hi Hj Bi Bj reach a Far. destruct (H' t s i j x y z x' y' z' M M' Co Co' Hi Hj Bi Bj Far) as (y0 & w & Ey & Iw & Bw).
  rewrite <- E3 in Ey. assert (Lk : (i + global_size (fs_space test) * j < length m)%nat) by (rewrite <- Lm; apply nth_error_Some; congruence).
  destruct (nth_error m (i + global_size (fs_space test) * j)) as [v|] eqn:Ev; [|apply nth_error_None in Ev; lia].
  destruct (nth_error A (i + global_size (fs_space test) * j)) as [l|] eqn:El; [|apply nth_error_None in El; lia].
  exists v, w, l. split; [reflexivity|]. split; [exact Iw|]. split; [reflexivity|].
  replace (v - w) with ((v - y0) + (y0 - w)) by ring. eapply Rle_trans; [apply Rabs_triang|]. apply Rplus_le_compat; [exact (H _ _ _ _ Ev Ey El)|exact Bw].
Qed.

Theorem sphere_budget_hypersingular : forall p, (12 <= p)%nat ->
  forall (X X' : externals R) wmod wmod' level (b : builder vec) (G : green) e o o' deg pts id (test trial test' trial' : fspace R R) relP rt P F F1 F2 F' F1' F2' k d n N,
  regular_sphere real_numbers level 1 = Ok b -> fs_grid test' = built_grid id Triangle b -> fs_grid trial' = built_grid id Triangle b ->
  standard (fs_family test') -> standard (fs_family trial') -> legal_runtime (s_add (floats p)) rt ->
  dense_setting X wmod (laplace_hypersingular G) o deg pts Triangle test trial -> dense_setting X' wmod' (laplace_hypersingular (newton e)) o' deg pts Triangle test' trial' ->
  same_dofs test test' -> same_dofs trial trial' ->
  related_externals (real_close ((/ 2) ^ p) n) (nonzero_close ((/ 2) ^ p) n) (real_close ((/ 2) ^ p) n) relP X X' ->
  related_kernel (close ((/ 2) ^ p) Rabs reals n) X X' (laplace_hypersingular G) (laplace_hypersingular (newton e)) deg pts test trial ->
  related_basis (close ((/ 2) ^ p) Rabs reals n) relP (laplace_hypersingular G) test test' ->
  related_basis (close ((/ 2) ^ p) Rabs reals n) relP (laplace_hypersingular G) trial trial' ->
  points_at_most X deg pts Triangle N -> (11 * n + 50 + N <= 2 ^ 11)%nat ->
  positive_externals (Rle 0) X' -> inside_rules X' Triangle -> exact_to X' Triangle (pts Triangle) (k + d) -> flat_cells X' (built_grid id Triangle b) b ->
  element_slopes test' Triangle d F F1 F2 -> element_slopes trial' Triangle d F' F1' F2' -> (forall t p q r, corners_of b t p q r -> P t = (p, q, r)) ->
  exists m A, assemble (floats p) X rt wmod (laplace_hypersingular G) o trial test = Ok m /\
  assemble absolute X' (sequential Rplus) wmod' (absolute_operator Rabs (laplace_hypersingular (newton e))) o' (absolute_space Rabs trial') (absolute_space Rabs test') = Ok A /\
  forall t s i j x y z x' y' z' M M', corners_of b t x y z -> corners_of b s x' y' z' -> In i (dofs_at test' t) -> In j (dofs_at trial' s) ->
    0 <= M -> (forall c u v, In c (support test' i) -> inside Triangle u v -> inner (piece_swirl test' F1 F2 P i c u v) (piece_swirl test' F1 F2 P i c u v) <= M * M) ->
    0 <= M' -> (forall c u v, In c (support trial' j) -> inside Triangle u v -> inner (piece_swirl trial' F1' F2' P j c u v) (piece_swirl trial' F1' F2' P j c u v) <= M' * M') ->
    let reach := 3 * sqrt (32 / (3 * (4 ^ level + 2))) in let a := dist (centre Triangle x y z) (centre Triangle x' y' z') in reach < a ->
    exists v w l, nth_error m (i + global_size (fs_space test) * j) = Some v /\ swirls_integral Triangle test' trial' F1 F2 F1' F2' P P (newton e 0) i j w /\
      nth_error A (i + global_size (fs_space test) * j) = Some l /\
      Rabs (v - w) <= (/ 2) ^ (p - 12) * l + 2 * ((reach / a) ^ (k + 1) / (1 - reach / a)) * (M * support_area test' Triangle P i * (M' * support_area trial' Triangle P j) / (4 * PI * a)).
Proof.
  intros p Hp X X' wmod wmod' level b G e o o' deg pts id test trial test' trial' relP rt P F F1 F2 F' F1' F2' k d n N E Gt Gs St Ss L D D' A1 A2 H1 H2 H3 H4 H5 H6 H7 Ins Ex Fl Ft Fs HP.
  pose proof (shape_sphere real_numbers level id b E) as Sh. destruct (A1) as (E1 & E2 & E3).
  destruct (layers_budget p (laplace_hypersingular G) (laplace_hypersingular (newton e)) Triangle Hp X X' wmod wmod' o o' deg pts test trial test' trial' relP rt n N) as (m & m' & A & Em & Em' & EA & Lm & LA & H); auto;
    try (rewrite ?Gt, ?Gs; exact Sh); try exact I; try (cbn [roundings op_integrand laplace_hypersingular]; lia).
  destruct (sphere_swirls X' level id wmod' e o' deg pts b test' trial' P F F1 F2 F' F1' F2' k d E Gt Gs D' H7 Ins Ex Fl Ft Fs HP (sequential Rplus) (sequential_legal _)) as (m2 & Em2 & H').
  assert (m2 = m') by congruence. subst m2. exists m, A. split; [exact Em|]. split; [exact EA|].
  intros t s i j x y z x' y' z' M M' Co Co' Hi Hj PM Bi PM' Bj reach a Far. destruct (H' t s i j x y z x' y' z' M M' Co Co' Hi Hj PM Bi PM' Bj Far) as (y0 & w & Ey & Iw & Bw).
  rewrite <- E3 in Ey. assert (Lk : (i + global_size (fs_space test) * j < length m)%nat) by (rewrite <- Lm; apply nth_error_Some; congruence).
  destruct (nth_error m (i + global_size (fs_space test) * j)) as [v|] eqn:Ev; [|apply nth_error_None in Ev; lia].
  destruct (nth_error A (i + global_size (fs_space test) * j)) as [l|] eqn:El; [|apply nth_error_None in El; lia].
  exists v, w, l. split; [reflexivity|]. split; [exact Iw|]. split; [reflexivity|].
  replace (v - w) with ((v - y0) + (y0 - w)) by ring. eapply Rle_trans; [apply Rabs_triang|]. apply Rplus_le_compat; [exact (H _ _ _ _ Ev Ey El)|exact Bw].
Qed.

Theorem screen_budget_signed : forall p, (12 <= p)%nat ->
  forall (X X' : externals R) wmod wmod' h ct (b : builder (nat * nat)) (G : green) e o o' deg pts id (test trial test' trial' : fspace R R) relP rt P F F' k d n N,
  screen h ct b -> fs_grid test' = built_grid id ct b -> fs_grid trial' = built_grid id ct b ->
  standard (fs_family test') -> standard (fs_family trial') -> legal_runtime (s_add (floats p)) rt ->
  dense_setting X wmod (laplace_single_layer G) o deg pts ct test trial -> dense_setting X' wmod' (laplace_single_layer (newton e)) o' deg pts ct test' trial' ->
  same_dofs test test' -> same_dofs trial trial' ->
  related_externals (real_close ((/ 2) ^ p) n) (nonzero_close ((/ 2) ^ p) n) (real_close ((/ 2) ^ p) n) relP X X' ->
  related_kernel (close ((/ 2) ^ p) Rabs reals n) X X' (laplace_single_layer G) (laplace_single_layer (newton e)) deg pts test trial ->
  related_basis (close ((/ 2) ^ p) Rabs reals n) relP (laplace_single_layer G) test test' ->
  related_basis (close ((/ 2) ^ p) Rabs reals n) relP (laplace_single_layer G) trial trial' ->
  points_at_most X deg pts ct N -> (7 * n + 42 + N <= 2 ^ 11)%nat ->
  positive_externals (Rle 0) X' -> inside_rules X' ct -> exact_to X' ct (pts ct) (k + d) -> flat_screen h X' (built_grid id ct b) b ->
  element_functions test' ct d F -> element_functions trial' ct d F' -> (forall t x y z, corner b t 0 x -> corner b t 1 y -> corner b t 2 z -> P t = (screen_position h x, screen_position h y, screen_position h z)) ->
  exists m A, assemble (floats p) X rt wmod (laplace_single_layer G) o trial test = Ok m /\
  assemble absolute X' (sequential Rplus) wmod' (absolute_operator Rabs (laplace_single_layer (newton e))) o' (absolute_space Rabs trial') (absolute_space Rabs test') = Ok A /\
  forall t s i j x y z x' y' z' M M', corner b t 0 x -> corner b t 1 y -> corner b t 2 z -> corner b s 0 x' -> corner b s 1 y' -> corner b s 2 z' -> In i (dofs_at test' t) -> In j (dofs_at trial' s) ->
    (forall c u v, In c (support test' i) -> inside ct u v -> Rabs (piece test' F i c u v) <= M) -> (forall c u v, In c (support trial' j) -> inside ct u v -> Rabs (piece trial' F' j c u v) <= M') ->
    let a := dist (centre ct (screen_position h x) (screen_position h y) (screen_position h z)) (centre ct (screen_position h x') (screen_position h y') (screen_position h z')) in
    let reach := 3 * (sqrt (spread ct / 2) / INR (h + 1)) in reach < a ->
    exists v w l, nth_error m (i + global_size (fs_space test) * j) = Some v /\ functions_integral ct test' trial' F F' P P (newton e 0) i j w /\
      nth_error A (i + global_size (fs_space test) * j) = Some l /\
      Rabs (v - w) <= (/ 2) ^ (p - 12) * l + 2 * ((reach / a) ^ (k + 1) / (1 - reach / a)) * (M * support_area test' ct P i * (M' * support_area trial' ct P j) / (4 * PI * a)).
Proof.
  intros p Hp X X' wmod wmod' h ct b G e o o' deg pts id test trial test' trial' relP rt P F F' k d n N E Gt Gs St Ss L D D' A1 A2 H1 H2 H3 H4 H5 H6 H7 Ins Ex Fl Ft Fs HP.
  assert (Sh : shape_grid (built_grid id ct b)) by (destruct E as [b E|b E]; [now apply (shape_triangles h)|now apply (shape_quadrilaterals h)]). destruct (A1) as (E1 & E2 & E3).
  destruct (layers_budget p (laplace_single_layer G) (laplace_single_layer (newton e)) ct Hp X X' wmod wmod' o o' deg pts test trial test' trial' relP rt n N) as (m & m' & A & Em & Em' & EA & Lm & LA & H); auto;
    try (rewrite ?Gt, ?Gs; exact Sh); try exact I; try (cbn [roundings op_integrand laplace_single_layer]; lia).
  destruct (screen_functions X' h id wmod' ct e o' deg pts b test' trial' P F F' k d E Gt Gs D' H7 Ins Ex Fl Ft Fs HP (sequential Rplus) (sequential_legal _)) as (m2 & Em2 & H').
  assert (m2 = m') by congruence. subst m2. exists m, A. split; [exact Em|]. split; [exact EA|].
  intros t s i j x y z x' y' z' M M' C0 C1 C2 C0' C1' C2' Hi Hj Bi Bj a reach Far. destruct (H' t s i j x y z x' y' z' M M' C0 C1 C2 C0' C1' C2' Hi Hj Bi Bj Far) as (y0 & w & Ey & Iw & Bw).
  rewrite <- E3 in Ey. assert (Lk : (i + global_size (fs_space test) * j < length m)%nat) by (rewrite <- Lm; apply nth_error_Some; congruence).
  destruct (nth_error m (i + global_size (fs_space test) * j)) as [v|] eqn:Ev; [|apply nth_error_None in Ev; lia].
  destruct (nth_error A (i + global_size (fs_space test) * j)) as [l|] eqn:El; [|apply nth_error_None in El; lia].
  exists v, w, l. split; [reflexivity|]. split; [exact Iw|]. split; [reflexivity|].
  replace (v - w) with ((v - y0) + (y0 - w)) by ring. eapply Rle_trans; [apply Rabs_triang|]. apply Rplus_le_compat; [exact (H _ _ _ _ Ev Ey El)|exact Bw].
Qed.

Theorem screen_budget_hypersingular : forall p, (12 <= p)%nat ->
  forall (X X' : externals R) wmod wmod' h ct (b : builder (nat * nat)) (G : green) e o o' deg pts id (test trial test' trial' : fspace R R) relP rt P F F1 F2 F' F1' F2' k d n N,
  screen h ct b -> fs_grid test' = built_grid id ct b -> fs_grid trial' = built_grid id ct b ->
  standard (fs_family test') -> standard (fs_family trial') -> legal_runtime (s_add (floats p)) rt ->
  dense_setting X wmod (laplace_hypersingular G) o deg pts ct test trial -> dense_setting X' wmod' (laplace_hypersingular (newton e)) o' deg pts ct test' trial' ->
  same_dofs test test' -> same_dofs trial trial' ->
  related_externals (real_close ((/ 2) ^ p) n) (nonzero_close ((/ 2) ^ p) n) (real_close ((/ 2) ^ p) n) relP X X' ->
  related_kernel (close ((/ 2) ^ p) Rabs reals n) X X' (laplace_hypersingular G) (laplace_hypersingular (newton e)) deg pts test trial ->
  related_basis (close ((/ 2) ^ p) Rabs reals n) relP (laplace_hypersingular G) test test' ->
  related_basis (close ((/ 2) ^ p) Rabs reals n) relP (laplace_hypersingular G) trial trial' ->
  points_at_most X deg pts ct N -> (11 * n + 50 + N <= 2 ^ 11)%nat ->
  positive_externals (Rle 0) X' -> inside_rules X' ct -> exact_to X' ct (pts ct) (k + d) -> flat_screen h X' (built_grid id ct b) b ->
  element_slopes test' ct d F F1 F2 -> element_slopes trial' ct d F' F1' F2' -> (forall t x y z, corner b t 0 x -> corner b t 1 y -> corner b t 2 z -> P t = (screen_position h x, screen_position h y, screen_position h z)) ->
  exists m A, assemble (floats p) X rt wmod (laplace_hypersingular G) o trial test = Ok m /\
  assemble absolute X' (sequential Rplus) wmod' (absolute_operator Rabs (laplace_hypersingular (newton e))) o' (absolute_space Rabs trial') (absolute_space Rabs test') = Ok A /\
  forall t s i j x y z x' y' z' M M', corner b t 0 x -> corner b t 1 y -> corner b t 2 z -> corner b s 0 x' -> corner b s 1 y' -> corner b s 2 z' -> In i (dofs_at test' t) -> In j (dofs_at trial' s) ->
    0 <= M -> (forall c u v, In c (support test' i) -> inside ct u v -> inner (piece_swirl test' F1 F2 P i c u v) (piece_swirl test' F1 F2 P i c u v) <= M * M) ->
    0 <= M' -> (forall c u v, In c (support trial' j) -> inside ct u v -> inner (piece_swirl trial' F1' F2' P j c u v) (piece_swirl trial' F1' F2' P j c u v) <= M' * M') ->
    let a := dist (centre ct (screen_position h x) (screen_position h y) (screen_position h z)) (centre ct (screen_position h x') (screen_position h y') (screen_position h z')) in
    let reach := 3 * (sqrt (spread ct / 2) / INR (h + 1)) in reach < a ->
    exists v w l, nth_error m (i + global_size (fs_space test) * j) = Some v /\ swirls_integral ct test' trial' F1 F2 F1' F2' P P (newton e 0) i j w /\
      nth_error A (i + global_size (fs_space test) * j) = Some l /\
      Rabs (v - w) <= (/ 2) ^ (p - 12) * l + 2 * ((reach / a) ^ (k + 1) / (1 - reach / a)) * (M * support_area test' ct P i * (M' * support_area trial' ct P j) / (4 * PI * a)).
Proof.
  intros p Hp X X' wmod wmod' h ct b G e o o' deg pts id test trial test' trial' relP rt P F F1 F2 F' F1' F2' k d n N E Gt Gs St Ss L D D' A1 A2 H1 H2 H3 H4 H5 H6 H7 Ins Ex Fl Ft Fs HP.
  assert (Sh : shape_grid (built_grid id ct b)) by (destruct E as [b E|b E]; [now apply (shape_triangles h)|now apply (shape_quadrilaterals h)]). destruct (A1) as (E1 & E2 & E3).
  destruct (layers_budget p (laplace_hypersingular G) (laplace_hypersingular (newton e)) ct Hp X X' wmod wmod' o o' deg pts test trial test' trial' relP rt n N) as (m & m' & A & Em & Em' & EA & Lm & LA & H); auto;
    try (rewrite ?Gt, ?Gs; exact Sh); try exact I; try (cbn [roundings op_integrand laplace_hypersingular]; lia).
  destruct (screen_swirls X' h id wmod' ct e o' deg pts b test' trial' P F F1 F2 F' F1' F2' k d E Gt Gs D' H7 Ins Ex Fl Ft Fs HP (sequential Rplus) (sequential_legal _)) as (m2 & Em2 & H').
  assert (m2 = m') by congruence. subst m2. exists m, A. split; [exact Em|]. split; [exact EA|].
  intros t s i j x y z x' y' z' M M' C0 C1 C2 C0' C1' C2' Hi Hj PM Bi PM' Bj a reach Far. destruct (H' t s i j x y z x' y' z' M M' C0 C1 C2 C0' C1' C2' Hi Hj PM Bi PM' Bj Far) as (y0 & w & Ey & Iw & Bw).
  rewrite <- E3 in Ey. assert (Lk : (i + global_size (fs_space test) * j < length m)%nat) by (rewrite <- Lm; apply nth_error_Some; congruence).
  destruct (nth_error m (i + global_size (fs_space test) * j)) as [v|] eqn:Ev; [|apply nth_error_None in Ev; lia].
  destruct (nth_error A (i + global_size (fs_space test) * j)) as [l|] eqn:El; [|apply nth_error_None in El; lia].
  exists v, w, l. split; [reflexivity|]. split; [exact Iw|]. split; [reflexivity|].
  replace (v - w) with ((v - y0) + (y0 - w)) by ring. eapply Rle_trans; [apply Rabs_triang|]. apply Rplus_le_compat; [exact (H _ _ _ _ Ev Ey El)|exact Bw].
Qed.
