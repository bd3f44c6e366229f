(** * Laplace entries of functions of any space, continuous or not, on distant cells of spheres and screens *)
From Coq Require Import Reals Lra Psatz.
From Verif Require Import Base BaseFacts Topology TopologyFacts DofMap DofMapFacts DofMapResults DofExamples Process Space SpecSpace Options Adjacency SpecAdjacency Scalar Integrand CellPair Operators SpecLocal
  Interleave Assembly SpecAssembly AssemblyResults SpecTransfer SpecAlgebra SpecRounding RoundingModels SpecBroken SpecDof SpecGalerkin GalerkinResults BrokenResults SpecMeasure Shapes SpecShapes ScreenFacts ShapesResults SpecSphere SpecScreen SpecWidth WidthResults
  SpecTurns TurnExamples SpecGauss GaussResults SpecShift SpecToeplitz ToeplitzResults SpecShare SphereGeometry SpecFloatSphere FloatSphereError SpecWaves SpecDecay DecayResults DecayPoints DecayShapes SpecMoments MomentResults MomentShapes
  SpecDegree DegreeResults DegreeExact DegreeShapes SpecPieces PieceResults PieceShapes FluxKernel SpecFluxes FluxResults SpecSwirls SwirlResults SwirlShapes.

Local Open Scope R_scope.
Local Notation dist := SpecWaves.distance.

(** ** Single layer *)
Theorem sphere_functions : forall (X : externals R) level id wmod e o deg pts (b : builder vec) (test trial : fspace R R) P F F' k d,
  regular_sphere real_numbers level 1 = Ok b -> fs_grid test = built_grid id Triangle b -> fs_grid trial = built_grid id Triangle b ->
  dense_setting X wmod (laplace_single_layer (newton e)) o deg pts Triangle test trial ->
  positive_externals (Rle 0) X -> inside_rules X Triangle -> exact_to X Triangle (pts Triangle) (k + d) -> flat_cells X (built_grid id Triangle b) b ->
  element_functions test Triangle d F -> element_functions trial Triangle d F' -> (forall t p q r, corners_of b t p q r -> P t = (p, q, r)) ->
  forall rt, legal_runtime Rplus rt ->
  exists m, assemble reals X rt wmod (laplace_single_layer (newton e)) o trial test = Ok m /\
  forall t s i j p q r p' q' r' M M', corners_of b t p q r -> corners_of b s p' q' r' -> In i (dofs_at test t) -> In j (dofs_at trial s) ->
    (forall z x y, In z (support test i) -> inside Triangle x y -> Rabs (piece test F i z x y) <= M) -> (forall z x y, In z (support trial j) -> inside Triangle x y -> Rabs (piece trial F' j z x y) <= M') ->
    let reach := 3 * sqrt (32 / (3 * (4 ^ level + 2))) in let a := dist (centre Triangle p q r) (centre Triangle p' q' r') in reach < a ->
    exists v w, nth_error m (i + global_size (fs_space test) * j) = Some v /\ functions_integral Triangle test trial F F' P P (newton e 0) i j w /\
      Rabs (v - w) <= 2 * ((reach / a) ^ (k + 1) / (1 - reach / a)) * (M * support_area test Triangle P i * (M' * support_area trial Triangle P j) / (4 * PI * a)).
Proof.
  intros X level id wmod e o deg pts b test trial P F F' k d E Gt Gs D HX Ins Ex Fl Ef Ef' Hp rt L.
  assert (FG : flat_grid X (built_grid id Triangle b) Triangle P).
  { intros t Ht points. destruct (sphere_cells level id b E) as (Nc & Hc). rewrite Nc in Ht. destruct (Hc t Ht) as (p & q & r & Co & _). rewrite (Hp t p q r Co). cbn. now apply Fl. }
  destruct (pieces_entries X wmod e o deg pts Triangle test trial P P F F' k d D (or_introl eq_refl) HX Ins Ex Ef Ef') with (rt := rt) as (m & Em & H); [now rewrite Gt|now rewrite Gs|exact L|].
  exists m. split; [exact Em|]. intros t s i j p q r p' q' r' M M' Co Co' Hi Hj Bd Bd' reach a Ha.
  assert (Sp : serial_space test) by apply (dn_test _ _ _ _ _ _ _ _ _ D). assert (Sp' : serial_space trial) by apply (dn_trial _ _ _ _ _ _ _ _ _ D).
  assert (Lt : (t < ent_count (fs_grid test) 2)%nat) by (rewrite Gt; eapply corners_lt; eauto). assert (Ls : (s < ent_count (fs_grid test) 2)%nat) by (rewrite Gt; eapply corners_lt; eauto).
  assert (Hr : 0 <= sphere_radius level) by (unfold sphere_radius; pose proof (sqrt_pos (6 / (4 ^ level + 2))); lra).
  assert (Er : 3 * sphere_radius level + 3 * sphere_radius level = reach).
  { unfold reach. transitivity (3 * (sphere_radius level + sphere_radius level)); [ring|]. f_equal. apply root_of; [lra|apply radius_square]. }
  destruct (sphere_near level id b P test E Gt Hp) as (Ball & Close). assert (Gr : fs_grid trial = fs_grid test) by congruence.
  pose proof (near_supported Triangle P _ _ test Ball Close test i t Sp eq_refl Lt Hi) as S1. pose proof (near_supported Triangle P _ _ test Ball Close trial j s Sp' Gr Ls Hj) as S2.
  pose proof (near_apart _ _ test trial Sp Sp' Gr Close i j t s Lt Ls Hi Hj) as Na.
  cbv beta in S1, S2, Na. rewrite (Hp t p q r Co) in S1. rewrite (Hp s p' q' r' Co') in S2. rewrite (Hp t p q r Co), (Hp s p' q' r' Co') in Na. cbn [first_corner second_corner third_corner fst snd] in S1, S2, Na. fold a in Na.
  destruct (H i j _ _ _ _ M M' (serial_lt test Sp t i Lt Hi) (serial_lt trial Sp' s j ltac:(now rewrite Gr) Hj) S1 S2 (Na ltac:(lra)) Bd Bd' ltac:(fold a; lra)) as (v & w & Ev & Iw & B).
  exists v, w. split; [exact Ev|]. split; [exact Iw|]. cbv zeta in B. fold a in B. now rewrite Er in B.
Qed.

Theorem screen_functions : forall (X : externals R) n id wmod ct e o deg pts (b : builder (nat * nat)) (test trial : fspace R R) P F F' k d,
  screen n ct b -> fs_grid test = built_grid id ct b -> fs_grid trial = built_grid id ct b ->
  dense_setting X wmod (laplace_single_layer (newton e)) o deg pts ct test trial ->
  positive_externals (Rle 0) X -> inside_rules X ct -> exact_to X ct (pts ct) (k + d) -> flat_screen n X (built_grid id ct b) b ->
  element_functions test ct d F -> element_functions trial ct d F' ->
  (forall t p q r, corner b t 0 p -> corner b t 1 q -> corner b t 2 r -> P t = (screen_position n p, screen_position n q, screen_position n r)) ->
  forall rt, legal_runtime Rplus rt ->
  exists m, assemble reals X rt wmod (laplace_single_layer (newton e)) o trial test = Ok m /\
  forall t s i j p q r p' q' r' M M', corner b t 0 p -> corner b t 1 q -> corner b t 2 r -> corner b s 0 p' -> corner b s 1 q' -> corner b s 2 r' -> In i (dofs_at test t) -> In j (dofs_at trial s) ->
    (forall z x y, In z (support test i) -> inside ct x y -> Rabs (piece test F i z x y) <= M) -> (forall z x y, In z (support trial j) -> inside ct x y -> Rabs (piece trial F' j z x y) <= M') ->
    let a := dist (centre ct (screen_position n p) (screen_position n q) (screen_position n r)) (centre ct (screen_position n p') (screen_position n q') (screen_position n r')) in
    let reach := 3 * (sqrt (spread ct / 2) / INR (n + 1)) in reach < a ->
    exists v w, nth_error m (i + global_size (fs_space test) * j) = Some v /\ functions_integral ct test trial F F' P P (newton e 0) i j w /\
      Rabs (v - w) <= 2 * ((reach / a) ^ (k + 1) / (1 - reach / a)) * (M * support_area test ct P i * (M' * support_area trial ct P j) / (4 * PI * a)).
Proof.
  intros X n id wmod ct e o deg pts b test trial P F F' k d Sn Gt Gs D HX Ins Ex Fl Ef Ef' Hp rt L. pose proof (kind_of n ct b Sn) as K.
  assert (FG : flat_grid X (built_grid id ct b) ct P).
  { intros t Ht points. rewrite (screen_cell_count n id ct b Sn) in Ht. destruct (screen_corners n ct b Sn t Ht) as (p & q & r & C0 & C1 & C2). rewrite (Hp t p q r C0 C1 C2). cbn. now apply Fl. }
  destruct (pieces_entries X wmod e o deg pts ct test trial P P F F' k d D K HX Ins Ex Ef Ef') with (rt := rt) as (m & Em & H); [now rewrite Gt|now rewrite Gs|exact L|].
  exists m. split; [exact Em|]. intros t s i j p q r p' q' r' M M' C0 C1 C2 C0' C1' C2' Hi Hj Bd Bd' a reach Ha.
  assert (Sp : serial_space test) by apply (dn_test _ _ _ _ _ _ _ _ _ D). assert (Sp' : serial_space trial) by apply (dn_trial _ _ _ _ _ _ _ _ _ D).
  assert (Lt : (t < ent_count (fs_grid test) 2)%nat) by (rewrite Gt, (screen_cell_count n id ct b Sn); destruct C0 as (vs & v & Ec & _); apply nth_error_Some; congruence).
  assert (Ls : (s < ent_count (fs_grid test) 2)%nat) by (rewrite Gt, (screen_cell_count n id ct b Sn); destruct C0' as (vs & v & Ec & _); apply nth_error_Some; congruence).
  pose proof (side_positive n) as Pn. assert (Hr : 0 <= screen_radius n ct) by apply sqrt_pos.
  assert (Er : 3 * screen_radius n ct + 3 * screen_radius n ct = reach).
  { unfold reach. assert (Ps : 0 < spread ct) by (destruct ct; cbn; lra). transitivity (3 * (screen_radius n ct + screen_radius n ct)); [ring|]. f_equal. transitivity (sqrt (spread ct / 2 / (INR (n + 1) * INR (n + 1)))); [apply root_of; [lra|apply screen_radius_square]|].
    rewrite sqrt_div by nra. rewrite sqrt_square by lra. reflexivity. }
  destruct (screen_near n id ct b P test Sn Gt Hp) as (Ball & Close). assert (Gr : fs_grid trial = fs_grid test) by congruence.
  pose proof (near_supported ct P _ _ test Ball Close test i t Sp eq_refl Lt Hi) as S1. pose proof (near_supported ct P _ _ test Ball Close trial j s Sp' Gr Ls Hj) as S2.
  pose proof (near_apart _ _ test trial Sp Sp' Gr Close i j t s Lt Ls Hi Hj) as Na.
  cbv beta in S1, S2, Na. rewrite (Hp t p q r C0 C1 C2) in S1. rewrite (Hp s p' q' r' C0' C1' C2') in S2. rewrite (Hp t p q r C0 C1 C2), (Hp s p' q' r' C0' C1' C2') in Na. cbn [first_corner second_corner third_corner fst snd] in S1, S2, Na. fold a in Na.
  destruct (H i j _ _ _ _ M M' (serial_lt test Sp t i Lt Hi) (serial_lt trial Sp' s j ltac:(now rewrite Gr) Hj) S1 S2 (Na ltac:(lra)) Bd Bd' ltac:(fold a; lra)) as (v & w & Ev & Iw & B).
  exists v, w. split; [exact Ev|]. split; [exact Iw|]. cbv zeta in B. fold a in B. now rewrite Er in B.
Qed.

(** ** Double layers *)
Theorem sphere_functions_double : forall (X : externals R) level id wmod e o deg pts (b : builder vec) (test trial : fspace R R) P F F' k d,
  regular_sphere real_numbers level 1 = Ok b -> fs_grid test = built_grid id Triangle b -> fs_grid trial = built_grid id Triangle b ->
  dense_setting X wmod (laplace_double_layer (newton e)) o deg pts Triangle test trial ->
  positive_externals (Rle 0) X -> inside_rules X Triangle -> exact_to X Triangle (pts Triangle) (k + d + 1) -> flat_cells X (built_grid id Triangle b) b ->
  element_functions test Triangle d F -> element_functions trial Triangle d F' -> (forall t p q r, corners_of b t p q r -> P t = (p, q, r)) ->
  forall rt, legal_runtime Rplus rt ->
  exists m, assemble reals X rt wmod (laplace_double_layer (newton e)) o trial test = Ok m /\
  forall t s i j p q r p' q' r' M M' sigma, corners_of b t p q r -> corners_of b s p' q' r' -> In i (dofs_at test t) -> In j (dofs_at trial s) ->
    (forall z x y, In z (support test i) -> inside Triangle x y -> Rabs (piece test F i z x y) <= M) -> (forall z x y, In z (support trial j) -> inside Triangle x y -> Rabs (piece trial F' j z x y) <= M') ->
    let reach := 3 * sqrt (32 / (3 * (4 ^ level + 2))) in let a := dist (centre Triangle p q r) (centre Triangle p' q' r') in reach < a -> reach / a < sigma < 1 ->
    exists v w, nth_error m (i + global_size (fs_space test) * j) = Some v /\ double_integral Triangle test trial F F' P P (newton e) i j w /\
      Rabs (v - w) <= 6 * (1 + reach / a) * (reach / a / sigma) ^ (k + 1) / ((1 - sigma) ^ 3) * (Rabs e * (M * support_area test Triangle P i * (M' * support_area trial Triangle P j)) / (4 * PI * (a * a))).
Proof.
  intros X level id wmod e o deg pts b test trial P F F' k d E Gt Gs D HX Ins Ex Fl Ef Ef' Hp rt L.
  assert (FG : flat_grid X (built_grid id Triangle b) Triangle P).
  { intros t Ht points. destruct (sphere_cells level id b E) as (Nc & Hc). rewrite Nc in Ht. destruct (Hc t Ht) as (p & q & r & Co & _). rewrite (Hp t p q r Co). cbn. now apply Fl. }
  destruct (double_entries X wmod e o deg pts Triangle test trial P P F F' k d D (or_introl eq_refl) HX Ins Ex Ef Ef') with (rt := rt) as (m & Em & H); [now rewrite Gt|now rewrite Gs|exact L|].
  exists m. split; [exact Em|]. intros t s i j p q r p' q' r' M M' sigma Co Co' Hi Hj Bd Bd' reach a Ha Hs.
  assert (Sp : serial_space test) by apply (dn_test _ _ _ _ _ _ _ _ _ D). assert (Sp' : serial_space trial) by apply (dn_trial _ _ _ _ _ _ _ _ _ D).
  assert (Lt : (t < ent_count (fs_grid test) 2)%nat) by (rewrite Gt; eapply corners_lt; eauto). assert (Ls : (s < ent_count (fs_grid test) 2)%nat) by (rewrite Gt; eapply corners_lt; eauto).
  assert (Hr : 0 <= sphere_radius level) by (unfold sphere_radius; pose proof (sqrt_pos (6 / (4 ^ level + 2))); lra).
  assert (Er : 3 * sphere_radius level + 3 * sphere_radius level = reach).
  { unfold reach. transitivity (3 * (sphere_radius level + sphere_radius level)); [ring|]. f_equal. apply root_of; [lra|apply radius_square]. }
  destruct (sphere_near level id b P test E Gt Hp) as (Ball & Close). assert (Gr : fs_grid trial = fs_grid test) by congruence.
  pose proof (near_supported Triangle P _ _ test Ball Close test i t Sp eq_refl Lt Hi) as S1. pose proof (near_supported Triangle P _ _ test Ball Close trial j s Sp' Gr Ls Hj) as S2.
  pose proof (near_apart _ _ test trial Sp Sp' Gr Close i j t s Lt Ls Hi Hj) as Na.
  cbv beta in S1, S2, Na. rewrite (Hp t p q r Co) in S1. rewrite (Hp s p' q' r' Co') in S2. rewrite (Hp t p q r Co), (Hp s p' q' r' Co') in Na. cbn [first_corner second_corner third_corner fst snd] in S1, S2, Na. fold a in Na.
  destruct (H i j _ _ _ _ M M' sigma (serial_lt test Sp t i Lt Hi) (serial_lt trial Sp' s j ltac:(now rewrite Gr) Hj) S1 S2 (Na ltac:(lra)) Bd Bd' ltac:(fold a; lra) ltac:(fold a; rewrite Er; exact Hs)) as (v & w & Ev & Iw & B).
  exists v, w. split; [exact Ev|]. split; [exact Iw|]. cbv zeta in B. fold a in B. now rewrite Er in B.
Qed.

Theorem sphere_functions_adjoint : forall (X : externals R) level id wmod e o deg pts (b : builder vec) (test trial : fspace R R) P F F' k d,
  regular_sphere real_numbers level 1 = Ok b -> fs_grid test = built_grid id Triangle b -> fs_grid trial = built_grid id Triangle b ->
  dense_setting X wmod (laplace_adjoint_double_layer (newton e)) o deg pts Triangle test trial ->
  positive_externals (Rle 0) X -> inside_rules X Triangle -> exact_to X Triangle (pts Triangle) (k + d + 1) -> flat_cells X (built_grid id Triangle b) b ->
  element_functions test Triangle d F -> element_functions trial Triangle d F' -> (forall t p q r, corners_of b t p q r -> P t = (p, q, r)) ->
  forall rt, legal_runtime Rplus rt ->
  exists m, assemble reals X rt wmod (laplace_adjoint_double_layer (newton e)) o trial test = Ok m /\
  forall t s i j p q r p' q' r' M M' sigma, corners_of b t p q r -> corners_of b s p' q' r' -> In i (dofs_at test t) -> In j (dofs_at trial s) ->
    (forall z x y, In z (support test i) -> inside Triangle x y -> Rabs (piece test F i z x y) <= M) -> (forall z x y, In z (support trial j) -> inside Triangle x y -> Rabs (piece trial F' j z x y) <= M') ->
    let reach := 3 * sqrt (32 / (3 * (4 ^ level + 2))) in let a := dist (centre Triangle p q r) (centre Triangle p' q' r') in reach < a -> reach / a < sigma < 1 ->
    exists v w, nth_error m (i + global_size (fs_space test) * j) = Some v /\ adjoint_integral Triangle test trial F F' P P (newton e) i j w /\
      Rabs (v - w) <= 6 * (1 + reach / a) * (reach / a / sigma) ^ (k + 1) / ((1 - sigma) ^ 3) * (Rabs e * (M * support_area test Triangle P i * (M' * support_area trial Triangle P j)) / (4 * PI * (a * a))).
Proof.
  intros X level id wmod e o deg pts b test trial P F F' k d E Gt Gs D HX Ins Ex Fl Ef Ef' Hp rt L.
  assert (FG : flat_grid X (built_grid id Triangle b) Triangle P).
  { intros t Ht points. destruct (sphere_cells level id b E) as (Nc & Hc). rewrite Nc in Ht. destruct (Hc t Ht) as (p & q & r & Co & _). rewrite (Hp t p q r Co). cbn. now apply Fl. }
  destruct (adjoint_entries X wmod e o deg pts Triangle test trial P P F F' k d D (or_introl eq_refl) HX Ins Ex Ef Ef') with (rt := rt) as (m & Em & H); [now rewrite Gt|now rewrite Gs|exact L|].
  exists m. split; [exact Em|]. intros t s i j p q r p' q' r' M M' sigma Co Co' Hi Hj Bd Bd' reach a Ha Hs.
  assert (Sp : serial_space test) by apply (dn_test _ _ _ _ _ _ _ _ _ D). assert (Sp' : serial_space trial) by apply (dn_trial _ _ _ _ _ _ _ _ _ D).
  assert (Lt : (t < ent_count (fs_grid test) 2)%nat) by (rewrite Gt; eapply corners_lt; eauto). assert (Ls : (s < ent_count (fs_grid test) 2)%nat) by (rewrite Gt; eapply corners_lt; eauto).
  assert (Hr : 0 <= sphere_radius level) by (unfold sphere_radius; pose proof (sqrt_pos (6 / (4 ^ level + 2))); lra).
  assert (Er : 3 * sphere_radius level + 3 * sphere_radius level = reach).
  { unfold reach. transitivity (3 * (sphere_radius level + sphere_radius level)); [ring|]. f_equal. apply root_of; [lra|apply radius_square]. }
  destruct (sphere_near level id b P test E Gt Hp) as (Ball & Close). assert (Gr : fs_grid trial = fs_grid test) by congruence.
  pose proof (near_supported Triangle P _ _ test Ball Close test i t Sp eq_refl Lt Hi) as S1. pose proof (near_supported Triangle P _ _ test Ball Close trial j s Sp' Gr Ls Hj) as S2.
  pose proof (near_apart _ _ test trial Sp Sp' Gr Close i j t s Lt Ls Hi Hj) as Na.
  cbv beta in S1, S2, Na. rewrite (Hp t p q r Co) in S1. rewrite (Hp s p' q' r' Co') in S2. rewrite (Hp t p q r Co), (Hp s p' q' r' Co') in Na. cbn [first_corner second_corner third_corner fst snd] in S1, S2, Na. fold a in Na.
  destruct (H i j _ _ _ _ M M' sigma (serial_lt test Sp t i Lt Hi) (serial_lt trial Sp' s j ltac:(now rewrite Gr) Hj) S1 S2 (Na ltac:(lra)) Bd Bd' ltac:(fold a; lra) ltac:(fold a; rewrite Er; exact Hs)) as (v & w & Ev & Iw & B).
  exists v, w. split; [exact Ev|]. split; [exact Iw|]. cbv zeta in B. fold a in B. now rewrite Er in B.
Qed.
