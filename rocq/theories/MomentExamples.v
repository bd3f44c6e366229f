(** * Examples: rules that are exact for linear functions, distant cells *)
From Coq Require Import Reals Lra Psatz Permutation.
From Verif Require Import Base Topology DofMap SpecDof Process Space Options SpecOptions Scalar Integrand CellPair Operators Adjacency SpecAdjacency SpecLocal LocalResults SpecOperators Interleave Assembly SpecAssembly
  SphereResults ShapesResults AssemblyResults AssemblyTermination SpecTransfer SpecScalars SpecAlgebra SpecRounding SpecShapeSpaces ShapeSpacesResults Shapes SpecShapes SpecSphere SpecScreen SpecWidth WidthResults SpecSymmetry SymmetryResults SpecTurns TurnResults TurnExamples
  SpecBroken SpecGalerkin SpecMeasure SpecGauss GaussResults GaussExamples SpecShift SpecToeplitz ToeplitzResults ToeplitzExamples SpecShare ShareScreen ShareExamples SpecFloatSphere SpecApart ApartSharp KernelResults WaveKernel WaveLimits SpecWaves SpecDecay DecayPoints DecayShapes DecayExamples
  SpecMoments MomentResults MomentShapes.

Local Open Scope R_scope.

(** The points of the regular rules at the centre of the reference cell. *)
Definition centred (X : externals R) : externals R := mkExternals R
  (fun t k => if (k =? 0)%nat then None else Some (mkQuadrature (repeat (middle t) (2 * k)) (repeat (reference_area t / INR k) k)))
  (x_duffy X) (x_geometry X).

Lemma centred_rule X t n q : x_simplex (centred X) t n = Some q -> n <> 0%nat /\ qd_points q = repeat (middle t) (2 * n) /\ qd_weights q = repeat (reference_area t / INR n) n.
Proof.
  cbn [centred x_simplex]. destruct (Nat.eqb_spec n 0) as [|N]; [discriminate|]. intros H. split; [exact N|]. split.
  - apply (f_equal (fun o => match o with Some q => qd_points q | None => [] end)) in H. now rewrite <- H.
  - apply (f_equal (fun o => match o with Some q => qd_weights q | None => [] end)) in H. now rewrite <- H.
Qed.

Lemma centred_proper X : proper_rules X -> proper_rules (centred X).
Proof.
  intros [_ B]. constructor; [|exact B]. intros t n q H. destruct (centred_rule X t n q H) as (N & -> & ->). rewrite !repeat_length. lia.
Qed.

Lemma centred_rules X t : rules_exist X t (after [SetBatch 3]) -> t = Triangle \/ t = Quadrilateral -> rules_exist (centred X) t (after [SetBatch 3]).
Proof.
  intros [_ B] Ht. split; [|exact B]. intros n H. destruct Ht as [-> | ->]; vm_compute in H; injection H as <-; eexists; reflexivity.
Qed.

Lemma centred_linear X t : exact_linear (centred X) t.
Proof.
  assert (M : forall n k q, x_simplex (centred X) t n = Some q -> (k < 2)%nat -> moment q k = reference_area t * middle t).
  { intros n k q H Hk. destruct (centred_rule X t n q H) as (N & Ep & Ew). unfold moment. rewrite Ep, Ew, repeat_length.
    rewrite (map_ext_in _ (fun _ => reference_area t / INR n * middle t)).
    - replace (map (fun _ : nat => reference_area t / INR n * middle t) (seq 0 n)) with (repeat (reference_area t / INR n * middle t) n).
      + rewrite sum_repeat. field. now apply not_0_INR.
      + generalize (reference_area t / INR n * middle t) as x. intros x. generalize 0%nat as a. clear. induction n as [|n IH]; intros a; [reflexivity|]. cbn. f_equal. apply IH.
    - intros j Hj. apply in_seq in Hj. rewrite !nth_repeat_lt by lia. reflexivity. }
  split.
  - intros n q H. destruct (centred_rule X t n q H) as (N & _ & ->). rewrite sum_repeat. field. now apply not_0_INR.
  - intros n q H. split; eapply M; eauto.
Qed.

(** ** The sphere *)

Fixpoint vsum (l : list vec) : vec := match l with [] => (0, 0, 0) | x :: l => vadd x (vsum l) end.

Lemma vsum_permutation l l' : Permutation l l' -> vsum l = vsum l'.
Proof.
  induction 1 as [|x l l' _ IH|x y l|l l' l'' _ IH1 _ IH2]; [reflexivity|cbn; now rewrite IH| |congruence].
  cbn. destruct x as [[? ?] ?], y as [[? ?] ?], (vsum l) as [[? ?] ?]. cbn. f_equal; [f_equal|]; ring.
Qed.

Lemma opposite_cells level (b : builder vec) c p q r : regular_sphere real_numbers level 1 = Ok b -> corners_of b c p q r -> (2 <= level)%nat ->
  exists c' p' q' r', corners_of b c' p' q' r' /\
    128 / (3 * (4 ^ level + 2)) <= SpecWaves.distance (centre Triangle p q r) (centre Triangle p' q' r') * SpecWaves.distance (centre Triangle p q r) (centre Triangle p' q' r').
Proof.
  intros E Co Hl. destruct (sphere_symmetric level b 0 true true true E c p q r Co) as (c' & p' & q' & r' & Co' & Pm). exists c', p', q', r'. split; [exact Co'|].
  apply vsum_permutation in Pm. assert (S : vadd p' (vadd q' r') = vscale (-1) (vadd p (vadd q r))).
  { destruct p as [[? ?] ?], q as [[? ?] ?], r as [[? ?] ?], p' as [[? ?] ?], q' as [[? ?] ?], r' as [[? ?] ?]. cbn in Pm |- *. injection Pm as P1 P2 P3. f_equal; [f_equal|]; lra. }
  destruct (corners_edges b c p q r Co) as (E1 & E2 & E3). apply (longest_edge level b _ _ E) in E1, E2, E3.
  assert (U : inner p p = 1 /\ inner q q = 1 /\ inner r r = 1).
  { destruct Co as (u & v & w & _ & Eu & Ev & Ew). repeat split; eapply (sphere_unit level b E); eapply nth_error_In; eauto. }
  destruct U as (U1 & U2 & U3). rewrite distance_chord, sqrt_sqrt by apply chord2_nonneg. cbn [centre]. rewrite S.
  assert (W : 16 <= 4 ^ level). { replace 16 with (4 ^ 2) by ring. apply Rle_pow; [lra|exact Hl]. }
  assert (V : chord2 (vscale (1 / 3) (vadd p (vadd q r))) (vscale (1 / 3) (vscale (-1) (vadd p (vadd q r)))) =
    4 / 9 * (3 * (inner p p + inner q q + inner r r) - (chord2 p q + chord2 q r + chord2 r p))).
  { destruct p as [[? ?] ?], q as [[? ?] ?], r as [[? ?] ?]. unfold chord2. cbn. field. }
  rewrite V, U1, U2, U3.
  apply Rle_trans with (4 / 9 * (9 - 18 / (4 ^ level + 2))).
  - apply (Rmult_le_reg_r (3 * (4 ^ level + 2))); [lra|]. replace (128 / (3 * (4 ^ level + 2)) * (3 * (4 ^ level + 2))) with 128 by (field; lra).
    replace (4 / 9 * (9 - 18 / (4 ^ level + 2)) * (3 * (4 ^ level + 2))) with (12 * (4 ^ level + 2) - 24) by (field; lra). lra.
  - replace (18 / (4 ^ level + 2)) with (3 * (6 / (4 ^ level + 2))) by (field; lra). lra.
Qed.

Theorem sphere_moment_example : forall level id e, (2 <= level)%nat -> exists b X (test : fspace R R) deg pts wmod,
  regular_sphere real_numbers level 1 = Ok b /\ fs_grid test = built_grid id Triangle b /\
  dense_setting X wmod (laplace_single_layer (newton e)) (after [SetBatch 3]) deg pts Triangle test test /\
  positive_externals (Rle 0) X /\ constants reals 1 test /\ interior_family (g_types (fs_grid test) 2) (fs_family test) /\
  flat_cells X (built_grid id Triangle b) b /\ inside_rules X Triangle /\ exact_linear X Triangle /\
  exists t s p q r p' q' r', corners_of b t p q r /\ corners_of b s p' q' r' /\
    128 / (3 * (4 ^ level + 2)) <= SpecWaves.distance (centre Triangle p q r) (centre Triangle p' q' r') * SpecWaves.distance (centre Triangle p q r) (centre Triangle p' q' r').
Proof.
  intros level id e Hl. destruct (sphere_exists real_numbers level) as (b & E).
  pose proof (shape_sphere real_numbers level id b E) as Sh.
  assert (S1 : standard (interior_only (fun _ => 1%nat))) by (constructor; intros; lia).
  destruct (spaces_exist R R (built_grid id Triangle b) _ (fun _ => 1%nat) unit_basis Sh S1) as (u & Mu & _ & Bu); [intros; lia|].
  assert (Gu : fs_grid u = built_grid id Triangle b) by apply Mu.
  assert (Tu : g_types (fs_grid u) 2 = [Triangle]) by (rewrite Gu; reflexivity).
  set (X := centred (level_externals b)).
  assert (Pr : proper_rules X) by apply centred_proper, level_proper.
  assert (Dn : determinants_not_negative (level_externals b)) by (intros g t points c j; cbn [level_externals x_geometry flat_externals]; unfold flat_map_of; cbn [cm_jdet]; apply sqrt_pos).
  set (wmod := (4 + 2 * ent_count (built_grid id Triangle b) 2 * ent_count (built_grid id Triangle b) 2)%nat).
  destruct (made_dense R R reals X wmod (laplace_single_layer (newton e)) [SetBatch 3] (built_grid id Triangle b) _ _ u u Triangle Sh S1 S1 Mu Mu eq_refl (sh_laplace_single reals (newton e)) Pr (centred_rules _ _ (level_rules b) (or_introl eq_refl))) as (deg & pts & D).
  { split; [cbn; lia|]. change (get_batch_size (after [SetBatch 3])) with 3%nat. unfold wmod. lia. }
  { unfold wmod. lia. }
  exists b, X, u, deg, pts, wmod. split; [exact E|]. split; [exact Gu|]. split; [exact D|].
  assert (Du : forall k d p n q, x_duffy (level_externals b) k d p n = Some q -> pq_test q = repeat (/ 4) (2 * n) /\ pq_trial q = repeat (/ 3) (2 * n) /\ n <> 0%nat /\ exists w, 0 <= w /\ pq_weights q = repeat w n).
  { intros k d p n q H. cbn [level_externals x_duffy flat_externals] in H. destruct (Nat.eqb_spec n 0) as [|N]; [discriminate|].
    split; [apply (f_equal (fun o => match o with Some q => pq_test q | None => [] end)) in H; now rewrite <- H|].
    split; [apply (f_equal (fun o => match o with Some q => pq_trial q | None => [] end)) in H; now rewrite <- H|]. split; [exact N|].
    apply (f_equal (fun o => match o with Some q => pq_weights q | None => [] end)) in H. cbn [pq_weights] in H. eexists. split; [|now rewrite <- H]. left. apply Rinv_0_lt_compat, lt_0_INR. lia. }
  split. { constructor.
    - intros t n q H. destruct (centred_rule _ t n q H) as (N & _ & ->). apply Forall_repeat. left. apply Rdiv_lt_0_compat; [destruct t; cbn; lra|apply lt_0_INR; lia].
    - intros k d p n q H. destruct (Du k d p n q H) as (_ & _ & _ & w & W & ->). now apply Forall_repeat.
    - intros. apply Dn. }
  split. { constructor; rewrite ?Bu; auto. - intros t Ht. rewrite Tu in Ht. destruct Ht as [<-|[]]. now rewrite (mo_family _ _ _ Mu). - intros t points d p [-> | ->]; reflexivity. }
  split. { rewrite Tu, (mo_family _ _ _ Mu). intros t d i Ht Hd. destruct Ht as [<-|[]]. unfold el_ndofs, interior_only. cbn [el_edofs]. destruct (i <? _)%nat; [|reflexivity]. destruct d as [|[|d]]; try reflexivity; lia. }
  split; [exact (flat_flat (built_grid id Triangle b) b)|]. split.
  { split.
    - intros n q p H Hp. destruct (centred_rule _ _ n q H) as (N & -> & Ew). rewrite Ew, repeat_length in Hp. rewrite !nth_repeat_lt by lia. cbn. lra.
    - intros k d pr n q p _ H Hp. destruct (Du k d pr n q H) as (-> & -> & _ & w & _ & Ew). rewrite Ew, repeat_length in Hp. rewrite !nth_repeat_lt by lia. cbn. lra. }
  split; [apply centred_linear|].
  assert (Hc : (0 < length (cells_of b))%nat).
  { destruct (sphere_surface real_numbers level) as (b' & E' & _ & _ & _ & Nc & _). rewrite E in E'. injection E' as <-. unfold cells_of in *. clear -Nc. pose proof (Nat.pow_nonzero 4 level ltac:(discriminate)). lia. }
  destruct (proj2 (sphere_cells level id b E) 0%nat Hc) as (p & q & r & Co & _).
  destruct (opposite_cells level b 0 p q r E Co Hl) as (s & p' & q' & r' & Co' & F). exists 0%nat, s, p, q, r, p', q', r'. auto.
Qed.

(** ** Screens *)
Theorem screen_moment_example : forall n t id e, (4 <= n)%nat -> t = Triangle \/ t = Quadrilateral -> exists b X (test : fspace R R) deg pts wmod,
  screen n t b /\ fs_grid test = built_grid id t b /\ flat_screen n X (built_grid id t b) b /\ inside_rules X t /\ exact_linear X t /\
  dense_setting X wmod (laplace_single_layer (newton e)) (after [SetBatch 3]) deg pts t test test /\
  positive_externals (Rle 0) X /\ constants reals 1 test /\ interior_family (g_types (fs_grid test) 2) (fs_family test) /\
  exists c s p q r p' q' r', corner b c 0 p /\ corner b c 1 q /\ corner b c 2 r /\ corner b s 0 p' /\ corner b s 1 q' /\ corner b s 2 r' /\
    let a := SpecWaves.distance (centre t (screen_position n p) (screen_position n q) (screen_position n r)) (centre t (screen_position n p') (screen_position n q') (screen_position n r')) in
    2 * spread t / (INR (n + 1) * INR (n + 1)) <= a * a.
Proof.
  intros n t id e Hn Ht. destruct (screen_exists n t ltac:(lia) Ht) as (b & Sn). pose proof (screen_is_shape n id t b Sn) as Sh.
  assert (S1 : standard (interior_only (fun _ => 1%nat))) by (constructor; intros; lia).
  destruct (spaces_exist R R (built_grid id t b) _ (fun _ => 1%nat) unit_basis Sh S1) as (u & Mu & _ & Bu); [intros; lia|].
  assert (Gu : fs_grid u = built_grid id t b) by apply Mu.
  assert (Tu : g_types (fs_grid u) 2 = [t]) by (rewrite Gu; reflexivity).
  set (X := centred (even_externals n b)).
  assert (Pr : proper_rules X) by apply centred_proper, even_proper.
  set (wmod := (4 + 2 * ent_count (built_grid id t b) 2 * ent_count (built_grid id t b) 2)%nat).
  destruct (made_dense R R reals X wmod (laplace_single_layer (newton e)) [SetBatch 3] (built_grid id t b) _ _ u u t Sh S1 S1 Mu Mu eq_refl (sh_laplace_single reals (newton e)) Pr (centred_rules _ _ (even_rules n b t Ht) Ht)) as (deg & pts & D).
  { split; [cbn; lia|]. change (get_batch_size (after [SetBatch 3])) with 3%nat. unfold wmod. lia. }
  { unfold wmod. lia. }
  assert (Du : forall ki d p k q, x_duffy (even_externals n b) ki d p k = Some q -> pq_test q = repeat (/ 4) (2 * k) /\ pq_trial q = repeat (/ 3) (2 * k) /\ k <> 0%nat /\ exists w, 0 <= w /\ pq_weights q = repeat w k).
  { intros ki d p k q H. cbn [even_externals x_duffy] in H. destruct (Nat.eqb_spec k 0) as [|N]; [discriminate|].
    split; [apply (f_equal (fun o => match o with Some q => pq_test q | None => [] end)) in H; now rewrite <- H|].
    split; [apply (f_equal (fun o => match o with Some q => pq_trial q | None => [] end)) in H; now rewrite <- H|]. split; [exact N|].
    apply (f_equal (fun o => match o with Some q => pq_weights q | None => [] end)) in H. cbn [pq_weights] in H. eexists. split; [|now rewrite <- H]. left. apply Rdiv_lt_0_compat; [destruct ki; cbn; lra|apply lt_0_INR; lia]. }
  exists b, X, u, deg, pts, wmod. split; [exact Sn|]. split; [exact Gu|]. split; [exact (flat_screen_flat n (built_grid id t b) b)|]. split.
  { split.
    - intros k q p H Hp. destruct (centred_rule _ _ k q H) as (N & -> & Ew). rewrite Ew, repeat_length in Hp. rewrite !nth_repeat_lt by lia. destruct Ht as [-> | ->]; cbn; lra.
    - intros ki d pr k q p _ H Hp. destruct (Du ki d pr k q H) as (-> & -> & _ & w & _ & Ew). rewrite Ew, repeat_length in Hp. rewrite !nth_repeat_lt by lia. destruct t; cbn; lra. }
  split; [apply centred_linear|]. split; [exact D|]. split.
  { constructor.
    - intros t' k q H. destruct (centred_rule _ t' k q H) as (N & _ & ->). apply Forall_repeat. left. apply Rdiv_lt_0_compat; [destruct t'; cbn; lra|apply lt_0_INR; lia].
    - intros ki d p k q H. destruct (Du ki d p k q H) as (_ & _ & _ & w & W & ->). now apply Forall_repeat.
    - intros. cbn [X centred even_externals x_geometry flat_screen_externals]. cbv zeta. cbn [cm_jdet]. apply sqrt_pos. }
  split. { constructor; rewrite ?Bu; auto. - intros t' Ht'. rewrite Tu in Ht'. destruct Ht' as [<-|[]]. rewrite (mo_family _ _ _ Mu). destruct Ht as [-> | ->]; reflexivity. - intros t' points d p [-> | ->]; reflexivity. }
  split. { rewrite Tu, (mo_family _ _ _ Mu). intros t' d i Ht' Hd. destruct Ht' as [<-|[]]. unfold el_ndofs, interior_only. cbn [el_edofs]. destruct (i <? _)%nat; [|reflexivity]. destruct d as [|[|d]]; try reflexivity; lia. }
  assert (Hp : (0 < per t)%nat) by (destruct t; cbn; lia).
  assert (C : forall x k q, (x < n)%nat -> nth_error (offsets t 0) k = Some q -> corner b (number t n x x 0) k ((x + fst q)%nat, (x + snd q)%nat)).
  { intros x k q Hx Eq. apply (corner_at n t b Sn x x 0 k _ Hx Hx Hp). exists q. auto. }
  assert (O : exists o1 o2 o3, nth_error (offsets t 0) 0 = Some o1 /\ nth_error (offsets t 0) 1 = Some o2 /\ nth_error (offsets t 0) 2 = Some o3) by (destruct Ht as [-> | ->]; do 3 eexists; repeat split; reflexivity).
  destruct O as (o1 & o2 & o3 & O1 & O2 & O3).
  exists (number t n 0 0 0), (number t n (n - 1) (n - 1) 0), ((0 + fst o1)%nat, (0 + snd o1)%nat), ((0 + fst o2)%nat, (0 + snd o2)%nat), ((0 + fst o3)%nat, (0 + snd o3)%nat),
    ((n - 1 + fst o1)%nat, (n - 1 + snd o1)%nat), ((n - 1 + fst o2)%nat, (n - 1 + snd o2)%nat), ((n - 1 + fst o3)%nat, (n - 1 + snd o3)%nat).
  do 6 (split; [apply C; [lia|assumption]|]). cbv zeta. rewrite distance_chord, sqrt_sqrt by apply chord2_nonneg.
  assert (P : 0 < INR (n + 1)) by (apply lt_0_INR; lia). assert (P4 : 3 <= INR (n - 1)) by (replace 3 with (INR 3) by (cbn; ring); apply le_INR; lia).
  match goal with |- _ <= chord2 ?x ?y => replace (chord2 x y) with (2 * (INR (n - 1) * INR (n - 1)) / (INR (n + 1) * INR (n + 1))) end.
  - unfold Rdiv. apply Rmult_le_compat_r; [left; apply Rinv_0_lt_compat; nra|]. destruct Ht as [-> | ->]; cbn [spread]; nra.
  - unfold chord2, screen_position, screen_denominator. destruct o1 as [a1 a2], o2 as [b1 b2], o3 as [c1 c2]. cbn [fst snd]. rewrite !(plus_INR (n - 1)), !(plus_INR 0). change (INR 0) with 0.
    destruct Ht as [-> | ->]; cbn [centre vadd vsub vscale inner]; field; lra.
Qed.
