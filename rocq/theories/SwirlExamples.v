(** * Examples: surface curls of continuous linear functions on the sphere and bilinear functions on screens *)
From Coq Require Import Reals Lra Psatz Permutation.
From Verif Require Import Base Topology DofMap SpecDof Process Space Options SpecOptions Scalar Integrand CellPair Operators Adjacency SpecAdjacency SpecLocal LocalResults SpecOperators Interleave Assembly SpecAssembly
  SphereResults ShapesResults AssemblyResults AssemblyTermination SpecTransfer SpecScalars SpecAlgebra SpecRounding SpecShapeSpaces ShapeSpacesResults Shapes SpecShapes SpecSphere SpecScreen SpecWidth WidthResults SpecSymmetry SymmetryResults SpecTurns TurnResults TurnExamples
  SpecBroken SpecGalerkin BrokenResults SpecMeasure SpecGauss GaussResults GaussExamples SpecShift SpecToeplitz ToeplitzResults ToeplitzExamples SpecShare ShareScreen ShareExamples SpecFloatSphere SpecApart ApartSharp KernelResults WaveKernel WaveLimits SpecWaves SpecDecay DecayPoints DecayShapes DecayExamples
  SpecMoments MomentResults MomentShapes MomentExamples SpecDegree DegreeResults DegreeShapes DegreeExamples PatchResults SpecPieces PieceResults PieceShapes PieceExamples SpecSwirls SwirlShapes.

Local Open Scope R_scope.
Local Notation dist := SpecWaves.distance.


Lemma constant_polynomial c : polynomial 0 (fun _ _ => c).
Proof. exists (fun _ _ => c). intros. cbn. ring. Qed.

(** ** Bounds *)
Lemma inner_self v : 0 <= inner v v.
Proof. destruct v as [[x y] z]. cbn. nra. Qed.

Lemma swirl_bound T B : exists M, 0 <= M /\ forall s1 s2, Rabs s1 <= B -> Rabs s2 <= B -> inner (swirl T s1 s2) (swirl T s1 s2) <= M * M.
Proof.
  destruct T as [[p q] r]. set (U := vsub r p). set (V := vsub q p). set (k := 1 / scaling (p, q, r)). set (Q := k * k * (2 * (B * B) * (inner U U + inner V V))).
  assert (SU : 0 <= inner U U) by apply inner_self. assert (SV : 0 <= inner V V) by apply inner_self. assert (PQ : 0 <= Q) by (unfold Q; apply Rmult_le_pos; [apply Rle_0_sqr|]; apply Rmult_le_pos; [nra|lra]).
  exists (sqrt Q). split; [apply sqrt_pos|]. intros s1 s2 H1 H2. rewrite sqrt_sqrt by exact PQ. unfold swirl. cbn [first_corner second_corner third_corner fst snd]. fold U V k.
  assert (Eq : inner (vscale k (vsub (vscale s1 U) (vscale s2 V))) (vscale k (vsub (vscale s1 U) (vscale s2 V))) = k * k * (2 * (s1 * s1 * inner U U + s2 * s2 * inner V V) - inner (vadd (vscale s1 U) (vscale s2 V)) (vadd (vscale s1 U) (vscale s2 V)))).
  { clearbody U V k. destruct U as [[? ?] ?], V as [[? ?] ?]. cbn. ring. }
  rewrite Eq. unfold Q. apply Rmult_le_compat_l; [apply Rle_0_sqr|]. pose proof (inner_self (vadd (vscale s1 U) (vscale s2 V))) as S0.
  assert (Sq : forall s, Rabs s <= B -> s * s <= B * B). { intros s H. rewrite <- (Rabs_pos_eq (s * s)) by apply Rle_0_sqr. rewrite Rabs_mult. pose proof (Rabs_pos s). nra. }
  pose proof (Sq s1 H1). pose proof (Sq s2 H2). nra.
Qed.

Lemma bound_over (f : nat -> R -> R -> R) ct l : (forall z, exists M, 0 <= M /\ forall x y, inside ct x y -> f z x y <= M * M) -> exists M, 0 <= M /\ forall z x y, In z l -> inside ct x y -> f z x y <= M * M.
Proof.
  intros H. induction l as [|z l (M & PM & IH)]; [exists 0; split; [lra|]; intros ? ? ? []|]. destruct (H z) as (M0 & P0 & H0). exists (M + M0). split; [lra|]. intros z' x y [<-|I] Hx.
  - specialize (H0 x y Hx). nra.
  - specialize (IH z' x y I Hx). nra.
Qed.

Lemma piece_size (fs : fspace R R) G i t x y : (forall a, Rabs (G a x y) <= 1) -> Rabs (piece fs G i t x y) <= INR (length (dofs_at fs t)).
Proof.
  intros H. unfold piece, enumerate. generalize 0%nat. induction (dofs_at fs t) as [|d l IH]; intros k; [cbn; rewrite Rabs_R0; lra|].
  specialize (IH (Datatypes.S k)). cbn [length seq combine map fold_right fst snd]. rewrite S_INR. eapply Rle_trans; [apply Rabs_triang|]. destruct (d =? i)%nat; [pose proof (H k)|rewrite Rabs_R0]; lra.
Qed.

Lemma swirls_bounded (fs : fspace R R) ct G1 G2 P i : (forall a x y, inside ct x y -> Rabs (G1 a x y) <= 1) -> (forall a x y, inside ct x y -> Rabs (G2 a x y) <= 1) ->
  exists M, 0 <= M /\ forall z x y, In z (support fs i) -> inside ct x y -> inner (piece_swirl fs G1 G2 P i z x y) (piece_swirl fs G1 G2 P i z x y) <= M * M.
Proof.
  intros H1 H2. apply (bound_over (fun z x y => inner (piece_swirl fs G1 G2 P i z x y) (piece_swirl fs G1 G2 P i z x y)) ct). intros z. destruct (swirl_bound (P z) (INR (length (dofs_at fs z)))) as (M & PM & B). exists M. split; [exact PM|].
  intros x y I. apply B; apply piece_size; auto.
Qed.

(** Opposite cells of the sphere are far apart. *)
Lemma far_cells level (b : builder vec) c p q r : regular_sphere real_numbers level 1 = Ok b -> corners_of b c p q r -> (3 <= level)%nat ->
  exists c' p' q' r', corners_of b c' p' q' r' /\ 3 * sqrt (32 / (3 * (4 ^ level + 2))) < dist (centre Triangle p q r) (centre Triangle p' q' r').
Proof.
  intros E Co Hl. destruct (sphere_symmetric level b 0 true true true E c p q r Co) as (c' & p' & q' & r' & Co' & Pm). exists c', p', q', r'. split; [exact Co'|].
  apply vsum_permutation in Pm. assert (S : vadd p' (vadd q' r') = vscale (-1) (vadd p (vadd q r))).
  { destruct p as [[? ?] ?], q as [[? ?] ?], r as [[? ?] ?], p' as [[? ?] ?], q' as [[? ?] ?], r' as [[? ?] ?]. cbn in Pm |- *. injection Pm as P1 P2 P3. f_equal; [f_equal|]; lra. }
  destruct (corners_edges b c p q r Co) as (E1 & E2 & E3). apply (longest_edge level b _ _ E) in E1, E2, E3.
  assert (U : inner p p = 1 /\ inner q q = 1 /\ inner r r = 1).
  { destruct Co as (u & v & w & _ & Eu & Ev & Ew). repeat split; eapply (sphere_unit level b E); eapply nth_error_In; eauto. }
  destruct U as (U1 & U2 & U3).
  assert (W : 64 <= 4 ^ level). { replace 64 with (4 ^ 3) by ring. apply Rle_pow; [lra|exact Hl]. }
  assert (V : chord2 (vscale (1 / 3) (vadd p (vadd q r))) (vscale (1 / 3) (vscale (-1) (vadd p (vadd q r)))) =
    4 / 9 * (3 * (inner p p + inner q q + inner r r) - (chord2 p q + chord2 q r + chord2 r p))).
  { destruct p as [[? ?] ?], q as [[? ?] ?], r as [[? ?] ?]. unfold chord2. cbn. field. }
  rewrite distance_chord. cbn [centre]. rewrite S, V, U1, U2, U3. replace 3 with (sqrt (3 * 3)) at 1 by (apply sqrt_square; lra). rewrite <- sqrt_mult_alt by lra. apply sqrt_lt_1_alt. 
  assert (L : 6 / (4 ^ level + 2) <= 6 / 66). { unfold Rdiv. apply Rmult_le_compat_l; [lra|]. apply Rinv_le_contravar; lra. }
  replace (32 / (3 * (4 ^ level + 2))) with (16 / 9 * (6 / (4 ^ level + 2))) by (field; lra).
  assert (0 < 6 / (4 ^ level + 2)) by (apply Rdiv_lt_0_compat; lra). set (u := 6 / (4 ^ level + 2)) in *. clearbody u. split; [lra|]. lra.
Qed.

(** ** The sphere *)
Theorem sphere_swirl_example : forall level id e, (3 <= level)%nat -> exists (b : builder vec) X (fs : fspace R R) P wmod deg pts,
  regular_sphere real_numbers level 1 = Ok b /\ fs_grid fs = built_grid id Triangle b /\
  dense_setting X wmod (laplace_hypersingular (newton e)) (after [SetBatch 3; SetRegular Triangle (few Triangle)]) deg pts Triangle fs fs /\
  positive_externals (Rle 0) X /\ inside_rules X Triangle /\ exact_to X Triangle (pts Triangle) (2 + 0) /\ flat_cells X (built_grid id Triangle b) b /\
  fs_family fs = lagrange 1 /\
  let F1 := fun (a : nat) (x y : R) => match a with 0%nat => -1 | 1%nat => 1 | _ => 0 end in let F2 := fun (a : nat) (x y : R) => match a with 0%nat => -1 | 1%nat => 0 | _ => 1 end in
  element_slopes fs Triangle 0 (fun a x y => match a with 0%nat => 1 - x - y | 1%nat => x | _ => y end) F1 F2 /\ (forall t p q r, corners_of b t p q r -> P t = (p, q, r)) /\
  exists t s i j p q r p' q' r' M M', corners_of b t p q r /\ corners_of b s p' q' r' /\ In i (dofs_at fs t) /\ In j (dofs_at fs s) /\
    0 <= M /\ (forall z x y, In z (support fs i) -> inside Triangle x y -> inner (piece_swirl fs F1 F2 P i z x y) (piece_swirl fs F1 F2 P i z x y) <= M * M) /\
    0 <= M' /\ (forall z x y, In z (support fs j) -> inside Triangle x y -> inner (piece_swirl fs F1 F2 P j z x y) (piece_swirl fs F1 F2 P j z x y) <= M' * M') /\
    3 * sqrt (32 / (3 * (4 ^ level + 2))) < dist (centre Triangle p q r) (centre Triangle p' q' r').
Proof.
  intros level id e Hl. assert (Ex : exists b : builder vec, regular_sphere real_numbers level 1 = Ok b) by exact (sphere_exists real_numbers level). destruct Ex as (b & E).
  pose proof (shape_sphere real_numbers level id b E) as Sh. assert (S1 : standard (lagrange 1)) by (constructor; lia).
  destruct (spaces_exist R R (built_grid id Triangle b) _ (fun _ => 1%nat) hat_basis Sh S1) as (u & Mu & _ & Bu); [intros; lia|].
  assert (Gu : fs_grid u = built_grid id Triangle b) by apply Mu. assert (Fu : fs_family u = lagrange 1) by apply Mu.
  assert (Tu : g_types (fs_grid u) 2 = [Triangle]) by (rewrite Gu; reflexivity).
  set (X := quadratic (level_externals b)).
  assert (Pr : proper_rules X) by apply quadratic_proper, level_proper.
  set (wmod := (4 + 2 * ent_count (built_grid id Triangle b) 2 * ent_count (built_grid id Triangle b) 2)%nat).
  destruct (made_dense R R reals X wmod (laplace_hypersingular (newton e)) [SetBatch 3; SetRegular Triangle (few Triangle)] (built_grid id Triangle b) _ _ u u Triangle Sh S1 S1 Mu Mu eq_refl (sh_laplace_hyper reals (newton e)) Pr (quadratic_rules _ _ _ (or_introl eq_refl) (level_rules b) (or_introl eq_refl))) as (deg & pts & D).
  { split; [apply Nat.lt_0_succ|]. change (get_batch_size (after [SetBatch 3; SetRegular Triangle (few Triangle)])) with 3%nat. unfold wmod. lia. }
  { unfold wmod. lia. }
  assert (Sp : serial_space u) by apply (dn_test _ _ _ _ _ _ _ _ _ D).
  exists b, X, u, (fun t => match nth_error (cells_of b) t with Some [u; v; w] => (SpecSphere.position (points_of b) u, SpecSphere.position (points_of b) v, SpecSphere.position (points_of b) w) | _ => ((0, 0, 0), (0, 0, 0), (0, 0, 0)) end), wmod, deg, pts.
  split; [exact E|]. split; [exact Gu|]. split; [exact D|].
  assert (Du : forall k d p n q, x_duffy (level_externals b) k d p n = Some q -> pq_test q = repeat (/ 4) (2 * n) /\ pq_trial q = repeat (/ 3) (2 * n) /\ n <> 0%nat /\ exists w, 0 <= w /\ pq_weights q = repeat w n).
  { intros k d p n q H. cbn [level_externals x_duffy flat_externals] in H. destruct (Nat.eqb_spec n 0) as [|N]; [discriminate|].
    split; [apply (f_equal (fun o => match o with Some q => pq_test q | None => [] end)) in H; now rewrite <- H|].
    split; [apply (f_equal (fun o => match o with Some q => pq_trial q | None => [] end)) in H; now rewrite <- H|]. split; [exact N|].
    apply (f_equal (fun o => match o with Some q => pq_weights q | None => [] end)) in H. cbn [pq_weights] in H. eexists. split; [|now rewrite <- H]. left. apply Rinv_0_lt_compat, lt_0_INR. lia. }
  split. { constructor.
    - intros t n q H. now apply (quadratic_inside _ t n q H).
    - intros k d p n q H. destruct (Du k d p n q H) as (_ & _ & _ & w & W & ->). now apply Forall_repeat.
    - intros. cbn [X quadratic level_externals x_geometry flat_externals]. unfold flat_map_of. cbn [cm_jdet]. apply sqrt_pos. }
  split. { split.
    - intros n q p H Hp. now apply (quadratic_inside _ _ n q H).
    - intros k d pr n q p _ H Hp. destruct (Du k d pr n q H) as (-> & -> & _ & w & _ & Ew). rewrite Ew, repeat_length in Hp. rewrite !nth_repeat_lt by lia. cbn. lra. }
  split; [apply quadratic_exact|]. split; [exact (flat_flat (built_grid id Triangle b) b)|]. split; [exact Fu|].
  intros F1 F2. split. { intros a _. split; [destruct a as [|[|a]]; apply constant_polynomial|]. split; [destruct a as [|[|a]]; apply constant_polynomial|].
    split; [intros x y; destruct a as [|[|a]]; [replace (F1 0%nat x y) with (0 - 1 - 0) by (cbn; ring); repeat apply derivable_pt_lim_minus|..]; try apply derivable_pt_lim_const; apply derivable_pt_lim_id|].
    split; [intros x y; destruct a as [|[|a]]; [replace (F2 0%nat x y) with (0 - 0 - 1) by (cbn; ring); repeat apply derivable_pt_lim_minus|..]; try apply derivable_pt_lim_const; apply derivable_pt_lim_id|].
    intros points p. rewrite Bu. unfold hat_basis. destruct a as [|[|a]]; repeat split; reflexivity. }
  split. { intros t p q r (a & a' & a2 & Ec & Ep & Eq & Er). rewrite Ec. unfold SpecSphere.position. now rewrite (nth_error_nth _ _ _ Ep), (nth_error_nth _ _ _ Eq), (nth_error_nth _ _ _ Er). }
  assert (Hc : (0 < length (cells_of b))%nat).
  { destruct (sphere_surface real_numbers level) as (b' & E' & _ & _ & _ & Nc & _). rewrite E in E'. injection E' as <-. assert (Nc' : length (@cells_of vec b) = _) by exact Nc. clear -Nc'. pose proof (Nat.pow_nonzero 4 level ltac:(discriminate)). lia. }
  destruct (proj2 (sphere_cells level id b E) 0%nat Hc) as (p & q & r & Co & _).
  destruct (far_cells level b 0 p q r E Co Hl) as (s & p' & q' & r' & Co' & F).
  assert (Three : forall c x y z, corners_of b c x y z -> length (dofs_at u c) = 3%nat).
  { intros c x y z Cc. pose proof (corners_lt level id b E c x y z Cc) as Lc. rewrite <- Gu in Lc. rewrite (dofs_at_dim u c Sp Lc), Fu.
    pose proof (wf_ctype _ (ss_grid _ Sp) c Lc) as H. rewrite Tu in H. destruct H as [<-|[]]. reflexivity. }
  pose proof (Three 0%nat p q r Co) as N0. pose proof (Three s p' q' r' Co') as Ns.
  assert (I0 : exists i, In i (dofs_at u 0)) by (destruct (dofs_at u 0) as [|i l]; [discriminate N0|exists i; now left]).
  assert (Is : exists j, In j (dofs_at u s)) by (destruct (dofs_at u s) as [|j l]; [discriminate Ns|exists j; now left]).
  destruct I0 as (i & Hi), Is as (j & Hj).
  assert (B1 : forall a x y, inside Triangle x y -> Rabs (F1 a x y) <= 1) by (intros [|[|a]] x y _; cbn; apply Rabs_le; lra).
  assert (B2 : forall a x y, inside Triangle x y -> Rabs (F2 a x y) <= 1) by (intros [|[|a]] x y _; cbn; apply Rabs_le; lra).
  match goal with |- exists t s i j p q r p' q' r' M M', corners_of _ _ _ _ _ /\ _ /\ _ /\ _ /\ _ /\ (forall z x y, _ -> _ -> inner (piece_swirl _ _ _ ?PP _ _ _ _) _ <= _) /\ _ => destruct (swirls_bounded u Triangle F1 F2 PP i B1 B2) as (M & PM & HM), (swirls_bounded u Triangle F1 F2 PP j B1 B2) as (M' & PM' & HM') end.
  exists 0%nat, s, i, j, p, q, r, p', q', r', M, M'. repeat (split; [eassumption|]). exact F.
Qed.

(** ** Screens *)
Theorem screen_swirl_example : forall n id e, (6 <= n)%nat -> exists (b : builder (nat * nat)) X (fs : fspace R R) P wmod deg pts,
  screen n Quadrilateral b /\ fs_grid fs = built_grid id Quadrilateral b /\
  dense_setting X wmod (laplace_hypersingular (newton e)) (after [SetBatch 3; SetRegular Quadrilateral (few Quadrilateral)]) deg pts Quadrilateral fs fs /\
  positive_externals (Rle 0) X /\ inside_rules X Quadrilateral /\ exact_to X Quadrilateral (pts Quadrilateral) (1 + 1) /\ flat_screen n X (built_grid id Quadrilateral b) b /\
  fs_family fs = lagrange 1 /\
  let F1 := fun (a : nat) (x y : R) => match a with 0%nat => y - 1 | 1%nat => 1 - y | 2%nat => - y | _ => y end in let F2 := fun (a : nat) (x y : R) => match a with 0%nat => x - 1 | 1%nat => - x | 2%nat => 1 - x | _ => x end in
  element_slopes fs Quadrilateral 1 (fun a x y => match a with 0%nat => (1 - x) * (1 - y) | 1%nat => x * (1 - y) | 2%nat => (1 - x) * y | _ => x * y end) F1 F2 /\
  (forall t p q r, corner b t 0 p -> corner b t 1 q -> corner b t 2 r -> P t = (screen_position n p, screen_position n q, screen_position n r)) /\
  exists t s i j p q r p' q' r' M M', corner b t 0 p /\ corner b t 1 q /\ corner b t 2 r /\ corner b s 0 p' /\ corner b s 1 q' /\ corner b s 2 r' /\ In i (dofs_at fs t) /\ In j (dofs_at fs s) /\
    0 <= M /\ (forall z x y, In z (support fs i) -> inside Quadrilateral x y -> inner (piece_swirl fs F1 F2 P i z x y) (piece_swirl fs F1 F2 P i z x y) <= M * M) /\
    0 <= M' /\ (forall z x y, In z (support fs j) -> inside Quadrilateral x y -> inner (piece_swirl fs F1 F2 P j z x y) (piece_swirl fs F1 F2 P j z x y) <= M' * M') /\
    3 * (sqrt (spread Quadrilateral / 2) / INR (n + 1)) < dist (centre Quadrilateral (screen_position n p) (screen_position n q) (screen_position n r)) (centre Quadrilateral (screen_position n p') (screen_position n q') (screen_position n r')).
Proof.
  intros n id e Hn. set (t := Quadrilateral). assert (Ht : t = Triangle \/ t = Quadrilateral) by now right. destruct (screen_exists n t ltac:(lia) Ht) as (b & Sn). pose proof (screen_is_shape n id t b Sn) as Sh.
  assert (S1 : standard (lagrange 1)) by (constructor; lia).
  destruct (spaces_exist R R (built_grid id t b) _ (fun _ => 1%nat) bilinear_basis Sh S1) as (u & Mu & _ & Bu); [intros; lia|].
  assert (Gu : fs_grid u = built_grid id t b) by apply Mu. assert (Fu : fs_family u = lagrange 1) by apply Mu.
  assert (Tu : g_types (fs_grid u) 2 = [t]) by (rewrite Gu; reflexivity).
  set (X := quadratic (even_externals n b)).
  assert (Pr : proper_rules X) by apply quadratic_proper, even_proper.
  set (wmod := (4 + 2 * ent_count (built_grid id t b) 2 * ent_count (built_grid id t b) 2)%nat).
  destruct (made_dense R R reals X wmod (laplace_hypersingular (newton e)) [SetBatch 3; SetRegular t (few t)] (built_grid id t b) _ _ u u t Sh S1 S1 Mu Mu eq_refl (sh_laplace_hyper reals (newton e)) Pr (quadratic_rules _ _ _ (or_introl eq_refl) (even_rules n b t Ht) Ht)) as (deg & pts & D).
  { split; [apply Nat.lt_0_succ|]. change (get_batch_size (after [SetBatch 3; SetRegular t (few t)])) with 3%nat. unfold wmod. lia. }
  { unfold wmod. lia. }
  assert (Sp : serial_space u) by apply (dn_test _ _ _ _ _ _ _ _ _ D).
  assert (Du : forall ki d p k q, x_duffy (even_externals n b) ki d p k = Some q -> pq_test q = repeat (/ 4) (2 * k) /\ pq_trial q = repeat (/ 3) (2 * k) /\ k <> 0%nat /\ exists w, 0 <= w /\ pq_weights q = repeat w k).
  { intros ki d p k q H. cbn [even_externals x_duffy] in H. destruct (Nat.eqb_spec k 0) as [|N]; [discriminate|].
    split; [apply (f_equal (fun o => match o with Some q => pq_test q | None => [] end)) in H; now rewrite <- H|].
    split; [apply (f_equal (fun o => match o with Some q => pq_trial q | None => [] end)) in H; now rewrite <- H|]. split; [exact N|].
    apply (f_equal (fun o => match o with Some q => pq_weights q | None => [] end)) in H. cbn [pq_weights] in H. eexists. split; [|now rewrite <- H]. left. apply Rdiv_lt_0_compat; [destruct ki; cbn; lra|apply lt_0_INR; lia]. }
  exists b, X, u, (fun c => match nth_error (cells_of b) c with Some (u :: v :: w :: _) => (screen_position n (nth u (points_of b) (0%nat, 0%nat)), screen_position n (nth v (points_of b) (0%nat, 0%nat)), screen_position n (nth w (points_of b) (0%nat, 0%nat))) | _ => ((0, 0, 0), (0, 0, 0), (0, 0, 0)) end), wmod, deg, pts.
  split; [exact Sn|]. split; [exact Gu|]. split; [exact D|]. split.
  { constructor.
    - intros t' k q H. now apply (quadratic_inside _ t' k q H).
    - intros ki d p k q H. destruct (Du ki d p k q H) as (_ & _ & _ & w & W & ->). now apply Forall_repeat.
    - intros. cbn [X quadratic even_externals x_geometry flat_screen_externals]. cbv zeta. cbn [cm_jdet]. apply sqrt_pos. }
  split.
  { split.
    - intros k q p H Hp. now apply (quadratic_inside _ _ k q H).
    - intros ki d pr k q p _ H Hp. destruct (Du ki d pr k q H) as (-> & -> & _ & w & _ & Ew). rewrite Ew, repeat_length in Hp. rewrite !nth_repeat_lt by lia. cbn; lra. }
  split; [apply quadratic_exact|]. split; [exact (flat_screen_flat n (built_grid id t b) b)|]. split; [exact Fu|].
  intros F1 F2. split. { intros a _.
    assert (Pol : forall k k1 k2, polynomial 1 (fun x y => k + k1 * x + k2 * y)). { intros k k1 k2. exists (fun i j => match i, j with 0%nat, 0%nat => k | 1%nat, _ => k1 | _, _ => k2 end). intros. cbn. ring. }
    assert (Ext : forall f g, (forall x y, f x y = g x y) -> polynomial 1 g -> polynomial 1 f). { intros f g H (cs & Hg). exists cs. intros. now rewrite H. }
    assert (Der : forall (f : R -> R) k k1 l, (forall z, f z = k + k1 * z) -> l = k1 -> forall z, derivable_pt_lim f z l).
    { intros f k k1 l Hf -> z. replace k1 with (0 + k1 * 1) by ring. apply derivable_pt_lim_ext with (fun z => k + k1 * z); [intros; now rewrite Hf|]. apply (derivable_pt_lim_plus (fun _ => k) (fun z => k1 * z)); [apply derivable_pt_lim_const|]. apply (derivable_pt_lim_scal Ranalysis1.id). apply derivable_pt_lim_id. }
    split; [destruct a as [|[|[|a]]]; [eapply Ext; [|apply (Pol (-1) 0 1)]|eapply Ext; [|apply (Pol 1 0 (-1))]|eapply Ext; [|apply (Pol 0 0 (-1))]|eapply Ext; [|apply (Pol 0 0 1)]]; intros; cbn; ring|].
    split; [destruct a as [|[|[|a]]]; [eapply Ext; [|apply (Pol (-1) 1 0)]|eapply Ext; [|apply (Pol 0 (-1) 0)]|eapply Ext; [|apply (Pol 1 (-1) 0)]|eapply Ext; [|apply (Pol 0 1 0)]]; intros; cbn; ring|].
    split; [intros x y; destruct a as [|[|[|a]]]; [apply (Der _ (1 - y) (y - 1))|apply (Der _ 0 (1 - y))|apply (Der _ y (- y))|apply (Der _ 0 y)]; intros; cbn; ring|].
    split; [intros x y; destruct a as [|[|[|a]]]; [apply (Der _ (1 - x) (x - 1))|apply (Der _ x (- x))|apply (Der _ 0 (1 - x))|apply (Der _ 0 x)]; intros; cbn; ring|].
    intros points p. rewrite Bu. unfold bilinear_basis. destruct a as [|[|[|a]]]; repeat split; reflexivity. }
  split. { intros c p q r (vs & v0 & Ec & E0 & P0) (vs1 & v1 & Ec1 & E1 & P1) (vs2 & v2 & Ec2 & E2 & P2).
    rewrite Ec in Ec1, Ec2. injection Ec1 as <-. injection Ec2 as <-. rewrite Ec. destruct vs as [|w0 [|w1 [|w2 l]]]; try discriminate. cbn in E0, E1, E2. injection E0 as ->. injection E1 as ->. injection E2 as ->.
    now rewrite (nth_error_nth _ _ _ P0), (nth_error_nth _ _ _ P1), (nth_error_nth _ _ _ P2). }
  assert (C : forall x k q, (x < n)%nat -> nth_error (offsets t 0) k = Some q -> corner b (number t n x x 0) k ((x + fst q)%nat, (x + snd q)%nat)).
  { intros x k q Hx Eq. apply (corner_at n t b Sn x x 0 k _ Hx Hx Nat.lt_0_1). exists q. auto. }
  assert (Four : forall x, (x < n)%nat -> length (dofs_at u (number t n x x 0)) = 4%nat).
  { intros x Hx. assert (Lc : (number t n x x 0 < ent_count (fs_grid u) 2)%nat). { rewrite Gu, (screen_cell_count n id t b Sn). destruct (C x 0%nat (0%nat, 0%nat) Hx eq_refl) as (vs & v & Ec & _). apply nth_error_Some. congruence. }
    rewrite (dofs_at_dim u _ Sp Lc), Fu. pose proof (wf_ctype _ (ss_grid _ Sp) _ Lc) as H. rewrite Tu in H. destruct H as [<-|[]]. reflexivity. }
  pose proof (Four 0%nat ltac:(lia)) as N0. pose proof (Four (n - 1)%nat ltac:(lia)) as Ns.
  assert (I0 : exists i, In i (dofs_at u (number t n 0 0 0))) by (destruct (dofs_at u (number t n 0 0 0)) as [|i l]; [discriminate N0|exists i; now left]).
  assert (Is : exists j, In j (dofs_at u (number t n (n - 1) (n - 1) 0))) by (destruct (dofs_at u (number t n (n - 1) (n - 1) 0)) as [|j l]; [discriminate Ns|exists j; now left]).
  destruct I0 as (i & Hi), Is as (j & Hj).
  assert (B1 : forall a x y, inside t x y -> Rabs (F1 a x y) <= 1) by (intros [|[|[|a]]] x y I; cbn in I |- *; apply Rabs_le; lra).
  assert (B2 : forall a x y, inside t x y -> Rabs (F2 a x y) <= 1) by (intros [|[|[|a]]] x y I; cbn in I |- *; apply Rabs_le; lra).
  match goal with |- exists t s i j p q r p' q' r' M M', _ /\ _ /\ _ /\ _ /\ _ /\ _ /\ _ /\ _ /\ _ /\ (forall z x y, _ -> _ -> inner (piece_swirl _ _ _ ?PP _ _ _ _) _ <= _) /\ _ => destruct (swirls_bounded u t F1 F2 PP i B1 B2) as (M & PM & HM), (swirls_bounded u t F1 F2 PP j B1 B2) as (M' & PM' & HM') end.
  exists (number t n 0 0 0), (number t n (n - 1) (n - 1) 0), i, j, ((0 + 0)%nat, (0 + 0)%nat), ((0 + 1)%nat, (0 + 0)%nat), ((0 + 0)%nat, (0 + 1)%nat),
    ((n - 1 + 0)%nat, (n - 1 + 0)%nat), ((n - 1 + 1)%nat, (n - 1 + 0)%nat), ((n - 1 + 0)%nat, (n - 1 + 1)%nat), M, M'.
  split; [apply (C 0%nat 0%nat (0%nat, 0%nat)); [lia|reflexivity]|]. split; [apply (C 0%nat 1%nat (1%nat, 0%nat)); [lia|reflexivity]|]. split; [apply (C 0%nat 2%nat (0%nat, 1%nat)); [lia|reflexivity]|].
  split; [apply (C (n - 1)%nat 0%nat (0%nat, 0%nat)); [lia|reflexivity]|]. split; [apply (C (n - 1)%nat 1%nat (1%nat, 0%nat)); [lia|reflexivity]|]. split; [apply (C (n - 1)%nat 2%nat (0%nat, 1%nat)); [lia|reflexivity]|].
  split; [exact Hi|]. split; [exact Hj|].
  split; [exact PM|]. split; [exact HM|]. split; [exact PM'|]. split; [exact HM'|].
  assert (PN : 0 < INR (n + 1)) by (apply lt_0_INR; lia). unfold t in *. cbn [spread].
  rewrite distance_chord.
  match goal with |- _ < sqrt (chord2 ?x ?y) => replace (chord2 x y) with (2 * ((INR (n - 1) / INR (n + 1)) * (INR (n - 1) / INR (n + 1)))) end.
  - assert (P4 : 5 <= INR (n - 1)) by (replace 5 with (INR 5) by (cbn; ring); apply le_INR; lia). rewrite sqrt_mult_alt by lra. assert (Q : 0 <= INR (n - 1) / INR (n + 1)) by (apply Rmult_le_pos; [lra|left; now apply Rinv_0_lt_compat]). rewrite sqrt_square by exact Q.
    replace (4 / 2) with 2 by field. assert (S2 : 0 < sqrt 2) by (apply sqrt_lt_R0; lra). unfold Rdiv. assert (0 < / INR (n + 1)) by now apply Rinv_0_lt_compat.
    replace (3 * (sqrt 2 * / INR (n + 1))) with (sqrt 2 * (3 * / INR (n + 1))) by ring. apply Rmult_lt_compat_l; [exact S2|]. apply Rmult_lt_compat_r; lra.
  - unfold chord2, screen_position, screen_denominator. cbn [fst snd]. rewrite !(plus_INR (n - 1)), !(plus_INR 0). change (INR 0) with 0. change (INR 1) with 1.
    cbn [centre vadd vsub vscale inner]; field; lra.
Qed.
