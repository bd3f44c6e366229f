(** * Examples: two rules that are exact for quadratic polynomials *)
From Coq Require Import Reals Lra Psatz Permutation.
From Verif Require Import Base Topology DofMap SpecDof Process Space Options SpecOptions Scalar Integrand CellPair Operators Adjacency SpecAdjacency SpecLocal LocalResults SpecOperators Interleave Assembly SpecAssembly
  SphereResults ShapesResults AssemblyResults AssemblyTermination SpecTransfer SpecScalars SpecAlgebra SpecRounding SpecShapeSpaces ShapeSpacesResults Shapes SpecShapes SpecSphere SpecScreen SpecWidth WidthResults SpecSymmetry SymmetryResults SpecTurns TurnResults TurnExamples
  SpecBroken SpecGalerkin SpecMeasure SpecGauss GaussResults GaussExamples SpecShift SpecToeplitz ToeplitzResults ToeplitzExamples SpecShare ShareScreen ShareExamples SpecFloatSphere SpecApart ApartSharp KernelResults WaveKernel WaveLimits SpecWaves SpecDecay DecayPoints DecayShapes DecayExamples
  SpecMoments MomentResults MomentShapes MomentExamples SpecDegree DegreeResults DegreeShapes.

Local Open Scope R_scope.

(** Points and weights: midpoints of the edges, and midpoints, corners and centre for the
    triangle; midpoints and centre, and the product of Simpson's rule for the square. *)
Definition nodes (t : cell_type) (n : nat) : list (R * R * R) :=
  match t, n with
  | Triangle, 3%nat => [(1 / 2, 0, 1 / 6); (0, 1 / 2, 1 / 6); (1 / 2, 1 / 2, 1 / 6)]
  | Triangle, 7%nat => [(1 / 2, 0, 1 / 15); (0, 1 / 2, 1 / 15); (1 / 2, 1 / 2, 1 / 15); (0, 0, 1 / 40); (1, 0, 1 / 40); (0, 1, 1 / 40); (1 / 3, 1 / 3, 9 / 40)]
  | Quadrilateral, 5%nat => [(1 / 2, 0, 1 / 6); (0, 1 / 2, 1 / 6); (1 / 2, 1, 1 / 6); (1, 1 / 2, 1 / 6); (1 / 2, 1 / 2, 1 / 3)]
  | Quadrilateral, 9%nat => [(0, 0, 1 / 36); (1, 0, 1 / 36); (0, 1, 1 / 36); (1, 1, 1 / 36); (1 / 2, 0, 1 / 9); (0, 1 / 2, 1 / 9); (1 / 2, 1, 1 / 9); (1, 1 / 2, 1 / 9); (1 / 2, 1 / 2, 4 / 9)]
  | _, _ => []
  end.
Definition few (t : cell_type) : nat := match t with Triangle => 3 | _ => 5 end.
Definition many (t : cell_type) : nat := match t with Triangle => 7 | _ => 9 end.

Definition quadratic (X : externals R) : externals R := mkExternals R
  (fun t n => match nodes t n with [] => None | l => Some (mkQuadrature (flat_map (fun z => [fst (fst z); snd (fst z)]) l) (map snd l)) end)
  (x_duffy X) (x_geometry X).

Lemma quadratic_rule X t n q : x_simplex (quadratic X) t n = Some q ->
  ((t = Triangle /\ (n = 3 \/ n = 7)) \/ (t = Quadrilateral /\ (n = 5 \/ n = 9)))%nat /\ qd_points q = flat_map (fun z => [fst (fst z); snd (fst z)]) (nodes t n) /\ qd_weights q = map snd (nodes t n).
Proof.
  cbn [quadratic x_simplex]. destruct (nodes t n) as [|z l] eqn:En; [discriminate|]. intros H. split; [|split].
  - destruct t; cbn in En; try discriminate En.
    + left. split; [reflexivity|]. do 8 (destruct n as [|n]; [try discriminate En; auto|]). discriminate En.
    + right. split; [reflexivity|]. do 10 (destruct n as [|n]; [try discriminate En; auto|]). discriminate En.
  - apply (f_equal (fun o => match o with Some q => qd_points q | None => [] end)) in H. now rewrite <- H.
  - apply (f_equal (fun o => match o with Some q => qd_weights q | None => [] end)) in H. now rewrite <- H.
Qed.

Lemma quadratic_proper X : proper_rules X -> proper_rules (quadratic X).
Proof.
  intros [_ B]. constructor; [|exact B]. intros t n q H. destruct (quadratic_rule X t n q H) as (K & -> & ->). destruct K as [(-> & [-> | ->])|(-> & [-> | ->])]; split; reflexivity.
Qed.

Lemma quadratic_rules X t n : (n = few t \/ n = many t) -> rules_exist X t (after [SetBatch 3]) -> t = Triangle \/ t = Quadrilateral -> rules_exist (quadratic X) t (after [SetBatch 3; SetRegular t n]).
Proof.
  intros Hn [_ B] Ht. split.
  - intros k H. destruct Ht as [-> | ->]; vm_compute in H; injection H as <-; destruct Hn as [-> | ->]; eexists; reflexivity.
  - intros k p kind H. apply B. destruct Ht as [-> | ->]; exact H.
Qed.

Lemma quadratic_exact X t n : exact_to (quadratic X) t n 2.
Proof.
  intros q H i j L. destruct (quadratic_rule X t n q H) as (K & Ep & Ew). unfold monomial_sum. rewrite Ep, Ew.
  assert (C : (i = 0 /\ (j = 0 \/ j = 1 \/ j = 2) \/ i = 1 /\ (j = 0 \/ j = 1) \/ i = 2 /\ j = 0)%nat) by lia.
  destruct K as [(-> & [-> | ->])|(-> & [-> | ->])]; destruct C as [(-> & [-> | [-> | ->]])|[(-> & [-> | ->])|(-> & ->)]]; cbn; field.
Qed.

Lemma quadratic_inside X t n q : x_simplex (quadratic X) t n = Some q -> Forall (Rle 0) (qd_weights q) /\
  forall p, (p < length (qd_weights q))%nat -> inside t (nth (2 * p) (qd_points q) 0) (nth (2 * p + 1) (qd_points q) 0).
Proof.
  intros H. destruct (quadratic_rule X t n q H) as (K & -> & ->). destruct K as [(-> & [-> | ->])|(-> & [-> | ->])]; cbn [nodes map snd length]; (split; [repeat constructor; lra|]); intros p Hp.
  - do 3 (destruct p as [|p]; [cbn; lra|]). lia.
  - do 7 (destruct p as [|p]; [cbn; lra|]). lia.
  - do 5 (destruct p as [|p]; [cbn; lra|]). lia.
  - do 9 (destruct p as [|p]; [cbn; lra|]). lia.
Qed.

Lemma far_root x a : 0 <= a -> 0 < x -> 4 * x <= a * a -> sqrt x < a.
Proof. intros Ha Hx H. rewrite <- (sqrt_square a Ha). apply sqrt_lt_1_alt. nra. Qed.

(** ** The sphere *)
Theorem sphere_degree_example : forall level id e, (2 <= level)%nat -> exists b X (test : fspace R R) deg deg' pts pts' wmod,
  regular_sphere real_numbers level 1 = Ok b /\ fs_grid test = built_grid id Triangle b /\
  dense_setting X wmod (laplace_single_layer (newton e)) (after [SetBatch 3; SetRegular Triangle (few Triangle)]) deg pts Triangle test test /\
  dense_setting X wmod (laplace_single_layer (newton e)) (after [SetBatch 3; SetRegular Triangle (many Triangle)]) deg' pts' Triangle test test /\
  positive_externals (Rle 0) X /\ constants reals 1 test /\ interior_family (g_types (fs_grid test) 2) (fs_family test) /\
  flat_cells X (built_grid id Triangle b) b /\ inside_rules X Triangle /\ exact_to X Triangle (pts Triangle) 2 /\ exact_to X Triangle (pts' Triangle) 2 /\
  exists t s p q r p' q' r', corners_of b t p q r /\ corners_of b s p' q' r' /\
    sqrt (32 / (3 * (4 ^ level + 2))) < SpecWaves.distance (centre Triangle p q r) (centre Triangle p' q' r').
Proof.
  intros level id e Hl. destruct (sphere_exists real_numbers level) as (b & E).
  pose proof (shape_sphere real_numbers level id b E) as Sh.
  assert (S1 : standard (interior_only (fun _ => 1%nat))) by (constructor; intros; lia).
  destruct (spaces_exist R R (built_grid id Triangle b) _ (fun _ => 1%nat) unit_basis Sh S1) as (u & Mu & _ & Bu); [intros; lia|].
  assert (Gu : fs_grid u = built_grid id Triangle b) by apply Mu.
  assert (Tu : g_types (fs_grid u) 2 = [Triangle]) by (rewrite Gu; reflexivity).
  set (X := quadratic (level_externals b)).
  assert (Pr : proper_rules X) by apply quadratic_proper, level_proper.
  assert (Dn : determinants_not_negative (level_externals b)) by (intros g t points c j; cbn [level_externals x_geometry flat_externals]; unfold flat_map_of; cbn [cm_jdet]; apply sqrt_pos).
  set (wmod := (4 + 2 * ent_count (built_grid id Triangle b) 2 * ent_count (built_grid id Triangle b) 2)%nat).
  destruct (made_dense R R reals X wmod (laplace_single_layer (newton e)) [SetBatch 3; SetRegular Triangle (few Triangle)] (built_grid id Triangle b) _ _ u u Triangle Sh S1 S1 Mu Mu eq_refl (sh_laplace_single reals (newton e)) Pr (quadratic_rules _ _ _ (or_introl eq_refl) (level_rules b) (or_introl eq_refl))) as (deg & pts & D).
  { split; [apply Nat.lt_0_succ|]. change (get_batch_size (after [SetBatch 3; SetRegular Triangle (few Triangle)])) with 3%nat. unfold wmod. lia. }
  { unfold wmod. lia. }
  destruct (made_dense R R reals X wmod (laplace_single_layer (newton e)) [SetBatch 3; SetRegular Triangle (many Triangle)] (built_grid id Triangle b) _ _ u u Triangle Sh S1 S1 Mu Mu eq_refl (sh_laplace_single reals (newton e)) Pr (quadratic_rules _ _ _ (or_intror eq_refl) (level_rules b) (or_introl eq_refl))) as (deg' & pts' & D').
  { split; [apply Nat.lt_0_succ|]. change (get_batch_size (after [SetBatch 3; SetRegular Triangle (many Triangle)])) with 3%nat. unfold wmod. lia. }
  { unfold wmod. lia. }
  exists b, X, u, deg, deg', pts, pts', wmod. split; [exact E|]. split; [exact Gu|]. split; [exact D|]. split; [exact D'|].
  assert (Du : forall k d p n q, x_duffy (level_externals b) k d p n = Some q -> pq_test q = repeat (/ 4) (2 * n) /\ pq_trial q = repeat (/ 3) (2 * n) /\ n <> 0%nat /\ exists w, 0 <= w /\ pq_weights q = repeat w n).
  { intros k d p n q H. cbn [level_externals x_duffy flat_externals] in H. destruct (Nat.eqb_spec n 0) as [|N]; [discriminate|].
    split; [apply (f_equal (fun o => match o with Some q => pq_test q | None => [] end)) in H; now rewrite <- H|].
    split; [apply (f_equal (fun o => match o with Some q => pq_trial q | None => [] end)) in H; now rewrite <- H|]. split; [exact N|].
    apply (f_equal (fun o => match o with Some q => pq_weights q | None => [] end)) in H. cbn [pq_weights] in H. eexists. split; [|now rewrite <- H]. left. apply Rinv_0_lt_compat, lt_0_INR. lia. }
  split. { constructor.
    - intros t n q H. now apply (quadratic_inside _ t n q H).
    - intros k d p n q H. destruct (Du k d p n q H) as (_ & _ & _ & w & W & ->). now apply Forall_repeat.
    - intros. apply Dn. }
  split. { constructor; rewrite ?Bu; auto. - intros t Ht. rewrite Tu in Ht. destruct Ht as [<-|[]]. now rewrite (mo_family _ _ _ Mu). - intros t points d p [-> | ->]; reflexivity. }
  split. { rewrite Tu, (mo_family _ _ _ Mu). intros t d i Ht Hd. destruct Ht as [<-|[]]. unfold el_ndofs, interior_only. cbn [el_edofs]. destruct (i <? _)%nat; [|reflexivity]. destruct d as [|[|d]]; try reflexivity; lia. }
  split; [exact (flat_flat (built_grid id Triangle b) b)|]. split.
  { split.
    - intros n q p H Hp. now apply (quadratic_inside _ _ n q H).
    - intros k d pr n q p _ H Hp. destruct (Du k d pr n q H) as (-> & -> & _ & w & _ & Ew). rewrite Ew, repeat_length in Hp. rewrite !nth_repeat_lt by lia. cbn. lra. }
  split; [apply quadratic_exact|]. split; [apply quadratic_exact|].
  assert (Hc : (0 < length (cells_of b))%nat).
  { destruct (sphere_surface real_numbers level) as (b' & E' & _ & _ & _ & Nc & _). rewrite E in E'. injection E' as <-. unfold cells_of in *. clear -Nc. pose proof (Nat.pow_nonzero 4 level ltac:(discriminate)). lia. }
  destruct (proj2 (sphere_cells level id b E) 0%nat Hc) as (p & q & r & Co & _).
  destruct (opposite_cells level b 0 p q r E Co Hl) as (s & p' & q' & r' & Co' & F). exists 0%nat, s, p, q, r, p', q', r'. split; [exact Co|]. split; [exact Co'|].
  assert (P4 : 0 < 4 ^ level) by (apply pow_lt; lra). apply far_root; [apply dist_nonneg|apply Rdiv_lt_0_compat; lra|]. eapply Rle_trans; [|exact F]. right. field. lra.
Qed.

(** ** Screens *)
Theorem screen_degree_example : forall n t id e, (4 <= n)%nat -> t = Triangle \/ t = Quadrilateral -> exists b X (test : fspace R R) deg deg' pts pts' wmod,
  screen n t b /\ fs_grid test = built_grid id t b /\ flat_screen n X (built_grid id t b) b /\ inside_rules X t /\ exact_to X t (pts t) 2 /\ exact_to X t (pts' t) 2 /\
  dense_setting X wmod (laplace_single_layer (newton e)) (after [SetBatch 3; SetRegular t (few t)]) deg pts t test test /\
  dense_setting X wmod (laplace_single_layer (newton e)) (after [SetBatch 3; SetRegular t (many t)]) deg' pts' t test test /\
  positive_externals (Rle 0) X /\ constants reals 1 test /\ interior_family (g_types (fs_grid test) 2) (fs_family test) /\
  exists c s p q r p' q' r', corner b c 0 p /\ corner b c 1 q /\ corner b c 2 r /\ corner b s 0 p' /\ corner b s 1 q' /\ corner b s 2 r' /\
    let a := SpecWaves.distance (centre t (screen_position n p) (screen_position n q) (screen_position n r)) (centre t (screen_position n p') (screen_position n q') (screen_position n r')) in
    sqrt (spread t / 2) / INR (n + 1) < a.
Proof.
  intros n t id e Hn Ht. destruct (screen_exists n t ltac:(lia) Ht) as (b & Sn). pose proof (screen_is_shape n id t b Sn) as Sh.
  assert (S1 : standard (interior_only (fun _ => 1%nat))) by (constructor; intros; lia).
  destruct (spaces_exist R R (built_grid id t b) _ (fun _ => 1%nat) unit_basis Sh S1) as (u & Mu & _ & Bu); [intros; lia|].
  assert (Gu : fs_grid u = built_grid id t b) by apply Mu.
  assert (Tu : g_types (fs_grid u) 2 = [t]) by (rewrite Gu; reflexivity).
  set (X := quadratic (even_externals n b)).
  assert (Pr : proper_rules X) by apply quadratic_proper, even_proper.
  set (wmod := (4 + 2 * ent_count (built_grid id t b) 2 * ent_count (built_grid id t b) 2)%nat).
  destruct (made_dense R R reals X wmod (laplace_single_layer (newton e)) [SetBatch 3; SetRegular t (few t)] (built_grid id t b) _ _ u u t Sh S1 S1 Mu Mu eq_refl (sh_laplace_single reals (newton e)) Pr (quadratic_rules _ _ _ (or_introl eq_refl) (even_rules n b t Ht) Ht)) as (deg & pts & D).
  { split; [apply Nat.lt_0_succ|]. change (get_batch_size (after [SetBatch 3; SetRegular t (few t)])) with 3%nat. unfold wmod. lia. }
  { unfold wmod. lia. }
  destruct (made_dense R R reals X wmod (laplace_single_layer (newton e)) [SetBatch 3; SetRegular t (many t)] (built_grid id t b) _ _ u u t Sh S1 S1 Mu Mu eq_refl (sh_laplace_single reals (newton e)) Pr (quadratic_rules _ _ _ (or_intror eq_refl) (even_rules n b t Ht) Ht)) as (deg' & pts' & D').
  { split; [apply Nat.lt_0_succ|]. change (get_batch_size (after [SetBatch 3; SetRegular t (many t)])) with 3%nat. unfold wmod. lia. }
  { unfold wmod. lia. }
  assert (Du : forall ki d p k q, x_duffy (even_externals n b) ki d p k = Some q -> pq_test q = repeat (/ 4) (2 * k) /\ pq_trial q = repeat (/ 3) (2 * k) /\ k <> 0%nat /\ exists w, 0 <= w /\ pq_weights q = repeat w k).
  { intros ki d p k q H. cbn [even_externals x_duffy] in H. destruct (Nat.eqb_spec k 0) as [|N]; [discriminate|].
    split; [apply (f_equal (fun o => match o with Some q => pq_test q | None => [] end)) in H; now rewrite <- H|].
    split; [apply (f_equal (fun o => match o with Some q => pq_trial q | None => [] end)) in H; now rewrite <- H|]. split; [exact N|].
    apply (f_equal (fun o => match o with Some q => pq_weights q | None => [] end)) in H. cbn [pq_weights] in H. eexists. split; [|now rewrite <- H]. left. apply Rdiv_lt_0_compat; [destruct ki; cbn; lra|apply lt_0_INR; lia]. }
  exists b, X, u, deg, deg', pts, pts', wmod. split; [exact Sn|]. split; [exact Gu|]. split; [exact (flat_screen_flat n (built_grid id t b) b)|]. split.
  { split.
    - intros k q p H Hp. now apply (quadratic_inside _ _ k q H).
    - intros ki d pr k q p _ H Hp. destruct (Du ki d pr k q H) as (-> & -> & _ & w & _ & Ew). rewrite Ew, repeat_length in Hp. rewrite !nth_repeat_lt by lia. destruct t; cbn; lra. }
  split; [apply quadratic_exact|]. split; [apply quadratic_exact|]. split; [exact D|]. split; [exact D'|]. split.
  { constructor.
    - intros t' k q H. now apply (quadratic_inside _ t' k q H).
    - intros ki d p k q H. destruct (Du ki d p k q H) as (_ & _ & _ & w & W & ->). now apply Forall_repeat.
    - intros. cbn [X quadratic even_externals x_geometry flat_screen_externals]. cbv zeta. cbn [cm_jdet]. apply sqrt_pos. }
  split. { constructor; rewrite ?Bu; auto. - intros t' Ht'. rewrite Tu in Ht'. destruct Ht' as [<-|[]]. rewrite (mo_family _ _ _ Mu). destruct Ht as [-> | ->]; reflexivity. - intros t' points d p [-> | ->]; reflexivity. }
  split. { rewrite Tu, (mo_family _ _ _ Mu). intros t' d i Ht' Hd. destruct Ht' as [<-|[]]. unfold el_ndofs, interior_only. cbn [el_edofs]. destruct (i <? _)%nat; [|reflexivity]. destruct d as [|[|d]]; try reflexivity; lia. }
  assert (Hp : (0 < per t)%nat) by (destruct t; cbn; lia).
  assert (C : forall x k q, (x < n)%nat -> nth_error (offsets t 0) k = Some q -> corner b (number t n x x 0) k ((x + fst q)%nat, (x + snd q)%nat)).
  { intros x k q Hx Eq. apply (corner_at n t b Sn x x 0 k _ Hx Hx Hp). exists q. auto. }
  assert (O : exists o1 o2 o3, nth_error (offsets t 0) 0 = Some o1 /\ nth_error (offsets t 0) 1 = Some o2 /\ nth_error (offsets t 0) 2 = Some o3) by (destruct Ht as [-> | ->]; do 3 eexists; repeat split; reflexivity).
  destruct O as (o1 & o2 & o3 & O1 & O2 & O3).
  exists (number t n 0 0 0), (number t n (n - 1) (n - 1) 0), ((0 + fst o1)%nat, (0 + snd o1)%nat), ((0 + fst o2)%nat, (0 + snd o2)%nat), ((0 + fst o3)%nat, (0 + snd o3)%nat),
    ((n - 1 + fst o1)%nat, (n - 1 + snd o1)%nat), ((n - 1 + fst o2)%nat, (n - 1 + snd o2)%nat), ((n - 1 + fst o3)%nat, (n - 1 + snd o3)%nat).
  do 6 (split; [apply C; [lia|assumption]|]). cbv zeta.
  assert (Ps : 0 < spread t) by (destruct t; cbn; lra). assert (PN : 0 < INR (n + 1)) by (apply lt_0_INR; lia).
  replace (sqrt (spread t / 2) / INR (n + 1)) with (sqrt (spread t / 2 / (INR (n + 1) * INR (n + 1)))) by (rewrite sqrt_div by nra; now rewrite sqrt_square by lra).
  apply far_root; [apply dist_nonneg|apply Rdiv_lt_0_compat; nra|]. replace (4 * (spread t / 2 / (INR (n + 1) * INR (n + 1)))) with (2 * spread t / (INR (n + 1) * INR (n + 1))) by (field; lra).
  rewrite distance_chord, sqrt_sqrt by apply chord2_nonneg.
  assert (P : 0 < INR (n + 1)) by (apply lt_0_INR; lia). assert (P4 : 3 <= INR (n - 1)) by (replace 3 with (INR 3) by (cbn; ring); apply le_INR; lia).
  match goal with |- _ <= chord2 ?x ?y => replace (chord2 x y) with (2 * (INR (n - 1) * INR (n - 1)) / (INR (n + 1) * INR (n + 1))) end.
  - unfold Rdiv. apply Rmult_le_compat_r; [left; apply Rinv_0_lt_compat; nra|]. destruct Ht as [-> | ->]; cbn [spread]; nra.
  - unfold chord2, screen_position, screen_denominator. destruct o1 as [a1 a2], o2 as [b1 b2], o3 as [c1 c2]. cbn [fst snd]. rewrite !(plus_INR (n - 1)), !(plus_INR 0). change (INR 0) with 0.
    destruct Ht as [-> | ->]; cbn [centre vadd vsub vscale inner]; field; lra.
Qed.
