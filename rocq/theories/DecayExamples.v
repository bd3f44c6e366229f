(** * Examples: the size of entries *)
From Coq Require Import Reals Lra.
From Verif Require Import Base Topology DofMap SpecDof Process Space Options SpecOptions Scalar Integrand CellPair Operators Adjacency SpecAdjacency SpecLocal LocalResults SpecOperators Interleave Assembly SpecAssembly
  SphereResults ShapesResults AssemblyResults AssemblyTermination SpecTransfer SpecScalars SpecAlgebra SpecRounding SpecShapeSpaces ShapeSpacesResults Shapes SpecShapes SpecSphere SpecScreen SpecWidth SpecTurns TurnResults TurnExamples
  SpecBroken SpecGalerkin SpecMeasure SpecGauss GaussResults GaussExamples SpecShift SpecToeplitz ToeplitzResults ToeplitzExamples SpecShare ShareScreen ShareExamples SpecFloatSphere SpecApart ApartSharp KernelResults WaveKernel WaveLimits SpecWaves SpecDecay DecayPoints DecayShapes.

Local Open Scope R_scope.

(** Cells that do not exist get determinant 1. *)
Definition safe (X : externals R) : externals R := mkExternals R (x_simplex X) (x_duffy X) (fun g t points c =>
  let x := x_geometry X g t points c in
  mkCellMap (cm_point x) (cm_normal x) (cm_jacobian x) (fun j => if Req_EM_T (cm_jdet x j) 0 then 1 else cm_jdet x j)).

Definition determinants_not_negative (X : externals R) : Prop := forall g t points c j, 0 <= cm_jdet (x_geometry X g t points c) j.

Lemma safe_nonzero X : nonzero_determinants (safe X).
Proof. intros g t points c p _ _ _. cbn. destruct (Req_EM_T _ 0); lra. Qed.

Lemma safe_flat X points p q r g t c : 0 < sqrt (inner (normal p q r) (normal p q r)) -> flat_cell points p q r (x_geometry X g t points c) -> flat_cell points p q r (x_geometry (safe X) g t points c).
Proof.
  intros P [F1 F2 F3 F4 F5]. constructor; cbn [safe x_geometry cm_point cm_normal cm_jacobian cm_jdet]; auto. intros j. rewrite F5. destruct (Req_EM_T _ 0) as [Z|Z]; [lra|reflexivity].
Qed.

Lemma safe_proper X : proper_rules X -> proper_rules (safe X).
Proof. intros [A B]. constructor; auto. Qed.

Lemma safe_rules X t o : rules_exist X t o -> rules_exist (safe X) t o.
Proof. intros [A B]. split; auto. Qed.

Lemma safe_positive X : determinants_not_negative X -> (forall t n q, x_simplex X t n = Some q -> Forall (Rle 0) (qd_weights q)) ->
  (forall k d p n q, x_duffy X k d p n = Some q -> Forall (Rle 0) (pq_weights q)) -> positive_externals (Rle 0) (safe X).
Proof. intros D A B. constructor; auto. intros g t points c p _ _ _. cbn. destruct (Req_EM_T _ 0); [lra|apply D]. Qed.

Lemma Forall_repeat {A : Type} (P : A -> Prop) x n : P x -> Forall P (repeat x n).
Proof. intros H. apply Forall_forall. intros y Hy. apply repeat_spec in Hy. now subst. Qed.

Lemma nth_repeat_lt (x d : R) n i : (i < n)%nat -> nth i (repeat x n) d = x.
Proof. intros H. rewrite (nth_indep _ d x) by (now rewrite repeat_length). apply nth_repeat. Qed.

Lemma unit_positive X (fs : fspace R R) : fs_basis fs = unit_basis -> positive_basis (Rle 0) X fs.
Proof. intros E t points p a _ _ _. rewrite E. cbn. lra. Qed.

Definition complex_space (fs : fspace R R) : fspace (R * R) R :=
  mkFspace (R * R) R (fs_grid fs) (fs_family fs) (fs_processes fs) (fs_space fs) (fs_components fs) (fun t points d p a j => embed_real (fs_basis fs t points d p a j)).
Lemma complex_mapped fs : mapped_space embed_real fs (complex_space fs).
Proof. constructor; reflexivity. Qed.

Lemma quarter_third s t x y z : s = / 4 -> t = / 3 -> 0 < inner (normal x y z) (normal x y z) ->
  vadd x (vadd (vscale s (vsub y x)) (vscale s (vsub z x))) <> vadd x (vadd (vscale t (vsub y x)) (vscale t (vsub z x))).
Proof.
  intros -> -> P E. destruct x as [[x1 x2] x3], y as [[y1 y2] y3], z as [[z1 z2] z3]. unfold normal, vsub in *. cbn [vadd vscale cross inner] in *.
  injection E as E1 E2 E3. assert (A1 : y1 - x1 = - (z1 - x1)) by lra. assert (A2 : y2 - x2 = - (z2 - x2)) by lra. assert (A3 : y3 - x3 = - (z3 - x3)) by lra.
  rewrite A1, A2, A3 in P. assert (inner (0, 0, 0) (0, 0, 0) = 0) by (cbn; ring). cbn in H.
  match type of P with 0 < ?e => replace e with 0 in P by ring end. lra.
Qed.

Theorem sphere_decay_example : forall level id e, exists b X (test : fspace R R) deg pts wmod,
  regular_sphere real_numbers level 1 = Ok b /\ fs_grid test = built_grid id Triangle b /\
  dense_setting X wmod (laplace_single_layer (newton e)) (after [SetBatch 3]) deg pts Triangle test test /\
  positive_externals (Rle 0) X /\ positive_basis (Rle 0) X test /\ constants reals 1 test /\ interior_family (g_types (fs_grid test) 2) (fs_family test) /\
  flat_cells X (built_grid id Triangle b) b /\ triangle_weights X /\ inside_rules X Triangle /\
  mapped_space embed_real test (complex_space test) /\ nonzero_determinants X /\
  (forall c, (c < length (cells_of b))%nat -> separate_points X deg pts test test c c /\ exists p q r, corners_of b c p q r).
Proof.
  intros level id e. destruct (sphere_exists real_numbers level) as (b & E).
  pose proof (shape_sphere real_numbers level id b E) as Sh.
  assert (S1 : standard (interior_only (fun _ => 1%nat))) by (constructor; intros; lia).
  destruct (spaces_exist R R (built_grid id Triangle b) _ (fun _ => 1%nat) unit_basis Sh S1) as (u & Mu & _ & Bu); [intros; lia|].
  assert (Gu : fs_grid u = built_grid id Triangle b) by apply Mu.
  assert (Tu : g_types (fs_grid u) 2 = [Triangle]) by (rewrite Gu; reflexivity).
  set (X := safe (level_externals b)).
  assert (Fl : flat_cells X (built_grid id Triangle b) b).
  { intros t points k p q r Co. apply safe_flat; [|now apply (flat_flat (built_grid id Triangle b) b)]. pose proof (area_positive level b E k p q r Co) as A. unfold triangle_area in A. lra. }
  assert (Pr : proper_rules X) by apply safe_proper, level_proper.
  set (wmod := (4 + 2 * ent_count (built_grid id Triangle b) 2 * ent_count (built_grid id Triangle b) 2)%nat).
  destruct (made_dense R R reals X wmod (laplace_single_layer (newton e)) [SetBatch 3] (built_grid id Triangle b) _ _ u u Triangle Sh S1 S1 Mu Mu eq_refl (sh_laplace_single reals (newton e)) Pr (safe_rules _ _ _ (level_rules b))) as (deg & pts & D).
  { split; [cbn; lia|]. change (get_batch_size (after [SetBatch 3])) with 3%nat. unfold wmod. lia. }
  { unfold wmod. lia. }
  exists b, X, u, deg, pts, wmod. split; [exact E|]. split; [exact Gu|]. split; [exact D|]. split.
  { apply safe_positive.
    - intros g t points c j. cbn [level_externals x_geometry flat_externals]. unfold flat_map_of. cbn [cm_jdet]. apply sqrt_pos.
    - intros t n q H. cbn [level_externals x_simplex flat_externals] in H. destruct (Nat.eqb_spec n 0) as [|N]; [discriminate|]. apply (f_equal (fun o => match o with Some q => qd_weights q | None => [] end)) in H.
      cbn [qd_weights] in H. rewrite <- H. apply Forall_repeat. left. apply Rinv_0_lt_compat, lt_0_INR. lia.
    - intros k d p n q H. cbn [level_externals x_duffy flat_externals] in H. destruct (Nat.eqb_spec n 0) as [|N]; [discriminate|]. apply (f_equal (fun o => match o with Some q => pq_weights q | None => [] end)) in H.
      cbn [pq_weights] in H. rewrite <- H. apply Forall_repeat. left. apply Rinv_0_lt_compat, lt_0_INR. lia. }
  split; [now apply unit_positive|].
  split. { constructor; rewrite ?Bu; auto. - intros t Ht. rewrite Tu in Ht. destruct Ht as [<-|[]]. now rewrite (mo_family _ _ _ Mu). - intros t points d p [-> | ->]; reflexivity. }
  split. { rewrite Tu, (mo_family _ _ _ Mu). intros t d i Ht Hd. destruct Ht as [<-|[]]. unfold el_ndofs, interior_only. cbn [el_edofs]. destruct (i <? _)%nat; [|reflexivity]. destruct d as [|[|d]]; try reflexivity; lia. }
  split; [exact Fl|]. split; [exact (level_weights b)|].
  assert (Is : forall n q p, x_simplex X Triangle n = Some q -> (p < length (qd_weights q))%nat -> nth (2 * p) (qd_points q) 0 = / 3 /\ nth (2 * p + 1) (qd_points q) 0 = / 3).
  { intros n q p H Hp. cbn [X safe level_externals x_simplex flat_externals] in H. destruct (n =? 0)%nat; [discriminate|].
    assert (Q1 : qd_points q = repeat (/ 3) (2 * n)) by (apply (f_equal (fun o => match o with Some q => qd_points q | None => [] end)) in H; now rewrite <- H).
    assert (Q2 : length (qd_weights q) = n) by (apply (f_equal (fun o => match o with Some q => length (qd_weights q) | None => 0%nat end)) in H; cbn [qd_weights] in H; now rewrite <- H, repeat_length).
    rewrite Q1, !nth_repeat_lt by lia. auto. }
  assert (Id : forall k d pr n q p, x_duffy X k d pr n = Some q -> (p < length (pq_weights q))%nat ->
    (nth (2 * p) (pq_test q) 0 = / 4 /\ nth (2 * p + 1) (pq_test q) 0 = / 4) /\ nth (2 * p) (pq_trial q) 0 = / 3 /\ nth (2 * p + 1) (pq_trial q) 0 = / 3).
  { intros k d pr n q p H Hp. cbn [X safe level_externals x_duffy flat_externals] in H. destruct (n =? 0)%nat; [discriminate|].
    assert (Q1 : pq_test q = repeat (/ 4) (2 * n)) by (apply (f_equal (fun o => match o with Some q => pq_test q | None => [] end)) in H; now rewrite <- H).
    assert (Q3 : pq_trial q = repeat (/ 3) (2 * n)) by (apply (f_equal (fun o => match o with Some q => pq_trial q | None => [] end)) in H; now rewrite <- H).
    assert (Q2 : length (pq_weights q) = n) by (apply (f_equal (fun o => match o with Some q => length (pq_weights q) | None => 0%nat end)) in H; cbn [pq_weights] in H; now rewrite <- H, repeat_length).
    rewrite Q1, Q3, !nth_repeat_lt by lia. auto. }
  split. { split.
    - intros n q p H Hp. destruct (Is n q p H Hp) as (-> & ->). cbn. lra.
    - intros k d pr n q p _ H Hp. destruct (Id k d pr n q p H Hp) as ((-> & ->) & -> & ->). cbn. lra. }
  split; [apply complex_mapped|]. split; [apply safe_nonzero|].
  intros c Hc. destruct (proj2 (sphere_cells level id b E) c Hc) as (p & q & r & Co & _). split; [|now exists p, q, r].
  intros x y [pairs kind dim qu j Tc Ad Dk Sd Eq Hp|qt qs j j' Nt Et Es Hp Hp'].
  - rewrite Gu. rewrite !(flat_position _ p q r) by (apply Fl; auto). destruct (Id _ _ _ _ _ _ Eq Hp) as ((-> & ->) & -> & ->). apply quarter_third; auto.
    destruct (Rle_lt_or_eq_dec 0 (inner (normal p q r) (normal p q r))) as [P|Z]; auto.
    + destruct (normal p q r) as [[n1 n2] n3]. cbn. pose proof (Rle_0_sqr n1) as Q1. pose proof (Rle_0_sqr n2) as Q2. pose proof (Rle_0_sqr n3) as Q3. unfold Rsqr in *. lra.
    + pose proof (area_positive level b E c p q r Co) as A. unfold triangle_area in A. rewrite <- Z, sqrt_0 in A. lra.
  - exfalso. apply Nt. split; [reflexivity|]. apply AssemblyTermination.touch_self.
    + apply (ss_grid u). apply D.
    + rewrite Gu. pose proof (proj1 (sphere_cells level id b E)) as Nc. exact (eq_ind_r (fun k => (c < k)%nat) Hc Nc).
Qed.

Theorem screen_decay_example : forall n t id e, (0 < n)%nat -> t = Triangle \/ t = Quadrilateral -> exists b X (test : fspace R R) deg pts wmod,
  screen n t b /\ fs_grid test = built_grid id t b /\ flat_screen n X (built_grid id t b) b /\ area_weights X t /\ inside_rules X t /\
  dense_setting X wmod (laplace_single_layer (newton e)) (after [SetBatch 3]) deg pts t test test /\
  positive_externals (Rle 0) X /\ positive_basis (Rle 0) X test /\ constants reals 1 test /\ interior_family (g_types (fs_grid test) 2) (fs_family test) /\
  mapped_space embed_real test (complex_space test) /\ nonzero_determinants X.
Proof.
  intros n t id e Hn Ht. destruct (screen_exists n t Hn Ht) as (b & Sn). pose proof (screen_is_shape n id t b Sn) as Sh.
  assert (S1 : standard (interior_only (fun _ => 1%nat))) by (constructor; intros; lia).
  destruct (spaces_exist R R (built_grid id t b) _ (fun _ => 1%nat) unit_basis Sh S1) as (u & Mu & _ & Bu); [intros; lia|].
  assert (Gu : fs_grid u = built_grid id t b) by apply Mu.
  assert (Tu : g_types (fs_grid u) 2 = [t]) by (rewrite Gu; reflexivity).
  set (X := safe (even_externals n b)).
  assert (Fl : flat_screen n X (built_grid id t b) b).
  { intros t' points c p q r C1 C2 C3. apply safe_flat; [|now apply (flat_screen_flat n (built_grid id t b) b)].
    assert (Hc : (c < length (cells_of b))%nat) by (destruct C1 as (vs & v & Ec & _); apply nth_error_Some; congruence).
    destruct (screen_area_ratio n t b c p q r Sn C1 C2 C3 Hc) as (-> & _). exact (side2_pos n). }
  assert (Pr : proper_rules X) by apply safe_proper, even_proper.
  set (wmod := (4 + 2 * ent_count (built_grid id t b) 2 * ent_count (built_grid id t b) 2)%nat).
  destruct (made_dense R R reals X wmod (laplace_single_layer (newton e)) [SetBatch 3] (built_grid id t b) _ _ u u t Sh S1 S1 Mu Mu eq_refl (sh_laplace_single reals (newton e)) Pr (safe_rules _ _ _ (even_rules n b t Ht))) as (deg & pts & D).
  { split; [cbn; lia|]. change (get_batch_size (after [SetBatch 3])) with 3%nat. unfold wmod. lia. }
  { unfold wmod. lia. }
  exists b, X, u, deg, pts, wmod. split; [exact Sn|]. split; [exact Gu|]. split; [exact Fl|]. split; [exact (even_weights n b t Ht)|]. split.
  { split.
    - intros k q p H Hp. cbn [X safe even_externals x_simplex] in H. destruct (k =? 0)%nat; [discriminate|].
      assert (Q1 : qd_points q = repeat (/ 3) (2 * k)) by (apply (f_equal (fun o => match o with Some q => qd_points q | None => [] end)) in H; now rewrite <- H).
      assert (Q2 : length (qd_weights q) = k) by (apply (f_equal (fun o => match o with Some q => length (qd_weights q) | None => 0%nat end)) in H; cbn [qd_weights] in H; now rewrite <- H, repeat_length).
      rewrite Q1, !nth_repeat_lt by lia. destruct t; cbn; lra.
    - intros ki d pr k q p _ H Hp. cbn [X safe even_externals x_duffy] in H. destruct (k =? 0)%nat; [discriminate|].
      assert (Q1 : pq_test q = repeat (/ 4) (2 * k)) by (apply (f_equal (fun o => match o with Some q => pq_test q | None => [] end)) in H; now rewrite <- H).
      assert (Q3 : pq_trial q = repeat (/ 3) (2 * k)) by (apply (f_equal (fun o => match o with Some q => pq_trial q | None => [] end)) in H; now rewrite <- H).
      assert (Q2 : length (pq_weights q) = k) by (apply (f_equal (fun o => match o with Some q => length (pq_weights q) | None => 0%nat end)) in H; cbn [pq_weights] in H; now rewrite <- H, repeat_length).
      rewrite Q1, Q3, !nth_repeat_lt by lia. destruct t; cbn; lra. }
  split; [exact D|]. split.
  { apply safe_positive.
    - intros g t' points c j. cbn [even_externals x_geometry flat_screen_externals]. cbv zeta. cbn [cm_jdet]. apply sqrt_pos.
    - intros t' k q H. cbn [even_externals x_simplex] in H. destruct (Nat.eqb_spec k 0) as [|N]; [discriminate|]. apply (f_equal (fun o => match o with Some q => qd_weights q | None => [] end)) in H.
      cbn [qd_weights] in H. rewrite <- H. apply Forall_repeat. left. apply Rdiv_lt_0_compat; [destruct t'; cbn; lra|apply lt_0_INR; lia].
    - intros ki d p k q H. cbn [even_externals x_duffy] in H. destruct (Nat.eqb_spec k 0) as [|N]; [discriminate|]. apply (f_equal (fun o => match o with Some q => pq_weights q | None => [] end)) in H.
      cbn [pq_weights] in H. rewrite <- H. apply Forall_repeat. left. apply Rdiv_lt_0_compat; [destruct ki; cbn; lra|apply lt_0_INR; lia]. }
  split; [now apply unit_positive|].
  split. { constructor; rewrite ?Bu; auto. - intros t' Ht'. rewrite Tu in Ht'. destruct Ht' as [<-|[]]. rewrite (mo_family _ _ _ Mu). destruct Ht as [-> | ->]; reflexivity. - intros t' points d p [-> | ->]; reflexivity. }
  split. { rewrite Tu, (mo_family _ _ _ Mu). intros t' d i Ht' Hd. destruct Ht' as [<-|[]]. unfold el_ndofs, interior_only. cbn [el_edofs]. destruct (i <? _)%nat; [|reflexivity]. destruct d as [|[|d]]; try reflexivity; lia. }
  split; [apply complex_mapped|apply safe_nonzero].
Qed.
