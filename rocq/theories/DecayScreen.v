(** * Entries of the single layer matrix on screens *)
From Coq Require Import Reals Lra.
From Verif Require Import Base BaseFacts Topology TopologyFacts DofMap Process Space SpecSpace Options Adjacency SpecAdjacency Scalar Integrand CellPair Operators SpecLocal
  Interleave Assembly SpecAssembly AssemblyResults SpecTransfer SpecAlgebra SpecRounding RoundingModels SpecBroken SpecDof SpecGalerkin SpecMeasure Shapes SpecShapes ScreenFacts ShapesResults SpecSphere SpecScreen SpecWidth
  SpecTurns TurnExamples SpecGauss GaussResults SpecShift SpecToeplitz ToeplitzResults SpecShare ShareScreen SpecFloatSphere SpecApart ApartResults ApartScreen ApartSharp SpecWaves SpecDecay DecayResults DecayPoints DecayShapes.

Local Open Scope R_scope.

Definition cell_points (n : nat) (t : cell_type) (b : builder (nat * nat)) : list nat -> (nat -> R) -> vec -> Prop :=
  match t with Triangle => in_triangle (screen_positions n b) | _ => in_quadrilateral (screen_positions n b) end.

Section Screen.
Context (X : externals R) (n id wmod : nat) (ct : cell_type) (e : R) (o : options) (deg : cell_type -> cell_type -> nat) (pts : cell_type -> nat) (b : builder (nat * nat)) (test trial : fspace R R).
Context (Sn : screen n ct b) (Gt : fs_grid test = built_grid id ct b) (Gs : fs_grid trial = built_grid id ct b).
Context (Fl : flat_screen n X (built_grid id ct b) b) (Aw : area_weights X ct) (In : inside_rules X ct).

Lemma screen_vertex x y : (x <= n)%nat -> (y <= n)%nat -> nth_error (screen_positions n b) (y * (n + 1) + x) = Some (screen_position n (x, y)).
Proof.
  intros Hx Hy. unfold screen_positions. destruct (screen_facts n ct b Sn) as (_ & P & _). rewrite P. rewrite (map_nth_error _ _ _ (square_point_at (n + 1) x y ltac:(lia) ltac:(lia))). reflexivity.
Qed.

Lemma screen_point points c p : (c < ent_count (built_grid id ct b) 2)%nat -> inside ct (nth (2 * p) points 0) (nth (2 * p + 1) points 0) ->
  within_cell (cell_points n ct b) (cells_of b) c (SpecLocal.position (x_geometry X (built_grid id ct b) ct points c) p).
Proof.
  pose proof screen_vertex as SV. intros Hc I. rewrite (screen_cell_count n id ct b Sn) in Hc. destruct (screen_number n ct b Sn c Hc) as (x & y & h & Hx & Hy & Hh & ->).
  assert (C : forall k q, corner b (number ct n x y h) k ((x + fst q)%nat, (y + snd q)%nat) <-> nth_error (offsets ct h) k = Some q).
  { intros k [q1 q2]. rewrite (corner_at n ct b Sn x y h k _ Hx Hy Hh). split; [|intros Eq; eexists; split; eauto]. intros ([o1 o2] & Eo & Eq). cbn [fst snd] in Eq.
    injection Eq as E1 E2. rewrite Eo. f_equal. f_equal; lia. }
  destruct (screen_facts n ct b Sn) as (Hn & _ & _ & _ & _ & _ & Ce). specialize (Ce x y h Hx Hy Hh).
  assert (Ht : ct = Triangle \/ ct = Quadrilateral) by (destruct Sn; auto).
  assert (P0 : forall o1 o2 o3, nth_error (offsets ct h) 0 = Some o1 -> nth_error (offsets ct h) 1 = Some o2 -> nth_error (offsets ct h) 2 = Some o3 ->
    SpecLocal.position (x_geometry X (built_grid id ct b) ct points (number ct n x y h)) p =
    vadd (screen_position n ((x + fst o1)%nat, (y + snd o1)%nat)) (vadd (vscale (nth (2 * p) points 0) (vsub (screen_position n ((x + fst o2)%nat, (y + snd o2)%nat)) (screen_position n ((x + fst o1)%nat, (y + snd o1)%nat))))
      (vscale (nth (2 * p + 1) points 0) (vsub (screen_position n ((x + fst o3)%nat, (y + snd o3)%nat)) (screen_position n ((x + fst o1)%nat, (y + snd o1)%nat)))))).
  { intros o1 o2 o3 E1 E2 E3. apply flat_position. apply Fl; now apply C. }
  exists (map (fun o => ((y + snd o) * (n + 1) + (x + fst o))%nat) (offsets ct h)).
  destruct Ht as [-> | ->]; cbn [per] in Hh.
  - destruct I as (I1 & I2 & I3).
    assert (O : exists o1 o2 o3, offsets Triangle h = [o1; o2; o3] /\ o1 <> o2 /\ o1 <> o3 /\ o2 <> o3 /\ (fst o1 <= 1 /\ snd o1 <= 1 /\ fst o2 <= 1 /\ snd o2 <= 1 /\ fst o3 <= 1 /\ snd o3 <= 1)%nat).
    { destruct h as [|h]; cbn [offsets]; do 3 eexists; (split; [reflexivity|]); repeat split; cbn; try lia; discriminate. }
    destruct O as (o1 & o2 & o3 & Eo & N1 & N2 & N3 & Ho). rewrite Eo in *.
    rewrite (P0 o1 o2 o3) by reflexivity. cbn [map].
    assert (Ne : forall o o' : nat * nat, o <> o' -> (fst o <= 1)%nat -> (fst o' <= 1)%nat -> ((y + snd o) * (n + 1) + (x + fst o) <> (y + snd o') * (n + 1) + (x + fst o'))%nat).
    { intros [a1 a2] [c1 c2] Na A1 C1 Eq. cbn [fst snd] in *. apply Na.
      assert (x + a1 = x + c1 /\ y + a2 = y + c2)%nat by (apply (id_inj n); try lia; exact Eq). f_equal; lia. }
    destruct (triangle_point (screen_positions n b) _ _ _ _ _ _ (nth (2 * p) points 0) (nth (2 * p + 1) points 0) (Ne o1 o2 N1 ltac:(lia) ltac:(lia)) (Ne o1 o3 N2 ltac:(lia) ltac:(lia)) (Ne o2 o3 N3 ltac:(lia) ltac:(lia))
      (SV (x + fst o1)%nat (y + snd o1)%nat ltac:(lia) ltac:(lia)) (SV (x + fst o2)%nat (y + snd o2)%nat ltac:(lia) ltac:(lia)) (SV (x + fst o3)%nat (y + snd o3)%nat ltac:(lia) ltac:(lia)) I1 I2 I3) as (W & HW).
    exists W. split; [exact Ce|exact HW].
  - destruct I as (I1 & I2). assert (h = 0%nat) by lia. subst h. rewrite (P0 (0, 0) (1, 0) (0, 1))%nat by reflexivity. cbn [fst snd offsets map] in *.
    assert (Ne : forall a1 a2 c1 c2, (a1 <> c1 \/ a2 <> c2) -> (a1 <= 1)%nat -> (c1 <= 1)%nat -> ((y + a2) * (n + 1) + (x + a1) <> (y + c2) * (n + 1) + (x + c1))%nat).
    { intros a1 a2 c1 c2 Na A1 C1 Eq. assert (x + a1 = x + c1 /\ y + a2 = y + c2)%nat by (apply (id_inj n); try lia; exact Eq). lia. }
    destruct (quadrilateral_point (screen_positions n b) _ _ _ ((y + 1) * (n + 1) + (x + 1))%nat _ _ _ (nth (2 * p) points 0) (nth (2 * p + 1) points 0)
      (Ne 0 0 1 0 ltac:(lia) ltac:(lia) ltac:(lia))%nat (Ne 0 0 0 1 ltac:(lia) ltac:(lia) ltac:(lia))%nat (Ne 0 0 1 1 ltac:(lia) ltac:(lia) ltac:(lia))%nat
      (Ne 1 0 0 1 ltac:(lia) ltac:(lia) ltac:(lia))%nat (Ne 1 0 1 1 ltac:(lia) ltac:(lia) ltac:(lia))%nat (Ne 0 1 1 1 ltac:(lia) ltac:(lia) ltac:(lia))%nat
      (SV (x + 0)%nat (y + 0)%nat ltac:(lia) ltac:(lia)) (SV (x + 1)%nat (y + 0)%nat ltac:(lia) ltac:(lia)) (SV (x + 0)%nat (y + 1)%nat ltac:(lia) ltac:(lia))) as (W & HW).
    + rewrite SV by lia. f_equal. unfold screen_position, screen_denominator. cbn [fst snd]. rewrite !plus_INR. cbn [INR]. assert (0 < INR n) by (apply lt_0_INR; lia).
      unfold vsub. cbn [vadd]. f_equal; [f_equal|]; field; lra.
    + exact I1.
    + exact I2.
    + exists W. split; [exact Ce|exact HW].
Qed.

Lemma screen_square c x : within_cell (cell_points n ct b) (cells_of b) c x -> in_square (INR n / INR (n + 1)) x.
Proof.
  intros (l & w & El & W). apply nth_error_In in El. destruct Sn as [b' E|b' E].
  - apply (triangles_tile n b' E). eauto.
  - apply (quads_tile n b' E). eauto.
Qed.

Lemma square_distance x y : in_square (INR n / INR (n + 1)) x -> in_square (INR n / INR (n + 1)) y -> SpecWaves.distance x y <= sqrt 2.
Proof.
  intros (u & v & -> & Hu & Hv) (u' & v' & -> & Hu' & Hv'). rewrite distance_chord. apply sqrt_le_1_alt. unfold chord2. cbn.
  assert (A : INR n / INR (n + 1) <= 1). { assert (0 < INR (n + 1)) by (apply lt_0_INR; lia). apply (Rmult_le_reg_r (INR (n + 1))); auto. unfold Rdiv. rewrite Rmult_assoc, Rinv_l, plus_INR by lra. cbn [INR]. lra. }
  assert (forall z z', 0 <= z <= 1 -> 0 <= z' <= 1 -> (z - z') * (z - z') <= 1) as Q by (intros; nra).
  pose proof (Q u u' ltac:(lra) ltac:(lra)). pose proof (Q v v' ltac:(lra) ltac:(lra)). lra.
Qed.

Lemma gap_pos : 0 < gap ct.
Proof. unfold gap. destruct ct; try lra. apply sqrt_lt_R0. lra. Qed.

Lemma screen_far t s : neighbours (built_grid id ct b) (built_grid id ct b) t s = Ok false ->
  (t < ent_count (built_grid id ct b) 2)%nat -> (s < ent_count (built_grid id ct b) 2)%nat ->
  forall x y, evaluated X deg pts test trial t s x y -> gap ct / INR (n + 1) <= SpecWaves.distance x y.
Proof.
  intros N Ht Hs x y Exy.
  destruct (evaluated_points X deg pts test trial (built_grid id ct b) ct (within_cell (cell_points n ct b) (cells_of b)) Gt Gs (fun c _ => eq_refl) In
    screen_point t s x y Ht Hs Exy) as ((l & w & El & Wx) & (l' & w' & El' & Wy)).
  rewrite distance_chord. clear - Sn N El El' Wx Wy. destruct Sn as [b' E|b' E].
  - exact (triangles_neighbours n b' id t s E N l l' w w' x y El El' Wx Wy).
  - exact (quads_neighbours n b' id t s E N l l' w w' x y El El' Wx Wy).
Qed.

Context (D : dense_setting X wmod (laplace_single_layer (newton e)) o deg pts ct test trial).
Context (HX : positive_externals (Rle 0) X) (Bt : positive_basis (Rle 0) X test) (Bs : positive_basis (Rle 0) X trial).
Context (Ct : constants reals 1 test) (Cs : constants reals 1 trial)
  (It : interior_family (g_types (fs_grid test) 2) (fs_family test)) (Is : interior_family (g_types (fs_grid trial) 2) (fs_family trial)).

Theorem screen_between rt : legal_runtime Rplus rt ->
  exists m, assemble reals X rt wmod (laplace_single_layer (newton e)) o trial test = Ok m /\
  forall t s i j, (t < length (cells_of b))%nat -> (s < length (cells_of b))%nat -> List.In i (dofs_at test t) -> List.In j (dofs_at trial s) ->
    let area := reference_area ct / (INR (n + 1) * INR (n + 1)) in
    exists v, nth_error m (i + global_size (fs_space test) * j) = Some v /\
      (separate_points X deg pts test trial t s -> area * area / (4 * PI * sqrt 2) <= v) /\
      (neighbours (built_grid id ct b) (built_grid id ct b) t s = Ok false -> area * area / (4 * PI * sqrt 2) <= v <= area * area * INR (n + 1) / (4 * PI * gap ct)).
Proof.
  intros L.
  destruct (constants_between X wmod _ o deg pts ct test trial D eq_refl HX Bt Bs rt (reference_area ct) (fun _ => side2 n) (fun _ => side2 n)
    (fun _ => upwards reals) (fun _ => upwards reals) L Ct Cs It Is) as (m & Em & H).
  - rewrite Gt. exact (screen_faces reals X n id ct b Sn Fl Aw).
  - rewrite Gs. exact (screen_faces reals X n id ct b Sn Fl Aw).
  - exact (screen_full reals 1 reals_ring real_cast_reals (proj2 reals_exact) X ct Aw deg pts).
  - exists m. split; [exact Em|]. intros t s i j Ht Hs Hi Hj. cbv zeta. rewrite <- (screen_cell_count n id ct b Sn) in Ht, Hs.
    destruct (H t s i j) as (v & Ev & B1 & B2); rewrite ?Gt, ?Gs; auto. exists v. split; [exact Ev|].
    assert (P1 : 0 < INR (n + 1)) by (apply lt_0_INR; lia). assert (P2 : 0 < sqrt 2) by (apply sqrt_lt_R0; lra). pose proof PI_RGT_0 as P3. pose proof gap_pos as P4.
    unfold side2 in *. set (area := reference_area ct / (INR (n + 1) * INR (n + 1))).
    assert (Ea : reference_area ct * / (INR (n + 1) * INR (n + 1)) * (reference_area ct * / (INR (n + 1) * INR (n + 1))) = area * area) by (unfold area; field; lra). rewrite Ea in B1, B2.
    assert (Low : separate_points X deg pts test trial t s -> area * area / (4 * PI * sqrt 2) <= v).
    { intros Sp. replace (_ / (4 * PI * sqrt 2)) with (1 / (4 * PI * sqrt 2) * (area * area)) by (field; lra). apply B1. intros x y Exy.
      destruct (evaluated_points X deg pts test trial (built_grid id ct b) ct (within_cell (cell_points n ct b) (cells_of b)) Gt Gs (fun c _ => eq_refl) In
        screen_point t s x y Ht Hs Exy) as (Wx & Wy).
      assert (Pd : 0 < SpecWaves.distance x y).
      { destruct (Req_dec (SpecWaves.distance x y) 0) as [Z|Z]; [exfalso; exact (Sp x y Exy (distance_zero x y Z))|]. pose proof (sqrt_pos (chord2 x y)) as Q. rewrite <- distance_chord in Q. lra. }
      apply (newton_between e x y (SpecWaves.distance x y) (sqrt 2)); auto. split; [lra|]. apply square_distance; eapply screen_square; eauto. }
    split; [exact Low|]. intros N. pose proof (screen_far t s N Ht Hs) as Far.
    assert (Ph : 0 < gap ct / INR (n + 1)) by (now apply Rdiv_lt_0_compat). split.
    + apply Low. intros x y Exy ->. apply Far in Exy. assert (SpecWaves.distance y y = 0); [|lra].
      rewrite distance_chord, <- sqrt_0. f_equal. unfold chord2. destruct y as [[y1 y2] y3]. cbn. ring.
    + replace (_ / (4 * PI * gap ct)) with (1 / (4 * PI * (gap ct / INR (n + 1))) * (area * area)) by (field; lra). apply B2. intros x y Exy.
      apply (newton_between e x y _ (SpecWaves.distance x y) Ph). split; [now apply Far|lra].
Qed.
End Screen.
