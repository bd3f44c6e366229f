(** * Entries of the single layer matrix on the built-in shapes *)
From Coq Require Import Reals Lra.
From Verif Require Import Base BaseFacts Topology TopologyFacts DofMap Process Space SpecSpace Options Adjacency SpecAdjacency Scalar Integrand CellPair Operators SpecLocal
  Interleave Assembly SpecAssembly AssemblyResults SpecTransfer SpecAlgebra SpecRounding RoundingModels SpecBroken SpecDof SpecGalerkin SpecMeasure Shapes SpecShapes ScreenFacts ShapesResults SpecSphere SpecScreen SpecWidth
  SpecTurns TurnExamples SpecGauss GaussResults SpecShift SpecToeplitz ToeplitzResults SpecShare ShareScreen SpecFloatSphere SpecApart ApartResults ApartScreen ApartSharp SpecWaves SpecDecay DecayResults DecayPoints.

Local Open Scope R_scope.

Lemma real_cast_reals : real_cast reals.
Proof. split; reflexivity. Qed.

(** ** The sphere *)
Section Sphere.
Context (X : externals R) (level id wmod : nat) (e : R) (o : options) (deg : cell_type -> cell_type -> nat) (pts : cell_type -> nat) (b : builder vec) (test trial : fspace R R).
Context (E : regular_sphere real_numbers level 1 = Ok b) (Gt : fs_grid test = built_grid id Triangle b) (Gs : fs_grid trial = built_grid id Triangle b).
Context (D : dense_setting X wmod (laplace_single_layer (newton e)) o deg pts Triangle test trial).
Context (HX : positive_externals (Rle 0) X) (Bt : positive_basis (Rle 0) X test) (Bs : positive_basis (Rle 0) X trial).
Context (Ct : constants reals 1 test) (Cs : constants reals 1 trial)
  (It : interior_family (g_types (fs_grid test) 2) (fs_family test)) (Is : interior_family (g_types (fs_grid trial) 2) (fs_family trial)).
Context (Fl : flat_cells X (built_grid id Triangle b) b) (Tw : triangle_weights X) (In : inside_rules X Triangle).

Lemma long_area c p q r : corners_of b c p q r -> 1 / 2 * long b c = triangle_area p q r.
Proof.
  intros (u & v & w & Ec & Eu & Ev & Ew). unfold long, triangle_area, long_normal, cell_at. rewrite (nth_error_nth _ _ [] Ec). cbn [SpecVolume.cell_normal]. unfold SpecSphere.position.
  rewrite (nth_error_nth _ _ origin Eu), (nth_error_nth _ _ origin Ev), (nth_error_nth _ _ origin Ew). field.
Qed.

Lemma corners_lt c p q r : corners_of b c p q r -> (c < ent_count (built_grid id Triangle b) 2)%nat.
Proof. intros (u & v & w & Ec & _). rewrite (proj1 (sphere_cells level id b E)). apply nth_error_Some. congruence. Qed.

Lemma sphere_between rt : legal_runtime Rplus rt ->
  exists m, assemble reals X rt wmod (laplace_single_layer (newton e)) o trial test = Ok m /\
  forall t s i j p q r p' q' r', corners_of b t p q r -> corners_of b s p' q' r' -> List.In i (dofs_at test t) -> List.In j (dofs_at trial s) ->
    exists v, nth_error m (i + global_size (fs_space test) * j) = Some v /\
      (separate_points X deg pts test trial t s -> triangle_area p q r * triangle_area p' q' r' / (8 * PI) <= v) /\
      (forall h, 0 < h -> (forall x y, evaluated X deg pts test trial t s x y -> h <= SpecWaves.distance x y) -> v <= triangle_area p q r * triangle_area p' q' r' / (4 * PI * h)).
Proof.
  intros L.
  destruct (constants_between X wmod _ o deg pts Triangle test trial D eq_refl HX Bt Bs rt (1 / 2) (long b) (long b)
    (unit_normal reals b) (unit_normal reals b) L Ct Cs It Is) as (m & Em & H).
  - rewrite Gt. exact (sphere_flat reals X level id b E Fl).
  - rewrite Gs. exact (sphere_flat reals X level id b E Fl).
  - exact (sphere_full reals 1 reals_ring real_cast_reals (proj2 reals_exact) X Tw deg pts).
  - exists m. split; [exact Em|]. intros t s i j p q r p' q' r' Co Co' Hi Hj.
    pose proof (corners_lt _ _ _ _ Co) as Ht. pose proof (corners_lt _ _ _ _ Co') as Hs.
    destruct (H t s i j) as (v & Ev & B1 & B2); rewrite ?Gt, ?Gs; auto.
    rewrite (long_area _ _ _ _ Co), (long_area _ _ _ _ Co') in B1, B2. pose proof PI_RGT_0.
    exists v. split; [exact Ev|]. split.
    + intros Sp. replace (_ / (8 * PI)) with (1 / (4 * PI * 2) * (triangle_area p q r * triangle_area p' q' r')) by (field; lra). apply B1. intros x y Exy.
      destruct (evaluated_points X deg pts test trial (built_grid id Triangle b) Triangle (within_cell (in_triangle (points_of b)) (cells_of b)) Gt Gs (fun c _ => eq_refl) In
        (sphere_point X level id b E Fl) t s x y Ht Hs Exy) as (Wx & Wy).
      assert (Pd : 0 < SpecWaves.distance x y).
      { destruct (Req_dec (SpecWaves.distance x y) 0) as [Z|Z]; [exfalso; exact (Sp x y Exy (distance_zero x y Z))|]. pose proof (sqrt_pos (chord2 x y)) as Q. rewrite <- distance_chord in Q. lra. }
      apply (newton_between e x y (SpecWaves.distance x y) 2); auto. split; [lra|]. apply ball_distance; eapply sphere_ball; eauto.
    + intros h Hh K. replace (_ / (4 * PI * h)) with (1 / (4 * PI * h) * (triangle_area p q r * triangle_area p' q' r')) by (field; lra). apply B2. intros x y Exy.
      apply (newton_between e x y h (SpecWaves.distance x y)); auto. split; [now apply K|lra].
Qed.

Lemma evaluated_far t s : neighbours (built_grid id Triangle b) (built_grid id Triangle b) t s = Ok false ->
  (t < ent_count (built_grid id Triangle b) 2)%nat -> (s < ent_count (built_grid id Triangle b) 2)%nat ->
  forall x y, evaluated X deg pts test trial t s x y -> 2 / 5 / 2 ^ level <= SpecWaves.distance x y.
Proof.
  intros N Ht Hs x y Exy.
  destruct (evaluated_points X deg pts test trial (built_grid id Triangle b) Triangle (within_cell (in_triangle (points_of b)) (cells_of b)) Gt Gs (fun c _ => eq_refl) In
    (sphere_point X level id b E Fl) t s x y Ht Hs Exy) as ((l & w & El & Wx) & (l' & w' & El' & Wy)).
  rewrite distance_chord. exact (sphere_neighbours level b id t s E N l l' w w' x y El El' Wx Wy).
Qed.

Theorem sphere_far rt : legal_runtime Rplus rt ->
  exists m, assemble reals X rt wmod (laplace_single_layer (newton e)) o trial test = Ok m /\
  forall t s i j p q r p' q' r', neighbours (built_grid id Triangle b) (built_grid id Triangle b) t s = Ok false ->
    corners_of b t p q r -> corners_of b s p' q' r' -> List.In i (dofs_at test t) -> List.In j (dofs_at trial s) ->
    exists v, nth_error m (i + global_size (fs_space test) * j) = Some v /\
      triangle_area p q r * triangle_area p' q' r' / (8 * PI) <= v <= 5 * 2 ^ level * (triangle_area p q r * triangle_area p' q' r' / (8 * PI)).
Proof.
  intros L. destruct (sphere_between rt L) as (m & Em & H). exists m. split; [exact Em|]. intros t s i j p q r p' q' r' N Co Co' Hi Hj.
  assert (P2 : 0 < 2 ^ level) by (apply pow_lt; lra).
  assert (Ph : 0 < 2 / 5 / 2 ^ level) by (apply Rdiv_lt_0_compat; lra). pose proof PI_RGT_0.
  pose proof (evaluated_far t s N (corners_lt _ _ _ _ Co) (corners_lt _ _ _ _ Co')) as Far.
  destruct (H t s i j p q r p' q' r') as (v & Ev & B1 & B2); auto. exists v. split; [exact Ev|]. split.
  - apply B1. intros x y Exy ->. apply Far in Exy. assert (SpecWaves.distance y y = 0); [|lra].
    rewrite distance_chord, <- sqrt_0. f_equal. unfold chord2. destruct y as [[y1 y2] y3]. cbn. ring.
  - replace (5 * 2 ^ level * _) with (triangle_area p q r * triangle_area p' q' r' / (4 * PI * (2 / 5 / 2 ^ level))) by (field; lra). now apply B2.
Qed.

(** All cells. *)
Theorem sphere_positive rt : legal_runtime Rplus rt ->
  exists m, assemble reals X rt wmod (laplace_single_layer (newton e)) o trial test = Ok m /\
  forall t s i j p q r p' q' r', separate_points X deg pts test trial t s ->
    corners_of b t p q r -> corners_of b s p' q' r' -> List.In i (dofs_at test t) -> List.In j (dofs_at trial s) ->
    exists v, nth_error m (i + global_size (fs_space test) * j) = Some v /\ triangle_area p q r * triangle_area p' q' r' / (8 * PI) <= v /\ 0 < v.
Proof.
  intros L. destruct (sphere_between rt L) as (m & Em & H). exists m. split; [exact Em|]. intros t s i j p q r p' q' r' Sp Co Co' Hi Hj.
  destruct (H t s i j p q r p' q' r') as (v & Ev & B & _); auto. exists v. split; [exact Ev|]. specialize (B Sp). split; [exact B|]. pose proof PI_RGT_0.
  assert (0 < triangle_area p q r * triangle_area p' q' r' / (8 * PI)); [|lra]. apply Rdiv_lt_0_compat; [|lra]. apply Rmult_lt_0_compat; eapply area_positive; eauto.
Qed.
End Sphere.
