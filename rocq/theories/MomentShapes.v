(** * Entries of the single layer matrix for distant cells of the built-in shapes *)
From Coq Require Import Reals Lra Psatz.
From Verif Require Import Base BaseFacts Topology TopologyFacts DofMap Process Space SpecSpace Options Adjacency SpecAdjacency Scalar Integrand CellPair Operators SpecLocal
  Interleave Assembly SpecAssembly AssemblyResults SpecTransfer SpecAlgebra SpecRounding RoundingModels SpecBroken SpecDof SpecGalerkin SpecMeasure Shapes SpecShapes ScreenFacts ShapesResults SpecSphere SpecScreen SpecWidth WidthResults
  SpecTurns TurnExamples SpecGauss GaussResults SpecShift SpecToeplitz ToeplitzResults SpecShare SphereGeometry SpecFloatSphere FloatSphereError SpecWaves SpecDecay DecayResults DecayPoints DecayShapes SpecMoments MomentResults.

Local Open Scope R_scope.
Local Notation dist := SpecWaves.distance.

Lemma near_mono e e' u v : 0 <= u -> e <= e' -> relatively_near e u v -> relatively_near e' u v.
Proof. unfold relatively_near. intros U E H. nra. Qed.

(** The centres are at least twice the sum of the radii apart. *)
Lemma half_apart k a : 0 <= k -> 0 <= a -> 4 * (k * k) <= a * a -> 0 < a -> k < a /\ k * k / (a * (a - k)) <= 2 * (k * k) / (a * a).
Proof.
  intros Hk Ha H Pa. assert (K : 2 * k <= a) by nra. split; [lra|].
  apply (Rmult_le_reg_r (a * (a - k))); [nra|]. replace (k * k / (a * (a - k)) * (a * (a - k))) with (k * k) by (field; nra).
  replace (2 * (k * k) / (a * a) * (a * (a - k))) with (k * k * (2 * (a - k) / a)) by (field; lra).
  assert (1 <= 2 * (a - k) / a). { apply (Rmult_le_reg_r a); [lra|]. replace (2 * (a - k) / a * a) with (2 * (a - k)) by (field; lra). lra. } nra.
Qed.

Lemma dist_nonneg x y : 0 <= dist x y.
Proof. rewrite dist_vlen. apply vlen_nonneg. Qed.

Lemma common_point x c c' h h' : dist x c <= h -> dist x c' <= h' -> dist c c' <= h + h'.
Proof.
  intros A B. rewrite (dist_sym x c) in A. rewrite dist_vlen in *. replace (vsub c c') with (vadd (vsub c x) (vsub x c')).
  - eapply Rle_trans; [apply vlen_add|]. lra.
  - destruct x as [[? ?] ?], c as [[? ?] ?], c' as [[? ?] ?]. cbn. f_equal; [f_equal|]; ring.
Qed.

Lemma areas_nonneg ct p q r p' q' r' a : 0 < a -> 0 <= cell_area ct p q r * cell_area ct p' q' r' / (4 * PI * a).
Proof.
  intros Pa. pose proof PI_RGT_0. assert (forall u v w, 0 <= cell_area ct u v w) by (intros; unfold cell_area; apply Rmult_le_pos; [destruct ct; cbn; lra|apply sqrt_pos]).
  apply Rmult_le_pos; [apply Rmult_le_pos; auto|]. left. apply Rinv_0_lt_compat. nra.
Qed.

(** ** The sphere *)
Section Sphere.
Context (X : externals R) (level id wmod : nat) (e : R) (o : options) (deg : cell_type -> cell_type -> nat) (pts : cell_type -> nat) (b : builder vec) (test trial : fspace R R).
Context (E : regular_sphere real_numbers level 1 = Ok b) (Gt : fs_grid test = built_grid id Triangle b) (Gs : fs_grid trial = built_grid id Triangle b).
Context (D : dense_setting X wmod (laplace_single_layer (newton e)) o deg pts Triangle test trial) (HX : positive_externals (Rle 0) X).
Context (Ct : constants reals 1 test) (Cs : constants reals 1 trial)
  (It : interior_family (g_types (fs_grid test) 2) (fs_family test)) (Is : interior_family (g_types (fs_grid trial) 2) (fs_family trial)).
Context (Fl : flat_cells X (built_grid id Triangle b) b) (In : inside_rules X Triangle) (Ex : exact_linear X Triangle).

Definition sphere_radius : R := 2 / 3 * sqrt (6 / (4 ^ level + 2)).

Lemma power_positive : 0 < 4 ^ level + 2.
Proof. assert (0 < 4 ^ level) by (apply pow_lt; lra). lra. Qed.

Lemma radius_square : (sphere_radius + sphere_radius) * (sphere_radius + sphere_radius) = 32 / (3 * (4 ^ level + 2)).
Proof.
  pose proof power_positive. unfold sphere_radius. replace ((2 / 3 * sqrt (6 / (4 ^ level + 2)) + 2 / 3 * sqrt (6 / (4 ^ level + 2))) * (2 / 3 * sqrt (6 / (4 ^ level + 2)) + 2 / 3 * sqrt (6 / (4 ^ level + 2))))
    with (16 / 9 * (sqrt (6 / (4 ^ level + 2)) * sqrt (6 / (4 ^ level + 2)))) by field.
  rewrite sqrt_sqrt by (left; apply Rdiv_lt_0_compat; lra). field. lra.
Qed.

Lemma edge_length p q : edge_ends b p q -> vlen (vsub p q) <= sqrt (6 / (4 ^ level + 2)).
Proof. intros H. unfold vlen. apply sqrt_le_1_alt. exact (longest_edge level b p q E H). Qed.

Lemma minus_length p q : vlen (vsub p q) = vlen (vsub q p).
Proof. unfold vlen. f_equal. destruct p as [[? ?] ?], q as [[? ?] ?]. unfold norm2. cbn. ring. Qed.

Lemma third p q r w : vlen (vsub p q) <= w -> vlen (vsub p r) <= w -> vlen (vscale (1 / 3) (vadd (vsub p q) (vsub p r))) <= 2 / 3 * w.
Proof. intros A B. rewrite vlen_scale by lra. pose proof (vlen_add (vsub p q) (vsub p r)). lra. Qed.

Lemma sphere_cell_radius c p q r : corners_of b c p q r -> radius Triangle p q r sphere_radius.
Proof.
  intros Co. destruct (corners_edges b c p q r Co) as (E1 & E2 & E3). apply edge_length in E1, E2, E3.
  unfold radius, sphere_radius. rewrite !dist_vlen. cbn [centre]. split; [|split].
  - replace (vsub p _) with (vscale (1 / 3) (vadd (vsub p q) (vsub p r))) by (destruct p as [[? ?] ?], q as [[? ?] ?], r as [[? ?] ?]; cbn; f_equal; [f_equal|]; field). apply third; auto. now rewrite minus_length.
  - replace (vsub q _) with (vscale (1 / 3) (vadd (vsub q r) (vsub q p))) by (destruct p as [[? ?] ?], q as [[? ?] ?], r as [[? ?] ?]; cbn; f_equal; [f_equal|]; field). apply third; auto. now rewrite minus_length.
  - replace (vsub r _) with (vscale (1 / 3) (vadd (vsub r p) (vsub r q))) by (destruct p as [[? ?] ?], q as [[? ?] ?], r as [[? ?] ?]; cbn; f_equal; [f_equal|]; field). apply third; auto. now rewrite minus_length.
Qed.

Lemma sphere_touching t s p q r p' q' r' : corners_of b t p q r -> corners_of b s p' q' r' -> touching test trial t s ->
  dist (centre Triangle p q r) (centre Triangle p' q' r') <= sphere_radius + sphere_radius.
Proof.
  intros Co Co' (_ & x & A & B). rewrite Gt in A, B. pose proof (sphere_cell_radius t p q r Co) as (R1 & R2 & R3). pose proof (sphere_cell_radius s p' q' r' Co') as (S1 & S2 & S3).
  destruct Co as (u & v & w & Ec & Eu & Ev & Ew), Co' as (u' & v' & w' & Ec' & Eu' & Ev' & Ew').
  unfold built_grid in A, B. cbn [grid_of_cells g_sub] in A, B. fold (cells_of b) in A, B. rewrite (nth_error_nth _ _ [] Ec) in A. rewrite (nth_error_nth _ _ [] Ec') in B.
  assert (P : exists y, nth_error (points_of b) x = Some y /\ dist y (centre Triangle p q r) <= sphere_radius) by (destruct A as [<-|[<-|[<-|[]]]]; eauto).
  assert (P' : exists y, nth_error (points_of b) x = Some y /\ dist y (centre Triangle p' q' r') <= sphere_radius) by (destruct B as [<-|[<-|[<-|[]]]]; eauto).
  destruct P as (y & Ey & Y), P' as (y' & Ey' & Y'). assert (y' = y) by congruence. subst y'. now apply (common_point y).
Qed.

Theorem sphere_distant rt : legal_runtime Rplus rt ->
  exists m, assemble reals X rt wmod (laplace_single_layer (newton e)) o trial test = Ok m /\
  forall t s i j p q r p' q' r', corners_of b t p q r -> corners_of b s p' q' r' -> List.In i (dofs_at test t) -> List.In j (dofs_at trial s) ->
    let a := dist (centre Triangle p q r) (centre Triangle p' q' r') in 128 / (3 * (4 ^ level + 2)) <= a * a ->
    exists v, nth_error m (i + global_size (fs_space test) * j) = Some v /\
      relatively_near (64 / (3 * (4 ^ level + 2)) / (a * a)) (triangle_area p q r * triangle_area p' q' r' / (4 * PI * a)) v.
Proof.
  intros L. destruct (far_entries X wmod e o deg pts Triangle test trial D HX Ct Cs It Is rt (or_introl eq_refl) In (proj1 Ex) L) as (m & Em & H).
  exists m. split; [exact Em|]. intros t s i j p q r p' q' r' Co Co' Hi Hj a Ha.
  pose proof power_positive as Pp. assert (Hr : 0 <= sphere_radius) by (unfold sphere_radius; pose proof (sqrt_pos (6 / (4 ^ level + 2))); lra).
  assert (0 < 128 / (3 * (4 ^ level + 2))) by (apply Rdiv_lt_0_compat; lra). assert (Na : 0 <= a) by apply dist_nonneg.
  assert (Pa : 0 < a) by (destruct (Req_dec a 0) as [Z|Z]; [rewrite Z in Ha; lra|lra]).
  assert (K4 : 4 * ((sphere_radius + sphere_radius) * (sphere_radius + sphere_radius)) <= a * a) by (rewrite radius_square; replace (4 * (32 / (3 * (4 ^ level + 2)))) with (128 / (3 * (4 ^ level + 2))) by (field; lra); exact Ha).
  destruct (half_apart (sphere_radius + sphere_radius) a) as (Lt & Le); auto; try lra.
  destruct (H t s i j p q r p' q' r' sphere_radius sphere_radius) as (v & Ev & _ & N); auto.
  - rewrite Gt. eapply corners_lt; eauto.
  - rewrite Gs. eapply corners_lt; eauto.
  - intros T. pose proof (sphere_touching t s p q r p' q' r' Co Co' T) as B. fold a in B. lra.
  - intros points. rewrite Gt. now apply Fl.
  - intros points. rewrite Gs. now apply Fl.
  - now apply (sphere_cell_radius t).
  - now apply (sphere_cell_radius s).
  - exists v. split; [exact Ev|]. specialize (N Ex). fold a in N.
    assert (Ar : forall u v' w, triangle_area u v' w = cell_area Triangle u v' w) by (intros; unfold triangle_area, cell_area; cbn [reference_area]; field).
    rewrite !Ar. eapply near_mono; [now apply areas_nonneg| |exact N]. eapply Rle_trans; [exact Le|]. rewrite radius_square. right. field. nra.
Qed.
End Sphere.

(** ** Screens *)
Section Screen.
Context (X : externals R) (n id wmod : nat) (ct : cell_type) (e : R) (o : options) (deg : cell_type -> cell_type -> nat) (pts : cell_type -> nat) (b : builder (nat * nat)) (test trial : fspace R R).
Context (Sn : screen n ct b) (Gt : fs_grid test = built_grid id ct b) (Gs : fs_grid trial = built_grid id ct b).
Context (D : dense_setting X wmod (laplace_single_layer (newton e)) o deg pts ct test trial) (HX : positive_externals (Rle 0) X).
Context (Ct : constants reals 1 test) (Cs : constants reals 1 trial)
  (It : interior_family (g_types (fs_grid test) 2) (fs_family test)) (Is : interior_family (g_types (fs_grid trial) 2) (fs_family trial)).
Context (Fl : flat_screen n X (built_grid id ct b) b) (In : inside_rules X ct) (Ex : exact_linear X ct).

Notation N := (INR (n + 1)).
Notation sp := (screen_position n).
Definition screen_radius : R := sqrt (spread ct / 8 / (N * N)).

Lemma side_positive : 0 < N.
Proof. apply lt_0_INR. lia. Qed.

Lemma kind_of : ct = Triangle \/ ct = Quadrilateral.
Proof. clear -Sn. destruct Sn; auto. Qed.

Lemma screen_radius_square : (screen_radius + screen_radius) * (screen_radius + screen_radius) = spread ct / 2 / (N * N).
Proof.
  clear -n ct.
  pose proof side_positive as P. unfold screen_radius. replace ((sqrt (spread ct / 8 / (N * N)) + sqrt (spread ct / 8 / (N * N))) * (sqrt (spread ct / 8 / (N * N)) + sqrt (spread ct / 8 / (N * N))))
    with (4 * (sqrt (spread ct / 8 / (N * N)) * sqrt (spread ct / 8 / (N * N)))) by ring.
  rewrite sqrt_sqrt; [field; lra|]. left. apply Rdiv_lt_0_compat; [|nra]. destruct ct; cbn; lra.
Qed.

Lemma within_radius x c k : chord2 x c = k / (N * N) -> k <= spread ct / 8 -> dist x c <= screen_radius.
Proof.
  intros H K. pose proof side_positive as P. rewrite distance_chord. apply sqrt_le_1_alt. rewrite H. unfold Rdiv at 1 3. apply Rmult_le_compat_r; [left; apply Rinv_0_lt_compat; nra|exact K].
Qed.

(** Each vertex of a cell is near its centre, and the area. *)
Lemma screen_cell c p q r : corner b c 0 p -> corner b c 1 q -> corner b c 2 r ->
  (forall k u, corner b c k u -> dist (sp u) (centre ct (sp p) (sp q) (sp r)) <= screen_radius) /\
  cell_area ct (sp p) (sp q) (sp r) = reference_area ct / (N * N).
Proof.
  clear -Sn.
  intros C0 C1 C2. pose proof side_positive as P.
  assert (Hc : (c < length (cells_of b))%nat) by (destruct C0 as (vs & v & Ec & _); apply nth_error_Some; congruence).
  destruct (screen_number n ct b Sn c Hc) as (x & y & h & Hx & Hy & Hh & ->).
  apply (corner_at n ct b Sn x y h _ _ Hx Hy Hh) in C0, C1, C2. destruct C0 as (o0 & E0 & ->), C1 as (o1 & E1 & ->), C2 as (o2 & E2 & ->).
  assert (Sq : forall w, w = (0, 0, 1 / (N * N)) -> sqrt (inner w w) = 1 / (N * N)).
  { intros w ->. replace (inner (0, 0, 1 / (N * N)) (0, 0, 1 / (N * N))) with ((1 / (N * N)) * (1 / (N * N))) by (cbn; ring). apply sqrt_square. left. apply Rdiv_lt_0_compat; nra. }
  split.
  - intros k u Cu. apply (corner_at n ct b Sn x y h _ _ Hx Hy Hh) in Cu. destruct Cu as (ou & Eu & ->).
    destruct kind_of as [K|K]; rewrite K in *; cbn [per] in Hh.
    + destruct h as [|[|h]]; try lia; cbn [offsets nth_error] in E0, E1, E2; injection E0 as <-; injection E1 as <-; injection E2 as <-.
      * destruct k as [|[|[|k]]]; [| | |destruct k; discriminate Eu]; cbn [offsets nth_error] in Eu; injection Eu as <-;
          [eapply (within_radius _ _ (5 / 9))|eapply (within_radius _ _ (2 / 9))|eapply (within_radius _ _ (5 / 9))]; try (rewrite K; cbn [spread]; lra);
          unfold screen_position, screen_denominator, chord2; cbn [fst snd centre vadd vsub vscale inner]; rewrite !plus_INR; cbn [INR]; rewrite ?plus_INR in P; cbn [INR] in P; field; lra.
      * destruct k as [|[|[|k]]]; [| | |destruct k; discriminate Eu]; cbn [offsets nth_error] in Eu; injection Eu as <-;
          [eapply (within_radius _ _ (5 / 9))|eapply (within_radius _ _ (5 / 9))|eapply (within_radius _ _ (2 / 9))]; try (rewrite K; cbn [spread]; lra);
          unfold screen_position, screen_denominator, chord2; cbn [fst snd centre vadd vsub vscale inner]; rewrite !plus_INR; cbn [INR]; rewrite ?plus_INR in P; cbn [INR] in P; field; lra.
    + assert (h = 0%nat) by lia. subst h. cbn [offsets nth_error] in E0, E1, E2; injection E0 as <-; injection E1 as <-; injection E2 as <-.
      eapply (within_radius _ _ (1 / 2)); [|rewrite K; cbn [spread]; lra].
      destruct k as [|[|[|[|k]]]]; [| | | |destruct k; discriminate Eu]; cbn [offsets nth_error] in Eu; injection Eu as <-;
        unfold screen_position, screen_denominator, chord2; cbn [fst snd centre vadd vsub vscale inner]; rewrite !plus_INR; cbn [INR]; rewrite ?plus_INR in P; cbn [INR] in P; field; lra.
  - unfold cell_area. rewrite Sq; [field; lra|].
    destruct kind_of as [K|K]; rewrite K in *; cbn [per] in Hh.
    + destruct h as [|[|h]]; try lia; cbn [offsets nth_error] in E0, E1, E2; injection E0 as <-; injection E1 as <-; injection E2 as <-;
        unfold screen_position, screen_denominator; cbn; rewrite !plus_INR; cbn [INR]; rewrite ?plus_INR in P; cbn [INR] in P; f_equal; [f_equal| |f_equal|]; field; lra.
    + assert (h = 0%nat) by lia. subst h. cbn [offsets nth_error] in E0, E1, E2; injection E0 as <-; injection E1 as <-; injection E2 as <-;
        unfold screen_position, screen_denominator; cbn; rewrite !plus_INR; cbn [INR]; rewrite ?plus_INR in P; cbn [INR] in P; f_equal; [f_equal|]; field; lra.
Qed.

Lemma screen_touching t s p q r p' q' r' : corner b t 0 p -> corner b t 1 q -> corner b t 2 r -> corner b s 0 p' -> corner b s 1 q' -> corner b s 2 r' -> touching test trial t s ->
  dist (centre ct (sp p) (sp q) (sp r)) (centre ct (sp p') (sp q') (sp r')) <= screen_radius + screen_radius.
Proof.
  clear -Sn Gt.
  intros C0 C1 C2 C0' C1' C2' (_ & x & A & B). rewrite Gt in A, B. destruct (screen_cell t p q r C0 C1 C2) as (Q & _), (screen_cell s p' q' r' C0' C1' C2') as (Q' & _).
  destruct C0 as (vs & v & Ec & _), C0' as (vs' & v' & Ec' & _).
  unfold built_grid in A, B. cbn [grid_of_cells g_sub] in A, B. fold (cells_of b) in A, B. rewrite (nth_error_nth _ _ [] Ec) in A. rewrite (nth_error_nth _ _ [] Ec') in B.
  apply In_nth_error in A, B. destruct A as (k & A), B as (k' & B).
  assert (Px : exists u, nth_error (points_of b) x = Some u).
  { destruct (screen_facts n ct b Sn) as (_ & _ & Lp & _ & V & _). destruct (nth_error (points_of b) x) as [u|] eqn:Eu; [eauto|]. exfalso. apply nth_error_None in Eu. unfold points_of in Eu. rewrite map_length, Lp in Eu.
    destruct (proj2 V _ (nth_error_In _ _ Ec)) as (_ & _ & V'). specialize (V' _ (nth_error_In _ _ A)). lia. }
  destruct Px as (u & Eu). apply (common_point (sp u)); [apply (Q k)|apply (Q' k')]; [exists vs, x|exists vs', x]; auto.
Qed.

Theorem screen_distant rt : legal_runtime Rplus rt ->
  exists m, assemble reals X rt wmod (laplace_single_layer (newton e)) o trial test = Ok m /\
  forall t s i j p q r p' q' r', corner b t 0 p -> corner b t 1 q -> corner b t 2 r -> corner b s 0 p' -> corner b s 1 q' -> corner b s 2 r' -> List.In i (dofs_at test t) -> List.In j (dofs_at trial s) ->
    let a := dist (centre ct (sp p) (sp q) (sp r)) (centre ct (sp p') (sp q') (sp r')) in
    let area := reference_area ct / (N * N) in 2 * spread ct / (N * N) <= a * a ->
    exists v, nth_error m (i + global_size (fs_space test) * j) = Some v /\ relatively_near (spread ct / (N * N) / (a * a)) (area * area / (4 * PI * a)) v.
Proof.
  intros L. pose proof kind_of as K. destruct (far_entries X wmod e o deg pts ct test trial D HX Ct Cs It Is rt K In (proj1 Ex) L) as (m & Em & H).
  exists m. split; [exact Em|]. intros t s i j p q r p' q' r' C0 C1 C2 C0' C1' C2' Hi Hj a area Ha.
  destruct (screen_cell t p q r C0 C1 C2) as (Q & Ar), (screen_cell s p' q' r' C0' C1' C2') as (Q' & Ar').
  pose proof side_positive as P. assert (Hr : 0 <= screen_radius) by apply sqrt_pos.
  assert (Ps : 0 < spread ct) by (destruct ct; cbn; lra). assert (PN : 0 < N * N) by nra.
  assert (0 < 2 * spread ct / (N * N)) by (apply Rdiv_lt_0_compat; lra). assert (Na : 0 <= a) by apply dist_nonneg.
  assert (Pa : 0 < a) by (destruct (Req_dec a 0) as [Z|Z]; [rewrite Z in Ha; lra|lra]).
  assert (K4 : 4 * ((screen_radius + screen_radius) * (screen_radius + screen_radius)) <= a * a) by (rewrite screen_radius_square; replace (4 * (spread ct / 2 / (N * N))) with (2 * spread ct / (N * N)) by (field; lra); exact Ha).
  destruct (half_apart (screen_radius + screen_radius) a) as (Lt & Le); auto; try lra.
  destruct (H t s i j (sp p) (sp q) (sp r) (sp p') (sp q') (sp r') screen_radius screen_radius) as (v & Ev & _ & Nr); auto.
  - rewrite Gt, (screen_cell_count n id ct b Sn). destruct C0 as (vs & v & Ec & _). apply nth_error_Some. congruence.
  - rewrite Gs, (screen_cell_count n id ct b Sn). destruct C0' as (vs & v & Ec & _). apply nth_error_Some. congruence.
  - intros T. pose proof (screen_touching t s p q r p' q' r' C0 C1 C2 C0' C1' C2' T) as B. fold a in B. lra.
  - intros points. rewrite Gt. now apply Fl.
  - intros points. rewrite Gs. now apply Fl.
  - split; [|split]; eapply Q; eauto.
  - split; [|split]; eapply Q'; eauto.
  - exists v. split; [exact Ev|]. specialize (Nr Ex). fold a in Nr.
    unfold area. rewrite <- Ar at 1. rewrite <- Ar'. eapply near_mono; [now apply areas_nonneg| |exact Nr]. eapply Rle_trans; [exact Le|]. rewrite screen_radius_square. right. field. lra.
Qed.
End Screen.
