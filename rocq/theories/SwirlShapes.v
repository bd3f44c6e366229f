(** * Entries of functions of any space on distant cells of spheres and screens *)
From Coq Require Import Reals Lra Psatz.
From Verif Require Import Base BaseFacts Topology TopologyFacts DofMap DofMapFacts DofMapResults DofExamples Process Space SpecSpace Options Adjacency SpecAdjacency Scalar Integrand CellPair Operators SpecLocal
  Interleave Assembly SpecAssembly AssemblyResults SpecTransfer SpecAlgebra SpecRounding RoundingModels SpecBroken SpecDof SpecGalerkin GalerkinResults BrokenResults SpecMeasure Shapes SpecShapes ScreenFacts ShapesResults SpecSphere SpecScreen SpecWidth WidthResults
  SpecTurns TurnExamples SpecGauss GaussResults SpecShift SpecToeplitz ToeplitzResults SpecShare SphereGeometry SpecFloatSphere FloatSphereError SpecWaves SpecDecay DecayResults DecayPoints DecayShapes SpecMoments MomentResults MomentShapes
  SpecDegree DegreeResults DegreeExact DegreeShapes SpecPieces PieceResults PieceShapes FluxKernel SpecFluxes FluxResults SpecSwirls SwirlResults.

Local Open Scope R_scope.
Local Notation dist := SpecWaves.distance.

(** ** Cells with a common function *)
Lemma edge_ends_of g c i e : wf_grid g -> (c < ent_count g 2)%nat -> nth_error (g_sub g c 1) i = Some e ->
  exists a b u v, nth_error (ref_edges (g_ctype g c)) i = Some (a, b) /\ nth_error (g_sub g c 0) a = Some u /\ nth_error (g_sub g c 0) b = Some v.
Proof.
  intros W Hc E. pose proof (wf_types2_surface _ W _ (wf_ctype _ W c Hc)) as Ty. pose proof (wf_sub_length _ W c 1 Hc ltac:(lia)) as L1. pose proof (wf_sub_length _ W c 0 Hc ltac:(lia)) as L0.
  assert (Li : (i < length (g_sub g c 1))%nat) by (apply nth_error_Some; congruence). rewrite L1 in Li.
  assert (N : forall k, (k < ref_count (g_ctype g c) 0)%nat -> exists u, nth_error (g_sub g c 0) k = Some u).
  { intros k Hk. destruct (nth_error (g_sub g c 0) k) as [u|] eqn:Eu; [now exists u|]. apply nth_error_None in Eu. lia. }
  destruct Ty as [Ty|Ty]; rewrite Ty in *; cbn in Li;
    (destruct i as [|[|[|[|i]]]]; try lia);
    (match goal with |- context [nth_error (ref_edges ?t) ?i] => let r := eval cbn in (nth_error (ref_edges t) i) in change (nth_error (ref_edges t) i) with r end);
    (match goal with |- context [Some (?a, ?b) = _] => destruct (N a ltac:(cbn; lia)) as (u & Eu), (N b ltac:(cbn; lia)) as (v & Ev); exists a, b, u, v; auto end).
Qed.

Lemma shared_touch (fs : fspace R R) c c' k : serial_space fs -> (c < ent_count (fs_grid fs) 2)%nat -> (c' < ent_count (fs_grid fs) 2)%nat -> In k (dofs_at fs c) -> In k (dofs_at fs c') -> touch (fs_grid fs) c c'.
Proof.
  intros Sp Hc Hc' H H'. pose proof (ss_grid _ Sp) as W. rewrite dofs_at_row in H, H' by auto.
  destruct (shared_dof_shared_entity 0 _ _ _ c c' _ _ k W (ss_family _ Sp) (ss_dofs _ Sp) (cell_row 0 _ _ _ W (ss_family _ Sp) (ss_dofs _ Sp) c Hc) (cell_row 0 _ _ _ W (ss_family _ Sp) (ss_dofs _ Sp) c' Hc') H H') as (d & e & n & (_ & Hd & I) & (_ & _ & I') & _).
  destruct d as [|[|[|d]]]; [exists e; auto| | |lia].
  - apply In_nth_error in I, I'. destruct I as (i & E), I' as (i' & E').
    destruct (edge_ends_of _ c i e W Hc E) as (a & b & u & v & Er & Eu & Ev), (edge_ends_of _ c' i' e W Hc' E') as (a' & b' & u' & v' & Er' & Eu' & Ev').
    destruct (wf_edge _ W c c' i i' e a b a' b' u v u' v' Hc Hc' E E' Er Er' Eu Ev Eu' Ev') as [(-> & ->)|(-> & ->)].
    + exists u'. split; eapply nth_error_In; eassumption.
    + exists v'. split; eapply nth_error_In; eassumption.
  - rewrite (wf_sub_cell _ W c Hc) in I. rewrite (wf_sub_cell _ W c' Hc') in I'. destruct I as [<-|[]], I' as [->|[]].
    pose proof (wf_sub_length _ W c 0 Hc ltac:(lia)) as L0. pose proof (wf_types2_surface _ W _ (wf_ctype _ W c Hc)) as Ty.
    destruct (g_sub (fs_grid fs) c 0) as [|u l] eqn:Es; [destruct Ty as [Ty|Ty]; rewrite Ty in L0; discriminate|]. exists u. rewrite Es. split; now left.
Qed.

Lemma dist_triangle x y z : dist x z <= dist x y + dist y z.
Proof. rewrite !dist_vlen. replace (vsub x z) with (vadd (vsub x y) (vsub y z)) by (destruct x as [[? ?] ?], y as [[? ?] ?], z as [[? ?] ?]; cbn; f_equal; [f_equal|]; ring). apply vlen_add. Qed.

(** ** Cells near a cell *)
Section Near.
Context (ct : cell_type) (Kind : ct = Triangle \/ ct = Quadrilateral) (P : nat -> vec * vec * vec) (C : nat -> vec) (h : R) (fs fs' : fspace R R) (Sp : serial_space fs) (Sp' : serial_space fs') (Gr : fs_grid fs' = fs_grid fs)
  (Ball : forall t, (t < ent_count (fs_grid fs) 2)%nat -> dist (point_in (P t) 0 0) (C t) <= h /\ dist (point_in (P t) 1 0) (C t) <= h /\ dist (point_in (P t) 0 1) (C t) <= h /\ (ct = Quadrilateral -> dist (point_in (P t) 1 1) (C t) <= h))
  (Close : forall t s, (t < ent_count (fs_grid fs) 2)%nat -> (s < ent_count (fs_grid fs) 2)%nat -> touch (fs_grid fs) t s -> dist (C t) (C s) <= h + h).

Lemma near_supported (f : fspace R R) i t : serial_space f -> fs_grid f = fs_grid fs -> (t < ent_count (fs_grid fs) 2)%nat -> In i (dofs_at f t) -> supported_in f ct P i (C t) (3 * h).
Proof.
  intros Sf G Ht Hi s Is. apply in_support in Is. destruct Is as (Hs & Js). assert (Tc : touch (fs_grid f) s t) by (apply (shared_touch f s t i); auto; now rewrite G).
  rewrite G in Hs, Tc. pose proof (Close s t Hs Ht Tc) as D. destruct (Ball s Hs) as (B1 & B2 & B3 & B4).
  split; [|split; [|split]]; intros; (eapply Rle_trans; [apply (dist_triangle _ (C s))|]); try specialize (B4 H); lra.
Qed.

Lemma near_apart i j t s : (t < ent_count (fs_grid fs) 2)%nat -> (s < ent_count (fs_grid fs) 2)%nat -> In i (dofs_at fs t) -> In j (dofs_at fs' s) -> 3 * h + 3 * h < dist (C t) (C s) ->
  forall z z', In z (support fs i) -> In z' (support fs' j) -> ~ touching fs fs' z z'.
Proof.
  intros Ht Hs Hi Hj Far z z' Iz Iz' (_ & Tc). apply in_support in Iz, Iz'. destruct Iz as (Hz & Jz), Iz' as (Hz' & Jz').
  pose proof (shared_touch fs t z i Sp Ht Hz Hi Jz) as T1. assert (T2 : touch (fs_grid fs') z' s) by (apply (shared_touch fs' z' s j); auto; now rewrite Gr). rewrite Gr in Hz', T2.
  pose proof (Close t z Ht Hz T1). pose proof (Close z z' Hz Hz' Tc). pose proof (Close z' s Hz' Hs T2).
  pose proof (dist_triangle (C t) (C z) (C s)). pose proof (dist_triangle (C z) (C z') (C s)). lra.
Qed.
End Near.

(** ** The sphere *)
Lemma sphere_near level id (b : builder vec) P (fs : fspace R R) : regular_sphere real_numbers level 1 = Ok b -> fs_grid fs = built_grid id Triangle b -> (forall t p q r, corners_of b t p q r -> P t = (p, q, r)) ->
  let C t := centre Triangle (first_corner (P t)) (second_corner (P t)) (third_corner (P t)) in
  (forall t, (t < ent_count (fs_grid fs) 2)%nat -> dist (point_in (P t) 0 0) (C t) <= sphere_radius level /\ dist (point_in (P t) 1 0) (C t) <= sphere_radius level /\ dist (point_in (P t) 0 1) (C t) <= sphere_radius level /\
    (Triangle = Quadrilateral -> dist (point_in (P t) 1 1) (C t) <= sphere_radius level)) /\
  forall t s, (t < ent_count (fs_grid fs) 2)%nat -> (s < ent_count (fs_grid fs) 2)%nat -> touch (fs_grid fs) t s -> dist (C t) (C s) <= sphere_radius level + sphere_radius level.
Proof.
  intros E G Hp C. destruct (sphere_cells level id b E) as (Nc & Hc). split.
  - intros t Ht. rewrite G, Nc in Ht. destruct (Hc t Ht) as (p & q & r & Co & _). unfold C. rewrite (Hp t p q r Co). cbn [first_corner second_corner third_corner fst snd]. apply cell_points; auto. now apply (sphere_cell_radius level b E t).
  - intros t s Ht Hs Tc. rewrite G, Nc in Ht, Hs. destruct (Hc t Ht) as (p & q & r & Co & _), (Hc s Hs) as (p' & q' & r' & Co' & _). unfold C. rewrite (Hp t p q r Co), (Hp s p' q' r' Co').
    apply (sphere_touching level id b fs fs E G t s p q r p' q' r' Co Co'). split; [reflexivity|exact Tc].
Qed.

Theorem sphere_swirls : forall (X : externals R) level id wmod e o deg pts (b : builder vec) (test trial : fspace R R) P F F1 F2 F' F1' F2' k d,
  regular_sphere real_numbers level 1 = Ok b -> fs_grid test = built_grid id Triangle b -> fs_grid trial = built_grid id Triangle b ->
  dense_setting X wmod (laplace_hypersingular (newton e)) o deg pts Triangle test trial ->
  positive_externals (Rle 0) X -> inside_rules X Triangle -> exact_to X Triangle (pts Triangle) (k + d) -> flat_cells X (built_grid id Triangle b) b ->
  element_slopes test Triangle d F F1 F2 -> element_slopes trial Triangle d F' F1' F2' -> (forall t p q r, corners_of b t p q r -> P t = (p, q, r)) ->
  forall rt, legal_runtime Rplus rt ->
  exists m, assemble reals X rt wmod (laplace_hypersingular (newton e)) o trial test = Ok m /\
  forall t s i j p q r p' q' r' M M', corners_of b t p q r -> corners_of b s p' q' r' -> In i (dofs_at test t) -> In j (dofs_at trial s) ->
    0 <= M -> (forall z x y, In z (support test i) -> inside Triangle x y -> inner (piece_swirl test F1 F2 P i z x y) (piece_swirl test F1 F2 P i z x y) <= M * M) ->
    0 <= M' -> (forall z x y, In z (support trial j) -> inside Triangle x y -> inner (piece_swirl trial F1' F2' P j z x y) (piece_swirl trial F1' F2' P j z x y) <= M' * M') ->
    let reach := 3 * sqrt (32 / (3 * (4 ^ level + 2))) in let a := dist (centre Triangle p q r) (centre Triangle p' q' r') in reach < a ->
    exists v w, nth_error m (i + global_size (fs_space test) * j) = Some v /\ swirls_integral Triangle test trial F1 F2 F1' F2' P P (newton e 0) i j w /\
      Rabs (v - w) <= 2 * ((reach / a) ^ (k + 1) / (1 - reach / a)) * (M * support_area test Triangle P i * (M' * support_area trial Triangle P j) / (4 * PI * a)).
Proof.
  intros X level id wmod e o deg pts b test trial P F F1 F2 F' F1' F2' k d E Gt Gs D HX Ins Ex Fl Ef Ef' Hp rt L.
  assert (FG : flat_grid X (built_grid id Triangle b) Triangle P).
  { intros t Ht points. destruct (sphere_cells level id b E) as (Nc & Hc). rewrite Nc in Ht. destruct (Hc t Ht) as (p & q & r & Co & _). rewrite (Hp t p q r Co). cbn. now apply Fl. }
  destruct (swirls_entries X wmod e o deg pts Triangle test trial P P F F1 F2 F' F1' F2' k d D (or_introl eq_refl) HX Ins Ex Ef Ef') with (rt := rt) as (m & Em & H); [now rewrite Gt|now rewrite Gs|exact L|].
  exists m. split; [exact Em|]. intros t s i j p q r p' q' r' M M' Co Co' Hi Hj PM Bd PM' Bd' reach a Ha.
  assert (Sp : serial_space test) by apply (dn_test _ _ _ _ _ _ _ _ _ D). assert (Sp' : serial_space trial) by apply (dn_trial _ _ _ _ _ _ _ _ _ D).
  assert (Lt : (t < ent_count (fs_grid test) 2)%nat) by (rewrite Gt; eapply corners_lt; eauto). assert (Ls : (s < ent_count (fs_grid test) 2)%nat) by (rewrite Gt; eapply corners_lt; eauto).
  assert (Hr : 0 <= sphere_radius level) by (unfold sphere_radius; pose proof (sqrt_pos (6 / (4 ^ level + 2))); lra).
  assert (Er : 3 * sphere_radius level + 3 * sphere_radius level = reach).
  { unfold reach. transitivity (3 * (sphere_radius level + sphere_radius level)); [ring|]. f_equal. apply root_of; [lra|apply radius_square]. }
  destruct (sphere_near level id b P test E Gt Hp) as (Ball & Close). assert (Gr : fs_grid trial = fs_grid test) by congruence.
  pose proof (near_supported Triangle P _ _ test Ball Close test i t Sp eq_refl Lt Hi) as S1. pose proof (near_supported Triangle P _ _ test Ball Close trial j s Sp' Gr Ls Hj) as S2.
  pose proof (near_apart _ _ test trial Sp Sp' Gr Close i j t s Lt Ls Hi Hj) as Na.
  cbv beta in S1, S2, Na. rewrite (Hp t p q r Co) in S1. rewrite (Hp s p' q' r' Co') in S2. rewrite (Hp t p q r Co), (Hp s p' q' r' Co') in Na. cbn [first_corner second_corner third_corner fst snd] in S1, S2, Na. fold a in Na.
  destruct (H i j _ _ _ _ M M' (serial_lt test Sp t i Lt Hi) (serial_lt trial Sp' s j ltac:(now rewrite Gr) Hj) S1 S2 (Na ltac:(lra)) PM Bd PM' Bd' ltac:(fold a; lra)) as (v & w & Ev & Iw & B).
  exists v, w. split; [exact Ev|]. split; [exact Iw|]. cbv zeta in B. fold a in B. now rewrite Er in B.
Qed.

(** ** Screens *)
Lemma screen_near n id ct (b : builder (nat * nat)) P (fs : fspace R R) : screen n ct b -> fs_grid fs = built_grid id ct b ->
  (forall t p q r, corner b t 0 p -> corner b t 1 q -> corner b t 2 r -> P t = (screen_position n p, screen_position n q, screen_position n r)) ->
  let C t := centre ct (first_corner (P t)) (second_corner (P t)) (third_corner (P t)) in
  (forall t, (t < ent_count (fs_grid fs) 2)%nat -> dist (point_in (P t) 0 0) (C t) <= screen_radius n ct /\ dist (point_in (P t) 1 0) (C t) <= screen_radius n ct /\ dist (point_in (P t) 0 1) (C t) <= screen_radius n ct /\
    (ct = Quadrilateral -> dist (point_in (P t) 1 1) (C t) <= screen_radius n ct)) /\
  forall t s, (t < ent_count (fs_grid fs) 2)%nat -> (s < ent_count (fs_grid fs) 2)%nat -> touch (fs_grid fs) t s -> dist (C t) (C s) <= screen_radius n ct + screen_radius n ct.
Proof.
  intros Sn G Hp C. pose proof (kind_of n ct b Sn) as K. split.
  - intros t Ht. rewrite G, (screen_cell_count n id ct b Sn) in Ht. destruct (screen_corners n ct b Sn t Ht) as (p & q & r & C0 & C1 & C2). unfold C. rewrite (Hp t p q r C0 C1 C2).
    destruct (screen_cell n ct b Sn t p q r C0 C1 C2) as (Q & _). cbn [first_corner second_corner third_corner fst snd]. apply cell_points; auto. split; [|split]; eapply Q; eauto.
  - intros t s Ht Hs Tc. rewrite G, (screen_cell_count n id ct b Sn) in Ht, Hs. destruct (screen_corners n ct b Sn t Ht) as (p & q & r & C0 & C1 & C2), (screen_corners n ct b Sn s Hs) as (p' & q' & r' & C0' & C1' & C2').
    unfold C. rewrite (Hp t p q r C0 C1 C2), (Hp s p' q' r' C0' C1' C2'). apply (screen_touching n id ct b fs fs Sn G t s p q r p' q' r' C0 C1 C2 C0' C1' C2'). split; [reflexivity|exact Tc].
Qed.

Theorem screen_swirls : forall (X : externals R) n id wmod ct e o deg pts (b : builder (nat * nat)) (test trial : fspace R R) P F F1 F2 F' F1' F2' k d,
  screen n ct b -> fs_grid test = built_grid id ct b -> fs_grid trial = built_grid id ct b ->
  dense_setting X wmod (laplace_hypersingular (newton e)) o deg pts ct test trial ->
  positive_externals (Rle 0) X -> inside_rules X ct -> exact_to X ct (pts ct) (k + d) -> flat_screen n X (built_grid id ct b) b ->
  element_slopes test ct d F F1 F2 -> element_slopes trial ct d F' F1' F2' ->
  (forall t p q r, corner b t 0 p -> corner b t 1 q -> corner b t 2 r -> P t = (screen_position n p, screen_position n q, screen_position n r)) ->
  forall rt, legal_runtime Rplus rt ->
  exists m, assemble reals X rt wmod (laplace_hypersingular (newton e)) o trial test = Ok m /\
  forall t s i j p q r p' q' r' M M', corner b t 0 p -> corner b t 1 q -> corner b t 2 r -> corner b s 0 p' -> corner b s 1 q' -> corner b s 2 r' -> In i (dofs_at test t) -> In j (dofs_at trial s) ->
    0 <= M -> (forall z x y, In z (support test i) -> inside ct x y -> inner (piece_swirl test F1 F2 P i z x y) (piece_swirl test F1 F2 P i z x y) <= M * M) ->
    0 <= M' -> (forall z x y, In z (support trial j) -> inside ct x y -> inner (piece_swirl trial F1' F2' P j z x y) (piece_swirl trial F1' F2' P j z x y) <= M' * M') ->
    let a := dist (centre ct (screen_position n p) (screen_position n q) (screen_position n r)) (centre ct (screen_position n p') (screen_position n q') (screen_position n r')) in
    let reach := 3 * (sqrt (spread ct / 2) / INR (n + 1)) in reach < a ->
    exists v w, nth_error m (i + global_size (fs_space test) * j) = Some v /\ swirls_integral ct test trial F1 F2 F1' F2' P P (newton e 0) i j w /\
      Rabs (v - w) <= 2 * ((reach / a) ^ (k + 1) / (1 - reach / a)) * (M * support_area test ct P i * (M' * support_area trial ct P j) / (4 * PI * a)).
Proof.
  intros X n id wmod ct e o deg pts b test trial P F F1 F2 F' F1' F2' k d Sn Gt Gs D HX Ins Ex Fl Ef Ef' Hp rt L. pose proof (kind_of n ct b Sn) as K.
  assert (FG : flat_grid X (built_grid id ct b) ct P).
  { intros t Ht points. rewrite (screen_cell_count n id ct b Sn) in Ht. destruct (screen_corners n ct b Sn t Ht) as (p & q & r & C0 & C1 & C2). rewrite (Hp t p q r C0 C1 C2). cbn. now apply Fl. }
  destruct (swirls_entries X wmod e o deg pts ct test trial P P F F1 F2 F' F1' F2' k d D K HX Ins Ex Ef Ef') with (rt := rt) as (m & Em & H); [now rewrite Gt|now rewrite Gs|exact L|].
  exists m. split; [exact Em|]. intros t s i j p q r p' q' r' M M' C0 C1 C2 C0' C1' C2' Hi Hj PM Bd PM' Bd' a reach Ha.
  assert (Sp : serial_space test) by apply (dn_test _ _ _ _ _ _ _ _ _ D). assert (Sp' : serial_space trial) by apply (dn_trial _ _ _ _ _ _ _ _ _ D).
  assert (Lt : (t < ent_count (fs_grid test) 2)%nat) by (rewrite Gt, (screen_cell_count n id ct b Sn); destruct C0 as (vs & v & Ec & _); apply nth_error_Some; congruence).
  assert (Ls : (s < ent_count (fs_grid test) 2)%nat) by (rewrite Gt, (screen_cell_count n id ct b Sn); destruct C0' as (vs & v & Ec & _); apply nth_error_Some; congruence).
  pose proof (side_positive n) as Pn. assert (Hr : 0 <= screen_radius n ct) by apply sqrt_pos.
  assert (Er : 3 * screen_radius n ct + 3 * screen_radius n ct = reach).
  { unfold reach. assert (Ps : 0 < spread ct) by (destruct ct; cbn; lra). transitivity (3 * (screen_radius n ct + screen_radius n ct)); [ring|]. f_equal. transitivity (sqrt (spread ct / 2 / (INR (n + 1) * INR (n + 1)))); [apply root_of; [lra|apply screen_radius_square]|].
    rewrite sqrt_div by nra. rewrite sqrt_square by lra. reflexivity. }
  destruct (screen_near n id ct b P test Sn Gt Hp) as (Ball & Close). assert (Gr : fs_grid trial = fs_grid test) by congruence.
  pose proof (near_supported ct P _ _ test Ball Close test i t Sp eq_refl Lt Hi) as S1. pose proof (near_supported ct P _ _ test Ball Close trial j s Sp' Gr Ls Hj) as S2.
  pose proof (near_apart _ _ test trial Sp Sp' Gr Close i j t s Lt Ls Hi Hj) as Na.
  cbv beta in S1, S2, Na. rewrite (Hp t p q r C0 C1 C2) in S1. rewrite (Hp s p' q' r' C0' C1' C2') in S2. rewrite (Hp t p q r C0 C1 C2), (Hp s p' q' r' C0' C1' C2') in Na. cbn [first_corner second_corner third_corner fst snd] in S1, S2, Na. fold a in Na.
  destruct (H i j _ _ _ _ M M' (serial_lt test Sp t i Lt Hi) (serial_lt trial Sp' s j ltac:(now rewrite Gr) Hj) S1 S2 (Na ltac:(lra)) PM Bd PM' Bd' ltac:(fold a; lra)) as (v & w & Ev & Iw & B).
  exists v, w. split; [exact Ev|]. split; [exact Iw|]. cbv zeta in B. fold a in B. now rewrite Er in B.
Qed.
