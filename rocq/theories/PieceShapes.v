(** * Entries of discontinuous functions of any degree on the built-in shapes *)
From Coq Require Import Reals Lra Psatz.
From Verif Require Import Base BaseFacts Topology TopologyFacts DofMap Process Space SpecSpace Options Adjacency SpecAdjacency Scalar Integrand CellPair Operators SpecLocal
  Interleave Assembly SpecAssembly AssemblyResults SpecTransfer SpecAlgebra SpecRounding RoundingModels SpecBroken SpecDof SpecGalerkin GalerkinResults BrokenResults SpecMeasure Shapes SpecShapes ScreenFacts ShapesResults SpecSphere SpecScreen SpecWidth WidthResults
  SpecTurns TurnExamples SpecGauss GaussResults SpecShift SpecToeplitz ToeplitzResults SpecShare SphereGeometry SpecFloatSphere FloatSphereError SpecWaves SpecDecay DecayResults DecayPoints DecayShapes SpecMoments MomentResults MomentShapes
  SpecDegree DegreeResults DegreeExact DegreeShapes SpecPieces PieceResults.

Local Open Scope R_scope.
Local Notation dist := SpecWaves.distance.

Lemma one_cell (fs : fspace R R) i t : serial_space fs -> interior_family (g_types (fs_grid fs) 2) (fs_family fs) -> (t < ent_count (fs_grid fs) 2)%nat -> In i (dofs_at fs t) -> support fs i = [t].
Proof.
  intros Sp Fi Ht Hi. assert (A : forall s, In s (support fs i) -> s = t). { intros s Is. apply in_support in Is. destruct Is as (Hs & Js). exact (serial_disjoint fs s t i Sp Fi Hs Ht Js Hi). }
  assert (B : In t (support fs i)) by (apply in_support; auto).
  assert (N : NoDup (support fs i)) by apply NoDup_filter, seq_NoDup.
  destruct (support fs i) as [|x [|y l]]; [destruct B|now rewrite (A x (or_introl eq_refl))|].
  exfalso. inversion N as [|? ? H _]. apply H. left. rewrite (A x), (A y); cbn; auto.
Qed.

Lemma cell_points ct p q r h : ct = Triangle \/ ct = Quadrilateral -> radius ct p q r h ->
  dist (point_in (p, q, r) 0 0) (centre ct p q r) <= h /\ dist (point_in (p, q, r) 1 0) (centre ct p q r) <= h /\ dist (point_in (p, q, r) 0 1) (centre ct p q r) <= h /\
  (ct = Quadrilateral -> dist (point_in (p, q, r) 1 1) (centre ct p q r) <= h).
Proof.
  intros Ht (R1 & R2 & R3). unfold point_in, first_corner, second_corner, third_corner. cbn [fst snd].
  replace (vadd p (vadd (vscale 0 (vsub q p)) (vscale 0 (vsub r p)))) with p by (destruct p as [[? ?] ?], q as [[? ?] ?], r as [[? ?] ?]; cbn; f_equal; [f_equal|]; ring).
  replace (vadd p (vadd (vscale 1 (vsub q p)) (vscale 0 (vsub r p)))) with q by (destruct p as [[? ?] ?], q as [[? ?] ?], r as [[? ?] ?]; cbn; f_equal; [f_equal|]; ring).
  replace (vadd p (vadd (vscale 0 (vsub q p)) (vscale 1 (vsub r p)))) with r by (destruct p as [[? ?] ?], q as [[? ?] ?], r as [[? ?] ?]; cbn; f_equal; [f_equal|]; ring).
  repeat split; auto. intros ->. rewrite dist_vlen in *. eapply Rle_trans; [|exact R1]. right. unfold vlen. f_equal. destruct p as [[? ?] ?], q as [[? ?] ?], r as [[? ?] ?]. cbn. field.
Qed.

(** ** The sphere *)
Theorem sphere_pieces : forall (X : externals R) level id wmod e o deg pts (b : builder vec) (test trial : fspace R R) P F F' k d,
  regular_sphere real_numbers level 1 = Ok b -> fs_grid test = built_grid id Triangle b -> fs_grid trial = built_grid id Triangle b ->
  dense_setting X wmod (laplace_single_layer (newton e)) o deg pts Triangle test trial ->
  positive_externals (Rle 0) X -> inside_rules X Triangle -> exact_to X Triangle (pts Triangle) (k + d) -> flat_cells X (built_grid id Triangle b) b ->
  interior_family (g_types (fs_grid test) 2) (fs_family test) -> interior_family (g_types (fs_grid trial) 2) (fs_family trial) ->
  element_functions test Triangle d F -> element_functions trial Triangle d F' -> (forall t p q r, corners_of b t p q r -> P t = (p, q, r)) ->
  forall rt, legal_runtime Rplus rt ->
  exists m, assemble reals X rt wmod (laplace_single_layer (newton e)) o trial test = Ok m /\
  forall t s i j p q r p' q' r' M M', corners_of b t p q r -> corners_of b s p' q' r' -> In i (dofs_at test t) -> In j (dofs_at trial s) ->
    (forall x y, inside Triangle x y -> Rabs (piece test F i t x y) <= M) -> (forall x y, inside Triangle x y -> Rabs (piece trial F' j s x y) <= M') ->
    let reach := sqrt (32 / (3 * (4 ^ level + 2))) in let a := dist (centre Triangle p q r) (centre Triangle p' q' r') in reach < a ->
    exists v w, nth_error m (i + global_size (fs_space test) * j) = Some v /\ functions_integral Triangle test trial F F' P P (newton e 0) i j w /\
      Rabs (v - w) <= 2 * ((reach / a) ^ (k + 1) / (1 - reach / a)) * (M * triangle_area p q r * (M' * triangle_area p' q' r') / (4 * PI * a)).
Proof.
  intros X level id wmod e o deg pts b test trial P F F' k d E Gt Gs D HX Ins Ex Fl Fi Fi' Ef Ef' Hp rt L.
  assert (FG : flat_grid X (built_grid id Triangle b) Triangle P).
  { intros t Ht points. destruct (sphere_cells level id b E) as (Nc & Hc). rewrite Nc in Ht. destruct (Hc t Ht) as (p & q & r & Co & _). rewrite (Hp t p q r Co). cbn. now apply Fl. }
  destruct (pieces_entries X wmod e o deg pts Triangle test trial P P F F' k d D (or_introl eq_refl) HX Ins Ex Ef Ef') with (rt := rt) as (m & Em & H); [now rewrite Gt|now rewrite Gs|exact L|].
  exists m. split; [exact Em|]. intros t s i j p q r p' q' r' M M' Co Co' Hi Hj Bd Bd' reach a Ha.
  assert (Sp : serial_space test) by apply (dn_test _ _ _ _ _ _ _ _ _ D). assert (Sp' : serial_space trial) by apply (dn_trial _ _ _ _ _ _ _ _ _ D).
  assert (Lt : (t < ent_count (fs_grid test) 2)%nat) by (rewrite Gt; eapply corners_lt; eauto). assert (Ls : (s < ent_count (fs_grid trial) 2)%nat) by (rewrite Gs; eapply corners_lt; eauto).
  pose proof (one_cell test i t Sp Fi Lt Hi) as S1. pose proof (one_cell trial j s Sp' Fi' Ls Hj) as S2.
  assert (Hr : 0 <= sphere_radius level) by (unfold sphere_radius; pose proof (sqrt_pos (6 / (4 ^ level + 2))); lra).
  assert (Er : sphere_radius level + sphere_radius level = reach) by (apply root_of; [lra|apply radius_square]).
  assert (Ar : forall u v' w, triangle_area u v' w = cell_area Triangle u v' w) by (intros; unfold triangle_area, cell_area; cbn [reference_area]; field).
  assert (A1 : support_area test Triangle P i = triangle_area p q r) by (unfold support_area; rewrite S1; cbn [map fold_right]; rewrite (Hp t p q r Co), Ar; cbn [first_corner second_corner third_corner fst snd]; ring).
  assert (A2 : support_area trial Triangle P j = triangle_area p' q' r') by (unfold support_area; rewrite S2; cbn [map fold_right]; rewrite (Hp s p' q' r' Co'), Ar; cbn [first_corner second_corner third_corner fst snd]; ring).
  destruct (H i j (centre Triangle p q r) (centre Triangle p' q' r') (sphere_radius level) (sphere_radius level) M M') as (v & w & Ev & Iw & B).
  - apply (serial_lt test Sp t i Lt Hi).
  - apply (serial_lt trial Sp' s j Ls Hj).
  - intros z. rewrite S1. intros [<-|[]]. rewrite (Hp t p q r Co). apply cell_points; auto. now apply (sphere_cell_radius level b E t).
  - intros z. rewrite S2. intros [<-|[]]. rewrite (Hp s p' q' r' Co'). apply cell_points; auto. now apply (sphere_cell_radius level b E s).
  - intros z z'. rewrite S1, S2. intros [<-|[]] [<-|[]] T. pose proof (sphere_touching level id b test trial E Gt t s p q r p' q' r' Co Co' T) as B. fold a in B. lra.
  - intros z x y. rewrite S1. intros [<-|[]]. apply Bd.
  - intros z x y. rewrite S2. intros [<-|[]]. apply Bd'.
  - fold a. lra.
  - exists v, w. split; [exact Ev|]. split; [exact Iw|]. cbv zeta in B. fold a in B. now rewrite Er, A1, A2 in B.
Qed.

(** ** Screens *)
Lemma screen_corners n ct (b : builder (nat * nat)) : screen n ct b -> forall t, (t < length (cells_of b))%nat -> exists p q r, corner b t 0 p /\ corner b t 1 q /\ corner b t 2 r.
Proof.
  intros Sn t Ht. destruct (screen_number n ct b Sn t Ht) as (x & y & h & Hx & Hy & Hh & ->).
  pose proof (fun k o => corner_at n ct b Sn x y h k o Hx Hy Hh) as C. 
  destruct (kind_of n ct b Sn) as [-> | ->]; cbn [per] in Hh.
  - destruct h as [|[|h]]; [| |lia]; do 3 eexists; repeat split; apply C; eexists; split; reflexivity.
  - assert (h = 0%nat) by lia. subst h. do 3 eexists; repeat split; apply C; eexists; split; reflexivity.
Qed.

Theorem screen_pieces : forall (X : externals R) n id wmod ct e o deg pts (b : builder (nat * nat)) (test trial : fspace R R) P F F' k d,
  screen n ct b -> fs_grid test = built_grid id ct b -> fs_grid trial = built_grid id ct b ->
  dense_setting X wmod (laplace_single_layer (newton e)) o deg pts ct test trial ->
  positive_externals (Rle 0) X -> inside_rules X ct -> exact_to X ct (pts ct) (k + d) -> flat_screen n X (built_grid id ct b) b ->
  interior_family (g_types (fs_grid test) 2) (fs_family test) -> interior_family (g_types (fs_grid trial) 2) (fs_family trial) ->
  element_functions test ct d F -> element_functions trial ct d F' ->
  (forall t p q r, corner b t 0 p -> corner b t 1 q -> corner b t 2 r -> P t = (screen_position n p, screen_position n q, screen_position n r)) ->
  forall rt, legal_runtime Rplus rt ->
  exists m, assemble reals X rt wmod (laplace_single_layer (newton e)) o trial test = Ok m /\
  forall t s i j p q r p' q' r' M M', corner b t 0 p -> corner b t 1 q -> corner b t 2 r -> corner b s 0 p' -> corner b s 1 q' -> corner b s 2 r' -> In i (dofs_at test t) -> In j (dofs_at trial s) ->
    (forall x y, inside ct x y -> Rabs (piece test F i t x y) <= M) -> (forall x y, inside ct x y -> Rabs (piece trial F' j s x y) <= M') ->
    let a := dist (centre ct (screen_position n p) (screen_position n q) (screen_position n r)) (centre ct (screen_position n p') (screen_position n q') (screen_position n r')) in
    let area := reference_area ct / (INR (n + 1) * INR (n + 1)) in let reach := sqrt (spread ct / 2) / INR (n + 1) in reach < a ->
    exists v w, nth_error m (i + global_size (fs_space test) * j) = Some v /\ functions_integral ct test trial F F' P P (newton e 0) i j w /\
      Rabs (v - w) <= 2 * ((reach / a) ^ (k + 1) / (1 - reach / a)) * (M * area * (M' * area) / (4 * PI * a)).
Proof.
  intros X n id wmod ct e o deg pts b test trial P F F' k d Sn Gt Gs D HX Ins Ex Fl Fi Fi' Ef Ef' Hp rt L. pose proof (kind_of n ct b Sn) as K.
  assert (FG : flat_grid X (built_grid id ct b) ct P).
  { intros t Ht points. rewrite (screen_cell_count n id ct b Sn) in Ht. destruct (screen_corners n ct b Sn t Ht) as (p & q & r & C0 & C1 & C2). rewrite (Hp t p q r C0 C1 C2). cbn. now apply Fl. }
  destruct (pieces_entries X wmod e o deg pts ct test trial P P F F' k d D K HX Ins Ex Ef Ef') with (rt := rt) as (m & Em & H); [now rewrite Gt|now rewrite Gs|exact L|].
  exists m. split; [exact Em|]. intros t s i j p q r p' q' r' M M' C0 C1 C2 C0' C1' C2' Hi Hj Bd Bd' a area reach Ha.
  destruct (screen_cell n ct b Sn t p q r C0 C1 C2) as (Q & Ar), (screen_cell n ct b Sn s p' q' r' C0' C1' C2') as (Q' & Ar').
  assert (Sp : serial_space test) by apply (dn_test _ _ _ _ _ _ _ _ _ D). assert (Sp' : serial_space trial) by apply (dn_trial _ _ _ _ _ _ _ _ _ D).
  assert (Lt : (t < ent_count (fs_grid test) 2)%nat) by (rewrite Gt, (screen_cell_count n id ct b Sn); destruct C0 as (vs & v & Ec & _); apply nth_error_Some; congruence).
  assert (Ls : (s < ent_count (fs_grid trial) 2)%nat) by (rewrite Gs, (screen_cell_count n id ct b Sn); destruct C0' as (vs & v & Ec & _); apply nth_error_Some; congruence).
  pose proof (one_cell test i t Sp Fi Lt Hi) as S1. pose proof (one_cell trial j s Sp' Fi' Ls Hj) as S2.
  pose proof (side_positive n) as Pn. assert (Hr : 0 <= screen_radius n ct) by apply sqrt_pos.
  assert (Er : screen_radius n ct + screen_radius n ct = reach).
  { unfold reach. assert (Ps : 0 < spread ct) by (destruct ct; cbn; lra). transitivity (sqrt (spread ct / 2 / (INR (n + 1) * INR (n + 1)))); [apply root_of; [lra|apply screen_radius_square]|].
    rewrite sqrt_div by nra. rewrite sqrt_square by lra. reflexivity. }
  assert (A1 : support_area test ct P i = area) by (unfold support_area; rewrite S1; cbn [map fold_right]; rewrite (Hp t p q r C0 C1 C2); cbn [first_corner second_corner third_corner fst snd]; rewrite Ar; unfold area; ring).
  assert (A2 : support_area trial ct P j = area) by (unfold support_area; rewrite S2; cbn [map fold_right]; rewrite (Hp s p' q' r' C0' C1' C2'); cbn [first_corner second_corner third_corner fst snd]; rewrite Ar'; unfold area; ring).
  destruct (H i j (centre ct (screen_position n p) (screen_position n q) (screen_position n r)) (centre ct (screen_position n p') (screen_position n q') (screen_position n r')) (screen_radius n ct) (screen_radius n ct) M M') as (v & w & Ev & Iw & B).
  - apply (serial_lt test Sp t i Lt Hi).
  - apply (serial_lt trial Sp' s j Ls Hj).
  - intros z. rewrite S1. intros [<-|[]]. rewrite (Hp t p q r C0 C1 C2). apply cell_points; auto. split; [|split]; eapply Q; eauto.
  - intros z. rewrite S2. intros [<-|[]]. rewrite (Hp s p' q' r' C0' C1' C2'). apply cell_points; auto. split; [|split]; eapply Q'; eauto.
  - intros z z'. rewrite S1, S2. intros [<-|[]] [<-|[]] T. pose proof (screen_touching n id ct b test trial Sn Gt t s p q r p' q' r' C0 C1 C2 C0' C1' C2' T) as B. fold a in B. lra.
  - intros z x y. rewrite S1. intros [<-|[]]. apply Bd.
  - intros z x y. rewrite S2. intros [<-|[]]. apply Bd'.
  - fold a. lra.
  - exists v, w. split; [exact Ev|]. split; [exact Iw|]. cbv zeta in B. fold a in B. now rewrite Er, A1, A2 in B.
Qed.
