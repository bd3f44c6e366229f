(** * Examples: the convex sphere *)
From Coq Require Import Reals Lra.
From Verif Require Import Base Topology DofMap SpecDof Process Space Options SpecOptions Scalar Integrand CellPair Operators Adjacency SpecAdjacency SpecLocal LocalResults SpecOperators Interleave Assembly SpecAssembly
  SphereResults ShapesResults AssemblyResults SpecTransfer SpecAlgebra SpecRounding SpecShapeSpaces ShapeSpacesResults Shapes SpecShapes SpecSphere SpecWidth SpecTurns TurnResults TurnExamples
  SpecGauss GaussResults GaussExamples SpecWaves SpecDecay DecayPoints DecayExamples SpecPlanes PlaneResults AlgebraResults PlaneExamples SpecConvex.

Local Open Scope R_scope.

(** The Laplace kernel and its gradient with respect to the second point. *)
Lemma newton_repelling : repelling (newton (-1)).
Proof.
  exists (fun s => / (4 * PI * (sqrt s * sqrt s * sqrt s))). split.
  - intros d Hd. pose proof (sqrt_lt_R0 d Hd) as P. apply Rinv_0_lt_compat. pose proof PI_RGT_0 as Q.
    apply Rmult_lt_0_compat; [lra|]. apply Rmult_lt_0_compat; [apply Rmult_lt_0_compat|]; exact P.
  - intros i x y Hi. unfold newton. rewrite <- (distance_chord x y). destruct (Req_EM_T (SpecWaves.distance x y) 0) as [Z|Z].
    + rewrite (distance_zero x y Z). destruct y as [[? ?] ?]. destruct i as [|[|[|i]]]; try lia; cbn; ring.
    + pose proof PI_RGT_0. destruct x as [[? ?] ?], y as [[? ?] ?]. destruct i as [|[|[|i]]]; try lia; cbn [Nat.add offset SpecTurns.coordinate vsub]; field; split; lra.
Qed.

Lemma unit_above X (fs : fspace R R) : fs_basis fs = unit_basis -> positive_basis (Rlt 0) X fs.
Proof. intros E t points p a _ _ _. rewrite E. cbn. lra. Qed.

Lemma level_simplex b t n q : x_simplex (level_externals b) t n = Some q -> (0 < n)%nat /\ qd_points q = repeat (/ 3) (2 * n) /\ exists w, 0 < w /\ qd_weights q = repeat w n.
Proof.
  cbn [level_externals x_simplex flat_externals]. destruct (Nat.eqb_spec n 0) as [|N]; [discriminate|]. intros H.
  split; [lia|]. split; [apply (f_equal (fun o => match o with Some q => qd_points q | None => [] end)) in H; now rewrite <- H|].
  apply (f_equal (fun o => match o with Some q => qd_weights q | None => [] end)) in H. cbn [qd_weights] in H. eexists. split; [|rewrite <- H; reflexivity].
  apply Rinv_0_lt_compat, lt_0_INR. lia.
Qed.

Lemma level_duffy b k d p n q : x_duffy (level_externals b) k d p n = Some q ->
  (0 < n)%nat /\ pq_test q = repeat (/ 4) (2 * n) /\ pq_trial q = repeat (/ 3) (2 * n) /\ exists w, 0 < w /\ pq_weights q = repeat w n.
Proof.
  cbn [level_externals x_duffy flat_externals]. destruct (Nat.eqb_spec n 0) as [|N]; [discriminate|]. intros H.
  split; [lia|]. split; [apply (f_equal (fun o => match o with Some q => pq_test q | None => [] end)) in H; now rewrite <- H|].
  split; [apply (f_equal (fun o => match o with Some q => pq_trial q | None => [] end)) in H; now rewrite <- H|].
  apply (f_equal (fun o => match o with Some q => pq_weights q | None => [] end)) in H. cbn [pq_weights] in H. eexists. split; [|rewrite <- H; reflexivity].
  apply Rinv_0_lt_compat, lt_0_INR. lia.
Qed.

Lemma level_inner_rules b : inner_rules (level_externals b).
Proof.
  split.
  - intros n q p H Hp. destruct (level_simplex b _ _ _ H) as (N & -> & w & _ & W). rewrite W, repeat_length in Hp. rewrite !nth_repeat_lt by lia. lra.
  - intros dim pairs n q p H Hp. destruct (level_duffy b _ _ _ _ _ H) as (N & -> & -> & w & _ & W). rewrite W, repeat_length in Hp. rewrite !nth_repeat_lt by lia. lra.
Qed.

Lemma level_inside b : inside_rules (level_externals b) Triangle.
Proof.
  destruct (level_inner_rules b) as (A & B). split.
  - intros n q p H Hp. destruct (A n q p H Hp) as (? & ? & ?). repeat split; lra.
  - intros kind dim pairs n q p Dk H Hp. injection Dk as <-. destruct (B dim pairs n q p H Hp) as (? & ? & ? & ? & ? & ?). repeat split; lra.
Qed.

Lemma level_positive b : weights_in (Rlt 0) (level_externals b).
Proof.
  split.
  - intros t n q H. destruct (level_simplex b _ _ _ H) as (_ & _ & w & P & ->). now apply Forall_repeat.
  - intros k d p n q H. destruct (level_duffy b _ _ _ _ _ H) as (_ & _ & _ & w & P & ->). now apply Forall_repeat.
Qed.

Lemma level_some b : some_points (level_externals b).
Proof.
  split.
  - intros t n q H. destruct (level_simplex b _ _ _ H) as (N & _ & w & P & ->). destruct n; [lia|discriminate].
  - intros k d p n q H. destruct (level_duffy b _ _ _ _ _ H) as (N & _ & _ & w & P & ->). destruct n; [lia|discriminate].
Qed.

Theorem convex_sphere_example : forall level id tf, standard tf -> exists b X (test : fspace R R) deg pts wmod,
  regular_sphere real_numbers level 1 = Ok b /\ fs_grid test = built_grid id Triangle b /\ made_on (built_grid id Triangle b) tf test /\
  flat_cells X (built_grid id Triangle b) b /\ inside_rules X Triangle /\ inner_rules X /\ some_points X /\ weights_in (Rlt 0) X /\ weights_in (Rle 0) X /\
  positive_basis (Rlt 0) X test /\ positive_basis (Rle 0) X test /\ repelling (newton (-1)) /\
  (forall kd, kd = Double \/ kd = Adjoint -> dense_setting X wmod (laplace_operator kd (newton (-1))) (after [SetBatch 3]) deg pts Triangle test test) /\
  exists p q r, corners_of b 0 p q r.
Proof.
  intros level id tf Hf. destruct (sphere_exists real_numbers level) as (b & E).
  pose proof (shape_sphere real_numbers level id b E) as Sh.
  destruct (spaces_exist R R (built_grid id Triangle b) tf (fun _ => 1%nat) unit_basis Sh Hf) as (u & Mu & _ & Bu); [intros; lia|].
  set (wmod := (4 + 2 * ent_count (built_grid id Triangle b) 2 * ent_count (built_grid id Triangle b) 2)%nat).
  destruct (made_dense R R reals (level_externals b) wmod (laplace_double_layer (newton (-1))) [SetBatch 3] (built_grid id Triangle b) _ _ u u Triangle Sh Hf Hf Mu Mu eq_refl (sh_laplace_double reals (newton (-1))) (level_proper b) (level_rules b)) as (deg & pts & D).
  { split; [cbn; lia|]. change (get_batch_size (after [SetBatch 3])) with 3%nat. unfold wmod. lia. }
  { unfold wmod. lia. }
  exists b, (level_externals b), u, deg, pts, wmod. split; [exact E|]. split; [apply Mu|]. split; [exact Mu|].
  split; [intros t points k p q r Co; now apply (flat_flat (built_grid id Triangle b) b)|]. split; [apply level_inside|]. split; [apply level_inner_rules|]. split; [apply level_some|].
  split; [apply level_positive|]. split.
  { destruct (level_positive b) as (A & B). split.
    - intros t n q H. eapply Forall_impl; [|exact (A t n q H)]. intros x Hx. cbn in Hx. lra.
    - intros k d p n q H. eapply Forall_impl; [|exact (B k d p n q H)]. intros x Hx. cbn in Hx. lra. }
  split; [now apply unit_above|]. split; [now apply unit_positive|]. split; [exact newton_repelling|]. split.
  - intros kd [-> | ->]; [exact D|]. eapply dense_operator; [|exact D]. apply (shipped_fitting reals), sh_laplace_adjoint.
  - destruct (proj2 (sphere_cells level id b E) 0%nat) as (p & q & r & Co & _); [|now exists p, q, r].
    destruct (sphere_surface real_numbers level) as (b' & E' & _ & _ & _ & N & _). rewrite E in E'. injection E' as <-.
    assert (N' : length (@cells_of vec b) = (8 * 4 ^ level)%nat) by exact N. rewrite N'. pose proof (Nat.pow_nonzero 4 level). lia.
Qed.
