(** * Examples: vertices that are far from each other *)
From Coq Require Import Reals Lra Psatz Permutation.
From Verif Require Import Base Topology DofMap SpecDof Process Space Options SpecOptions Scalar Integrand CellPair Operators Adjacency SpecAdjacency SpecLocal LocalResults SpecOperators Interleave Assembly SpecAssembly
  SphereSurface SphereResults ScreenFacts ShapesResults AssemblyResults AssemblyTermination SpecTransfer SpecScalars SpecAlgebra SpecRounding SpecShapeSpaces ShapeSpacesResults Shapes SpecShapes SpecSphere SpecScreen SpecWidth WidthResults SpecSymmetry SymmetryResults SpecTurns TurnResults TurnExamples
  SpecBroken SpecGalerkin SpecMeasure SpecGauss GaussResults GaussExamples SpecShift SpecToeplitz ToeplitzResults ToeplitzExamples SpecShare ShareScreen ShareExamples SpecFloatSphere FloatSphereError SpecApart ApartSharp KernelResults WaveKernel WaveLimits SpecWaves SpecDecay DecayPoints DecayShapes DecayExamples
  SpecMoments MomentResults MomentShapes MomentExamples SpecDefinite DefiniteResults DefiniteShapes SpecRims RimKernel RimResults RimShapes.

Local Open Scope R_scope.
Local Notation dist := SpecWaves.distance.

(** Every vertex of a cell has a degree of freedom. *)
Lemma vertex_dof {T R} (fs : fspace T R) G c z : shape_grid G -> g_types G 2 = [Triangle] -> made_on G (lagrange 1) fs -> In c (vertex_lists G) -> In z c ->
  exists i, listed (sp_dofmap (fs_space fs)) 0 z 0 i.
Proof.
  intros Sh Ty M Hc Hz. unfold vertex_lists in Hc. apply in_map_iff in Hc. destruct Hc as (k & <- & Hk). apply in_seq in Hk. apply In_nth_error in Hz. destruct Hz as (a & Ha).
  assert (S2 : standard (lagrange 1)) by (constructor; lia). pose proof (made_serial _ _ G (lagrange 1) fs Sh S2 M) as Sp.
  destruct (vertex_row fs k a z Sp) as (n & _ & L); rewrite ?(mo_grid _ _ _ M); auto.
  - exact (mo_family _ _ _ M).
  - lia.
  - eauto.
Qed.

Lemma hat_linear (fs : fspace R R) : fs_basis fs = hat_basis -> linear_functions fs.
Proof. intros B points p a Ha. rewrite B. unfold hat_basis. destruct a as [|[|[|a]]]; [| | |lia]; cbn [nth]; repeat split; reflexivity. Qed.

(** ** Sphere *)

Lemma antipodes level id (b : builder vec) : regular_sphere real_numbers level 1 = Ok b ->
  exists c z c' z', In c (vertex_lists (built_grid id Triangle b)) /\ In z c /\ In c' (vertex_lists (built_grid id Triangle b)) /\ In z' c' /\
    dist (SpecSphere.position (points_of b) z) (SpecSphere.position (points_of b) z') = 2.
Proof.
  intros E. destruct (sphere_cells level id b E) as (_ & H).
  assert (Hc : (0 < length (cells_of b))%nat).
  { destruct (sphere_surface real_numbers level) as (b' & E' & _ & _ & _ & Nc & _). rewrite E in E'. injection E' as <-. assert (Nc' : length (@cells_of vec b) = (8 * 4 ^ level)%nat) by exact Nc. rewrite Nc'. pose proof (Nat.pow_nonzero 4 level ltac:(discriminate)). lia. }
  destruct (H 0%nat Hc) as (p & q & r & Co & _). destruct (sphere_symmetric level b 0 true true true E 0%nat p q r Co) as (c' & p' & q' & r' & Co' & Pm).
  destruct Co as (u & v & w & Ec & Eu & Ev & Ew), Co' as (u' & v' & w' & Ec' & Eu' & Ev' & Ew').
  assert (I : In (vscale (-1) p) [p'; q'; r']).
  { apply (Permutation_in _ (Permutation_sym Pm)) || apply (Permutation_in _ Pm). left. destruct p as [[? ?] ?]. cbn. f_equal; [f_equal|]; ring. }
  assert (Z : exists z', In z' [u'; v'; w'] /\ nth_error (points_of b) z' = Some (vscale (-1) p)).
  { destruct I as [I|[I|[I|[]]]]; rewrite <- I; [exists u'|exists v'|exists w']; cbn; auto. }
  destruct Z as (z' & I' & Ez). exists [u; v; w], u, [u'; v'; w'], z'. rewrite built_lists by now left.
  split; [exact (nth_error_In _ _ Ec)|]. split; [now left|]. split; [exact (nth_error_In _ _ Ec')|]. split; [exact I'|].
  unfold SpecSphere.position. rewrite (nth_error_nth _ _ origin Eu), (nth_error_nth _ _ origin Ez).
  assert (U : inner p p = 1) by (eapply (sphere_unit level b E); eapply nth_error_In; eauto).
  rewrite distance_chord. replace (chord2 p (vscale (-1) p)) with (2 * 2); [apply sqrt_square; lra|].
  replace (chord2 p (vscale (-1) p)) with (4 * inner p p); [rewrite U; ring|]. destruct p as [[? ?] ?]. unfold chord2. cbn. ring.
Qed.

Theorem sphere_rim_example : forall level id, (2 <= level)%nat -> exists (b : builder vec) X (fs : fspace R R) wmod,
  regular_sphere real_numbers level 1 = Ok b /\ flat_cells X (built_grid id Triangle b) b /\ proper_rules X /\ rules_exist X Triangle (after [SetBatch 3]) /\
  (0 < get_batch_size (after [SetBatch 3]) < wmod)%nat /\ (2 * length (cells_of b) * length (cells_of b) <= wmod)%nat /\
  positive_externals (Rle 0) X /\ inside_rules X Triangle /\ exact_constants X Triangle /\
  made_on (built_grid id Triangle b) (lagrange 1) fs /\ linear_functions fs /\
  exists z z' i j, listed (sp_dofmap (fs_space fs)) 0 z 0 i /\ listed (sp_dofmap (fs_space fs)) 0 z' 0 j /\
    0 < dist (SpecSphere.position (points_of b) z) (SpecSphere.position (points_of b) z') - 2 * sqrt (6 / (4 ^ level + 2)).
Proof.
  intros level id Hl. assert (Ex : exists b : builder vec, regular_sphere real_numbers level 1 = Ok b) by exact (sphere_exists real_numbers level). destruct Ex as (b & E).
  pose proof (shape_sphere real_numbers level id b E) as Sh. assert (S2 : standard (lagrange 1)) by (constructor; lia).
  destruct (spaces_exist R R (built_grid id Triangle b) _ (fun _ => 1%nat) hat_basis Sh S2) as (v & Mv & _ & Bv); [intros; lia|].
  set (X := centred (level_externals b)).
  assert (Du : forall k d p n q, x_duffy (level_externals b) k d p n = Some q -> pq_test q = repeat (/ 4) (2 * n) /\ pq_trial q = repeat (/ 3) (2 * n) /\ n <> 0%nat /\ exists w, 0 <= w /\ pq_weights q = repeat w n).
  { intros k d p n q H. cbn [level_externals x_duffy flat_externals] in H. destruct (Nat.eqb_spec n 0) as [|N]; [discriminate|].
    split; [apply (f_equal (fun o => match o with Some q => pq_test q | None => [] end)) in H; now rewrite <- H|].
    split; [apply (f_equal (fun o => match o with Some q => pq_trial q | None => [] end)) in H; now rewrite <- H|]. split; [exact N|].
    apply (f_equal (fun o => match o with Some q => pq_weights q | None => [] end)) in H. cbn [pq_weights] in H. eexists. split; [|now rewrite <- H]. left. apply Rinv_0_lt_compat, lt_0_INR. lia. }
  exists b, X, v, (4 + 2 * length (cells_of b) * length (cells_of b))%nat. split; [exact E|]. split; [exact (flat_flat (built_grid id Triangle b) b)|].
  split; [apply centred_proper, level_proper|]. split; [apply centred_rules; [apply level_rules|now left]|].
  split; [change (get_batch_size (after [SetBatch 3])) with 3%nat; lia|]. split; [lia|].
  split. { constructor.
    - intros t n q H. destruct (centred_rule _ t n q H) as (N & _ & ->). apply Forall_repeat. left. apply Rdiv_lt_0_compat; [destruct t; cbn; lra|apply lt_0_INR; lia].
    - intros k d p n q H. destruct (Du k d p n q H) as (_ & _ & _ & w & W & ->). now apply Forall_repeat.
    - intros. cbn [X centred level_externals x_geometry flat_externals]. unfold flat_map_of. cbn [cm_jdet]. apply sqrt_pos. }
  split. { split.
    - intros n q p H Hp. destruct (centred_rule _ _ n q H) as (N & -> & Ew). rewrite Ew, repeat_length in Hp. rewrite !nth_repeat_lt by lia. cbn. lra.
    - intros k d pr n q p _ H Hp. destruct (Du k d pr n q H) as (-> & -> & _ & w & _ & Ew). rewrite Ew, repeat_length in Hp. rewrite !nth_repeat_lt by lia. cbn. lra. }
  split; [apply centred_linear|]. split; [exact Mv|]. split; [now apply hat_linear|].
  destruct (antipodes level id b E) as (c & z & c' & z' & Hc & Hz & Hc' & Hz' & Ed).
  destruct (vertex_dof v _ c z Sh eq_refl Mv Hc Hz) as (i & Li). destruct (vertex_dof v _ c' z' Sh eq_refl Mv Hc' Hz') as (j & Lj).
  exists z, z', i, j. split; [exact Li|]. split; [exact Lj|]. rewrite Ed.
  assert (W : 16 <= 4 ^ level). { replace 16 with (4 ^ 2) by ring. apply Rle_pow; [lra|exact Hl]. }
  assert (H : sqrt (6 / (4 ^ level + 2)) < 1); [|lra]. rewrite <- sqrt_1. apply sqrt_lt_1_alt. split; [left; apply Rdiv_lt_0_compat; lra|].
  apply (Rmult_lt_reg_r (4 ^ level + 2)); [lra|]. replace (6 / (4 ^ level + 2) * (4 ^ level + 2)) with 6 by (field; lra). lra.
Qed.

(** ** Screens *)

Theorem screen_rim_example : forall n id, (5 <= n)%nat -> exists (b : builder (nat * nat)) X (fs : fspace R R) wmod,
  screen_triangles n = Ok b /\ flat_screen n X (built_grid id Triangle b) b /\ proper_rules X /\ rules_exist X Triangle (after [SetBatch 3]) /\
  (0 < get_batch_size (after [SetBatch 3]) < wmod)%nat /\ (2 * length (cells_of b) * length (cells_of b) <= wmod)%nat /\
  positive_externals (Rle 0) X /\ inside_rules X Triangle /\ exact_constants X Triangle /\
  made_on (built_grid id Triangle b) (lagrange 1) fs /\ linear_functions fs /\
  exists x y x' y' i j, (0 < x < n)%nat /\ (0 < y < n)%nat /\ (0 < x' < n)%nat /\ (0 < y' < n)%nat /\
    listed (sp_dofmap (fs_space fs)) 0 (y * (n + 1) + x) 0 i /\ listed (sp_dofmap (fs_space fs)) 0 (y' * (n + 1) + x') 0 j /\
    0 < sqrt ((INR x - INR x') ^ 2 + (INR y - INR y') ^ 2) - 2 * sqrt 2.
Proof.
  intros n id Hn. destruct (screen_triangles_spec n ltac:(lia)) as (b & E & _).
  pose proof (shape_triangles n id b E) as Sh. assert (S2 : standard (lagrange 1)) by (constructor; lia).
  destruct (spaces_exist R R (built_grid id Triangle b) _ (fun _ => 1%nat) hat_basis Sh S2) as (v & Mv & _ & Bv); [intros; lia|].
  set (X := centred (even_externals n b)).
  assert (Du : forall ki d p k q, x_duffy (even_externals n b) ki d p k = Some q -> pq_test q = repeat (/ 4) (2 * k) /\ pq_trial q = repeat (/ 3) (2 * k) /\ k <> 0%nat /\ exists w, 0 <= w /\ pq_weights q = repeat w k).
  { intros ki d p k q H. cbn [even_externals x_duffy] in H. destruct (Nat.eqb_spec k 0) as [|N]; [discriminate|].
    split; [apply (f_equal (fun o => match o with Some q => pq_test q | None => [] end)) in H; now rewrite <- H|].
    split; [apply (f_equal (fun o => match o with Some q => pq_trial q | None => [] end)) in H; now rewrite <- H|]. split; [exact N|].
    apply (f_equal (fun o => match o with Some q => pq_weights q | None => [] end)) in H. cbn [pq_weights] in H. eexists. split; [|now rewrite <- H]. left. apply Rdiv_lt_0_compat; [destruct ki; cbn; lra|apply lt_0_INR; lia]. }
  exists b, X, v, (4 + 2 * length (cells_of b) * length (cells_of b))%nat. split; [exact E|]. split; [exact (flat_screen_flat n (built_grid id Triangle b) b)|].
  split; [apply centred_proper, even_proper|]. split; [apply centred_rules; [apply even_rules; now left|now left]|].
  split; [change (get_batch_size (after [SetBatch 3])) with 3%nat; lia|]. split; [lia|].
  split. { constructor.
    - intros t' k q H. destruct (centred_rule _ t' k q H) as (N & _ & ->). apply Forall_repeat. left. apply Rdiv_lt_0_compat; [destruct t'; cbn; lra|apply lt_0_INR; lia].
    - intros ki d p k q H. destruct (Du ki d p k q H) as (_ & _ & _ & w & W & ->). now apply Forall_repeat.
    - intros. cbn [X centred even_externals x_geometry flat_screen_externals]. cbv zeta. cbn [cm_jdet]. apply sqrt_pos. }
  split. { split.
    - intros k q p H Hp. destruct (centred_rule _ _ k q H) as (N & -> & Ew). rewrite Ew, repeat_length in Hp. rewrite !nth_repeat_lt by lia. cbn; lra.
    - intros ki d pr k q p _ H Hp. destruct (Du ki d pr k q H) as (-> & -> & _ & w & _ & Ew). rewrite Ew, repeat_length in Hp. rewrite !nth_repeat_lt by lia. cbn; lra. }
  split; [apply centred_linear|]. split; [exact Mv|]. split; [now apply hat_linear|].
  assert (Dof : forall x y, (x < n)%nat -> (y < n)%nat -> exists i, listed (sp_dofmap (fs_space v)) 0 (y * (n + 1) + x) 0 i).
  { intros x y Hx Hy. apply (vertex_dof v _ (lower n x y) _ Sh eq_refl Mv); [|now left]. rewrite (screen_lists n id b E). apply In_triangle_cells. exists x, y. auto. }
  destruct (Dof 1%nat 1%nat ltac:(lia) ltac:(lia)) as (i & Li). destruct (Dof (n - 1)%nat (n - 1)%nat ltac:(lia) ltac:(lia)) as (j & Lj).
  exists 1%nat, 1%nat, (n - 1)%nat, (n - 1)%nat, i, j. do 4 (split; [lia|]). split; [exact Li|]. split; [exact Lj|].
  assert (P : 4 <= INR (n - 1)) by (replace 4 with (INR 4) by (cbn; ring); apply le_INR; lia).
  assert (H : sqrt (2 * 2 * 2) < sqrt ((INR 1 - INR (n - 1)) ^ 2 + (INR 1 - INR (n - 1)) ^ 2)) by (apply sqrt_lt_1_alt; change (INR 1) with 1; split; nra).
  rewrite sqrt_mult_alt in H by lra. rewrite sqrt_square in H by lra. lra.
Qed.
