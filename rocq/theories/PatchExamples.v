(** * Examples: rules exact for quadratic polynomials and functions of vertices *)
From Coq Require Import Reals Lra Psatz Permutation.
From Verif Require Import Base Topology DofMap SpecDof Process Space Options SpecOptions Scalar Integrand CellPair Operators Adjacency SpecAdjacency SpecLocal LocalResults SpecOperators Interleave Assembly SpecAssembly
  SphereSurface SphereResults ScreenFacts ShapesResults AssemblyResults AssemblyTermination SpecTransfer SpecScalars SpecAlgebra SpecRounding SpecShapeSpaces ShapeSpacesResults Shapes SpecShapes SpecSphere SpecScreen SpecWidth WidthResults SpecSymmetry SymmetryResults SpecTurns TurnResults TurnExamples
  SpecBroken SpecGalerkin SpecMeasure SpecGauss GaussResults GaussExamples SpecShift SpecToeplitz ToeplitzResults ToeplitzExamples SpecShare ShareScreen ShareExamples SpecFloatSphere FloatSphereError SpecApart ApartSharp KernelResults WaveKernel WaveLimits SpecWaves SpecDecay DecayPoints DecayShapes DecayExamples
  SpecMoments MomentResults MomentShapes MomentExamples SpecDefinite DefiniteResults DefiniteShapes SpecRims RimKernel RimResults RimShapes RimExamples SpecDegree DegreeResults DegreeExamples.

Local Open Scope R_scope.
Local Notation dist := SpecWaves.distance.

(** ** Sphere *)

Theorem sphere_patch_example : forall level id e, (2 <= level)%nat -> exists (b : builder vec) X (fs : fspace R R) wmod deg pts deg' pts',
  regular_sphere real_numbers level 1 = Ok b /\ fs_grid fs = built_grid id Triangle b /\ flat_cells X (built_grid id Triangle b) b /\
  positive_externals (Rle 0) X /\ inside_rules X Triangle /\ fs_family fs = lagrange 1 /\ linear_functions fs /\
  dense_setting X wmod (laplace_single_layer (newton e)) (after [SetBatch 3; SetRegular Triangle (few Triangle)]) deg pts Triangle fs fs /\ exact_to X Triangle (pts Triangle) (1 + 1) /\
  dense_setting X wmod (laplace_hypersingular (newton e)) (after [SetBatch 3; SetRegular Triangle (many Triangle)]) deg' pts' Triangle fs fs /\ exact_to X Triangle (pts' Triangle) 2 /\
  exists z z' i j, listed (sp_dofmap (fs_space fs)) 0 z 0 i /\ listed (sp_dofmap (fs_space fs)) 0 z' 0 j /\
    2 * sqrt (6 / (4 ^ level + 2)) < dist (SpecSphere.position (points_of b) z) (SpecSphere.position (points_of b) z').
Proof.
  intros level id e Hl. assert (Ex : exists b : builder vec, regular_sphere real_numbers level 1 = Ok b) by exact (sphere_exists real_numbers level). destruct Ex as (b & E).
  pose proof (shape_sphere real_numbers level id b E) as Sh. assert (S2 : standard (lagrange 1)) by (constructor; lia).
  destruct (spaces_exist R R (built_grid id Triangle b) _ (fun _ => 1%nat) hat_basis Sh S2) as (v & Mv & _ & Bv); [intros; lia|].
  set (X := quadratic (level_externals b)).
  assert (Pr : proper_rules X) by apply quadratic_proper, level_proper.
  set (wmod := (4 + 2 * ent_count (built_grid id Triangle b) 2 * ent_count (built_grid id Triangle b) 2)%nat).
  destruct (made_dense R R reals X wmod (laplace_single_layer (newton e)) [SetBatch 3; SetRegular Triangle (few Triangle)] (built_grid id Triangle b) _ _ v v Triangle Sh S2 S2 Mv Mv eq_refl (sh_laplace_single reals (newton e)) Pr (quadratic_rules _ _ _ (or_introl eq_refl) (level_rules b) (or_introl eq_refl))) as (deg & pts & D).
  { split; [apply Nat.lt_0_succ|]. change (get_batch_size (after [SetBatch 3; SetRegular Triangle (few Triangle)])) with 3%nat. unfold wmod. lia. }
  { unfold wmod. lia. }
  destruct (made_dense R R reals X wmod (laplace_hypersingular (newton e)) [SetBatch 3; SetRegular Triangle (many Triangle)] (built_grid id Triangle b) _ _ v v Triangle Sh S2 S2 Mv Mv eq_refl (sh_laplace_hyper reals (newton e)) Pr (quadratic_rules _ _ _ (or_intror eq_refl) (level_rules b) (or_introl eq_refl))) as (deg' & pts' & D').
  { split; [apply Nat.lt_0_succ|]. change (get_batch_size (after [SetBatch 3; SetRegular Triangle (many Triangle)])) with 3%nat. unfold wmod. lia. }
  { unfold wmod. lia. }
  assert (Du : forall k d p n q, x_duffy (level_externals b) k d p n = Some q -> pq_test q = repeat (/ 4) (2 * n) /\ pq_trial q = repeat (/ 3) (2 * n) /\ n <> 0%nat /\ exists w, 0 <= w /\ pq_weights q = repeat w n).
  { intros k d p n q H. cbn [level_externals x_duffy flat_externals] in H. destruct (Nat.eqb_spec n 0) as [|N]; [discriminate|].
    split; [apply (f_equal (fun o => match o with Some q => pq_test q | None => [] end)) in H; now rewrite <- H|].
    split; [apply (f_equal (fun o => match o with Some q => pq_trial q | None => [] end)) in H; now rewrite <- H|]. split; [exact N|].
    apply (f_equal (fun o => match o with Some q => pq_weights q | None => [] end)) in H. cbn [pq_weights] in H. eexists. split; [|now rewrite <- H]. left. apply Rinv_0_lt_compat, lt_0_INR. lia. }
  exists b, X, v, wmod, deg, pts, deg', pts'. split; [exact E|]. split; [apply Mv|]. split; [exact (flat_flat (built_grid id Triangle b) b)|].
  split. { constructor.
    - intros t n q H. now apply (quadratic_inside _ t n q H).
    - intros k d p n q H. destruct (Du k d p n q H) as (_ & _ & _ & w & W & ->). now apply Forall_repeat.
    - intros. cbn [X quadratic level_externals x_geometry flat_externals]. unfold flat_map_of. cbn [cm_jdet]. apply sqrt_pos. }
  split. { split.
    - intros n q p H Hp. now apply (quadratic_inside _ _ n q H).
    - intros k d pr n q p _ H Hp. destruct (Du k d pr n q H) as (-> & -> & _ & w & _ & Ew). rewrite Ew, repeat_length in Hp. rewrite !nth_repeat_lt by lia. cbn. lra. }
  split; [apply Mv|]. split; [now apply hat_linear|]. split; [exact D|]. split; [apply quadratic_exact|]. split; [exact D'|]. split; [apply quadratic_exact|].
  destruct (antipodes level id b E) as (c & z & c' & z' & Hc & Hz & Hc' & Hz' & Ed).
  destruct (vertex_dof v _ c z Sh eq_refl Mv Hc Hz) as (i & Li). destruct (vertex_dof v _ c' z' Sh eq_refl Mv Hc' Hz') as (j & Lj).
  exists z, z', i, j. split; [exact Li|]. split; [exact Lj|]. rewrite Ed.
  assert (W : 16 <= 4 ^ level). { replace 16 with (4 ^ 2) by ring. apply Rle_pow; [lra|exact Hl]. }
  assert (H : sqrt (6 / (4 ^ level + 2)) < 1); [|lra]. rewrite <- sqrt_1. apply sqrt_lt_1_alt. split; [left; apply Rdiv_lt_0_compat; lra|].
  apply (Rmult_lt_reg_r (4 ^ level + 2)); [lra|]. replace (6 / (4 ^ level + 2) * (4 ^ level + 2)) with 6 by (field; lra). lra.
Qed.

(** ** Screens *)

Theorem screen_patch_example : forall n id e, (5 <= n)%nat -> exists (b : builder (nat * nat)) X (fs : fspace R R) wmod deg pts deg' pts',
  screen_triangles n = Ok b /\ fs_grid fs = built_grid id Triangle b /\ flat_screen n X (built_grid id Triangle b) b /\
  positive_externals (Rle 0) X /\ inside_rules X Triangle /\ fs_family fs = lagrange 1 /\ linear_functions fs /\
  dense_setting X wmod (laplace_single_layer (newton e)) (after [SetBatch 3; SetRegular Triangle (few Triangle)]) deg pts Triangle fs fs /\ exact_to X Triangle (pts Triangle) (1 + 1) /\
  dense_setting X wmod (laplace_hypersingular (newton e)) (after [SetBatch 3; SetRegular Triangle (many Triangle)]) deg' pts' Triangle fs fs /\ exact_to X Triangle (pts' Triangle) 2 /\
  exists z z' i j, listed (sp_dofmap (fs_space fs)) 0 z 0 i /\ listed (sp_dofmap (fs_space fs)) 0 z' 0 j /\
    2 * (sqrt 2 / INR (n + 1)) < dist (SpecSphere.position (screen_positions n b) z) (SpecSphere.position (screen_positions n b) z').
Proof.
  intros n id e Hn. destruct (screen_triangles_spec n ltac:(lia)) as (b & E & _).
  pose proof (shape_triangles n id b E) as Sh. assert (S2 : standard (lagrange 1)) by (constructor; lia).
  destruct (spaces_exist R R (built_grid id Triangle b) _ (fun _ => 1%nat) hat_basis Sh S2) as (v & Mv & _ & Bv); [intros; lia|].
  set (X := quadratic (even_externals n b)).
  assert (Pr : proper_rules X) by apply quadratic_proper, even_proper.
  set (wmod := (4 + 2 * ent_count (built_grid id Triangle b) 2 * ent_count (built_grid id Triangle b) 2)%nat).
  destruct (made_dense R R reals X wmod (laplace_single_layer (newton e)) [SetBatch 3; SetRegular Triangle (few Triangle)] (built_grid id Triangle b) _ _ v v Triangle Sh S2 S2 Mv Mv eq_refl (sh_laplace_single reals (newton e)) Pr (quadratic_rules _ _ _ (or_introl eq_refl) (even_rules n b Triangle (or_introl eq_refl)) (or_introl eq_refl))) as (deg & pts & D).
  { split; [apply Nat.lt_0_succ|]. change (get_batch_size (after [SetBatch 3; SetRegular Triangle (few Triangle)])) with 3%nat. unfold wmod. lia. }
  { unfold wmod. lia. }
  destruct (made_dense R R reals X wmod (laplace_hypersingular (newton e)) [SetBatch 3; SetRegular Triangle (many Triangle)] (built_grid id Triangle b) _ _ v v Triangle Sh S2 S2 Mv Mv eq_refl (sh_laplace_hyper reals (newton e)) Pr (quadratic_rules _ _ _ (or_intror eq_refl) (even_rules n b Triangle (or_introl eq_refl)) (or_introl eq_refl))) as (deg' & pts' & D').
  { split; [apply Nat.lt_0_succ|]. change (get_batch_size (after [SetBatch 3; SetRegular Triangle (many Triangle)])) with 3%nat. unfold wmod. lia. }
  { unfold wmod. lia. }
  assert (Du : forall ki d p k q, x_duffy (even_externals n b) ki d p k = Some q -> pq_test q = repeat (/ 4) (2 * k) /\ pq_trial q = repeat (/ 3) (2 * k) /\ k <> 0%nat /\ exists w, 0 <= w /\ pq_weights q = repeat w k).
  { intros ki d p k q H. cbn [even_externals x_duffy] in H. destruct (Nat.eqb_spec k 0) as [|N]; [discriminate|].
    split; [apply (f_equal (fun o => match o with Some q => pq_test q | None => [] end)) in H; now rewrite <- H|].
    split; [apply (f_equal (fun o => match o with Some q => pq_trial q | None => [] end)) in H; now rewrite <- H|]. split; [exact N|].
    apply (f_equal (fun o => match o with Some q => pq_weights q | None => [] end)) in H. cbn [pq_weights] in H. eexists. split; [|now rewrite <- H]. left. apply Rdiv_lt_0_compat; [destruct ki; cbn; lra|apply lt_0_INR; lia]. }
  exists b, X, v, wmod, deg, pts, deg', pts'. split; [exact E|]. split; [apply Mv|]. split; [exact (flat_screen_flat n (built_grid id Triangle b) b)|].
  split. { constructor.
    - intros t k q H. now apply (quadratic_inside _ t k q H).
    - intros ki d p k q H. destruct (Du ki d p k q H) as (_ & _ & _ & w & W & ->). now apply Forall_repeat.
    - intros. cbn [X quadratic even_externals x_geometry flat_screen_externals]. cbv zeta. cbn [cm_jdet]. apply sqrt_pos. }
  split. { split.
    - intros k q p H Hp. now apply (quadratic_inside _ _ k q H).
    - intros ki d pr k q p _ H Hp. destruct (Du ki d pr k q H) as (-> & -> & _ & w & _ & Ew). rewrite Ew, repeat_length in Hp. rewrite !nth_repeat_lt by lia. cbn. lra. }
  split; [apply Mv|]. split; [now apply hat_linear|]. split; [exact D|]. split; [apply quadratic_exact|]. split; [exact D'|]. split; [apply quadratic_exact|].
  assert (Dof : forall x y, (x < n)%nat -> (y < n)%nat -> exists i, listed (sp_dofmap (fs_space v)) 0 (y * (n + 1) + x) 0 i).
  { intros x y Hx Hy. apply (vertex_dof v _ (lower n x y) _ Sh eq_refl Mv); [|now left]. rewrite (screen_lists n id b E). apply In_triangle_cells. exists x, y. auto. }
  destruct (Dof 1%nat 1%nat ltac:(lia) ltac:(lia)) as (i & Li). destruct (Dof (n - 1)%nat (n - 1)%nat ltac:(lia) ltac:(lia)) as (j & Lj).
  exists (1 * (n + 1) + 1)%nat, ((n - 1) * (n + 1) + (n - 1))%nat, i, j. split; [exact Li|]. split; [exact Lj|].
  rewrite !(screen_place n b E) by lia. set (k := INR (n + 1)). assert (Pk : 0 < k) by (apply lt_0_INR; lia).
  assert (P : 4 <= INR (n - 1)) by (replace 4 with (INR 4) by (cbn; ring); apply le_INR; lia).
  rewrite dist_vlen. unfold vlen, SphereGeometry.norm2.
  match goal with |- _ < sqrt ?s => replace s with (((INR 1 - INR (n - 1)) ^ 2 + (INR 1 - INR (n - 1)) ^ 2) / (k * k)) by (change (INR 1) with 1; cbn; field; lra) end.
  rewrite sqrt_div_alt by nra. rewrite sqrt_square by lra.
  assert (H : sqrt (2 * 2 * 2) < sqrt ((INR 1 - INR (n - 1)) ^ 2 + (INR 1 - INR (n - 1)) ^ 2)) by (apply sqrt_lt_1_alt; change (INR 1) with 1; split; nra).
  rewrite sqrt_mult_alt in H by lra. rewrite sqrt_square in H by lra.
  replace (2 * (sqrt 2 / k)) with (2 * sqrt 2 / k) by (field; lra). apply Rmult_lt_compat_r; [now apply Rinv_0_lt_compat|exact H].
Qed.
