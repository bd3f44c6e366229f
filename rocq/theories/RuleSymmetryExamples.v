(** * Examples: rules with the symmetry of the triangle *)
From Coq Require Import Reals Lra Psatz Permutation.
From Verif Require Import Base Topology DofMap SpecDof Process Space Options SpecOptions Scalar Integrand CellPair Operators Adjacency SpecAdjacency SpecLocal LocalResults SpecOperators Interleave Assembly SpecAssembly
  SphereResults ShapesResults AssemblyResults AssemblyTermination SpecTransfer SpecScalars SpecAlgebra SpecRounding SpecShapeSpaces ShapeSpacesResults Shapes SpecShapes SpecSphere SpecScreen SpecWidth WidthResults SpecSymmetry SymmetryResults SpecTurns TurnResults TurnExamples
  SpecBroken SpecGalerkin SpecMeasure SpecGauss GaussResults GaussExamples SpecShift SpecToeplitz ToeplitzResults ToeplitzExamples SpecShare ShareScreen ShareExamples SpecFloatSphere SpecApart ApartSharp KernelResults WaveKernel WaveLimits SpecWaves SpecDecay DecayPoints DecayShapes DecayExamples
  SpecMoments MomentResults MomentShapes MomentExamples SpecDegree DegreeResults DegreeShapes DegreeExamples SpecRuleSymmetry RuleSymmetryResults.

Local Open Scope R_scope.

(** The midpoints of the edges. *)
Lemma midpoints_symmetric X : symmetric_simplex (quadratic X) 3.
Proof.
  intros q H. destruct (quadratic_rule X Triangle 3 q H) as (_ & Hp & Hw).
  assert (Nd : rule_nodes q = [(1 / 2, 0, 1 / 6); (0, 1 / 2, 1 / 6); (1 / 2, 1 / 2, 1 / 6)]) by (unfold rule_nodes; rewrite Hp, Hw; reflexivity).
  rewrite Nd. cbn [map]. split.
  - apply perm_swap.
  - replace (1 - 1 / 2 - 0) with (1 / 2) by lra. replace (1 - 0 - 1 / 2) with (1 / 2) by lra. replace (1 - 1 / 2 - 1 / 2) with 0 by lra. apply perm_skip, perm_swap.
Qed.

(** A rule with one point that is not the centre. *)
Lemma one_point_not : forall X, x_simplex X Triangle 1 = Some (mkQuadrature [1 / 2; 0] [1 / 2]) -> ~ symmetric_simplex X 1.
Proof.
  intros X H Sy. destruct (Sy _ H) as (P & _). cbn in P. apply Permutation_length_1 in P. apply pair_equal_spec in P. destruct P as (P & _). apply pair_equal_spec in P. destruct P as (P & _). lra.
Qed.

Theorem sphere_rule_example : forall level id e, (2 <= level)%nat -> exists b X (test : fspace R R) deg pts wmod,
  regular_sphere real_numbers level 1 = Ok b /\ fs_grid test = built_grid id Triangle b /\
  dense_setting X wmod (laplace_single_layer (newton e)) (after [SetBatch 3; SetRegular Triangle 3]) deg pts Triangle test test /\
  constants reals 1 test /\ interior_family (g_types (fs_grid test) 2) (fs_family test) /\ flat_cells X (built_grid id Triangle b) b /\ symmetric_simplex X (pts Triangle) /\
  exists t s p q r p' q' r', corners_of b t p q r /\ corners_of b s p' q' r' /\ ~ touching test test t s.
Proof.
  intros level id e Hl. destruct (sphere_exists real_numbers level) as (b & E).
  pose proof (shape_sphere real_numbers level id b E) as Sh.
  assert (S1 : standard (interior_only (fun _ => 1%nat))) by (constructor; intros; lia).
  destruct (spaces_exist R R (built_grid id Triangle b) _ (fun _ => 1%nat) unit_basis Sh S1) as (u & Mu & _ & Bu); [intros; lia|].
  assert (Gu : fs_grid u = built_grid id Triangle b) by apply Mu.
  assert (Tu : g_types (fs_grid u) 2 = [Triangle]) by (rewrite Gu; reflexivity).
  set (X := quadratic (level_externals b)).
  assert (Pr : proper_rules X) by apply quadratic_proper, level_proper.
  set (wmod := (4 + 2 * ent_count (built_grid id Triangle b) 2 * ent_count (built_grid id Triangle b) 2)%nat).
  destruct (made_dense R R reals X wmod (laplace_single_layer (newton e)) [SetBatch 3; SetRegular Triangle (few Triangle)] (built_grid id Triangle b) _ _ u u Triangle Sh S1 S1 Mu Mu eq_refl (sh_laplace_single reals (newton e)) Pr (quadratic_rules _ _ _ (or_introl eq_refl) (level_rules b) (or_introl eq_refl))) as (deg & pts & D).
  { split; [apply Nat.lt_0_succ|]. change (get_batch_size (after [SetBatch 3; SetRegular Triangle (few Triangle)])) with 3%nat. unfold wmod. lia. }
  { unfold wmod. lia. }
  exists b, X, u, deg, pts, wmod. split; [exact E|]. split; [exact Gu|]. split; [exact D|].
  split. { constructor; rewrite ?Bu; auto. - intros t Ht. rewrite Tu in Ht. destruct Ht as [<-|[]]. now rewrite (mo_family _ _ _ Mu). - intros t points d p [-> | ->]; reflexivity. }
  split. { rewrite Tu, (mo_family _ _ _ Mu). intros t d i Ht Hd. destruct Ht as [<-|[]]. unfold el_ndofs, interior_only. cbn [el_edofs]. destruct (i <? _)%nat; [|reflexivity]. destruct d as [|[|d]]; try reflexivity; lia. }
  split; [exact (flat_flat (built_grid id Triangle b) b)|]. split.
  { assert (En : pts Triangle = 3%nat); [|rewrite En; apply midpoints_symmetric]. pose proof (dn_simplex _ _ _ _ _ _ _ _ _ D) as Hs. destruct (Hs Triangle (or_introl eq_refl)) as (Hg & _). apply (f_equal (fun o => match o with Some z => z | None => 0%nat end)) in Hg. now rewrite <- Hg. }
  assert (Hc : (0 < length (cells_of b))%nat).
  { destruct (sphere_surface real_numbers level) as (b' & E' & _ & _ & _ & Nc & _). rewrite E in E'. injection E' as <-. unfold cells_of in *. clear -Nc. pose proof (Nat.pow_nonzero 4 level ltac:(discriminate)). lia. }
  destruct (proj2 (sphere_cells level id b E) 0%nat Hc) as (p & q & r & Co & _).
  destruct (opposite_cells level b 0 p q r E Co Hl) as (s & p' & q' & r' & Co' & F). exists 0%nat, s, p, q, r, p', q', r'. split; [exact Co|]. split; [exact Co'|].
  intros T. pose proof (sphere_touching level id b u u E Gu 0%nat s p q r p' q' r' Co Co' T) as B.
  assert (Hr : 0 <= sphere_radius level) by (unfold sphere_radius; pose proof (sqrt_pos (6 / (4 ^ level + 2))); lra).
  assert (Er : sphere_radius level + sphere_radius level = sqrt (32 / (3 * (4 ^ level + 2)))) by (apply root_of; [lra|apply radius_square]).
  assert (P4 : 0 < 4 ^ level) by (apply pow_lt; lra).
  assert (G : sqrt (32 / (3 * (4 ^ level + 2))) < SpecWaves.distance (centre Triangle p q r) (centre Triangle p' q' r')); [|lra].
  apply far_root; [apply dist_nonneg|apply Rdiv_lt_0_compat; lra|]. eapply Rle_trans; [|exact F]. right. field. lra.
Qed.
