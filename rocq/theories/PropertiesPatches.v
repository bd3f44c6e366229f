(** * C124: the degree of the regular rules and the entries of distant vertices *)
From Coq Require Import Reals.
From Verif Require Import Base Topology DofMap Process Space SpecSpace Options SpecOptions Adjacency SpecAdjacency Scalar Integrand CellPair Operators SpecLocal Interleave Assembly SpecAssembly
  SpecTransfer SpecAlgebra SpecRounding RoundingModels SpecBroken SpecDof SpecGalerkin SpecMeasure Shapes SpecShapes SpecSphere SpecScreen SpecWidth SpecTurns SpecShift SpecToeplitz SpecShare SpecWaves SpecDecay SpecMoments
  SpecDefinite SpecDegree SpecRims SpecPatches DegreeExamples PatchKernel PatchResults PatchShapes PatchExamples.

Local Open Scope R_scope.
Local Notation dist := SpecWaves.distance.

(** There is only one integral of a kernel times two functions of vertices, and times their
    curls. *)
Theorem C124_unique : forall g V K z z' v w, (hats_integral g V K z z' v -> hats_integral g V K z z' w -> v = w) /\ (curls_integral g V K z z' v -> curls_integral g V K z z' w -> v = w).
Proof. exact patch_unique. Qed.
Print Assumptions C124_unique.

(** Single layer matrix: regular rules that are exact for polynomials of degree [k + 1],
    linear functions on flat triangles. The entry of distant vertices is the integral of
    the kernel times the two functions up to a share of the leading term that falls like a
    power of the ratio of the reaches to the distance. *)
Theorem C124_hats : forall (X : externals R) wmod e o deg pts (test trial : fspace R R) V k,
  dense_setting X wmod (laplace_single_layer (newton e)) o deg pts Triangle test trial -> positive_externals (Rle 0) X -> inside_rules X Triangle -> exact_to X Triangle (pts Triangle) (k + 1) ->
  fs_grid trial = fs_grid test -> fs_family test = lagrange 1 -> fs_family trial = lagrange 1 -> linear_functions test -> linear_functions trial ->
  flat_triangles X (fs_grid test) V -> forall rt, legal_runtime Rplus rt ->
  exists m, assemble reals X rt wmod (laplace_single_layer (newton e)) o trial test = Ok m /\
  forall z z' i j h h', listed (sp_dofmap (fs_space test)) 0 z 0 i -> listed (sp_dofmap (fs_space trial)) 0 z' 0 j ->
    reach (fs_grid test) V z h -> reach (fs_grid test) V z' h' ->
    let a := dist (V z) (V z') in let ratio := (h + h') / a in h + h' < a ->
    exists v w, nth_error m (i + global_size (fs_space test) * j) = Some v /\ hats_integral (fs_grid test) V (newton e 0) z z' w /\
      Rabs (v - w) <= 2 * (ratio ^ (k + 1) / (1 - ratio)) * (patch_area (fs_grid test) V z / 3 * (patch_area (fs_grid test) V z' / 3) / (4 * PI * a)).
Proof. exact hats_entries. Qed.
Print Assumptions C124_hats.

(** Hypersingular matrix: rules of degree [k], and the integral of the kernel times the
    product of the curls. *)
Theorem C124_curls : forall (X : externals R) wmod e o deg pts (test trial : fspace R R) V k,
  dense_setting X wmod (laplace_hypersingular (newton e)) o deg pts Triangle test trial -> positive_externals (Rle 0) X -> inside_rules X Triangle -> exact_to X Triangle (pts Triangle) k ->
  fs_grid trial = fs_grid test -> fs_family test = lagrange 1 -> fs_family trial = lagrange 1 -> linear_functions test -> linear_functions trial ->
  flat_triangles X (fs_grid test) V -> proper_triangles (fs_grid test) V -> forall rt, legal_runtime Rplus rt ->
  exists m, assemble reals X rt wmod (laplace_hypersingular (newton e)) o trial test = Ok m /\
  forall z z' i j h h', listed (sp_dofmap (fs_space test)) 0 z 0 i -> listed (sp_dofmap (fs_space trial)) 0 z' 0 j ->
    reach (fs_grid test) V z h -> reach (fs_grid test) V z' h' ->
    let a := dist (V z) (V z') in let ratio := (h + h') / a in h + h' < a ->
    exists v w, nth_error m (i + global_size (fs_space test) * j) = Some v /\ curls_integral (fs_grid test) V (newton e 0) z z' w /\
      Rabs (v - w) <= 2 * (ratio ^ (k + 1) / (1 - ratio)) * (half_rim (fs_grid test) V z * half_rim (fs_grid test) V z' / (4 * PI * a)).
Proof. exact curls_entries. Qed.
Print Assumptions C124_curls.

(** The sphere, *)
Theorem C124_sphere : forall (X : externals R) level id wmod e o deg pts (b : builder vec) (test trial : fspace R R) k,
  regular_sphere real_numbers level 1 = Ok b -> fs_grid test = built_grid id Triangle b -> fs_grid trial = built_grid id Triangle b ->
  positive_externals (Rle 0) X -> inside_rules X Triangle -> flat_cells X (built_grid id Triangle b) b ->
  fs_family test = lagrange 1 -> fs_family trial = lagrange 1 -> linear_functions test -> linear_functions trial -> forall rt, legal_runtime Rplus rt ->
  let V := SpecSphere.position (points_of b) in let h := sqrt (6 / (4 ^ level + 2)) in
  (dense_setting X wmod (laplace_single_layer (newton e)) o deg pts Triangle test trial -> exact_to X Triangle (pts Triangle) (k + 1) ->
   exists m, assemble reals X rt wmod (laplace_single_layer (newton e)) o trial test = Ok m /\
   forall z z' i j, listed (sp_dofmap (fs_space test)) 0 z 0 i -> listed (sp_dofmap (fs_space trial)) 0 z' 0 j ->
     let a := dist (V z) (V z') in let ratio := 2 * h / a in 2 * h < a ->
     exists v w, nth_error m (i + global_size (fs_space test) * j) = Some v /\ hats_integral (fs_grid test) V (newton e 0) z z' w /\
       Rabs (v - w) <= 2 * (ratio ^ (k + 1) / (1 - ratio)) * (patch_area (fs_grid test) V z / 3 * (patch_area (fs_grid test) V z' / 3) / (4 * PI * a))) /\
  (dense_setting X wmod (laplace_hypersingular (newton e)) o deg pts Triangle test trial -> exact_to X Triangle (pts Triangle) k ->
   exists m, assemble reals X rt wmod (laplace_hypersingular (newton e)) o trial test = Ok m /\
   forall z z' i j, listed (sp_dofmap (fs_space test)) 0 z 0 i -> listed (sp_dofmap (fs_space trial)) 0 z' 0 j ->
     let a := dist (V z) (V z') in let ratio := 2 * h / a in 2 * h < a ->
     exists v w, nth_error m (i + global_size (fs_space test) * j) = Some v /\ curls_integral (fs_grid test) V (newton e 0) z z' w /\
       Rabs (v - w) <= 2 * (ratio ^ (k + 1) / (1 - ratio)) * (9 * (h * h) / (4 * PI * a))).
Proof. exact sphere_patches. Qed.
Print Assumptions C124_sphere.

(** and screens. *)
Theorem C124_screens : forall (X : externals R) n id wmod e o deg pts (b : builder (nat * nat)) (test trial : fspace R R) k,
  screen_triangles n = Ok b -> fs_grid test = built_grid id Triangle b -> fs_grid trial = built_grid id Triangle b ->
  positive_externals (Rle 0) X -> inside_rules X Triangle -> flat_screen n X (built_grid id Triangle b) b ->
  fs_family test = lagrange 1 -> fs_family trial = lagrange 1 -> linear_functions test -> linear_functions trial -> forall rt, legal_runtime Rplus rt ->
  let V := SpecSphere.position (screen_positions n b) in let h := sqrt 2 / INR (n + 1) in
  (dense_setting X wmod (laplace_single_layer (newton e)) o deg pts Triangle test trial -> exact_to X Triangle (pts Triangle) (k + 1) ->
   exists m, assemble reals X rt wmod (laplace_single_layer (newton e)) o trial test = Ok m /\
   forall z z' i j, listed (sp_dofmap (fs_space test)) 0 z 0 i -> listed (sp_dofmap (fs_space trial)) 0 z' 0 j ->
     let a := dist (V z) (V z') in let ratio := 2 * h / a in 2 * h < a ->
     exists v w, nth_error m (i + global_size (fs_space test) * j) = Some v /\ hats_integral (fs_grid test) V (newton e 0) z z' w /\
       Rabs (v - w) <= 2 * (ratio ^ (k + 1) / (1 - ratio)) * (patch_area (fs_grid test) V z / 3 * (patch_area (fs_grid test) V z' / 3) / (4 * PI * a))) /\
  (dense_setting X wmod (laplace_hypersingular (newton e)) o deg pts Triangle test trial -> exact_to X Triangle (pts Triangle) k ->
   exists m, assemble reals X rt wmod (laplace_hypersingular (newton e)) o trial test = Ok m /\
   forall z z' i j, listed (sp_dofmap (fs_space test)) 0 z 0 i -> listed (sp_dofmap (fs_space trial)) 0 z' 0 j ->
     let a := dist (V z) (V z') in let ratio := 2 * h / a in 2 * h < a ->
     exists v w, nth_error m (i + global_size (fs_space test) * j) = Some v /\ curls_integral (fs_grid test) V (newton e 0) z z' w /\
       Rabs (v - w) <= 2 * (ratio ^ (k + 1) / (1 - ratio)) * (9 * (h * h) / (4 * PI * a))).
Proof. exact screen_patches. Qed.
Print Assumptions C124_screens.

(** Rules of degree two and opposite vertices of the sphere, *)
Example C124_sphere_example : forall level id e, (2 <= level)%nat -> exists (b : builder vec) X (fs : fspace R R) wmod deg pts deg' pts',
  regular_sphere real_numbers level 1 = Ok b /\ fs_grid fs = built_grid id Triangle b /\ flat_cells X (built_grid id Triangle b) b /\
  positive_externals (Rle 0) X /\ inside_rules X Triangle /\ fs_family fs = lagrange 1 /\ linear_functions fs /\
  dense_setting X wmod (laplace_single_layer (newton e)) (after [SetBatch 3; SetRegular Triangle (few Triangle)]) deg pts Triangle fs fs /\ exact_to X Triangle (pts Triangle) (1 + 1) /\
  dense_setting X wmod (laplace_hypersingular (newton e)) (after [SetBatch 3; SetRegular Triangle (many Triangle)]) deg' pts' Triangle fs fs /\ exact_to X Triangle (pts' Triangle) 2 /\
  exists z z' i j, listed (sp_dofmap (fs_space fs)) 0 z 0 i /\ listed (sp_dofmap (fs_space fs)) 0 z' 0 j /\
    2 * sqrt (6 / (4 ^ level + 2)) < dist (SpecSphere.position (points_of b) z) (SpecSphere.position (points_of b) z').
Proof. exact sphere_patch_example. Qed.

(** and vertices of a screen. *)
Example C124_screen_example : forall n id e, (5 <= n)%nat -> exists (b : builder (nat * nat)) X (fs : fspace R R) wmod deg pts deg' pts',
  screen_triangles n = Ok b /\ fs_grid fs = built_grid id Triangle b /\ flat_screen n X (built_grid id Triangle b) b /\
  positive_externals (Rle 0) X /\ inside_rules X Triangle /\ fs_family fs = lagrange 1 /\ linear_functions fs /\
  dense_setting X wmod (laplace_single_layer (newton e)) (after [SetBatch 3; SetRegular Triangle (few Triangle)]) deg pts Triangle fs fs /\ exact_to X Triangle (pts Triangle) (1 + 1) /\
  dense_setting X wmod (laplace_hypersingular (newton e)) (after [SetBatch 3; SetRegular Triangle (many Triangle)]) deg' pts' Triangle fs fs /\ exact_to X Triangle (pts' Triangle) 2 /\
  exists z z' i j, listed (sp_dofmap (fs_space fs)) 0 z 0 i /\ listed (sp_dofmap (fs_space fs)) 0 z' 0 j /\
    2 * (sqrt 2 / INR (n + 1)) < dist (SpecSphere.position (screen_positions n b) z) (SpecSphere.position (screen_positions n b) z').
Proof. exact screen_patch_example. Qed.
