(** * Properties of hypersingular entries of vertices that are far from each other *)
From Coq Require Import Reals.
From Verif Require Import Base Topology DofMap SpecDof Process Space Options SpecOptions Scalar Integrand CellPair Operators SpecLocal Interleave Assembly SpecAssembly SpecTransfer
  SpecShapeSpaces Shapes SpecShapes SpecSphere SpecScreen SpecWidth SpecSymmetry SpecTurns SpecShift SpecToeplitz SpecRounding SpecGalerkin SpecWaves SpecDecay SpecMoments SpecDefinite SpecRims RimResults RimShapes RimExamples.

Local Open Scope R_scope.

(** ** C122: entries of the hypersingular matrix decay with the third power of the distance *)

(** The cells around vertex [z] are within [h] of it, those around [z'] within [h'], and
    [d] is left of their distance.  The bound has one more power of [d] for each vertex
    that has cells all around it. *)
Theorem C122_decay : forall (X : externals R) wmod e o deg pts (test trial : fspace R R) V,
  dense_setting X wmod (laplace_hypersingular (newton e)) o deg pts Triangle test trial -> positive_externals (Rle 0) X -> inside_rules X Triangle -> exact_constants X Triangle ->
  fs_grid trial = fs_grid test -> fs_family test = lagrange 1 -> fs_family trial = lagrange 1 -> linear_functions test -> linear_functions trial ->
  flat_triangles X (fs_grid test) V -> proper_triangles (fs_grid test) V -> forall rt, legal_runtime Rplus rt ->
  exists m, assemble reals X rt wmod (laplace_hypersingular (newton e)) o trial test = Ok m /\
  forall z z' i j h h', listed (sp_dofmap (fs_space test)) 0 z 0 i -> listed (sp_dofmap (fs_space trial)) 0 z' 0 j ->
    reach (fs_grid test) V z h -> reach (fs_grid test) V z' h' ->
    let d := distance (V z) (V z') - (h + h') in let r := half_rim (fs_grid test) V z * half_rim (fs_grid test) V z' in 0 < d ->
    exists v, nth_error m (i + global_size (fs_space test) * j) = Some v /\
      Rabs v <= 1 / (4 * PI * d) * r /\
      (closed_rim (fs_grid test) V z -> Rabs v <= h / (4 * PI * (d * d)) * r) /\ (closed_rim (fs_grid test) V z' -> Rabs v <= h' / (4 * PI * (d * d)) * r) /\
      (closed_rim (fs_grid test) V z -> closed_rim (fs_grid test) V z' -> Rabs v <= h * h' / (2 * PI * (d * d * d)) * r).
Proof. exact hypersingular_decay. Qed.
Print Assumptions C122_decay.

(** On the sphere all vertices have cells all around them, at most six; *)
Theorem C122_sphere_rims : forall level id (b : builder vec), regular_sphere real_numbers level 1 = Ok b -> forall z,
  let g := built_grid id Triangle b in let V := SpecSphere.position (points_of b) in let h := sqrt (6 / (4 ^ level + 2)) in
  closed_rim g V z /\ half_rim g V z <= 3 * h /\ reach g V z h.
Proof. exact sphere_rims. Qed.
Print Assumptions C122_sphere_rims.

(** hence the bound for any two vertices that are more than two edges apart. *)
Theorem C122_sphere : forall (X : externals R) rt wmod e calls level id (b : builder vec) (test trial : fspace R R),
  legal_runtime Rplus rt -> regular_sphere real_numbers level 1 = Ok b -> flat_cells X (built_grid id Triangle b) b -> proper_rules X -> rules_exist X Triangle (after calls) ->
  (0 < get_batch_size (after calls) < wmod)%nat -> (2 * length (cells_of b) * length (cells_of b) <= wmod)%nat ->
  positive_externals (Rle 0) X -> inside_rules X Triangle -> exact_constants X Triangle ->
  made_on (built_grid id Triangle b) (lagrange 1) test -> made_on (built_grid id Triangle b) (lagrange 1) trial -> linear_functions test -> linear_functions trial ->
  exists m, assemble reals X rt wmod (laplace_hypersingular (newton e)) (after calls) trial test = Ok m /\
  forall z z' i j, listed (sp_dofmap (fs_space test)) 0 z 0 i -> listed (sp_dofmap (fs_space trial)) 0 z' 0 j ->
    let h := sqrt (6 / (4 ^ level + 2)) in
    let d := distance (SpecSphere.position (points_of b) z) (SpecSphere.position (points_of b) z') - 2 * h in 0 < d ->
    exists v, nth_error m (i + global_size (fs_space test) * j) = Some v /\ Rabs v <= 162 / (PI * (4 ^ level + 2) ^ 2 * d ^ 3).
Proof. exact sphere_decay. Qed.
Print Assumptions C122_sphere.

(** On a screen the vertices inside have, the others have not. *)
Theorem C122_screen : forall (X : externals R) rt wmod e calls n id (b : builder (nat * nat)) (test trial : fspace R R),
  legal_runtime Rplus rt -> screen_triangles n = Ok b -> flat_screen n X (built_grid id Triangle b) b -> proper_rules X -> rules_exist X Triangle (after calls) ->
  (0 < get_batch_size (after calls) < wmod)%nat -> (2 * length (cells_of b) * length (cells_of b) <= wmod)%nat ->
  positive_externals (Rle 0) X -> inside_rules X Triangle -> exact_constants X Triangle ->
  made_on (built_grid id Triangle b) (lagrange 1) test -> made_on (built_grid id Triangle b) (lagrange 1) trial -> linear_functions test -> linear_functions trial ->
  exists m, assemble reals X rt wmod (laplace_hypersingular (newton e)) (after calls) trial test = Ok m /\
  forall x y x' y' i j, (x <= n)%nat -> (y <= n)%nat -> (x' <= n)%nat -> (y' <= n)%nat ->
    listed (sp_dofmap (fs_space test)) 0 (y * (n + 1) + x) 0 i -> listed (sp_dofmap (fs_space trial)) 0 (y' * (n + 1) + x') 0 j ->
    let k := INR (n + 1) in
    let d := sqrt ((INR x - INR x') ^ 2 + (INR y - INR y') ^ 2) - 2 * sqrt 2 in 0 < d ->
    let inner_vertex a c := (0 < a < n /\ 0 < c < n)%nat in
    exists v, nth_error m (i + global_size (fs_space test) * j) = Some v /\ Rabs v <= 9 / (2 * PI * d * k) /\
      (inner_vertex x y \/ inner_vertex x' y' -> Rabs v <= 9 * sqrt 2 / (2 * PI * d ^ 2 * k)) /\
      (inner_vertex x y -> inner_vertex x' y' -> Rabs v <= 18 / (PI * d ^ 3 * k)).
Proof. exact screen_decay. Qed.
Print Assumptions C122_screen.

(** ** Examples *)

(** Vertices of the sphere on opposite sides, from level 2 on. *)
Example C122_sphere_example : forall level id, (2 <= level)%nat -> exists (b : builder vec) X (fs : fspace R R) wmod,
  regular_sphere real_numbers level 1 = Ok b /\ flat_cells X (built_grid id Triangle b) b /\ proper_rules X /\ rules_exist X Triangle (after [SetBatch 3]) /\
  (0 < get_batch_size (after [SetBatch 3]) < wmod)%nat /\ (2 * length (cells_of b) * length (cells_of b) <= wmod)%nat /\
  positive_externals (Rle 0) X /\ inside_rules X Triangle /\ exact_constants X Triangle /\
  made_on (built_grid id Triangle b) (lagrange 1) fs /\ linear_functions fs /\
  exists z z' i j, listed (sp_dofmap (fs_space fs)) 0 z 0 i /\ listed (sp_dofmap (fs_space fs)) 0 z' 0 j /\
    0 < distance (SpecSphere.position (points_of b) z) (SpecSphere.position (points_of b) z') - 2 * sqrt (6 / (4 ^ level + 2)).
Proof. exact sphere_rim_example. Qed.

(** Two vertices inside a screen with at least five squares on a side. *)
Example C122_screen_example : forall n id, (5 <= n)%nat -> exists (b : builder (nat * nat)) X (fs : fspace R R) wmod,
  screen_triangles n = Ok b /\ flat_screen n X (built_grid id Triangle b) b /\ proper_rules X /\ rules_exist X Triangle (after [SetBatch 3]) /\
  (0 < get_batch_size (after [SetBatch 3]) < wmod)%nat /\ (2 * length (cells_of b) * length (cells_of b) <= wmod)%nat /\
  positive_externals (Rle 0) X /\ inside_rules X Triangle /\ exact_constants X Triangle /\
  made_on (built_grid id Triangle b) (lagrange 1) fs /\ linear_functions fs /\
  exists x y x' y' i j, (0 < x < n)%nat /\ (0 < y < n)%nat /\ (0 < x' < n)%nat /\ (0 < y' < n)%nat /\
    listed (sp_dofmap (fs_space fs)) 0 (y * (n + 1) + x) 0 i /\ listed (sp_dofmap (fs_space fs)) 0 (y' * (n + 1) + x') 0 j /\
    0 < sqrt ((INR x - INR x') ^ 2 + (INR y - INR y') ^ 2) - 2 * sqrt 2.
Proof. exact screen_rim_example. Qed.
