(** * C126: double layer entries of functions of any degree with distant supports and the integrals *)
From Coq Require Import Reals.
From Verif Require Import Base Topology DofMap SpecDof Process Space Options SpecOptions Scalar Integrand CellPair Operators SpecLocal Interleave Assembly SpecAssembly SpecTransfer SpecAlgebra SpecRounding SpecBroken SpecGalerkin SpecMeasure
  Shapes SpecShapes SpecSphere SpecScreen SpecWidth SpecTurns SpecShift SpecToeplitz SpecShare SpecWaves SpecDecay SpecDigits SpecMoments SpecDegree SpecPieces PieceResults PieceShapes DegreeExamples PieceExamples SpecFluxes FluxResults FluxShapes FluxExamples ContinuousShapes ContinuousExamples.

Local Open Scope R_scope.
Local Notation dist := SpecWaves.distance.

(** The double layer: with a regular rule of degree [k + d + 1] an entry is near the integral of the
    functions and the derivative of the kernel along the normal of the trial cell. *)
Theorem C126_double : forall (X : externals R) wmod e o deg pts ct (test trial : fspace R R) P P' F F' k d,
  dense_setting X wmod (laplace_double_layer (newton e)) o deg pts ct test trial -> ct = Triangle \/ ct = Quadrilateral ->
  positive_externals (Rle 0) X -> inside_rules X ct -> exact_to X ct (pts ct) (k + d + 1) ->
  element_functions test ct d F -> element_functions trial ct d F' -> flat_grid X (fs_grid test) ct P -> flat_grid X (fs_grid trial) ct P' ->
  forall rt, legal_runtime Rplus rt ->
  exists m, assemble reals X rt wmod (laplace_double_layer (newton e)) o trial test = Ok m /\
  forall i j c c' h h' M M' sigma, (i < global_size (fs_space test))%nat -> (j < global_size (fs_space trial))%nat ->
    supported_in test ct P i c h -> supported_in trial ct P' j c' h' -> (forall t s, In t (support test i) -> In s (support trial j) -> ~ touching test trial t s) ->
    (forall t x y, In t (support test i) -> inside ct x y -> Rabs (piece test F i t x y) <= M) -> (forall s x y, In s (support trial j) -> inside ct x y -> Rabs (piece trial F' j s x y) <= M') ->
    let a := dist c c' in let ratio := (h + h') / a in h + h' < a -> ratio < sigma < 1 ->
    exists v w, nth_error m (i + global_size (fs_space test) * j) = Some v /\ double_integral ct test trial F F' P P' (newton e) i j w /\
      Rabs (v - w) <= 6 * (1 + ratio) * (ratio / sigma) ^ (k + 1) / ((1 - sigma) ^ 3) * (Rabs e * (M * support_area test ct P i * (M' * support_area trial ct P' j)) / (4 * PI * (a * a))).
Proof. exact double_entries. Qed.
Print Assumptions C126_double.

(** The adjoint double layer. *)
Theorem C126_adjoint : forall (X : externals R) wmod e o deg pts ct (test trial : fspace R R) P P' F F' k d,
  dense_setting X wmod (laplace_adjoint_double_layer (newton e)) o deg pts ct test trial -> ct = Triangle \/ ct = Quadrilateral ->
  positive_externals (Rle 0) X -> inside_rules X ct -> exact_to X ct (pts ct) (k + d + 1) ->
  element_functions test ct d F -> element_functions trial ct d F' -> flat_grid X (fs_grid test) ct P -> flat_grid X (fs_grid trial) ct P' ->
  forall rt, legal_runtime Rplus rt ->
  exists m, assemble reals X rt wmod (laplace_adjoint_double_layer (newton e)) o trial test = Ok m /\
  forall i j c c' h h' M M' sigma, (i < global_size (fs_space test))%nat -> (j < global_size (fs_space trial))%nat ->
    supported_in test ct P i c h -> supported_in trial ct P' j c' h' -> (forall t s, In t (support test i) -> In s (support trial j) -> ~ touching test trial t s) ->
    (forall t x y, In t (support test i) -> inside ct x y -> Rabs (piece test F i t x y) <= M) -> (forall s x y, In s (support trial j) -> inside ct x y -> Rabs (piece trial F' j s x y) <= M') ->
    let a := dist c c' in let ratio := (h + h') / a in h + h' < a -> ratio < sigma < 1 ->
    exists v w, nth_error m (i + global_size (fs_space test) * j) = Some v /\ adjoint_integral ct test trial F F' P P' (newton e) i j w /\
      Rabs (v - w) <= 6 * (1 + ratio) * (ratio / sigma) ^ (k + 1) / ((1 - sigma) ^ 3) * (Rabs e * (M * support_area test ct P i * (M' * support_area trial ct P' j)) / (4 * PI * (a * a))).
Proof. exact adjoint_entries. Qed.
Print Assumptions C126_adjoint.

(** There is only one such integral, *)
Theorem C126_double_unique : forall ct test trial F F' P P' G i j v w, ct = Triangle \/ ct = Quadrilateral ->
  double_integral ct test trial F F' P P' G i j v -> double_integral ct test trial F F' P P' G i j w -> v = w.
Proof. exact double_unique. Qed.
Print Assumptions C126_double_unique.

(** in both cases. *)
Theorem C126_adjoint_unique : forall ct test trial F F' P P' G i j v w, ct = Triangle \/ ct = Quadrilateral ->
  adjoint_integral ct test trial F F' P P' G i j v -> adjoint_integral ct test trial F F' P P' G i j w -> v = w.
Proof. exact adjoint_unique. Qed.
Print Assumptions C126_adjoint_unique.

(** The sphere with discontinuous functions. *)
Theorem C126_sphere_double : forall (X : externals R) level id wmod e o deg pts (b : builder vec) (test trial : fspace R R) P F F' k d,
  regular_sphere real_numbers level 1 = Ok b -> fs_grid test = built_grid id Triangle b -> fs_grid trial = built_grid id Triangle b ->
  dense_setting X wmod (laplace_double_layer (newton e)) o deg pts Triangle test trial ->
  positive_externals (Rle 0) X -> inside_rules X Triangle -> exact_to X Triangle (pts Triangle) (k + d + 1) -> flat_cells X (built_grid id Triangle b) b ->
  interior_family (g_types (fs_grid test) 2) (fs_family test) -> interior_family (g_types (fs_grid trial) 2) (fs_family trial) ->
  element_functions test Triangle d F -> element_functions trial Triangle d F' -> (forall t p q r, corners_of b t p q r -> P t = (p, q, r)) ->
  forall rt, legal_runtime Rplus rt ->
  exists m, assemble reals X rt wmod (laplace_double_layer (newton e)) o trial test = Ok m /\
  forall t s i j p q r p' q' r' M M' sigma, corners_of b t p q r -> corners_of b s p' q' r' -> In i (dofs_at test t) -> In j (dofs_at trial s) ->
    (forall x y, inside Triangle x y -> Rabs (piece test F i t x y) <= M) -> (forall x y, inside Triangle x y -> Rabs (piece trial F' j s x y) <= M') ->
    let reach := sqrt (32 / (3 * (4 ^ level + 2))) in let a := dist (centre Triangle p q r) (centre Triangle p' q' r') in reach < a -> reach / a < sigma < 1 ->
    exists v w, nth_error m (i + global_size (fs_space test) * j) = Some v /\ double_integral Triangle test trial F F' P P (newton e) i j w /\
      Rabs (v - w) <= 6 * (1 + reach / a) * (reach / a / sigma) ^ (k + 1) / ((1 - sigma) ^ 3) * (Rabs e * (M * triangle_area p q r * (M' * triangle_area p' q' r')) / (4 * PI * (a * a))).
Proof. exact sphere_double. Qed.
Print Assumptions C126_sphere_double.

Theorem C126_sphere_adjoint : forall (X : externals R) level id wmod e o deg pts (b : builder vec) (test trial : fspace R R) P F F' k d,
  regular_sphere real_numbers level 1 = Ok b -> fs_grid test = built_grid id Triangle b -> fs_grid trial = built_grid id Triangle b ->
  dense_setting X wmod (laplace_adjoint_double_layer (newton e)) o deg pts Triangle test trial ->
  positive_externals (Rle 0) X -> inside_rules X Triangle -> exact_to X Triangle (pts Triangle) (k + d + 1) -> flat_cells X (built_grid id Triangle b) b ->
  interior_family (g_types (fs_grid test) 2) (fs_family test) -> interior_family (g_types (fs_grid trial) 2) (fs_family trial) ->
  element_functions test Triangle d F -> element_functions trial Triangle d F' -> (forall t p q r, corners_of b t p q r -> P t = (p, q, r)) ->
  forall rt, legal_runtime Rplus rt ->
  exists m, assemble reals X rt wmod (laplace_adjoint_double_layer (newton e)) o trial test = Ok m /\
  forall t s i j p q r p' q' r' M M' sigma, corners_of b t p q r -> corners_of b s p' q' r' -> In i (dofs_at test t) -> In j (dofs_at trial s) ->
    (forall x y, inside Triangle x y -> Rabs (piece test F i t x y) <= M) -> (forall x y, inside Triangle x y -> Rabs (piece trial F' j s x y) <= M') ->
    let reach := sqrt (32 / (3 * (4 ^ level + 2))) in let a := dist (centre Triangle p q r) (centre Triangle p' q' r') in reach < a -> reach / a < sigma < 1 ->
    exists v w, nth_error m (i + global_size (fs_space test) * j) = Some v /\ adjoint_integral Triangle test trial F F' P P (newton e) i j w /\
      Rabs (v - w) <= 6 * (1 + reach / a) * (reach / a / sigma) ^ (k + 1) / ((1 - sigma) ^ 3) * (Rabs e * (M * triangle_area p q r * (M' * triangle_area p' q' r')) / (4 * PI * (a * a))).
Proof. exact sphere_adjoint. Qed.
Print Assumptions C126_sphere_adjoint.

(** Linear functions on opposite triangles of the sphere. *)
Example C126_sphere_example : forall level id e, (2 <= level)%nat -> exists (b : builder vec) X (fs : fspace R R) P wmod deg pts,
  regular_sphere real_numbers level 1 = Ok b /\ fs_grid fs = built_grid id Triangle b /\
  (forall kd, kd = laplace_double_layer (newton e) \/ kd = laplace_adjoint_double_layer (newton e) ->
    dense_setting X wmod kd (after [SetBatch 3; SetRegular Triangle (few Triangle)]) deg pts Triangle fs fs) /\
  positive_externals (Rle 0) X /\ inside_rules X Triangle /\ exact_to X Triangle (pts Triangle) (0 + 1 + 1) /\ flat_cells X (built_grid id Triangle b) b /\
  fs_family fs = interior_only (fun _ => 3%nat) /\ interior_family (g_types (fs_grid fs) 2) (fs_family fs) /\
  element_functions fs Triangle 1 (fun a x y => match a with 0%nat => 1 - x - y | 1%nat => x | _ => y end) /\ (forall t p q r, corners_of b t p q r -> P t = (p, q, r)) /\
  exists t s i j p q r p' q' r' sigma, corners_of b t p q r /\ corners_of b s p' q' r' /\ In i (dofs_at fs t) /\ In j (dofs_at fs s) /\
    (forall x y, inside Triangle x y -> Rabs (piece fs (fun a x y => match a with 0%nat => 1 - x - y | 1%nat => x | _ => y end) i t x y) <= 1) /\
    (forall x y, inside Triangle x y -> Rabs (piece fs (fun a x y => match a with 0%nat => 1 - x - y | 1%nat => x | _ => y end) j s x y) <= 1) /\
    sqrt (32 / (3 * (4 ^ level + 2))) < dist (centre Triangle p q r) (centre Triangle p' q' r') /\
    sqrt (32 / (3 * (4 ^ level + 2))) / dist (centre Triangle p q r) (centre Triangle p' q' r') < sigma < 1.
Proof. exact sphere_flux_example. Qed.

(** Functions of any space, continuous or not, on the sphere. *)
Theorem C126_continuous_double : forall (X : externals R) level id wmod e o deg pts (b : builder vec) (test trial : fspace R R) P F F' k d,
  regular_sphere real_numbers level 1 = Ok b -> fs_grid test = built_grid id Triangle b -> fs_grid trial = built_grid id Triangle b ->
  dense_setting X wmod (laplace_double_layer (newton e)) o deg pts Triangle test trial ->
  positive_externals (Rle 0) X -> inside_rules X Triangle -> exact_to X Triangle (pts Triangle) (k + d + 1) -> flat_cells X (built_grid id Triangle b) b ->
  element_functions test Triangle d F -> element_functions trial Triangle d F' -> (forall t p q r, corners_of b t p q r -> P t = (p, q, r)) ->
  forall rt, legal_runtime Rplus rt ->
  exists m, assemble reals X rt wmod (laplace_double_layer (newton e)) o trial test = Ok m /\
  forall t s i j p q r p' q' r' M M' sigma, corners_of b t p q r -> corners_of b s p' q' r' -> In i (dofs_at test t) -> In j (dofs_at trial s) ->
    (forall z x y, In z (support test i) -> inside Triangle x y -> Rabs (piece test F i z x y) <= M) -> (forall z x y, In z (support trial j) -> inside Triangle x y -> Rabs (piece trial F' j z x y) <= M') ->
    let reach := 3 * sqrt (32 / (3 * (4 ^ level + 2))) in let a := dist (centre Triangle p q r) (centre Triangle p' q' r') in reach < a -> reach / a < sigma < 1 ->
    exists v w, nth_error m (i + global_size (fs_space test) * j) = Some v /\ double_integral Triangle test trial F F' P P (newton e) i j w /\
      Rabs (v - w) <= 6 * (1 + reach / a) * (reach / a / sigma) ^ (k + 1) / ((1 - sigma) ^ 3) * (Rabs e * (M * support_area test Triangle P i * (M' * support_area trial Triangle P j)) / (4 * PI * (a * a))).
Proof. exact sphere_functions_double. Qed.
Print Assumptions C126_continuous_double.

Theorem C126_continuous_adjoint : forall (X : externals R) level id wmod e o deg pts (b : builder vec) (test trial : fspace R R) P F F' k d,
  regular_sphere real_numbers level 1 = Ok b -> fs_grid test = built_grid id Triangle b -> fs_grid trial = built_grid id Triangle b ->
  dense_setting X wmod (laplace_adjoint_double_layer (newton e)) o deg pts Triangle test trial ->
  positive_externals (Rle 0) X -> inside_rules X Triangle -> exact_to X Triangle (pts Triangle) (k + d + 1) -> flat_cells X (built_grid id Triangle b) b ->
  element_functions test Triangle d F -> element_functions trial Triangle d F' -> (forall t p q r, corners_of b t p q r -> P t = (p, q, r)) ->
  forall rt, legal_runtime Rplus rt ->
  exists m, assemble reals X rt wmod (laplace_adjoint_double_layer (newton e)) o trial test = Ok m /\
  forall t s i j p q r p' q' r' M M' sigma, corners_of b t p q r -> corners_of b s p' q' r' -> In i (dofs_at test t) -> In j (dofs_at trial s) ->
    (forall z x y, In z (support test i) -> inside Triangle x y -> Rabs (piece test F i z x y) <= M) -> (forall z x y, In z (support trial j) -> inside Triangle x y -> Rabs (piece trial F' j z x y) <= M') ->
    let reach := 3 * sqrt (32 / (3 * (4 ^ level + 2))) in let a := dist (centre Triangle p q r) (centre Triangle p' q' r') in reach < a -> reach / a < sigma < 1 ->
    exists v w, nth_error m (i + global_size (fs_space test) * j) = Some v /\ adjoint_integral Triangle test trial F F' P P (newton e) i j w /\
      Rabs (v - w) <= 6 * (1 + reach / a) * (reach / a / sigma) ^ (k + 1) / ((1 - sigma) ^ 3) * (Rabs e * (M * support_area test Triangle P i * (M' * support_area trial Triangle P j)) / (4 * PI * (a * a))).
Proof. exact sphere_functions_adjoint. Qed.
Print Assumptions C126_continuous_adjoint.

(** Continuous linear functions on opposite triangles of the sphere, with [k = 0] and [d = 1]. *)
Example C126_continuous_example : forall level id e, (3 <= level)%nat -> exists (b : builder vec) X (fs : fspace R R) P wmod deg pts,
  regular_sphere real_numbers level 1 = Ok b /\ fs_grid fs = built_grid id Triangle b /\
  (forall O, O = laplace_single_layer (newton e) \/ O = laplace_double_layer (newton e) \/ O = laplace_adjoint_double_layer (newton e) ->
    dense_setting X wmod O (after [SetBatch 3; SetRegular Triangle (few Triangle)]) deg pts Triangle fs fs) /\
  positive_externals (Rle 0) X /\ inside_rules X Triangle /\ exact_to X Triangle (pts Triangle) (1 + 1) /\ flat_cells X (built_grid id Triangle b) b /\
  fs_family fs = lagrange 1 /\
  let F := fun (a : nat) (x y : R) => match a with 0%nat => 1 - x - y | 1%nat => x | _ => y end in
  element_functions fs Triangle 1 F /\ (forall t p q r, corners_of b t p q r -> P t = (p, q, r)) /\
  exists t s i j p q r p' q' r' sigma, corners_of b t p q r /\ corners_of b s p' q' r' /\ In i (dofs_at fs t) /\ In j (dofs_at fs s) /\
    (forall z x y, In z (support fs i) -> inside Triangle x y -> Rabs (piece fs F i z x y) <= 1) /\
    (forall z x y, In z (support fs j) -> inside Triangle x y -> Rabs (piece fs F j z x y) <= 1) /\
    let reach := 3 * sqrt (32 / (3 * (4 ^ level + 2))) in let a := dist (centre Triangle p q r) (centre Triangle p' q' r') in reach < a /\ reach / a < sigma < 1.
Proof. exact sphere_functions_example. Qed.
