(** * C129: Helmholtz double layer entries of functions of any degree with distant supports and the integrals *)
From Coq Require Import Reals.
From Verif Require Import Base Topology DofMap SpecDof Process Space Options SpecOptions Scalar Integrand CellPair Operators SpecLocal Interleave Assembly SpecAssembly SpecTransfer SpecScalars SpecAlgebra SpecRounding SpecBroken SpecGalerkin SpecMeasure
  Shapes SpecShapes SpecSphere SpecScreen SpecWidth SpecTurns SpecShift SpecToeplitz SpecShare SpecWaves WaveLimits SpecDecay SpecDigits SpecMoments SpecDegree SpecPieces PieceResults PieceShapes DegreeExamples PieceExamples EchoResults EchoShapes EchoExamples SpecFluxes FluxResults DriftResults DriftShapes DriftExamples.

Local Open Scope R_scope.
Local Notation dist := SpecWaves.distance.

(** With a regular rule of degree [k + d + 1] the real and the imaginary part of an entry of a double
    layer matrix are near the integrals of the derivatives of the real and the imaginary part of the
    kernel along the normal of the trial cell; [sigma] is any number below 1 whose square is at least
    the ratio of the sizes of the supports to their distance. *)
Theorem C129_double : forall (X : externals R) wmod e kappa o deg pts ct (test trial : fspace R R) (test' trial' : fspace (R * R) R) P P' F F' k d,
  dense_setting X wmod (laplace_double_layer (newton e)) o deg pts ct test trial -> ct = Triangle \/ ct = Quadrilateral ->
  mapped_space embed_real test test' -> mapped_space embed_real trial trial' ->
  positive_externals (Rle 0) X -> inside_rules X ct -> exact_to X ct (pts ct) (k + d + 1) ->
  element_functions test ct d F -> element_functions trial ct d F' -> flat_grid X (fs_grid test) ct P -> flat_grid X (fs_grid trial) ct P' ->
  forall rt, legal_runtime (s_add complexes) rt ->
  exists m, assemble complexes X rt wmod (helmholtz_double_layer (waves e) kappa) o trial' test' = Ok m /\
  forall i j c c' h h' M M' sigma, (i < global_size (fs_space test))%nat -> (j < global_size (fs_space trial))%nat ->
    supported_in test ct P i c h -> supported_in trial ct P' j c' h' -> (forall t s, In t (support test i) -> In s (support trial j) -> ~ touching test trial t s) ->
    (forall t x y, In t (support test i) -> inside ct x y -> Rabs (piece test F i t x y) <= M) -> (forall s x y, In s (support trial j) -> inside ct x y -> Rabs (piece trial F' j s x y) <= M') ->
    let a := dist c c' in let ratio := (h + h') / a in h + h' < a -> 0 < sigma < 1 -> ratio <= sigma * sigma ->
    exists v w w', nth_error m (i + global_size (fs_space test) * j) = Some v /\
      double_integral ct test trial F F' P P' (fun n x y => fst (waves e kappa n x y)) i j w /\ double_integral ct test trial F F' P P' (fun n x y => snd (waves e kappa n x y)) i j w' /\
      let bound := 6 * (1 + ratio) * sigma ^ (k + 1) / ((1 - sigma) ^ 3) * exp (2 * (Rabs kappa * (a + (h + h')) / sigma)) * (Rabs e * (M * support_area test ct P i * (M' * support_area trial ct P' j)) / (4 * PI * (a * a))) in
      Rabs (fst v - w) <= bound /\ Rabs (snd v - w') <= bound.
Proof. exact drifts_double. Qed.
Print Assumptions C129_double.

(** The same for the adjoint double layer and the normal of the test cell. *)
Theorem C129_adjoint : forall (X : externals R) wmod e kappa o deg pts ct (test trial : fspace R R) (test' trial' : fspace (R * R) R) P P' F F' k d,
  dense_setting X wmod (laplace_adjoint_double_layer (newton e)) o deg pts ct test trial -> ct = Triangle \/ ct = Quadrilateral ->
  mapped_space embed_real test test' -> mapped_space embed_real trial trial' ->
  positive_externals (Rle 0) X -> inside_rules X ct -> exact_to X ct (pts ct) (k + d + 1) ->
  element_functions test ct d F -> element_functions trial ct d F' -> flat_grid X (fs_grid test) ct P -> flat_grid X (fs_grid trial) ct P' ->
  forall rt, legal_runtime (s_add complexes) rt ->
  exists m, assemble complexes X rt wmod (helmholtz_adjoint_double_layer (waves e) kappa) o trial' test' = Ok m /\
  forall i j c c' h h' M M' sigma, (i < global_size (fs_space test))%nat -> (j < global_size (fs_space trial))%nat ->
    supported_in test ct P i c h -> supported_in trial ct P' j c' h' -> (forall t s, In t (support test i) -> In s (support trial j) -> ~ touching test trial t s) ->
    (forall t x y, In t (support test i) -> inside ct x y -> Rabs (piece test F i t x y) <= M) -> (forall s x y, In s (support trial j) -> inside ct x y -> Rabs (piece trial F' j s x y) <= M') ->
    let a := dist c c' in let ratio := (h + h') / a in h + h' < a -> 0 < sigma < 1 -> ratio <= sigma * sigma ->
    exists v w w', nth_error m (i + global_size (fs_space test) * j) = Some v /\
      adjoint_integral ct test trial F F' P P' (fun n x y => fst (waves e kappa n x y)) i j w /\ adjoint_integral ct test trial F F' P P' (fun n x y => snd (waves e kappa n x y)) i j w' /\
      let bound := 6 * (1 + ratio) * sigma ^ (k + 1) / ((1 - sigma) ^ 3) * exp (2 * (Rabs kappa * (a + (h + h')) / sigma)) * (Rabs e * (M * support_area test ct P i * (M' * support_area trial ct P' j)) / (4 * PI * (a * a))) in
      Rabs (fst v - w) <= bound /\ Rabs (snd v - w') <= bound.
Proof. exact drifts_adjoint. Qed.
Print Assumptions C129_adjoint.

(** There is only one such integral. *)
Theorem C129_double_unique : forall ct test trial F F' P P' G i j v w, ct = Triangle \/ ct = Quadrilateral ->
  double_integral ct test trial F F' P P' G i j v -> double_integral ct test trial F F' P P' G i j w -> v = w.
Proof. exact double_unique. Qed.
Print Assumptions C129_double_unique.

Theorem C129_adjoint_unique : forall ct test trial F F' P P' G i j v w, ct = Triangle \/ ct = Quadrilateral ->
  adjoint_integral ct test trial F F' P P' G i j v -> adjoint_integral ct test trial F F' P P' G i j w -> v = w.
Proof. exact adjoint_unique. Qed.
Print Assumptions C129_adjoint_unique.

(** The sphere, with functions continuous or not: a function lives within the radius of three cells of
    the centre of any cell it lives on. *)
Theorem C129_sphere_double : forall (X : externals R) level id wmod e kappa o deg pts (b : builder vec) (test trial : fspace R R) (test' trial' : fspace (R * R) R) P F F' k d,
  regular_sphere real_numbers level 1 = Ok b -> fs_grid test = built_grid id Triangle b -> fs_grid trial = built_grid id Triangle b ->
  dense_setting X wmod (laplace_double_layer (newton e)) o deg pts Triangle test trial -> mapped_space embed_real test test' -> mapped_space embed_real trial trial' ->
  positive_externals (Rle 0) X -> inside_rules X Triangle -> exact_to X Triangle (pts Triangle) (k + d + 1) -> flat_cells X (built_grid id Triangle b) b ->
  element_functions test Triangle d F -> element_functions trial Triangle d F' -> (forall t p q r, corners_of b t p q r -> P t = (p, q, r)) ->
  forall rt, legal_runtime (s_add complexes) rt ->
  exists m, assemble complexes X rt wmod (helmholtz_double_layer (waves e) kappa) o trial' test' = Ok m /\
  forall t s i j p q r p' q' r' M M' sigma, corners_of b t p q r -> corners_of b s p' q' r' -> In i (dofs_at test t) -> In j (dofs_at trial s) ->
    (forall z x y, In z (support test i) -> inside Triangle x y -> Rabs (piece test F i z x y) <= M) ->
    (forall z x y, In z (support trial j) -> inside Triangle x y -> Rabs (piece trial F' j z x y) <= M') ->
    let reach := 3 * sqrt (32 / (3 * (4 ^ level + 2))) in let a := dist (centre Triangle p q r) (centre Triangle p' q' r') in reach < a -> 0 < sigma < 1 -> reach / a <= sigma * sigma ->
    exists v w w', nth_error m (i + global_size (fs_space test) * j) = Some v /\ double_integral Triangle test trial F F' P P (fun n x y => fst (waves e kappa n x y)) i j w /\ double_integral Triangle test trial F F' P P (fun n x y => snd (waves e kappa n x y)) i j w' /\
      let bound := 6 * (1 + reach / a) * sigma ^ (k + 1) / ((1 - sigma) ^ 3) * exp (2 * (Rabs kappa * (a + reach) / sigma)) * (Rabs e * (M * support_area test Triangle P i * (M' * support_area trial Triangle P j)) / (4 * PI * (a * a))) in
      Rabs (fst v - w) <= bound /\ Rabs (snd v - w') <= bound.
Proof. exact sphere_drift_double. Qed.
Print Assumptions C129_sphere_double.

Theorem C129_sphere_adjoint : forall (X : externals R) level id wmod e kappa o deg pts (b : builder vec) (test trial : fspace R R) (test' trial' : fspace (R * R) R) P F F' k d,
  regular_sphere real_numbers level 1 = Ok b -> fs_grid test = built_grid id Triangle b -> fs_grid trial = built_grid id Triangle b ->
  dense_setting X wmod (laplace_adjoint_double_layer (newton e)) o deg pts Triangle test trial -> mapped_space embed_real test test' -> mapped_space embed_real trial trial' ->
  positive_externals (Rle 0) X -> inside_rules X Triangle -> exact_to X Triangle (pts Triangle) (k + d + 1) -> flat_cells X (built_grid id Triangle b) b ->
  element_functions test Triangle d F -> element_functions trial Triangle d F' -> (forall t p q r, corners_of b t p q r -> P t = (p, q, r)) ->
  forall rt, legal_runtime (s_add complexes) rt ->
  exists m, assemble complexes X rt wmod (helmholtz_adjoint_double_layer (waves e) kappa) o trial' test' = Ok m /\
  forall t s i j p q r p' q' r' M M' sigma, corners_of b t p q r -> corners_of b s p' q' r' -> In i (dofs_at test t) -> In j (dofs_at trial s) ->
    (forall z x y, In z (support test i) -> inside Triangle x y -> Rabs (piece test F i z x y) <= M) ->
    (forall z x y, In z (support trial j) -> inside Triangle x y -> Rabs (piece trial F' j z x y) <= M') ->
    let reach := 3 * sqrt (32 / (3 * (4 ^ level + 2))) in let a := dist (centre Triangle p q r) (centre Triangle p' q' r') in reach < a -> 0 < sigma < 1 -> reach / a <= sigma * sigma ->
    exists v w w', nth_error m (i + global_size (fs_space test) * j) = Some v /\ adjoint_integral Triangle test trial F F' P P (fun n x y => fst (waves e kappa n x y)) i j w /\ adjoint_integral Triangle test trial F F' P P (fun n x y => snd (waves e kappa n x y)) i j w' /\
      let bound := 6 * (1 + reach / a) * sigma ^ (k + 1) / ((1 - sigma) ^ 3) * exp (2 * (Rabs kappa * (a + reach) / sigma)) * (Rabs e * (M * support_area test Triangle P i * (M' * support_area trial Triangle P j)) / (4 * PI * (a * a))) in
      Rabs (fst v - w) <= bound /\ Rabs (snd v - w') <= bound.
Proof. exact sphere_drift_adjoint. Qed.
Print Assumptions C129_sphere_adjoint.

(** Continuous linear functions on opposite triangles of the sphere. *)
Example C129_sphere_example : forall level id e, (3 <= level)%nat -> exists (b : builder vec) X (fs : fspace R R) (fs' : fspace (R * R) R) P wmod deg pts,
  regular_sphere real_numbers level 1 = Ok b /\ fs_grid fs = built_grid id Triangle b /\
  (forall O, O = laplace_double_layer (newton e) \/ O = laplace_adjoint_double_layer (newton e) -> dense_setting X wmod O (after [SetBatch 3; SetRegular Triangle (few Triangle)]) deg pts Triangle fs fs) /\ mapped_space embed_real fs fs' /\
  positive_externals (Rle 0) X /\ inside_rules X Triangle /\ exact_to X Triangle (pts Triangle) (0 + 1 + 1) /\ flat_cells X (built_grid id Triangle b) b /\
  fs_family fs = lagrange 1 /\
  let F := fun (a : nat) (x y : R) => match a with 0%nat => 1 - x - y | 1%nat => x | _ => y end in
  element_functions fs Triangle 1 F /\ (forall t p q r, corners_of b t p q r -> P t = (p, q, r)) /\
  exists t s i j p q r p' q' r' sigma, corners_of b t p q r /\ corners_of b s p' q' r' /\ In i (dofs_at fs t) /\ In j (dofs_at fs s) /\
    (forall z x y, In z (support fs i) -> inside Triangle x y -> Rabs (piece fs F i z x y) <= 1) /\
    (forall z x y, In z (support fs j) -> inside Triangle x y -> Rabs (piece fs F j z x y) <= 1) /\
    let reach := 3 * sqrt (32 / (3 * (4 ^ level + 2))) in let a := dist (centre Triangle p q r) (centre Triangle p' q' r') in reach < a /\ 0 < sigma < 1 /\ reach / a <= sigma * sigma.
Proof. exact sphere_drift_example. Qed.
