(** * C130: Helmholtz hypersingular entries of functions of any degree with distant supports and the integrals *)
From Coq Require Import Reals.
From Verif Require Import Base Topology DofMap SpecDof Process Space Options SpecOptions Scalar Integrand CellPair Operators SpecLocal Interleave Assembly SpecAssembly SpecTransfer SpecScalars SpecAlgebra SpecRounding SpecBroken SpecGalerkin SpecMeasure
  Shapes SpecShapes SpecSphere SpecScreen SpecWidth SpecTurns SpecShift SpecToeplitz SpecShare SpecWaves WaveLimits SpecDecay SpecDigits SpecMoments SpecDegree SpecPieces PieceResults PieceShapes DegreeExamples PieceExamples EchoResults EchoShapes EchoExamples SpecFluxes SpecSwirls SpecSurges SurgeResults SurgeShapes SurgeExamples.

Local Open Scope R_scope.
Local Notation dist := SpecWaves.distance.

(** With a regular rule of degree [k + d] the real and the imaginary part of an entry are near the
    integrals of the real and the imaginary part of the kernel times the inner product of the surface
    curls minus the square of the wavenumber times the inner product of the normals times the
    functions. *)
Theorem C130_entries : forall (X : externals R) wmod e kappa o deg pts ct (test trial : fspace R R) (test' trial' : fspace (R * R) R) P P' F F1 F2 F' F1' F2' k d,
  dense_setting X wmod (laplace_hypersingular (newton e)) o deg pts ct test trial -> ct = Triangle \/ ct = Quadrilateral ->
  mapped_space embed_real test test' -> mapped_space embed_real trial trial' ->
  positive_externals (Rle 0) X -> inside_rules X ct -> exact_to X ct (pts ct) (k + d) ->
  element_slopes test ct d F F1 F2 -> element_slopes trial ct d F' F1' F2' -> element_functions test ct d F -> element_functions trial ct d F' -> flat_grid X (fs_grid test) ct P -> flat_grid X (fs_grid trial) ct P' ->
  forall rt, legal_runtime (s_add complexes) rt ->
  exists m, assemble complexes X rt wmod (helmholtz_hypersingular complexes (waves e) kappa) o trial' test' = Ok m /\
  forall i j c c' h h' M M' B B' sigma, (i < global_size (fs_space test))%nat -> (j < global_size (fs_space trial))%nat ->
    supported_in test ct P i c h -> supported_in trial ct P' j c' h' -> (forall t s, In t (support test i) -> In s (support trial j) -> ~ touching test trial t s) ->
    0 <= M -> (forall t x y, In t (support test i) -> inside ct x y -> inner (piece_swirl test F1 F2 P i t x y) (piece_swirl test F1 F2 P i t x y) <= M * M) ->
    0 <= M' -> (forall s x y, In s (support trial j) -> inside ct x y -> inner (piece_swirl trial F1' F2' P' j s x y) (piece_swirl trial F1' F2' P' j s x y) <= M' * M') ->
    (forall t x y, In t (support test i) -> inside ct x y -> Rabs (piece test F i t x y) <= B) -> (forall s x y, In s (support trial j) -> inside ct x y -> Rabs (piece trial F' j s x y) <= B') ->
    let a := dist c c' in let ratio := (h + h') / a in h + h' < a -> 0 < sigma < 1 -> ratio <= sigma ->
    exists v w w', nth_error m (i + global_size (fs_space test) * j) = Some v /\
      surges_integral ct test trial F F1 F2 F' F1' F2' P P' kappa (fun x y => fst (waves e kappa 0 x y)) i j w /\ surges_integral ct test trial F F1 F2 F' F1' F2' P P' kappa (fun x y => snd (waves e kappa 0 x y)) i j w' /\
      let bound := 2 * (sigma ^ (k + 1) / (1 - ratio)) * exp (Rabs kappa * (a + (h + h')) / sigma) * ((M * M' + kappa * kappa * (B * B')) * (support_area test ct P i * support_area trial ct P' j) / (4 * PI * a)) in
      Rabs (fst v - w) <= bound /\ Rabs (snd v - w') <= bound.
Proof. exact surges_entries. Qed.
Print Assumptions C130_entries.

(** There is only one such integral. *)
Theorem C130_unique : forall ct test trial F F1 F2 F' F1' F2' P P' kappa K i j v w, ct = Triangle \/ ct = Quadrilateral ->
  surges_integral ct test trial F F1 F2 F' F1' F2' P P' kappa K i j v -> surges_integral ct test trial F F1 F2 F' F1' F2' P P' kappa K i j w -> v = w.
Proof. exact surges_unique. Qed.
Print Assumptions C130_unique.

(** The sphere. *)
Theorem C130_sphere : forall (X : externals R) level id wmod e kappa o deg pts (b : builder vec) (test trial : fspace R R) (test' trial' : fspace (R * R) R) P F F1 F2 F' F1' F2' k d,
  regular_sphere real_numbers level 1 = Ok b -> fs_grid test = built_grid id Triangle b -> fs_grid trial = built_grid id Triangle b ->
  dense_setting X wmod (laplace_hypersingular (newton e)) o deg pts Triangle test trial -> mapped_space embed_real test test' -> mapped_space embed_real trial trial' ->
  positive_externals (Rle 0) X -> inside_rules X Triangle -> exact_to X Triangle (pts Triangle) (k + d) -> flat_cells X (built_grid id Triangle b) b ->
  element_slopes test Triangle d F F1 F2 -> element_slopes trial Triangle d F' F1' F2' -> element_functions test Triangle d F -> element_functions trial Triangle d F' -> (forall t p q r, corners_of b t p q r -> P t = (p, q, r)) ->
  forall rt, legal_runtime (s_add complexes) rt ->
  exists m, assemble complexes X rt wmod (helmholtz_hypersingular complexes (waves e) kappa) o trial' test' = Ok m /\
  forall t s i j p q r p' q' r' M M' B B' sigma, corners_of b t p q r -> corners_of b s p' q' r' -> In i (dofs_at test t) -> In j (dofs_at trial s) ->
    0 <= M -> (forall z x y, In z (support test i) -> inside Triangle x y -> inner (piece_swirl test F1 F2 P i z x y) (piece_swirl test F1 F2 P i z x y) <= M * M) ->
    0 <= M' -> (forall z x y, In z (support trial j) -> inside Triangle x y -> inner (piece_swirl trial F1' F2' P j z x y) (piece_swirl trial F1' F2' P j z x y) <= M' * M') ->
    (forall z x y, In z (support test i) -> inside Triangle x y -> Rabs (piece test F i z x y) <= B) -> (forall z x y, In z (support trial j) -> inside Triangle x y -> Rabs (piece trial F' j z x y) <= B') ->
    let reach := 3 * sqrt (32 / (3 * (4 ^ level + 2))) in let a := dist (centre Triangle p q r) (centre Triangle p' q' r') in reach < a -> 0 < sigma < 1 -> reach / a <= sigma ->
    exists v w w', nth_error m (i + global_size (fs_space test) * j) = Some v /\ surges_integral Triangle test trial F F1 F2 F' F1' F2' P P kappa (fun x y => fst (waves e kappa 0 x y)) i j w /\ surges_integral Triangle test trial F F1 F2 F' F1' F2' P P kappa (fun x y => snd (waves e kappa 0 x y)) i j w' /\
      let bound := 2 * (sigma ^ (k + 1) / (1 - reach / a)) * exp (Rabs kappa * (a + reach) / sigma) * ((M * M' + kappa * kappa * (B * B')) * (support_area test Triangle P i * support_area trial Triangle P j) / (4 * PI * a)) in
      Rabs (fst v - w) <= bound /\ Rabs (snd v - w') <= bound.
Proof. exact sphere_surges. Qed.
Print Assumptions C130_sphere.

(** Screens. *)
Theorem C130_screens : forall (X : externals R) n id wmod ct e kappa o deg pts (b : builder (nat * nat)) (test trial : fspace R R) (test' trial' : fspace (R * R) R) P F F1 F2 F' F1' F2' k d,
  screen n ct b -> fs_grid test = built_grid id ct b -> fs_grid trial = built_grid id ct b ->
  dense_setting X wmod (laplace_hypersingular (newton e)) o deg pts ct test trial -> mapped_space embed_real test test' -> mapped_space embed_real trial trial' ->
  positive_externals (Rle 0) X -> inside_rules X ct -> exact_to X ct (pts ct) (k + d) -> flat_screen n X (built_grid id ct b) b ->
  element_slopes test ct d F F1 F2 -> element_slopes trial ct d F' F1' F2' -> element_functions test ct d F -> element_functions trial ct d F' ->
  (forall t p q r, corner b t 0 p -> corner b t 1 q -> corner b t 2 r -> P t = (screen_position n p, screen_position n q, screen_position n r)) ->
  forall rt, legal_runtime (s_add complexes) rt ->
  exists m, assemble complexes X rt wmod (helmholtz_hypersingular complexes (waves e) kappa) o trial' test' = Ok m /\
  forall t s i j p q r p' q' r' M M' B B' sigma, corner b t 0 p -> corner b t 1 q -> corner b t 2 r -> corner b s 0 p' -> corner b s 1 q' -> corner b s 2 r' -> In i (dofs_at test t) -> In j (dofs_at trial s) ->
    0 <= M -> (forall z x y, In z (support test i) -> inside ct x y -> inner (piece_swirl test F1 F2 P i z x y) (piece_swirl test F1 F2 P i z x y) <= M * M) ->
    0 <= M' -> (forall z x y, In z (support trial j) -> inside ct x y -> inner (piece_swirl trial F1' F2' P j z x y) (piece_swirl trial F1' F2' P j z x y) <= M' * M') ->
    (forall z x y, In z (support test i) -> inside ct x y -> Rabs (piece test F i z x y) <= B) -> (forall z x y, In z (support trial j) -> inside ct x y -> Rabs (piece trial F' j z x y) <= B') ->
    let a := dist (centre ct (screen_position n p) (screen_position n q) (screen_position n r)) (centre ct (screen_position n p') (screen_position n q') (screen_position n r')) in
    let reach := 3 * (sqrt (spread ct / 2) / INR (n + 1)) in reach < a -> 0 < sigma < 1 -> reach / a <= sigma ->
    exists v w w', nth_error m (i + global_size (fs_space test) * j) = Some v /\ surges_integral ct test trial F F1 F2 F' F1' F2' P P kappa (fun x y => fst (waves e kappa 0 x y)) i j w /\ surges_integral ct test trial F F1 F2 F' F1' F2' P P kappa (fun x y => snd (waves e kappa 0 x y)) i j w' /\
      let bound := 2 * (sigma ^ (k + 1) / (1 - reach / a)) * exp (Rabs kappa * (a + reach) / sigma) * ((M * M' + kappa * kappa * (B * B')) * (support_area test ct P i * support_area trial ct P j) / (4 * PI * a)) in
      Rabs (fst v - w) <= bound /\ Rabs (snd v - w') <= bound.
Proof. exact screen_surges. Qed.
Print Assumptions C130_screens.

(** Continuous linear functions on opposite triangles of the sphere, *)
Example C130_sphere_example : forall level id e, (3 <= level)%nat -> exists (b : builder vec) X (fs : fspace R R) (fs' : fspace (R * R) R) P wmod deg pts,
  regular_sphere real_numbers level 1 = Ok b /\ fs_grid fs = built_grid id Triangle b /\
  dense_setting X wmod (laplace_hypersingular (newton e)) (after [SetBatch 3; SetRegular Triangle (few Triangle)]) deg pts Triangle fs fs /\ mapped_space embed_real fs fs' /\
  positive_externals (Rle 0) X /\ inside_rules X Triangle /\ exact_to X Triangle (pts Triangle) (1 + 1) /\ flat_cells X (built_grid id Triangle b) b /\
  fs_family fs = lagrange 1 /\
  let F := fun (a : nat) (x y : R) => match a with 0%nat => 1 - x - y | 1%nat => x | _ => y end in
  let F1 := fun (a : nat) (x y : R) => match a with 0%nat => -1 | 1%nat => 1 | _ => 0 end in let F2 := fun (a : nat) (x y : R) => match a with 0%nat => -1 | 1%nat => 0 | _ => 1 end in
  element_slopes fs Triangle 1 F F1 F2 /\ element_functions fs Triangle 1 F /\ (forall t p q r, corners_of b t p q r -> P t = (p, q, r)) /\
  exists t s i j p q r p' q' r' M M' sigma, corners_of b t p q r /\ corners_of b s p' q' r' /\ In i (dofs_at fs t) /\ In j (dofs_at fs s) /\
    0 <= M /\ (forall z x y, In z (support fs i) -> inside Triangle x y -> inner (piece_swirl fs F1 F2 P i z x y) (piece_swirl fs F1 F2 P i z x y) <= M * M) /\
    0 <= M' /\ (forall z x y, In z (support fs j) -> inside Triangle x y -> inner (piece_swirl fs F1 F2 P j z x y) (piece_swirl fs F1 F2 P j z x y) <= M' * M') /\
    (forall z x y, In z (support fs i) -> inside Triangle x y -> Rabs (piece fs F i z x y) <= 1) /\
    (forall z x y, In z (support fs j) -> inside Triangle x y -> Rabs (piece fs F j z x y) <= 1) /\
    let reach := 3 * sqrt (32 / (3 * (4 ^ level + 2))) in let a := dist (centre Triangle p q r) (centre Triangle p' q' r') in reach < a /\ 0 < sigma < 1 /\ reach / a <= sigma.
Proof. exact sphere_surge_example. Qed.

(** and continuous bilinear functions on opposite corners of a screen. *)
Example C130_screen_example : forall n id e, (6 <= n)%nat -> exists (b : builder (nat * nat)) X (fs : fspace R R) (fs' : fspace (R * R) R) P wmod deg pts,
  screen n Quadrilateral b /\ fs_grid fs = built_grid id Quadrilateral b /\
  dense_setting X wmod (laplace_hypersingular (newton e)) (after [SetBatch 3; SetRegular Quadrilateral (few Quadrilateral)]) deg pts Quadrilateral fs fs /\ mapped_space embed_real fs fs' /\
  positive_externals (Rle 0) X /\ inside_rules X Quadrilateral /\ exact_to X Quadrilateral (pts Quadrilateral) (0 + 2) /\ flat_screen n X (built_grid id Quadrilateral b) b /\
  fs_family fs = lagrange 1 /\
  let F := fun (a : nat) (x y : R) => match a with 0%nat => (1 - x) * (1 - y) | 1%nat => x * (1 - y) | 2%nat => (1 - x) * y | _ => x * y end in
  let F1 := fun (a : nat) (x y : R) => match a with 0%nat => y - 1 | 1%nat => 1 - y | 2%nat => - y | _ => y end in let F2 := fun (a : nat) (x y : R) => match a with 0%nat => x - 1 | 1%nat => - x | 2%nat => 1 - x | _ => x end in
  element_slopes fs Quadrilateral 2 F F1 F2 /\ element_functions fs Quadrilateral 2 F /\
  (forall t p q r, corner b t 0 p -> corner b t 1 q -> corner b t 2 r -> P t = (screen_position n p, screen_position n q, screen_position n r)) /\
  exists t s i j p q r p' q' r' M M' sigma, corner b t 0 p /\ corner b t 1 q /\ corner b t 2 r /\ corner b s 0 p' /\ corner b s 1 q' /\ corner b s 2 r' /\ In i (dofs_at fs t) /\ In j (dofs_at fs s) /\
    0 <= M /\ (forall z x y, In z (support fs i) -> inside Quadrilateral x y -> inner (piece_swirl fs F1 F2 P i z x y) (piece_swirl fs F1 F2 P i z x y) <= M * M) /\
    0 <= M' /\ (forall z x y, In z (support fs j) -> inside Quadrilateral x y -> inner (piece_swirl fs F1 F2 P j z x y) (piece_swirl fs F1 F2 P j z x y) <= M' * M') /\
    (forall z x y, In z (support fs i) -> inside Quadrilateral x y -> Rabs (piece fs F i z x y) <= 1) /\
    (forall z x y, In z (support fs j) -> inside Quadrilateral x y -> Rabs (piece fs F j z x y) <= 1) /\
    let a := dist (centre Quadrilateral (screen_position n p) (screen_position n q) (screen_position n r)) (centre Quadrilateral (screen_position n p') (screen_position n q') (screen_position n r')) in
    let reach := 3 * (sqrt (spread Quadrilateral / 2) / INR (n + 1)) in reach < a /\ 0 < sigma < 1 /\ reach / a <= sigma.
Proof. exact screen_surge_example. Qed.
