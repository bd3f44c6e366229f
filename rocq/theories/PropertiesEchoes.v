(** * C128: Helmholtz entries of functions of any degree with distant supports and the integrals *)
From Coq Require Import Reals.
From Verif Require Import Base Topology DofMap SpecDof Process Space Options SpecOptions Scalar Integrand CellPair Operators SpecLocal Interleave Assembly SpecAssembly SpecTransfer SpecScalars SpecAlgebra SpecRounding SpecBroken SpecGalerkin SpecMeasure
  Shapes SpecShapes SpecSphere SpecScreen SpecWidth SpecTurns SpecShift SpecToeplitz SpecShare SpecWaves WaveLimits SpecDecay SpecDigits SpecMoments SpecDegree SpecPieces PieceResults PieceShapes DegreeExamples PieceExamples EchoResults EchoShapes EchoExamples.

Local Open Scope R_scope.
Local Notation dist := SpecWaves.distance.

(** With a regular rule of degree [k + d] the real and the imaginary part of an entry are near the
    integrals of the real and the imaginary part of the kernel times the functions; [sigma] is any
    number from the ratio of the sizes of the supports to their distance up to 1. *)
Theorem C128_entries : forall (X : externals R) wmod e kappa o deg pts ct (test trial : fspace R R) (test' trial' : fspace (R * R) R) P P' F F' k d,
  dense_setting X wmod (laplace_single_layer (newton e)) o deg pts ct test trial -> ct = Triangle \/ ct = Quadrilateral ->
  mapped_space embed_real test test' -> mapped_space embed_real trial trial' ->
  positive_externals (Rle 0) X -> inside_rules X ct -> exact_to X ct (pts ct) (k + d) ->
  element_functions test ct d F -> element_functions trial ct d F' -> flat_grid X (fs_grid test) ct P -> flat_grid X (fs_grid trial) ct P' ->
  forall rt, legal_runtime (s_add complexes) rt ->
  exists m, assemble complexes X rt wmod (helmholtz_single_layer (waves e) kappa) o trial' test' = Ok m /\
  forall i j c c' h h' M M' sigma, (i < global_size (fs_space test))%nat -> (j < global_size (fs_space trial))%nat ->
    supported_in test ct P i c h -> supported_in trial ct P' j c' h' -> (forall t s, In t (support test i) -> In s (support trial j) -> ~ touching test trial t s) ->
    (forall t x y, In t (support test i) -> inside ct x y -> Rabs (piece test F i t x y) <= M) -> (forall s x y, In s (support trial j) -> inside ct x y -> Rabs (piece trial F' j s x y) <= M') ->
    let a := dist c c' in let ratio := (h + h') / a in h + h' < a -> 0 < sigma < 1 -> ratio <= sigma ->
    exists v w w', nth_error m (i + global_size (fs_space test) * j) = Some v /\
      functions_integral ct test trial F F' P P' (fun x y => fst (waves e kappa 0 x y)) i j w /\ functions_integral ct test trial F F' P P' (fun x y => snd (waves e kappa 0 x y)) i j w' /\
      let bound := 2 * (sigma ^ (k + 1) / (1 - ratio)) * exp (Rabs kappa * (a + (h + h')) / sigma) * (M * support_area test ct P i * (M' * support_area trial ct P' j) / (4 * PI * a)) in
      Rabs (fst v - w) <= bound /\ Rabs (snd v - w') <= bound.
Proof. exact echoes_entries. Qed.
Print Assumptions C128_entries.

(** There is only one such integral. *)
Theorem C128_unique : forall ct test trial F F' P P' K i j v w, ct = Triangle \/ ct = Quadrilateral ->
  functions_integral ct test trial F F' P P' K i j v -> functions_integral ct test trial F F' P P' K i j w -> v = w.
Proof. exact functions_unique. Qed.
Print Assumptions C128_unique.

(** The sphere, with functions continuous or not: a function lives within the radius of three cells of
    the centre of any cell it lives on. *)
Theorem C128_sphere : forall (X : externals R) level id wmod e kappa o deg pts (b : builder vec) (test trial : fspace R R) (test' trial' : fspace (R * R) R) P F F' k d,
  regular_sphere real_numbers level 1 = Ok b -> fs_grid test = built_grid id Triangle b -> fs_grid trial = built_grid id Triangle b ->
  dense_setting X wmod (laplace_single_layer (newton e)) o deg pts Triangle test trial -> mapped_space embed_real test test' -> mapped_space embed_real trial trial' ->
  positive_externals (Rle 0) X -> inside_rules X Triangle -> exact_to X Triangle (pts Triangle) (k + d) -> flat_cells X (built_grid id Triangle b) b ->
  element_functions test Triangle d F -> element_functions trial Triangle d F' -> (forall t p q r, corners_of b t p q r -> P t = (p, q, r)) ->
  forall rt, legal_runtime (s_add complexes) rt ->
  exists m, assemble complexes X rt wmod (helmholtz_single_layer (waves e) kappa) o trial' test' = Ok m /\
  forall t s i j p q r p' q' r' M M' sigma, corners_of b t p q r -> corners_of b s p' q' r' -> In i (dofs_at test t) -> In j (dofs_at trial s) ->
    (forall z x y, In z (support test i) -> inside Triangle x y -> Rabs (piece test F i z x y) <= M) ->
    (forall z x y, In z (support trial j) -> inside Triangle x y -> Rabs (piece trial F' j z x y) <= M') ->
    let reach := 3 * sqrt (32 / (3 * (4 ^ level + 2))) in let a := dist (centre Triangle p q r) (centre Triangle p' q' r') in reach < a -> 0 < sigma < 1 -> reach / a <= sigma ->
    exists v w w', nth_error m (i + global_size (fs_space test) * j) = Some v /\ functions_integral Triangle test trial F F' P P (fun x y => fst (waves e kappa 0 x y)) i j w /\ functions_integral Triangle test trial F F' P P (fun x y => snd (waves e kappa 0 x y)) i j w' /\
      let bound := 2 * (sigma ^ (k + 1) / (1 - reach / a)) * exp (Rabs kappa * (a + reach) / sigma) * (M * support_area test Triangle P i * (M' * support_area trial Triangle P j) / (4 * PI * a)) in
      Rabs (fst v - w) <= bound /\ Rabs (snd v - w') <= bound.
Proof. exact sphere_echoes. Qed.
Print Assumptions C128_sphere.

(** Screens. *)
Theorem C128_screens : forall (X : externals R) n id wmod ct e kappa o deg pts (b : builder (nat * nat)) (test trial : fspace R R) (test' trial' : fspace (R * R) R) P F F' k d,
  screen n ct b -> fs_grid test = built_grid id ct b -> fs_grid trial = built_grid id ct b ->
  dense_setting X wmod (laplace_single_layer (newton e)) o deg pts ct test trial -> mapped_space embed_real test test' -> mapped_space embed_real trial trial' ->
  positive_externals (Rle 0) X -> inside_rules X ct -> exact_to X ct (pts ct) (k + d) -> flat_screen n X (built_grid id ct b) b ->
  element_functions test ct d F -> element_functions trial ct d F' ->
  (forall t p q r, corner b t 0 p -> corner b t 1 q -> corner b t 2 r -> P t = (screen_position n p, screen_position n q, screen_position n r)) ->
  forall rt, legal_runtime (s_add complexes) rt ->
  exists m, assemble complexes X rt wmod (helmholtz_single_layer (waves e) kappa) o trial' test' = Ok m /\
  forall t s i j p q r p' q' r' M M' sigma, corner b t 0 p -> corner b t 1 q -> corner b t 2 r -> corner b s 0 p' -> corner b s 1 q' -> corner b s 2 r' -> In i (dofs_at test t) -> In j (dofs_at trial s) ->
    (forall z x y, In z (support test i) -> inside ct x y -> Rabs (piece test F i z x y) <= M) ->
    (forall z x y, In z (support trial j) -> inside ct x y -> Rabs (piece trial F' j z x y) <= M') ->
    let a := dist (centre ct (screen_position n p) (screen_position n q) (screen_position n r)) (centre ct (screen_position n p') (screen_position n q') (screen_position n r')) in
    let reach := 3 * (sqrt (spread ct / 2) / INR (n + 1)) in reach < a -> 0 < sigma < 1 -> reach / a <= sigma ->
    exists v w w', nth_error m (i + global_size (fs_space test) * j) = Some v /\ functions_integral ct test trial F F' P P (fun x y => fst (waves e kappa 0 x y)) i j w /\ functions_integral ct test trial F F' P P (fun x y => snd (waves e kappa 0 x y)) i j w' /\
      let bound := 2 * (sigma ^ (k + 1) / (1 - reach / a)) * exp (Rabs kappa * (a + reach) / sigma) * (M * support_area test ct P i * (M' * support_area trial ct P j) / (4 * PI * a)) in
      Rabs (fst v - w) <= bound /\ Rabs (snd v - w') <= bound.
Proof. exact screen_echoes. Qed.
Print Assumptions C128_screens.

(** Continuous linear functions on opposite triangles of the sphere, *)
Example C128_sphere_example : forall level id e, (3 <= level)%nat -> exists (b : builder vec) X (fs : fspace R R) (fs' : fspace (R * R) R) P wmod deg pts,
  regular_sphere real_numbers level 1 = Ok b /\ fs_grid fs = built_grid id Triangle b /\
  dense_setting X wmod (laplace_single_layer (newton e)) (after [SetBatch 3; SetRegular Triangle (few Triangle)]) deg pts Triangle fs fs /\ mapped_space embed_real fs fs' /\
  positive_externals (Rle 0) X /\ inside_rules X Triangle /\ exact_to X Triangle (pts Triangle) (1 + 1) /\ flat_cells X (built_grid id Triangle b) b /\
  fs_family fs = lagrange 1 /\
  let F := fun (a : nat) (x y : R) => match a with 0%nat => 1 - x - y | 1%nat => x | _ => y end in
  element_functions fs Triangle 1 F /\ (forall t p q r, corners_of b t p q r -> P t = (p, q, r)) /\
  exists t s i j p q r p' q' r' sigma, corners_of b t p q r /\ corners_of b s p' q' r' /\ In i (dofs_at fs t) /\ In j (dofs_at fs s) /\
    (forall z x y, In z (support fs i) -> inside Triangle x y -> Rabs (piece fs F i z x y) <= 1) /\
    (forall z x y, In z (support fs j) -> inside Triangle x y -> Rabs (piece fs F j z x y) <= 1) /\
    let reach := 3 * sqrt (32 / (3 * (4 ^ level + 2))) in let a := dist (centre Triangle p q r) (centre Triangle p' q' r') in reach < a /\ 0 < sigma < 1 /\ reach / a <= sigma.
Proof. exact sphere_echo_example. Qed.

(** and continuous bilinear functions on opposite corners of a screen. *)
Example C128_screen_example : forall n id e, (6 <= n)%nat -> exists (b : builder (nat * nat)) X (fs : fspace R R) (fs' : fspace (R * R) R) P wmod deg pts,
  screen n Quadrilateral b /\ fs_grid fs = built_grid id Quadrilateral b /\
  dense_setting X wmod (laplace_single_layer (newton e)) (after [SetBatch 3; SetRegular Quadrilateral (few Quadrilateral)]) deg pts Quadrilateral fs fs /\ mapped_space embed_real fs fs' /\
  positive_externals (Rle 0) X /\ inside_rules X Quadrilateral /\ exact_to X Quadrilateral (pts Quadrilateral) (0 + 2) /\ flat_screen n X (built_grid id Quadrilateral b) b /\
  fs_family fs = lagrange 1 /\
  let F := fun (a : nat) (x y : R) => match a with 0%nat => (1 - x) * (1 - y) | 1%nat => x * (1 - y) | 2%nat => (1 - x) * y | _ => x * y end in
  element_functions fs Quadrilateral 2 F /\
  (forall t p q r, corner b t 0 p -> corner b t 1 q -> corner b t 2 r -> P t = (screen_position n p, screen_position n q, screen_position n r)) /\
  exists t s i j p q r p' q' r' sigma, corner b t 0 p /\ corner b t 1 q /\ corner b t 2 r /\ corner b s 0 p' /\ corner b s 1 q' /\ corner b s 2 r' /\ In i (dofs_at fs t) /\ In j (dofs_at fs s) /\
    (forall z x y, In z (support fs i) -> inside Quadrilateral x y -> Rabs (piece fs F i z x y) <= 1) /\
    (forall z x y, In z (support fs j) -> inside Quadrilateral x y -> Rabs (piece fs F j z x y) <= 1) /\
    let a := dist (centre Quadrilateral (screen_position n p) (screen_position n q) (screen_position n r)) (centre Quadrilateral (screen_position n p') (screen_position n q') (screen_position n r')) in
    let reach := 3 * (sqrt (spread Quadrilateral / 2) / INR (n + 1)) in reach < a /\ 0 < sigma < 1 /\ reach / a <= sigma.
Proof. exact screen_echo_example. Qed.
