(** * C125: entries of functions of any degree with distant supports and the integrals *)
From Coq Require Import Reals.
From Verif Require Import Base Topology DofMap SpecDof Process Space Options SpecOptions Scalar Integrand CellPair Operators SpecLocal Interleave Assembly SpecAssembly SpecTransfer SpecAlgebra SpecRounding SpecBroken SpecGalerkin SpecMeasure
  Shapes SpecShapes SpecSphere SpecScreen SpecWidth SpecTurns SpecShift SpecToeplitz SpecShare SpecWaves SpecDecay SpecDigits SpecMoments SpecDegree SpecPieces PieceResults PieceShapes DegreeExamples PieceExamples ContinuousShapes ContinuousExamples.

Local Open Scope R_scope.
Local Notation dist := SpecWaves.distance.

(** Spaces of any degree [d], discontinuous or continuous, on triangles or parallelograms: with
    a regular rule of degree [k + d] an entry is near the integral of the functions. *)
Theorem C125_entries : forall (X : externals R) wmod e o deg pts ct (test trial : fspace R R) P P' F F' k d,
  dense_setting X wmod (laplace_single_layer (newton e)) o deg pts ct test trial -> ct = Triangle \/ ct = Quadrilateral ->
  positive_externals (Rle 0) X -> inside_rules X ct -> exact_to X ct (pts ct) (k + d) ->
  element_functions test ct d F -> element_functions trial ct d F' -> flat_grid X (fs_grid test) ct P -> flat_grid X (fs_grid trial) ct P' ->
  forall rt, legal_runtime Rplus rt ->
  exists m, assemble reals X rt wmod (laplace_single_layer (newton e)) o trial test = Ok m /\
  forall i j c c' h h' M M', (i < global_size (fs_space test))%nat -> (j < global_size (fs_space trial))%nat ->
    supported_in test ct P i c h -> supported_in trial ct P' j c' h' -> (forall t s, In t (support test i) -> In s (support trial j) -> ~ touching test trial t s) ->
    (forall t x y, In t (support test i) -> inside ct x y -> Rabs (piece test F i t x y) <= M) -> (forall s x y, In s (support trial j) -> inside ct x y -> Rabs (piece trial F' j s x y) <= M') ->
    let a := dist c c' in let ratio := (h + h') / a in h + h' < a ->
    exists v w, nth_error m (i + global_size (fs_space test) * j) = Some v /\ functions_integral ct test trial F F' P P' (newton e 0) i j w /\
      Rabs (v - w) <= 2 * (ratio ^ (k + 1) / (1 - ratio)) * (M * support_area test ct P i * (M' * support_area trial ct P' j) / (4 * PI * a)).
Proof. exact pieces_entries. Qed.
Print Assumptions C125_entries.

(** There is only one such integral. *)
Theorem C125_unique : forall ct test trial F F' P P' K i j v w, ct = Triangle \/ ct = Quadrilateral ->
  functions_integral ct test trial F F' P P' K i j v -> functions_integral ct test trial F F' P P' K i j w -> v = w.
Proof. exact functions_unique. Qed.
Print Assumptions C125_unique.

(** The sphere with discontinuous functions, *)
Theorem C125_sphere : forall (X : externals R) level id wmod e o deg pts (b : builder vec) (test trial : fspace R R) P F F' k d,
  regular_sphere real_numbers level 1 = Ok b -> fs_grid test = built_grid id Triangle b -> fs_grid trial = built_grid id Triangle b ->
  dense_setting X wmod (laplace_single_layer (newton e)) o deg pts Triangle test trial ->
  positive_externals (Rle 0) X -> inside_rules X Triangle -> exact_to X Triangle (pts Triangle) (k + d) -> flat_cells X (built_grid id Triangle b) b ->
  interior_family (g_types (fs_grid test) 2) (fs_family test) -> interior_family (g_types (fs_grid trial) 2) (fs_family trial) ->
  element_functions test Triangle d F -> element_functions trial Triangle d F' -> (forall t p q r, corners_of b t p q r -> P t = (p, q, r)) ->
  forall rt, legal_runtime Rplus rt ->
  exists m, assemble reals X rt wmod (laplace_single_layer (newton e)) o trial test = Ok m /\
  forall t s i j p q r p' q' r' M M', corners_of b t p q r -> corners_of b s p' q' r' -> In i (dofs_at test t) -> In j (dofs_at trial s) ->
    (forall x y, inside Triangle x y -> Rabs (piece test F i t x y) <= M) -> (forall x y, inside Triangle x y -> Rabs (piece trial F' j s x y) <= M') ->
    let reach := sqrt (32 / (3 * (4 ^ level + 2))) in let a := dist (centre Triangle p q r) (centre Triangle p' q' r') in reach < a ->
    exists v w, nth_error m (i + global_size (fs_space test) * j) = Some v /\ functions_integral Triangle test trial F F' P P (newton e 0) i j w /\
      Rabs (v - w) <= 2 * ((reach / a) ^ (k + 1) / (1 - reach / a)) * (M * triangle_area p q r * (M' * triangle_area p' q' r') / (4 * PI * a)).
Proof. exact sphere_pieces. Qed.
Print Assumptions C125_sphere.

(** and screens. *)
Theorem C125_screens : forall (X : externals R) n id wmod ct e o deg pts (b : builder (nat * nat)) (test trial : fspace R R) P F F' k d,
  screen n ct b -> fs_grid test = built_grid id ct b -> fs_grid trial = built_grid id ct b ->
  dense_setting X wmod (laplace_single_layer (newton e)) o deg pts ct test trial ->
  positive_externals (Rle 0) X -> inside_rules X ct -> exact_to X ct (pts ct) (k + d) -> flat_screen n X (built_grid id ct b) b ->
  interior_family (g_types (fs_grid test) 2) (fs_family test) -> interior_family (g_types (fs_grid trial) 2) (fs_family trial) ->
  element_functions test ct d F -> element_functions trial ct d F' ->
  (forall t p q r, corner b t 0 p -> corner b t 1 q -> corner b t 2 r -> P t = (screen_position n p, screen_position n q, screen_position n r)) ->
  forall rt, legal_runtime Rplus rt ->
  exists m, assemble reals X rt wmod (laplace_single_layer (newton e)) o trial test = Ok m /\
  forall t s i j p q r p' q' r' M M', corner b t 0 p -> corner b t 1 q -> corner b t 2 r -> corner b s 0 p' -> corner b s 1 q' -> corner b s 2 r' -> In i (dofs_at test t) -> In j (dofs_at trial s) ->
    (forall x y, inside ct x y -> Rabs (piece test F i t x y) <= M) -> (forall x y, inside ct x y -> Rabs (piece trial F' j s x y) <= M') ->
    let a := dist (centre ct (screen_position n p) (screen_position n q) (screen_position n r)) (centre ct (screen_position n p') (screen_position n q') (screen_position n r')) in
    let area := reference_area ct / (INR (n + 1) * INR (n + 1)) in let reach := sqrt (spread ct / 2) / INR (n + 1) in reach < a ->
    exists v w, nth_error m (i + global_size (fs_space test) * j) = Some v /\ functions_integral ct test trial F F' P P (newton e 0) i j w /\
      Rabs (v - w) <= 2 * ((reach / a) ^ (k + 1) / (1 - reach / a)) * (M * area * (M' * area) / (4 * PI * a)).
Proof. exact screen_pieces. Qed.
Print Assumptions C125_screens.

(** Linear functions on opposite triangles of the sphere, *)
Example C125_sphere_example : forall level id e, (2 <= level)%nat -> exists (b : builder vec) X (fs : fspace R R) P wmod deg pts,
  regular_sphere real_numbers level 1 = Ok b /\ fs_grid fs = built_grid id Triangle b /\
  dense_setting X wmod (laplace_single_layer (newton e)) (after [SetBatch 3; SetRegular Triangle (few Triangle)]) deg pts Triangle fs fs /\
  positive_externals (Rle 0) X /\ inside_rules X Triangle /\ exact_to X Triangle (pts Triangle) (1 + 1) /\ flat_cells X (built_grid id Triangle b) b /\
  fs_family fs = interior_only (fun _ => 3%nat) /\ interior_family (g_types (fs_grid fs) 2) (fs_family fs) /\
  element_functions fs Triangle 1 (fun a x y => match a with 0%nat => 1 - x - y | 1%nat => x | _ => y end) /\ (forall t p q r, corners_of b t p q r -> P t = (p, q, r)) /\
  exists t s i j p q r p' q' r', corners_of b t p q r /\ corners_of b s p' q' r' /\ In i (dofs_at fs t) /\ In j (dofs_at fs s) /\
    (forall x y, inside Triangle x y -> Rabs (piece fs (fun a x y => match a with 0%nat => 1 - x - y | 1%nat => x | _ => y end) i t x y) <= 1) /\
    (forall x y, inside Triangle x y -> Rabs (piece fs (fun a x y => match a with 0%nat => 1 - x - y | 1%nat => x | _ => y end) j s x y) <= 1) /\
    sqrt (32 / (3 * (4 ^ level + 2))) < dist (centre Triangle p q r) (centre Triangle p' q' r').
Proof. exact sphere_piece_example. Qed.

(** and bilinear functions on squares of a screen. *)
Example C125_screen_example : forall n id e, (4 <= n)%nat -> exists (b : builder (nat * nat)) X (fs : fspace R R) P wmod deg pts,
  screen n Quadrilateral b /\ fs_grid fs = built_grid id Quadrilateral b /\
  dense_setting X wmod (laplace_single_layer (newton e)) (after [SetBatch 3; SetRegular Quadrilateral (few Quadrilateral)]) deg pts Quadrilateral fs fs /\
  positive_externals (Rle 0) X /\ inside_rules X Quadrilateral /\ exact_to X Quadrilateral (pts Quadrilateral) (0 + 2) /\ flat_screen n X (built_grid id Quadrilateral b) b /\
  fs_family fs = interior_only (fun _ => 4%nat) /\ interior_family (g_types (fs_grid fs) 2) (fs_family fs) /\
  element_functions fs Quadrilateral 2 (fun a x y => match a with 0%nat => (1 - x) * (1 - y) | 1%nat => x * (1 - y) | 2%nat => (1 - x) * y | _ => x * y end) /\
  (forall t p q r, corner b t 0 p -> corner b t 1 q -> corner b t 2 r -> P t = (screen_position n p, screen_position n q, screen_position n r)) /\
  exists t s i j p q r p' q' r', corner b t 0 p /\ corner b t 1 q /\ corner b t 2 r /\ corner b s 0 p' /\ corner b s 1 q' /\ corner b s 2 r' /\ In i (dofs_at fs t) /\ In j (dofs_at fs s) /\
    (forall x y, inside Quadrilateral x y -> Rabs (piece fs (fun a x y => match a with 0%nat => (1 - x) * (1 - y) | 1%nat => x * (1 - y) | 2%nat => (1 - x) * y | _ => x * y end) i t x y) <= 1) /\
    (forall x y, inside Quadrilateral x y -> Rabs (piece fs (fun a x y => match a with 0%nat => (1 - x) * (1 - y) | 1%nat => x * (1 - y) | 2%nat => (1 - x) * y | _ => x * y end) j s x y) <= 1) /\
    sqrt (spread Quadrilateral / 2) / INR (n + 1) < dist (centre Quadrilateral (screen_position n p) (screen_position n q) (screen_position n r)) (centre Quadrilateral (screen_position n p') (screen_position n q') (screen_position n r')).
Proof. exact screen_piece_example. Qed.

(** Functions of any space, continuous or not: a function lives within the radius of three cells of the
    centre of any cell it lives on. *)
Theorem C125_continuous_sphere : forall (X : externals R) level id wmod e o deg pts (b : builder vec) (test trial : fspace R R) P F F' k d,
  regular_sphere real_numbers level 1 = Ok b -> fs_grid test = built_grid id Triangle b -> fs_grid trial = built_grid id Triangle b ->
  dense_setting X wmod (laplace_single_layer (newton e)) o deg pts Triangle test trial ->
  positive_externals (Rle 0) X -> inside_rules X Triangle -> exact_to X Triangle (pts Triangle) (k + d) -> flat_cells X (built_grid id Triangle b) b ->
  element_functions test Triangle d F -> element_functions trial Triangle d F' -> (forall t p q r, corners_of b t p q r -> P t = (p, q, r)) ->
  forall rt, legal_runtime Rplus rt ->
  exists m, assemble reals X rt wmod (laplace_single_layer (newton e)) o trial test = Ok m /\
  forall t s i j p q r p' q' r' M M', corners_of b t p q r -> corners_of b s p' q' r' -> In i (dofs_at test t) -> In j (dofs_at trial s) ->
    (forall z x y, In z (support test i) -> inside Triangle x y -> Rabs (piece test F i z x y) <= M) -> (forall z x y, In z (support trial j) -> inside Triangle x y -> Rabs (piece trial F' j z x y) <= M') ->
    let reach := 3 * sqrt (32 / (3 * (4 ^ level + 2))) in let a := dist (centre Triangle p q r) (centre Triangle p' q' r') in reach < a ->
    exists v w, nth_error m (i + global_size (fs_space test) * j) = Some v /\ functions_integral Triangle test trial F F' P P (newton e 0) i j w /\
      Rabs (v - w) <= 2 * ((reach / a) ^ (k + 1) / (1 - reach / a)) * (M * support_area test Triangle P i * (M' * support_area trial Triangle P j) / (4 * PI * a)).
Proof. exact sphere_functions. Qed.
Print Assumptions C125_continuous_sphere.

Theorem C125_continuous_screens : forall (X : externals R) n id wmod ct e o deg pts (b : builder (nat * nat)) (test trial : fspace R R) P F F' k d,
  screen n ct b -> fs_grid test = built_grid id ct b -> fs_grid trial = built_grid id ct b ->
  dense_setting X wmod (laplace_single_layer (newton e)) o deg pts ct test trial ->
  positive_externals (Rle 0) X -> inside_rules X ct -> exact_to X ct (pts ct) (k + d) -> flat_screen n X (built_grid id ct b) b ->
  element_functions test ct d F -> element_functions trial ct d F' ->
  (forall t p q r, corner b t 0 p -> corner b t 1 q -> corner b t 2 r -> P t = (screen_position n p, screen_position n q, screen_position n r)) ->
  forall rt, legal_runtime Rplus rt ->
  exists m, assemble reals X rt wmod (laplace_single_layer (newton e)) o trial test = Ok m /\
  forall t s i j p q r p' q' r' M M', corner b t 0 p -> corner b t 1 q -> corner b t 2 r -> corner b s 0 p' -> corner b s 1 q' -> corner b s 2 r' -> In i (dofs_at test t) -> In j (dofs_at trial s) ->
    (forall z x y, In z (support test i) -> inside ct x y -> Rabs (piece test F i z x y) <= M) -> (forall z x y, In z (support trial j) -> inside ct x y -> Rabs (piece trial F' j z x y) <= M') ->
    let a := dist (centre ct (screen_position n p) (screen_position n q) (screen_position n r)) (centre ct (screen_position n p') (screen_position n q') (screen_position n r')) in
    let reach := 3 * (sqrt (spread ct / 2) / INR (n + 1)) in reach < a ->
    exists v w, nth_error m (i + global_size (fs_space test) * j) = Some v /\ functions_integral ct test trial F F' P P (newton e 0) i j w /\
      Rabs (v - w) <= 2 * ((reach / a) ^ (k + 1) / (1 - reach / a)) * (M * support_area test ct P i * (M' * support_area trial ct P j) / (4 * PI * a)).
Proof. exact screen_functions. Qed.
Print Assumptions C125_continuous_screens.

(** Continuous linear functions on opposite triangles of the sphere, *)
Example C125_continuous_sphere_example : forall level id e, (3 <= level)%nat -> exists (b : builder vec) X (fs : fspace R R) P wmod deg pts,
  regular_sphere real_numbers level 1 = Ok b /\ fs_grid fs = built_grid id Triangle b /\
  (forall O, O = laplace_single_layer (newton e) \/ O = laplace_double_layer (newton e) \/ O = laplace_adjoint_double_layer (newton e) ->
    dense_setting X wmod O (after [SetBatch 3; SetRegular Triangle (few Triangle)]) deg pts Triangle fs fs) /\
  positive_externals (Rle 0) X /\ inside_rules X Triangle /\ exact_to X Triangle (pts Triangle) (1 + 1) /\ flat_cells X (built_grid id Triangle b) b /\
  fs_family fs = lagrange 1 /\
  let F := fun (a : nat) (x y : R) => match a with 0%nat => 1 - x - y | 1%nat => x | _ => y end in
  element_functions fs Triangle 1 F /\ (forall t p q r, corners_of b t p q r -> P t = (p, q, r)) /\
  exists t s i j p q r p' q' r' sigma, corners_of b t p q r /\ corners_of b s p' q' r' /\ In i (dofs_at fs t) /\ In j (dofs_at fs s) /\
    (forall z x y, In z (support fs i) -> inside Triangle x y -> Rabs (piece fs F i z x y) <= 1) /\
    (forall z x y, In z (support fs j) -> inside Triangle x y -> Rabs (piece fs F j z x y) <= 1) /\
    let reach := 3 * sqrt (32 / (3 * (4 ^ level + 2))) in let a := dist (centre Triangle p q r) (centre Triangle p' q' r') in reach < a /\ reach / a < sigma < 1.
Proof. exact sphere_functions_example. Qed.

(** and continuous bilinear functions on opposite corners of a screen. *)
Example C125_continuous_screen_example : forall n id e, (6 <= n)%nat -> exists (b : builder (nat * nat)) X (fs : fspace R R) P wmod deg pts,
  screen n Quadrilateral b /\ fs_grid fs = built_grid id Quadrilateral b /\
  dense_setting X wmod (laplace_single_layer (newton e)) (after [SetBatch 3; SetRegular Quadrilateral (few Quadrilateral)]) deg pts Quadrilateral fs fs /\
  positive_externals (Rle 0) X /\ inside_rules X Quadrilateral /\ exact_to X Quadrilateral (pts Quadrilateral) (0 + 2) /\ flat_screen n X (built_grid id Quadrilateral b) b /\
  fs_family fs = lagrange 1 /\
  let F := fun (a : nat) (x y : R) => match a with 0%nat => (1 - x) * (1 - y) | 1%nat => x * (1 - y) | 2%nat => (1 - x) * y | _ => x * y end in
  element_functions fs Quadrilateral 2 F /\
  (forall t p q r, corner b t 0 p -> corner b t 1 q -> corner b t 2 r -> P t = (screen_position n p, screen_position n q, screen_position n r)) /\
  exists t s i j p q r p' q' r', corner b t 0 p /\ corner b t 1 q /\ corner b t 2 r /\ corner b s 0 p' /\ corner b s 1 q' /\ corner b s 2 r' /\ In i (dofs_at fs t) /\ In j (dofs_at fs s) /\
    (forall z x y, In z (support fs i) -> inside Quadrilateral x y -> Rabs (piece fs F i z x y) <= 1) /\
    (forall z x y, In z (support fs j) -> inside Quadrilateral x y -> Rabs (piece fs F j z x y) <= 1) /\
    let a := dist (centre Quadrilateral (screen_position n p) (screen_position n q) (screen_position n r)) (centre Quadrilateral (screen_position n p') (screen_position n q') (screen_position n r')) in
    let reach := 3 * (sqrt (spread Quadrilateral / 2) / INR (n + 1)) in reach < a.
Proof. exact screen_functions_example. Qed.
