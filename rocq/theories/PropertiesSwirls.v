(** * C127: hypersingular entries of functions of any degree with distant supports and the integrals *)
From Coq Require Import Reals.
From Verif Require Import Base Topology DofMap SpecDof Process Space Options SpecOptions Scalar Integrand CellPair Operators SpecLocal Interleave Assembly SpecAssembly SpecTransfer SpecAlgebra SpecRounding SpecBroken SpecGalerkin SpecMeasure
  Shapes SpecShapes SpecSphere SpecScreen SpecWidth SpecTurns SpecShift SpecToeplitz SpecShare SpecWaves SpecDecay SpecDigits SpecMoments SpecDegree SpecPieces PieceResults PieceShapes DegreeExamples PieceExamples SpecDefinite SpecFluxes SpecSwirls SwirlResults SwirlShapes SwirlExamples.

Local Open Scope R_scope.
Local Notation dist := SpecWaves.distance.

(** With a regular rule of degree [k + d] an entry is near the integral of the surface curls. *)
Theorem C127_entries : forall (X : externals R) wmod e o deg pts ct (test trial : fspace R R) P P' F F1 F2 F' F1' F2' k d,
  dense_setting X wmod (laplace_hypersingular (newton e)) o deg pts ct test trial -> ct = Triangle \/ ct = Quadrilateral ->
  positive_externals (Rle 0) X -> inside_rules X ct -> exact_to X ct (pts ct) (k + d) ->
  element_slopes test ct d F F1 F2 -> element_slopes trial ct d F' F1' F2' -> flat_grid X (fs_grid test) ct P -> flat_grid X (fs_grid trial) ct P' ->
  forall rt, legal_runtime Rplus rt ->
  exists m, assemble reals X rt wmod (laplace_hypersingular (newton e)) o trial test = Ok m /\
  forall i j c c' h h' M M', (i < global_size (fs_space test))%nat -> (j < global_size (fs_space trial))%nat ->
    supported_in test ct P i c h -> supported_in trial ct P' j c' h' -> (forall t s, In t (support test i) -> In s (support trial j) -> ~ touching test trial t s) ->
    0 <= M -> (forall t x y, In t (support test i) -> inside ct x y -> inner (piece_swirl test F1 F2 P i t x y) (piece_swirl test F1 F2 P i t x y) <= M * M) ->
    0 <= M' -> (forall s x y, In s (support trial j) -> inside ct x y -> inner (piece_swirl trial F1' F2' P' j s x y) (piece_swirl trial F1' F2' P' j s x y) <= M' * M') ->
    let a := dist c c' in let ratio := (h + h') / a in h + h' < a ->
    exists v w, nth_error m (i + global_size (fs_space test) * j) = Some v /\ swirls_integral ct test trial F1 F2 F1' F2' P P' (newton e 0) i j w /\
      Rabs (v - w) <= 2 * (ratio ^ (k + 1) / (1 - ratio)) * (M * support_area test ct P i * (M' * support_area trial ct P' j) / (4 * PI * a)).
Proof. exact swirls_entries. Qed.
Print Assumptions C127_entries.

(** There is only one such integral. *)
Theorem C127_unique : forall ct test trial F1 F2 F1' F2' P P' K i j v w, ct = Triangle \/ ct = Quadrilateral ->
  swirls_integral ct test trial F1 F2 F1' F2' P P' K i j v -> swirls_integral ct test trial F1 F2 F1' F2' P P' K i j w -> v = w.
Proof. exact swirls_unique. Qed.
Print Assumptions C127_unique.

(** The surface curl is the product of the unit normal and the gradient along the cell. *)
Theorem C127_curl : forall T g, swirl T (inner g (vsub (second_corner T) (first_corner T))) (inner g (vsub (third_corner T) (first_corner T))) = cross (cell_direction T) g.
Proof. exact swirl_turned. Qed.
Print Assumptions C127_curl.

(** The sphere, with functions continuous or not: a function lives within the radius of three cells of
    the centre of any cell it lives on. *)
Theorem C127_sphere : forall (X : externals R) level id wmod e o deg pts (b : builder vec) (test trial : fspace R R) P F F1 F2 F' F1' F2' k d,
  regular_sphere real_numbers level 1 = Ok b -> fs_grid test = built_grid id Triangle b -> fs_grid trial = built_grid id Triangle b ->
  dense_setting X wmod (laplace_hypersingular (newton e)) o deg pts Triangle test trial ->
  positive_externals (Rle 0) X -> inside_rules X Triangle -> exact_to X Triangle (pts Triangle) (k + d) -> flat_cells X (built_grid id Triangle b) b ->
  element_slopes test Triangle d F F1 F2 -> element_slopes trial Triangle d F' F1' F2' -> (forall t p q r, corners_of b t p q r -> P t = (p, q, r)) ->
  forall rt, legal_runtime Rplus rt ->
  exists m, assemble reals X rt wmod (laplace_hypersingular (newton e)) o trial test = Ok m /\
  forall t s i j p q r p' q' r' M M', corners_of b t p q r -> corners_of b s p' q' r' -> In i (dofs_at test t) -> In j (dofs_at trial s) ->
    0 <= M -> (forall z x y, In z (support test i) -> inside Triangle x y -> inner (piece_swirl test F1 F2 P i z x y) (piece_swirl test F1 F2 P i z x y) <= M * M) ->
    0 <= M' -> (forall z x y, In z (support trial j) -> inside Triangle x y -> inner (piece_swirl trial F1' F2' P j z x y) (piece_swirl trial F1' F2' P j z x y) <= M' * M') ->
    let reach := 3 * sqrt (32 / (3 * (4 ^ level + 2))) in let a := dist (centre Triangle p q r) (centre Triangle p' q' r') in reach < a ->
    exists v w, nth_error m (i + global_size (fs_space test) * j) = Some v /\ swirls_integral Triangle test trial F1 F2 F1' F2' P P (newton e 0) i j w /\
      Rabs (v - w) <= 2 * ((reach / a) ^ (k + 1) / (1 - reach / a)) * (M * support_area test Triangle P i * (M' * support_area trial Triangle P j) / (4 * PI * a)).
Proof. exact sphere_swirls. Qed.
Print Assumptions C127_sphere.

(** Screens. *)
Theorem C127_screens : forall (X : externals R) n id wmod ct e o deg pts (b : builder (nat * nat)) (test trial : fspace R R) P F F1 F2 F' F1' F2' k d,
  screen n ct b -> fs_grid test = built_grid id ct b -> fs_grid trial = built_grid id ct b ->
  dense_setting X wmod (laplace_hypersingular (newton e)) o deg pts ct test trial ->
  positive_externals (Rle 0) X -> inside_rules X ct -> exact_to X ct (pts ct) (k + d) -> flat_screen n X (built_grid id ct b) b ->
  element_slopes test ct d F F1 F2 -> element_slopes trial ct d F' F1' F2' ->
  (forall t p q r, corner b t 0 p -> corner b t 1 q -> corner b t 2 r -> P t = (screen_position n p, screen_position n q, screen_position n r)) ->
  forall rt, legal_runtime Rplus rt ->
  exists m, assemble reals X rt wmod (laplace_hypersingular (newton e)) o trial test = Ok m /\
  forall t s i j p q r p' q' r' M M', corner b t 0 p -> corner b t 1 q -> corner b t 2 r -> corner b s 0 p' -> corner b s 1 q' -> corner b s 2 r' -> In i (dofs_at test t) -> In j (dofs_at trial s) ->
    0 <= M -> (forall z x y, In z (support test i) -> inside ct x y -> inner (piece_swirl test F1 F2 P i z x y) (piece_swirl test F1 F2 P i z x y) <= M * M) ->
    0 <= M' -> (forall z x y, In z (support trial j) -> inside ct x y -> inner (piece_swirl trial F1' F2' P j z x y) (piece_swirl trial F1' F2' P j z x y) <= M' * M') ->
    let a := dist (centre ct (screen_position n p) (screen_position n q) (screen_position n r)) (centre ct (screen_position n p') (screen_position n q') (screen_position n r')) in
    let reach := 3 * (sqrt (spread ct / 2) / INR (n + 1)) in reach < a ->
    exists v w, nth_error m (i + global_size (fs_space test) * j) = Some v /\ swirls_integral ct test trial F1 F2 F1' F2' P P (newton e 0) i j w /\
      Rabs (v - w) <= 2 * ((reach / a) ^ (k + 1) / (1 - reach / a)) * (M * support_area test ct P i * (M' * support_area trial ct P j) / (4 * PI * a)).
Proof. exact screen_swirls. Qed.
Print Assumptions C127_screens.

(** Continuous linear functions on opposite triangles of the sphere, *)
Example C127_sphere_example : forall level id e, (3 <= level)%nat -> exists (b : builder vec) X (fs : fspace R R) P wmod deg pts,
  regular_sphere real_numbers level 1 = Ok b /\ fs_grid fs = built_grid id Triangle b /\
  dense_setting X wmod (laplace_hypersingular (newton e)) (after [SetBatch 3; SetRegular Triangle (few Triangle)]) deg pts Triangle fs fs /\
  positive_externals (Rle 0) X /\ inside_rules X Triangle /\ exact_to X Triangle (pts Triangle) (2 + 0) /\ flat_cells X (built_grid id Triangle b) b /\
  fs_family fs = lagrange 1 /\
  let F1 := fun (a : nat) (x y : R) => match a with 0%nat => -1 | 1%nat => 1 | _ => 0 end in let F2 := fun (a : nat) (x y : R) => match a with 0%nat => -1 | 1%nat => 0 | _ => 1 end in
  element_slopes fs Triangle 0 (fun a x y => match a with 0%nat => 1 - x - y | 1%nat => x | _ => y end) F1 F2 /\ (forall t p q r, corners_of b t p q r -> P t = (p, q, r)) /\
  exists t s i j p q r p' q' r' M M', corners_of b t p q r /\ corners_of b s p' q' r' /\ In i (dofs_at fs t) /\ In j (dofs_at fs s) /\
    0 <= M /\ (forall z x y, In z (support fs i) -> inside Triangle x y -> inner (piece_swirl fs F1 F2 P i z x y) (piece_swirl fs F1 F2 P i z x y) <= M * M) /\
    0 <= M' /\ (forall z x y, In z (support fs j) -> inside Triangle x y -> inner (piece_swirl fs F1 F2 P j z x y) (piece_swirl fs F1 F2 P j z x y) <= M' * M') /\
    3 * sqrt (32 / (3 * (4 ^ level + 2))) < dist (centre Triangle p q r) (centre Triangle p' q' r').
Proof. exact sphere_swirl_example. Qed.

(** and continuous bilinear functions on opposite corners of a screen. *)
Example C127_screen_example : forall n id e, (6 <= n)%nat -> exists (b : builder (nat * nat)) X (fs : fspace R R) P wmod deg pts,
  screen n Quadrilateral b /\ fs_grid fs = built_grid id Quadrilateral b /\
  dense_setting X wmod (laplace_hypersingular (newton e)) (after [SetBatch 3; SetRegular Quadrilateral (few Quadrilateral)]) deg pts Quadrilateral fs fs /\
  positive_externals (Rle 0) X /\ inside_rules X Quadrilateral /\ exact_to X Quadrilateral (pts Quadrilateral) (1 + 1) /\ flat_screen n X (built_grid id Quadrilateral b) b /\
  fs_family fs = lagrange 1 /\
  let F1 := fun (a : nat) (x y : R) => match a with 0%nat => y - 1 | 1%nat => 1 - y | 2%nat => - y | _ => y end in let F2 := fun (a : nat) (x y : R) => match a with 0%nat => x - 1 | 1%nat => - x | 2%nat => 1 - x | _ => x end in
  element_slopes fs Quadrilateral 1 (fun a x y => match a with 0%nat => (1 - x) * (1 - y) | 1%nat => x * (1 - y) | 2%nat => (1 - x) * y | _ => x * y end) F1 F2 /\
  (forall t p q r, corner b t 0 p -> corner b t 1 q -> corner b t 2 r -> P t = (screen_position n p, screen_position n q, screen_position n r)) /\
  exists t s i j p q r p' q' r' M M', corner b t 0 p /\ corner b t 1 q /\ corner b t 2 r /\ corner b s 0 p' /\ corner b s 1 q' /\ corner b s 2 r' /\ In i (dofs_at fs t) /\ In j (dofs_at fs s) /\
    0 <= M /\ (forall z x y, In z (support fs i) -> inside Quadrilateral x y -> inner (piece_swirl fs F1 F2 P i z x y) (piece_swirl fs F1 F2 P i z x y) <= M * M) /\
    0 <= M' /\ (forall z x y, In z (support fs j) -> inside Quadrilateral x y -> inner (piece_swirl fs F1 F2 P j z x y) (piece_swirl fs F1 F2 P j z x y) <= M' * M') /\
    3 * (sqrt (spread Quadrilateral / 2) / INR (n + 1)) < dist (centre Quadrilateral (screen_position n p) (screen_position n q) (screen_position n r)) (centre Quadrilateral (screen_position n p') (screen_position n q') (screen_position n r')).
Proof. exact screen_swirl_example. Qed.
