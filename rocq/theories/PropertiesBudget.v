(** * C131: computed distant entries and the integrals *)
From Coq Require Import Reals.
From Verif Require Import Base Topology DofMap SpecDof Process Space Options SpecOptions Scalar Integrand CellPair Operators SpecLocal Interleave Assembly AssemblyResults SpecAssembly SpecOrder SpecTransfer SpecScalars SpecAlgebra SpecRounding RoundingModels RoundingExamples SpecShapeSpaces SpecBroken SpecGalerkin SpecMeasure
  Shapes SpecShapes SpecSphere SpecScreen SpecWidth SpecTurns SpecShift SpecToeplitz SpecShare SpecWaves SpecDecay SpecMoments SpecDegree DegreeExamples SpecPieces SpecFluxes SpecSwirls BudgetResults BudgetExamples.

Local Open Scope R_scope.
Local Notation dist := SpecWaves.distance.

(** The single layer on the sphere: the error of an entry computed with [p] bits against the
    integral is the error of the arithmetic and the error of the rule. *)
Theorem C131_sphere : forall p, (12 <= p)%nat ->
  forall (X X' : externals R) wmod wmod' (G : green) e o o' deg pts level id (b : builder vec) (test trial test' trial' : fspace R R) relP rt P F F' k d n N,
  regular_sphere real_numbers level 1 = Ok b -> fs_grid test' = built_grid id Triangle b -> fs_grid trial' = built_grid id Triangle b ->
  standard (fs_family test') -> standard (fs_family trial') -> legal_runtime (s_add (floats p)) rt ->
  dense_setting X wmod (laplace_single_layer G) o deg pts Triangle test trial -> dense_setting X' wmod' (laplace_single_layer (newton e)) o' deg pts Triangle test' trial' ->
  same_dofs test test' -> same_dofs trial trial' ->
  related_externals (real_close ((/ 2) ^ p) n) (nonzero_close ((/ 2) ^ p) n) (real_close ((/ 2) ^ p) n) relP X X' ->
  related_kernel (close ((/ 2) ^ p) Rabs reals n) X X' (laplace_single_layer G) (laplace_single_layer (newton e)) deg pts test trial ->
  related_basis (close ((/ 2) ^ p) Rabs reals n) relP (laplace_single_layer G) test test' ->
  related_basis (close ((/ 2) ^ p) Rabs reals n) relP (laplace_single_layer G) trial trial' ->
  points_at_most X deg pts Triangle N -> (7 * n + 42 + N <= 2 ^ 11)%nat ->
  positive_externals (Rle 0) X' -> positive_basis (Rle 0) X' test' -> positive_basis (Rle 0) X' trial' ->
  inside_rules X' Triangle -> exact_to X' Triangle (pts Triangle) (k + d) -> flat_cells X' (built_grid id Triangle b) b ->
  element_functions test' Triangle d F -> element_functions trial' Triangle d F' -> (forall t p q r, corners_of b t p q r -> P t = (p, q, r)) ->
  exists m, assemble (floats p) X rt wmod (laplace_single_layer G) o trial test = Ok m /\
  forall t s i j x y z x' y' z' M M', corners_of b t x y z -> corners_of b s x' y' z' -> In i (dofs_at test' t) -> In j (dofs_at trial' s) ->
    (forall c u v, In c (support test' i) -> inside Triangle u v -> Rabs (piece test' F i c u v) <= M) -> (forall c u v, In c (support trial' j) -> inside Triangle u v -> Rabs (piece trial' F' j c u v) <= M') ->
    let reach := 3 * sqrt (32 / (3 * (4 ^ level + 2))) in let a := dist (centre Triangle x y z) (centre Triangle x' y' z') in reach < a ->
    exists v w, nth_error m (i + global_size (fs_space test) * j) = Some v /\ functions_integral Triangle test' trial' F F' P P (newton e 0) i j w /\
      Rabs (v - w) <= (/ 2) ^ (p - 12) * Rabs w + (1 + (/ 2) ^ (p - 12)) *
        (2 * ((reach / a) ^ (k + 1) / (1 - reach / a)) * (M * support_area test' Triangle P i * (M' * support_area trial' Triangle P j) / (4 * PI * a))).
Proof. exact sphere_budget. Qed.
Print Assumptions C131_sphere.

(** The single layer on screens. *)
Theorem C131_screens : forall p, (12 <= p)%nat ->
  forall (X X' : externals R) wmod wmod' ct (G : green) e o o' deg pts m id (b : builder (nat * nat)) (test trial test' trial' : fspace R R) relP rt P F F' k d n N,
  screen m ct b -> fs_grid test' = built_grid id ct b -> fs_grid trial' = built_grid id ct b ->
  standard (fs_family test') -> standard (fs_family trial') -> legal_runtime (s_add (floats p)) rt ->
  dense_setting X wmod (laplace_single_layer G) o deg pts ct test trial -> dense_setting X' wmod' (laplace_single_layer (newton e)) o' deg pts ct test' trial' ->
  same_dofs test test' -> same_dofs trial trial' ->
  related_externals (real_close ((/ 2) ^ p) n) (nonzero_close ((/ 2) ^ p) n) (real_close ((/ 2) ^ p) n) relP X X' ->
  related_kernel (close ((/ 2) ^ p) Rabs reals n) X X' (laplace_single_layer G) (laplace_single_layer (newton e)) deg pts test trial ->
  related_basis (close ((/ 2) ^ p) Rabs reals n) relP (laplace_single_layer G) test test' ->
  related_basis (close ((/ 2) ^ p) Rabs reals n) relP (laplace_single_layer G) trial trial' ->
  points_at_most X deg pts ct N -> (7 * n + 42 + N <= 2 ^ 11)%nat ->
  positive_externals (Rle 0) X' -> positive_basis (Rle 0) X' test' -> positive_basis (Rle 0) X' trial' ->
  inside_rules X' ct -> exact_to X' ct (pts ct) (k + d) -> flat_screen m X' (built_grid id ct b) b ->
  element_functions test' ct d F -> element_functions trial' ct d F' ->
  (forall t x y z, corner b t 0 x -> corner b t 1 y -> corner b t 2 z -> P t = (screen_position m x, screen_position m y, screen_position m z)) ->
  exists A, assemble (floats p) X rt wmod (laplace_single_layer G) o trial test = Ok A /\
  forall t s i j x y z x' y' z' M M', corner b t 0 x -> corner b t 1 y -> corner b t 2 z -> corner b s 0 x' -> corner b s 1 y' -> corner b s 2 z' -> In i (dofs_at test' t) -> In j (dofs_at trial' s) ->
    (forall c u v, In c (support test' i) -> inside ct u v -> Rabs (piece test' F i c u v) <= M) -> (forall c u v, In c (support trial' j) -> inside ct u v -> Rabs (piece trial' F' j c u v) <= M') ->
    let a := dist (centre ct (screen_position m x) (screen_position m y) (screen_position m z)) (centre ct (screen_position m x') (screen_position m y') (screen_position m z')) in
    let reach := 3 * (sqrt (spread ct / 2) / INR (m + 1)) in reach < a ->
    exists v w, nth_error A (i + global_size (fs_space test) * j) = Some v /\ functions_integral ct test' trial' F F' P P (newton e 0) i j w /\
      Rabs (v - w) <= (/ 2) ^ (p - 12) * Rabs w + (1 + (/ 2) ^ (p - 12)) *
        (2 * ((reach / a) ^ (k + 1) / (1 - reach / a)) * (M * support_area test' ct P i * (M' * support_area trial' ct P j) / (4 * PI * a))).
Proof. exact screen_budget. Qed.
Print Assumptions C131_screens.

(** The double layer on the sphere: the terms of an entry may cancel, and the error of the
    arithmetic is relative to the sum of their absolute values. *)
Theorem C131_double : forall p, (12 <= p)%nat ->
  forall (X X' : externals R) wmod wmod' (G : green) e o o' deg pts level id (b : builder vec) (test trial test' trial' : fspace R R) relP rt P F F' k d n N,
  regular_sphere real_numbers level 1 = Ok b -> fs_grid test' = built_grid id Triangle b -> fs_grid trial' = built_grid id Triangle b ->
  standard (fs_family test') -> standard (fs_family trial') -> legal_runtime (s_add (floats p)) rt ->
  dense_setting X wmod (laplace_double_layer G) o deg pts Triangle test trial -> dense_setting X' wmod' (laplace_double_layer (newton e)) o' deg pts Triangle test' trial' ->
  same_dofs test test' -> same_dofs trial trial' ->
  related_externals (real_close ((/ 2) ^ p) n) (nonzero_close ((/ 2) ^ p) n) (real_close ((/ 2) ^ p) n) relP X X' ->
  related_kernel (close ((/ 2) ^ p) Rabs reals n) X X' (laplace_double_layer G) (laplace_double_layer (newton e)) deg pts test trial ->
  related_basis (close ((/ 2) ^ p) Rabs reals n) relP (laplace_double_layer G) test test' ->
  related_basis (close ((/ 2) ^ p) Rabs reals n) relP (laplace_double_layer G) trial trial' ->
  points_at_most X deg pts Triangle N -> (8 * n + 45 + N <= 2 ^ 11)%nat ->
  positive_externals (Rle 0) X' -> inside_rules X' Triangle -> exact_to X' Triangle (pts Triangle) (k + d + 1) -> flat_cells X' (built_grid id Triangle b) b ->
  element_functions test' Triangle d F -> element_functions trial' Triangle d F' -> (forall t p q r, corners_of b t p q r -> P t = (p, q, r)) ->
  exists m A, assemble (floats p) X rt wmod (laplace_double_layer G) o trial test = Ok m /\
  assemble absolute X' (sequential Rplus) wmod' (absolute_operator Rabs (laplace_double_layer (newton e))) o' (absolute_space Rabs trial') (absolute_space Rabs test') = Ok A /\
  forall t s i j x y z x' y' z' M M' sigma, corners_of b t x y z -> corners_of b s x' y' z' -> In i (dofs_at test' t) -> In j (dofs_at trial' s) ->
    (forall c u v, In c (support test' i) -> inside Triangle u v -> Rabs (piece test' F i c u v) <= M) -> (forall c u v, In c (support trial' j) -> inside Triangle u v -> Rabs (piece trial' F' j c u v) <= M') ->
    let reach := 3 * sqrt (32 / (3 * (4 ^ level + 2))) in let a := dist (centre Triangle x y z) (centre Triangle x' y' z') in reach < a -> reach / a < sigma < 1 ->
    exists v w l, nth_error m (i + global_size (fs_space test) * j) = Some v /\ double_integral Triangle test' trial' F F' P P (newton e) i j w /\
      nth_error A (i + global_size (fs_space test) * j) = Some l /\
      Rabs (v - w) <= (/ 2) ^ (p - 12) * l +
        6 * (1 + reach / a) * (reach / a / sigma) ^ (k + 1) / ((1 - sigma) ^ 3) * (Rabs e * (M * support_area test' Triangle P i * (M' * support_area trial' Triangle P j)) / (4 * PI * (a * a))).
Proof. exact sphere_budget_double. Qed.
Print Assumptions C131_double.

(** The adjoint double layer. *)
Theorem C131_adjoint : forall p, (12 <= p)%nat ->
  forall (X X' : externals R) wmod wmod' (G : green) e o o' deg pts level id (b : builder vec) (test trial test' trial' : fspace R R) relP rt P F F' k d n N,
  regular_sphere real_numbers level 1 = Ok b -> fs_grid test' = built_grid id Triangle b -> fs_grid trial' = built_grid id Triangle b ->
  standard (fs_family test') -> standard (fs_family trial') -> legal_runtime (s_add (floats p)) rt ->
  dense_setting X wmod (laplace_adjoint_double_layer G) o deg pts Triangle test trial -> dense_setting X' wmod' (laplace_adjoint_double_layer (newton e)) o' deg pts Triangle test' trial' ->
  same_dofs test test' -> same_dofs trial trial' ->
  related_externals (real_close ((/ 2) ^ p) n) (nonzero_close ((/ 2) ^ p) n) (real_close ((/ 2) ^ p) n) relP X X' ->
  related_kernel (close ((/ 2) ^ p) Rabs reals n) X X' (laplace_adjoint_double_layer G) (laplace_adjoint_double_layer (newton e)) deg pts test trial ->
  related_basis (close ((/ 2) ^ p) Rabs reals n) relP (laplace_adjoint_double_layer G) test test' ->
  related_basis (close ((/ 2) ^ p) Rabs reals n) relP (laplace_adjoint_double_layer G) trial trial' ->
  points_at_most X deg pts Triangle N -> (8 * n + 45 + N <= 2 ^ 11)%nat ->
  positive_externals (Rle 0) X' -> inside_rules X' Triangle -> exact_to X' Triangle (pts Triangle) (k + d + 1) -> flat_cells X' (built_grid id Triangle b) b ->
  element_functions test' Triangle d F -> element_functions trial' Triangle d F' -> (forall t p q r, corners_of b t p q r -> P t = (p, q, r)) ->
  exists m A, assemble (floats p) X rt wmod (laplace_adjoint_double_layer G) o trial test = Ok m /\
  assemble absolute X' (sequential Rplus) wmod' (absolute_operator Rabs (laplace_adjoint_double_layer (newton e))) o' (absolute_space Rabs trial') (absolute_space Rabs test') = Ok A /\
  forall t s i j x y z x' y' z' M M' sigma, corners_of b t x y z -> corners_of b s x' y' z' -> In i (dofs_at test' t) -> In j (dofs_at trial' s) ->
    (forall c u v, In c (support test' i) -> inside Triangle u v -> Rabs (piece test' F i c u v) <= M) -> (forall c u v, In c (support trial' j) -> inside Triangle u v -> Rabs (piece trial' F' j c u v) <= M') ->
    let reach := 3 * sqrt (32 / (3 * (4 ^ level + 2))) in let a := dist (centre Triangle x y z) (centre Triangle x' y' z') in reach < a -> reach / a < sigma < 1 ->
    exists v w l, nth_error m (i + global_size (fs_space test) * j) = Some v /\ adjoint_integral Triangle test' trial' F F' P P (newton e) i j w /\
      nth_error A (i + global_size (fs_space test) * j) = Some l /\
      Rabs (v - w) <= (/ 2) ^ (p - 12) * l +
        6 * (1 + reach / a) * (reach / a / sigma) ^ (k + 1) / ((1 - sigma) ^ 3) * (Rabs e * (M * support_area test' Triangle P i * (M' * support_area trial' Triangle P j)) / (4 * PI * (a * a))).
Proof. exact sphere_budget_adjoint. Qed.
Print Assumptions C131_adjoint.

(** The single layer with functions that change sign, as those of degree two and more do, on the sphere *)
Theorem C131_signed : forall p, (12 <= p)%nat ->
  forall (X X' : externals R) wmod wmod' level (b : builder vec) (G : green) e o o' deg pts id (test trial test' trial' : fspace R R) relP rt P F F' k d n N,
  regular_sphere real_numbers level 1 = Ok b -> fs_grid test' = built_grid id Triangle b -> fs_grid trial' = built_grid id Triangle b ->
  standard (fs_family test') -> standard (fs_family trial') -> legal_runtime (s_add (floats p)) rt ->
  dense_setting X wmod (laplace_single_layer G) o deg pts Triangle test trial -> dense_setting X' wmod' (laplace_single_layer (newton e)) o' deg pts Triangle test' trial' ->
  same_dofs test test' -> same_dofs trial trial' ->
  related_externals (real_close ((/ 2) ^ p) n) (nonzero_close ((/ 2) ^ p) n) (real_close ((/ 2) ^ p) n) relP X X' ->
  related_kernel (close ((/ 2) ^ p) Rabs reals n) X X' (laplace_single_layer G) (laplace_single_layer (newton e)) deg pts test trial ->
  related_basis (close ((/ 2) ^ p) Rabs reals n) relP (laplace_single_layer G) test test' ->
  related_basis (close ((/ 2) ^ p) Rabs reals n) relP (laplace_single_layer G) trial trial' ->
  points_at_most X deg pts Triangle N -> (7 * n + 42 + N <= 2 ^ 11)%nat ->
  positive_externals (Rle 0) X' -> inside_rules X' Triangle -> exact_to X' Triangle (pts Triangle) (k + d) -> flat_cells X' (built_grid id Triangle b) b ->
  element_functions test' Triangle d F -> element_functions trial' Triangle d F' -> (forall t p q r, corners_of b t p q r -> P t = (p, q, r)) ->
  exists m A, assemble (floats p) X rt wmod (laplace_single_layer G) o trial test = Ok m /\
  assemble absolute X' (sequential Rplus) wmod' (absolute_operator Rabs (laplace_single_layer (newton e))) o' (absolute_space Rabs trial') (absolute_space Rabs test') = Ok A /\
  forall t s i j x y z x' y' z' M M', corners_of b t x y z -> corners_of b s x' y' z' -> In i (dofs_at test' t) -> In j (dofs_at trial' s) ->
    (forall c u v, In c (support test' i) -> inside Triangle u v -> Rabs (piece test' F i c u v) <= M) -> (forall c u v, In c (support trial' j) -> inside Triangle u v -> Rabs (piece trial' F' j c u v) <= M') ->
    let reach := 3 * sqrt (32 / (3 * (4 ^ level + 2))) in let a := dist (centre Triangle x y z) (centre Triangle x' y' z') in reach < a ->
    exists v w l, nth_error m (i + global_size (fs_space test) * j) = Some v /\ functions_integral Triangle test' trial' F F' P P (newton e 0) i j w /\
      nth_error A (i + global_size (fs_space test) * j) = Some l /\
      Rabs (v - w) <= (/ 2) ^ (p - 12) * l + 2 * ((reach / a) ^ (k + 1) / (1 - reach / a)) * (M * support_area test' Triangle P i * (M' * support_area trial' Triangle P j) / (4 * PI * a)).
Proof. exact sphere_budget_signed. Qed.
Print Assumptions C131_signed.

(** and on screens. *)
Theorem C131_screens_signed : forall p, (12 <= p)%nat ->
  forall (X X' : externals R) wmod wmod' h ct (b : builder (nat * nat)) (G : green) e o o' deg pts id (test trial test' trial' : fspace R R) relP rt P F F' k d n N,
  screen h ct b -> fs_grid test' = built_grid id ct b -> fs_grid trial' = built_grid id ct b ->
  standard (fs_family test') -> standard (fs_family trial') -> legal_runtime (s_add (floats p)) rt ->
  dense_setting X wmod (laplace_single_layer G) o deg pts ct test trial -> dense_setting X' wmod' (laplace_single_layer (newton e)) o' deg pts ct test' trial' ->
  same_dofs test test' -> same_dofs trial trial' ->
  related_externals (real_close ((/ 2) ^ p) n) (nonzero_close ((/ 2) ^ p) n) (real_close ((/ 2) ^ p) n) relP X X' ->
  related_kernel (close ((/ 2) ^ p) Rabs reals n) X X' (laplace_single_layer G) (laplace_single_layer (newton e)) deg pts test trial ->
  related_basis (close ((/ 2) ^ p) Rabs reals n) relP (laplace_single_layer G) test test' ->
  related_basis (close ((/ 2) ^ p) Rabs reals n) relP (laplace_single_layer G) trial trial' ->
  points_at_most X deg pts ct N -> (7 * n + 42 + N <= 2 ^ 11)%nat ->
  positive_externals (Rle 0) X' -> inside_rules X' ct -> exact_to X' ct (pts ct) (k + d) -> flat_screen h X' (built_grid id ct b) b ->
  element_functions test' ct d F -> element_functions trial' ct d F' -> (forall t x y z, corner b t 0 x -> corner b t 1 y -> corner b t 2 z -> P t = (screen_position h x, screen_position h y, screen_position h z)) ->
  exists m A, assemble (floats p) X rt wmod (laplace_single_layer G) o trial test = Ok m /\
  assemble absolute X' (sequential Rplus) wmod' (absolute_operator Rabs (laplace_single_layer (newton e))) o' (absolute_space Rabs trial') (absolute_space Rabs test') = Ok A /\
  forall t s i j x y z x' y' z' M M', corner b t 0 x -> corner b t 1 y -> corner b t 2 z -> corner b s 0 x' -> corner b s 1 y' -> corner b s 2 z' -> In i (dofs_at test' t) -> In j (dofs_at trial' s) ->
    (forall c u v, In c (support test' i) -> inside ct u v -> Rabs (piece test' F i c u v) <= M) -> (forall c u v, In c (support trial' j) -> inside ct u v -> Rabs (piece trial' F' j c u v) <= M') ->
    let a := dist (centre ct (screen_position h x) (screen_position h y) (screen_position h z)) (centre ct (screen_position h x') (screen_position h y') (screen_position h z')) in
    let reach := 3 * (sqrt (spread ct / 2) / INR (h + 1)) in reach < a ->
    exists v w l, nth_error m (i + global_size (fs_space test) * j) = Some v /\ functions_integral ct test' trial' F F' P P (newton e 0) i j w /\
      nth_error A (i + global_size (fs_space test) * j) = Some l /\
      Rabs (v - w) <= (/ 2) ^ (p - 12) * l + 2 * ((reach / a) ^ (k + 1) / (1 - reach / a)) * (M * support_area test' ct P i * (M' * support_area trial' ct P j) / (4 * PI * a)).
Proof. exact screen_budget_signed. Qed.
Print Assumptions C131_screens_signed.

(** The hypersingular operator on the sphere *)
Theorem C131_hypersingular : forall p, (12 <= p)%nat ->
  forall (X X' : externals R) wmod wmod' level (b : builder vec) (G : green) e o o' deg pts id (test trial test' trial' : fspace R R) relP rt P F F1 F2 F' F1' F2' k d n N,
  regular_sphere real_numbers level 1 = Ok b -> fs_grid test' = built_grid id Triangle b -> fs_grid trial' = built_grid id Triangle b ->
  standard (fs_family test') -> standard (fs_family trial') -> legal_runtime (s_add (floats p)) rt ->
  dense_setting X wmod (laplace_hypersingular G) o deg pts Triangle test trial -> dense_setting X' wmod' (laplace_hypersingular (newton e)) o' deg pts Triangle test' trial' ->
  same_dofs test test' -> same_dofs trial trial' ->
  related_externals (real_close ((/ 2) ^ p) n) (nonzero_close ((/ 2) ^ p) n) (real_close ((/ 2) ^ p) n) relP X X' ->
  related_kernel (close ((/ 2) ^ p) Rabs reals n) X X' (laplace_hypersingular G) (laplace_hypersingular (newton e)) deg pts test trial ->
  related_basis (close ((/ 2) ^ p) Rabs reals n) relP (laplace_hypersingular G) test test' ->
  related_basis (close ((/ 2) ^ p) Rabs reals n) relP (laplace_hypersingular G) trial trial' ->
  points_at_most X deg pts Triangle N -> (11 * n + 50 + N <= 2 ^ 11)%nat ->
  positive_externals (Rle 0) X' -> inside_rules X' Triangle -> exact_to X' Triangle (pts Triangle) (k + d) -> flat_cells X' (built_grid id Triangle b) b ->
  element_slopes test' Triangle d F F1 F2 -> element_slopes trial' Triangle d F' F1' F2' -> (forall t p q r, corners_of b t p q r -> P t = (p, q, r)) ->
  exists m A, assemble (floats p) X rt wmod (laplace_hypersingular G) o trial test = Ok m /\
  assemble absolute X' (sequential Rplus) wmod' (absolute_operator Rabs (laplace_hypersingular (newton e))) o' (absolute_space Rabs trial') (absolute_space Rabs test') = Ok A /\
  forall t s i j x y z x' y' z' M M', corners_of b t x y z -> corners_of b s x' y' z' -> In i (dofs_at test' t) -> In j (dofs_at trial' s) ->
    0 <= M -> (forall c u v, In c (support test' i) -> inside Triangle u v -> inner (piece_swirl test' F1 F2 P i c u v) (piece_swirl test' F1 F2 P i c u v) <= M * M) ->
    0 <= M' -> (forall c u v, In c (support trial' j) -> inside Triangle u v -> inner (piece_swirl trial' F1' F2' P j c u v) (piece_swirl trial' F1' F2' P j c u v) <= M' * M') ->
    let reach := 3 * sqrt (32 / (3 * (4 ^ level + 2))) in let a := dist (centre Triangle x y z) (centre Triangle x' y' z') in reach < a ->
    exists v w l, nth_error m (i + global_size (fs_space test) * j) = Some v /\ swirls_integral Triangle test' trial' F1 F2 F1' F2' P P (newton e 0) i j w /\
      nth_error A (i + global_size (fs_space test) * j) = Some l /\
      Rabs (v - w) <= (/ 2) ^ (p - 12) * l + 2 * ((reach / a) ^ (k + 1) / (1 - reach / a)) * (M * support_area test' Triangle P i * (M' * support_area trial' Triangle P j) / (4 * PI * a)).
Proof. exact sphere_budget_hypersingular. Qed.
Print Assumptions C131_hypersingular.

(** and on screens. *)
Theorem C131_screens_hypersingular : forall p, (12 <= p)%nat ->
  forall (X X' : externals R) wmod wmod' h ct (b : builder (nat * nat)) (G : green) e o o' deg pts id (test trial test' trial' : fspace R R) relP rt P F F1 F2 F' F1' F2' k d n N,
  screen h ct b -> fs_grid test' = built_grid id ct b -> fs_grid trial' = built_grid id ct b ->
  standard (fs_family test') -> standard (fs_family trial') -> legal_runtime (s_add (floats p)) rt ->
  dense_setting X wmod (laplace_hypersingular G) o deg pts ct test trial -> dense_setting X' wmod' (laplace_hypersingular (newton e)) o' deg pts ct test' trial' ->
  same_dofs test test' -> same_dofs trial trial' ->
  related_externals (real_close ((/ 2) ^ p) n) (nonzero_close ((/ 2) ^ p) n) (real_close ((/ 2) ^ p) n) relP X X' ->
  related_kernel (close ((/ 2) ^ p) Rabs reals n) X X' (laplace_hypersingular G) (laplace_hypersingular (newton e)) deg pts test trial ->
  related_basis (close ((/ 2) ^ p) Rabs reals n) relP (laplace_hypersingular G) test test' ->
  related_basis (close ((/ 2) ^ p) Rabs reals n) relP (laplace_hypersingular G) trial trial' ->
  points_at_most X deg pts ct N -> (11 * n + 50 + N <= 2 ^ 11)%nat ->
  positive_externals (Rle 0) X' -> inside_rules X' ct -> exact_to X' ct (pts ct) (k + d) -> flat_screen h X' (built_grid id ct b) b ->
  element_slopes test' ct d F F1 F2 -> element_slopes trial' ct d F' F1' F2' -> (forall t x y z, corner b t 0 x -> corner b t 1 y -> corner b t 2 z -> P t = (screen_position h x, screen_position h y, screen_position h z)) ->
  exists m A, assemble (floats p) X rt wmod (laplace_hypersingular G) o trial test = Ok m /\
  assemble absolute X' (sequential Rplus) wmod' (absolute_operator Rabs (laplace_hypersingular (newton e))) o' (absolute_space Rabs trial') (absolute_space Rabs test') = Ok A /\
  forall t s i j x y z x' y' z' M M', corner b t 0 x -> corner b t 1 y -> corner b t 2 z -> corner b s 0 x' -> corner b s 1 y' -> corner b s 2 z' -> In i (dofs_at test' t) -> In j (dofs_at trial' s) ->
    0 <= M -> (forall c u v, In c (support test' i) -> inside ct u v -> inner (piece_swirl test' F1 F2 P i c u v) (piece_swirl test' F1 F2 P i c u v) <= M * M) ->
    0 <= M' -> (forall c u v, In c (support trial' j) -> inside ct u v -> inner (piece_swirl trial' F1' F2' P j c u v) (piece_swirl trial' F1' F2' P j c u v) <= M' * M') ->
    let a := dist (centre ct (screen_position h x) (screen_position h y) (screen_position h z)) (centre ct (screen_position h x') (screen_position h y') (screen_position h z')) in
    let reach := 3 * (sqrt (spread ct / 2) / INR (h + 1)) in reach < a ->
    exists v w l, nth_error m (i + global_size (fs_space test) * j) = Some v /\ swirls_integral ct test' trial' F1 F2 F1' F2' P P (newton e 0) i j w /\
      nth_error A (i + global_size (fs_space test) * j) = Some l /\
      Rabs (v - w) <= (/ 2) ^ (p - 12) * l + 2 * ((reach / a) ^ (k + 1) / (1 - reach / a)) * (M * support_area test' ct P i * (M' * support_area trial' ct P j) / (4 * PI * a)).
Proof. exact screen_budget_hypersingular. Qed.
Print Assumptions C131_screens_hypersingular.

(** Continuous linear functions on opposite triangles of the sphere, with 53 bits, *)
Example C131_sphere_example : forall level id e, (3 <= level)%nat -> exists (b : builder vec) X (fs : fspace R R) P wmod deg pts,
  regular_sphere real_numbers level 1 = Ok b /\ fs_grid fs = built_grid id Triangle b /\ standard (fs_family fs) /\ fs_family fs = lagrange 1 /\
  (forall O, O = laplace_single_layer (newton e) \/ O = laplace_double_layer (newton e) \/ O = laplace_adjoint_double_layer (newton e) \/ O = laplace_hypersingular (newton e) ->
    dense_setting X wmod O (after [SetBatch 3; SetRegular Triangle (few Triangle)]) deg pts Triangle fs fs /\
    related_kernel (close half53 Rabs reals 0) X X O O deg pts fs fs /\ related_basis (close half53 Rabs reals 0) eq O fs fs) /\
  same_dofs fs fs /\ related_externals (real_close half53 0) (nonzero_close half53 0) (real_close half53 0) eq X X /\
  points_at_most X deg pts Triangle 9 /\ (7 * 0 + 42 + 9 <= 2 ^ 11)%nat /\ (8 * 0 + 45 + 9 <= 2 ^ 11)%nat /\ (11 * 0 + 50 + 9 <= 2 ^ 11)%nat /\
  positive_externals (Rle 0) X /\ positive_basis (Rle 0) X fs /\
  inside_rules X Triangle /\ exact_to X Triangle (pts Triangle) (1 + 1) /\ flat_cells X (built_grid id Triangle b) b /\
  let F := fun (a : nat) (x y : R) => match a with 0%nat => 1 - x - y | 1%nat => x | _ => y end in
  let F1 := fun (a : nat) (x y : R) => match a with 0%nat => -1 | 1%nat => 1 | _ => 0 end in let F2 := fun (a : nat) (x y : R) => match a with 0%nat => -1 | 1%nat => 0 | _ => 1 end in
  element_functions fs Triangle 1 F /\ element_slopes fs Triangle 0 F F1 F2 /\ (forall t p q r, corners_of b t p q r -> P t = (p, q, r)) /\
  exists t s i j p q r p' q' r' sigma M M', corners_of b t p q r /\ corners_of b s p' q' r' /\ In i (dofs_at fs t) /\ In j (dofs_at fs s) /\
    (forall z x y, In z (support fs i) -> inside Triangle x y -> Rabs (piece fs F i z x y) <= 1) /\
    (forall z x y, In z (support fs j) -> inside Triangle x y -> Rabs (piece fs F j z x y) <= 1) /\
    0 <= M /\ (forall z x y, In z (support fs i) -> inside Triangle x y -> inner (piece_swirl fs F1 F2 P i z x y) (piece_swirl fs F1 F2 P i z x y) <= M * M) /\
    0 <= M' /\ (forall z x y, In z (support fs j) -> inside Triangle x y -> inner (piece_swirl fs F1 F2 P j z x y) (piece_swirl fs F1 F2 P j z x y) <= M' * M') /\
    let reach := 3 * sqrt (32 / (3 * (4 ^ level + 2))) in let a := dist (centre Triangle p q r) (centre Triangle p' q' r') in reach < a /\ reach / a < sigma < 1.
Proof. exact sphere_budget_example. Qed.

(** and continuous bilinear functions on opposite corners of a screen. *)
Example C131_screen_example : forall n id e, (6 <= n)%nat -> exists (b : builder (nat * nat)) X (fs : fspace R R) P wmod deg pts,
  screen n Quadrilateral b /\ fs_grid fs = built_grid id Quadrilateral b /\ standard (fs_family fs) /\ fs_family fs = lagrange 1 /\
  (forall O, O = laplace_single_layer (newton e) \/ O = laplace_hypersingular (newton e) ->
    dense_setting X wmod O (after [SetBatch 3; SetRegular Quadrilateral (few Quadrilateral)]) deg pts Quadrilateral fs fs /\
    related_kernel (close half53 Rabs reals 0) X X O O deg pts fs fs /\ related_basis (close half53 Rabs reals 0) eq O fs fs) /\
  same_dofs fs fs /\ related_externals (real_close half53 0) (nonzero_close half53 0) (real_close half53 0) eq X X /\
  points_at_most X deg pts Quadrilateral 25 /\ (7 * 0 + 42 + 25 <= 2 ^ 11)%nat /\ (11 * 0 + 50 + 25 <= 2 ^ 11)%nat /\
  positive_externals (Rle 0) X /\ positive_basis (Rle 0) X fs /\
  inside_rules X Quadrilateral /\ exact_to X Quadrilateral (pts Quadrilateral) (0 + 2) /\ flat_screen n X (built_grid id Quadrilateral b) b /\
  let F := fun (a : nat) (x y : R) => match a with 0%nat => (1 - x) * (1 - y) | 1%nat => x * (1 - y) | 2%nat => (1 - x) * y | _ => x * y end in
  let F1 := fun (a : nat) (x y : R) => match a with 0%nat => y - 1 | 1%nat => 1 - y | 2%nat => - y | _ => y end in let F2 := fun (a : nat) (x y : R) => match a with 0%nat => x - 1 | 1%nat => - x | 2%nat => 1 - x | _ => x end in
  element_functions fs Quadrilateral 2 F /\ element_slopes fs Quadrilateral 1 F F1 F2 /\
  (forall t p q r, corner b t 0 p -> corner b t 1 q -> corner b t 2 r -> P t = (screen_position n p, screen_position n q, screen_position n r)) /\
  exists t s i j p q r p' q' r' M M', corner b t 0 p /\ corner b t 1 q /\ corner b t 2 r /\ corner b s 0 p' /\ corner b s 1 q' /\ corner b s 2 r' /\ In i (dofs_at fs t) /\ In j (dofs_at fs s) /\
    (forall z x y, In z (support fs i) -> inside Quadrilateral x y -> Rabs (piece fs F i z x y) <= 1) /\
    (forall z x y, In z (support fs j) -> inside Quadrilateral x y -> Rabs (piece fs F j z x y) <= 1) /\
    0 <= M /\ (forall z x y, In z (support fs i) -> inside Quadrilateral x y -> inner (piece_swirl fs F1 F2 P i z x y) (piece_swirl fs F1 F2 P i z x y) <= M * M) /\
    0 <= M' /\ (forall z x y, In z (support fs j) -> inside Quadrilateral x y -> inner (piece_swirl fs F1 F2 P j z x y) (piece_swirl fs F1 F2 P j z x y) <= M' * M') /\
    let a := dist (centre Quadrilateral (screen_position n p) (screen_position n q) (screen_position n r)) (centre Quadrilateral (screen_position n p') (screen_position n q') (screen_position n r')) in
    let reach := 3 * (sqrt (spread Quadrilateral / 2) / INR (n + 1)) in reach < a.
Proof. exact screen_budget_example. Qed.
