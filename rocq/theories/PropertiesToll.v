(** * C132: computed distant Helmholtz entries and the integrals *)
From Coq Require Import Reals.
From Verif Require Import Base Topology DofMap SpecDof Process Space Options SpecOptions Scalar Integrand CellPair Operators SpecLocal Interleave Assembly AssemblyResults SpecAssembly SpecOrder SpecTransfer SpecScalars SpecAlgebra SpecRounding RoundingModels RoundingExamples SpecShapeSpaces SpecBroken SpecGalerkin SpecMeasure
  Shapes SpecShapes SpecSphere SpecScreen SpecWidth SpecTurns SpecShift SpecToeplitz SpecShare WaveLimits SpecWaves SpecDecay SpecMoments SpecDegree DegreeExamples SpecPieces SpecFluxes SpecSwirls SpecSurges TollResults TollExamples.

Local Open Scope R_scope.
Local Notation dist := SpecWaves.distance.

(** The single layer on the sphere: the real and the imaginary part of an entry computed with [prec] bits
    against the integrals of the two parts of the kernel. *)
Theorem C132_sphere : forall prec, (15 <= prec)%nat -> let u := growth ((/ 2) ^ prec) 5 - 1 in
  forall (X X' : externals R) level id wmod wmod' (G : R -> @green (R * R) R) kappa' e kappa o o' deg pts (b : builder vec) (test trial : fspace R R) (test' trial' rtest rtrial : fspace (R * R) R) relP rt P F F' k d n N,
  regular_sphere real_numbers level 1 = Ok b -> fs_grid test = built_grid id Triangle b -> fs_grid trial = built_grid id Triangle b ->
  dense_setting X' wmod' (laplace_single_layer (newton e)) o' deg pts Triangle test trial -> mapped_space embed_real test test' -> mapped_space embed_real trial trial' ->
  positive_externals (Rle 0) X' -> inside_rules X' Triangle -> exact_to X' Triangle (pts Triangle) (k + d) -> flat_cells X' (built_grid id Triangle b) b ->
  element_functions test Triangle d F -> element_functions trial Triangle d F' -> (forall t p q r, corners_of b t p q r -> P t = (p, q, r)) ->
  standard (fs_family test) -> standard (fs_family trial) -> legal_runtime (s_add (complex_of (floats prec))) rt -> dense_setting X wmod (helmholtz_single_layer G kappa') o deg pts Triangle rtest rtrial ->
  same_dofs rtest test' -> same_dofs rtrial trial' -> related_externals (real_close u n) (nonzero_close u n) (real_close u n) relP X X' ->
  related_kernel (close u cnorm complexes n) X X' (helmholtz_single_layer G kappa') (helmholtz_single_layer (waves e) kappa) deg pts rtest rtrial ->
  related_basis (close u cnorm complexes n) relP (helmholtz_single_layer G kappa') rtest test' -> related_basis (close u cnorm complexes n) relP (helmholtz_single_layer G kappa') rtrial trial' ->
  points_at_most X deg pts Triangle N -> (7 * n + 42 + N <= 2 ^ 11)%nat ->
  exists m A, assemble (complex_of (floats prec)) X rt wmod (helmholtz_single_layer G kappa') o rtrial rtest = Ok m /\
  assemble absolute X' (sequential Rplus) wmod' (absolute_operator cnorm (helmholtz_single_layer (waves e) kappa)) o' (absolute_space cnorm trial') (absolute_space cnorm test') = Ok A /\
  forall t s i j p q r p' q' r' M M' sigma, corners_of b t p q r -> corners_of b s p' q' r' -> In i (dofs_at test t) -> In j (dofs_at trial s) ->
    (forall z x y, In z (support test i) -> inside Triangle x y -> Rabs (piece test F i z x y) <= M) ->
    (forall z x y, In z (support trial j) -> inside Triangle x y -> Rabs (piece trial F' j z x y) <= M') ->
    let reach := 3 * sqrt (32 / (3 * (4 ^ level + 2))) in let a := dist (centre Triangle p q r) (centre Triangle p' q' r') in reach < a -> 0 < sigma < 1 -> reach / a <= sigma ->
    exists v w w' l, nth_error m (i + global_size (fs_space test) * j) = Some v /\ nth_error A (i + global_size (fs_space test) * j) = Some l /\ functions_integral Triangle test trial F F' P P (fun x y => fst (waves e kappa 0 x y)) i j w /\ functions_integral Triangle test trial F F' P P (fun x y => snd (waves e kappa 0 x y)) i j w' /\
      let bound := 2 * (sigma ^ (k + 1) / (1 - reach / a)) * exp (Rabs kappa * (a + reach) / sigma) * (M * support_area test Triangle P i * (M' * support_area trial Triangle P j) / (4 * PI * a)) in
      Rabs (fst v - w) <= (/ 2) ^ (prec - 15) * l + bound /\ Rabs (snd v - w') <= (/ 2) ^ (prec - 15) * l + bound.
Proof. exact sphere_toll. Qed.
Print Assumptions C132_sphere.

(** The single layer on screens. *)
Theorem C132_screens : forall prec, (15 <= prec)%nat -> let u := growth ((/ 2) ^ prec) 5 - 1 in
  forall (X X' : externals R) h id wmod wmod' ct (G : R -> @green (R * R) R) kappa' e kappa o o' deg pts (b : builder (nat * nat)) (test trial : fspace R R) (test' trial' rtest rtrial : fspace (R * R) R) relP rt P F F' k d n N,
  screen h ct b -> fs_grid test = built_grid id ct b -> fs_grid trial = built_grid id ct b ->
  dense_setting X' wmod' (laplace_single_layer (newton e)) o' deg pts ct test trial -> mapped_space embed_real test test' -> mapped_space embed_real trial trial' ->
  positive_externals (Rle 0) X' -> inside_rules X' ct -> exact_to X' ct (pts ct) (k + d) -> flat_screen h X' (built_grid id ct b) b ->
  element_functions test ct d F -> element_functions trial ct d F' ->
  (forall t p q r, corner b t 0 p -> corner b t 1 q -> corner b t 2 r -> P t = (screen_position h p, screen_position h q, screen_position h r)) ->
  standard (fs_family test) -> standard (fs_family trial) -> legal_runtime (s_add (complex_of (floats prec))) rt -> dense_setting X wmod (helmholtz_single_layer G kappa') o deg pts ct rtest rtrial ->
  same_dofs rtest test' -> same_dofs rtrial trial' -> related_externals (real_close u n) (nonzero_close u n) (real_close u n) relP X X' ->
  related_kernel (close u cnorm complexes n) X X' (helmholtz_single_layer G kappa') (helmholtz_single_layer (waves e) kappa) deg pts rtest rtrial ->
  related_basis (close u cnorm complexes n) relP (helmholtz_single_layer G kappa') rtest test' -> related_basis (close u cnorm complexes n) relP (helmholtz_single_layer G kappa') rtrial trial' ->
  points_at_most X deg pts ct N -> (7 * n + 42 + N <= 2 ^ 11)%nat ->
  exists m A, assemble (complex_of (floats prec)) X rt wmod (helmholtz_single_layer G kappa') o rtrial rtest = Ok m /\
  assemble absolute X' (sequential Rplus) wmod' (absolute_operator cnorm (helmholtz_single_layer (waves e) kappa)) o' (absolute_space cnorm trial') (absolute_space cnorm test') = Ok A /\
  forall t s i j p q r p' q' r' M M' sigma, corner b t 0 p -> corner b t 1 q -> corner b t 2 r -> corner b s 0 p' -> corner b s 1 q' -> corner b s 2 r' -> In i (dofs_at test t) -> In j (dofs_at trial s) ->
    (forall z x y, In z (support test i) -> inside ct x y -> Rabs (piece test F i z x y) <= M) ->
    (forall z x y, In z (support trial j) -> inside ct x y -> Rabs (piece trial F' j z x y) <= M') ->
    let a := dist (centre ct (screen_position h p) (screen_position h q) (screen_position h r)) (centre ct (screen_position h p') (screen_position h q') (screen_position h r')) in
    let reach := 3 * (sqrt (spread ct / 2) / INR (h + 1)) in reach < a -> 0 < sigma < 1 -> reach / a <= sigma ->
    exists v w w' l, nth_error m (i + global_size (fs_space test) * j) = Some v /\ nth_error A (i + global_size (fs_space test) * j) = Some l /\ functions_integral ct test trial F F' P P (fun x y => fst (waves e kappa 0 x y)) i j w /\ functions_integral ct test trial F F' P P (fun x y => snd (waves e kappa 0 x y)) i j w' /\
      let bound := 2 * (sigma ^ (k + 1) / (1 - reach / a)) * exp (Rabs kappa * (a + reach) / sigma) * (M * support_area test ct P i * (M' * support_area trial ct P j) / (4 * PI * a)) in
      Rabs (fst v - w) <= (/ 2) ^ (prec - 15) * l + bound /\ Rabs (snd v - w') <= (/ 2) ^ (prec - 15) * l + bound.
Proof. exact screen_toll. Qed.
Print Assumptions C132_screens.

(** The double layer on the sphere. *)
Theorem C132_double : forall prec, (15 <= prec)%nat -> let u := growth ((/ 2) ^ prec) 5 - 1 in
  forall (X X' : externals R) level id wmod wmod' (G : R -> @green (R * R) R) kappa' e kappa o o' deg pts (b : builder vec) (test trial : fspace R R) (test' trial' rtest rtrial : fspace (R * R) R) relP rt P F F' k d n N,
  regular_sphere real_numbers level 1 = Ok b -> fs_grid test = built_grid id Triangle b -> fs_grid trial = built_grid id Triangle b ->
  dense_setting X' wmod' (laplace_double_layer (newton e)) o' deg pts Triangle test trial -> mapped_space embed_real test test' -> mapped_space embed_real trial trial' ->
  positive_externals (Rle 0) X' -> inside_rules X' Triangle -> exact_to X' Triangle (pts Triangle) (k + d + 1) -> flat_cells X' (built_grid id Triangle b) b ->
  element_functions test Triangle d F -> element_functions trial Triangle d F' -> (forall t p q r, corners_of b t p q r -> P t = (p, q, r)) ->
  standard (fs_family test) -> standard (fs_family trial) -> legal_runtime (s_add (complex_of (floats prec))) rt -> dense_setting X wmod (helmholtz_double_layer G kappa') o deg pts Triangle rtest rtrial ->
  same_dofs rtest test' -> same_dofs rtrial trial' -> related_externals (real_close u n) (nonzero_close u n) (real_close u n) relP X X' ->
  related_kernel (close u cnorm complexes n) X X' (helmholtz_double_layer G kappa') (helmholtz_double_layer (waves e) kappa) deg pts rtest rtrial ->
  related_basis (close u cnorm complexes n) relP (helmholtz_double_layer G kappa') rtest test' -> related_basis (close u cnorm complexes n) relP (helmholtz_double_layer G kappa') rtrial trial' ->
  points_at_most X deg pts Triangle N -> (8 * n + 45 + N <= 2 ^ 11)%nat ->
  exists m A, assemble (complex_of (floats prec)) X rt wmod (helmholtz_double_layer G kappa') o rtrial rtest = Ok m /\
  assemble absolute X' (sequential Rplus) wmod' (absolute_operator cnorm (helmholtz_double_layer (waves e) kappa)) o' (absolute_space cnorm trial') (absolute_space cnorm test') = Ok A /\
  forall t s i j p q r p' q' r' M M' sigma, corners_of b t p q r -> corners_of b s p' q' r' -> In i (dofs_at test t) -> In j (dofs_at trial s) ->
    (forall z x y, In z (support test i) -> inside Triangle x y -> Rabs (piece test F i z x y) <= M) ->
    (forall z x y, In z (support trial j) -> inside Triangle x y -> Rabs (piece trial F' j z x y) <= M') ->
    let reach := 3 * sqrt (32 / (3 * (4 ^ level + 2))) in let a := dist (centre Triangle p q r) (centre Triangle p' q' r') in reach < a -> 0 < sigma < 1 -> reach / a <= sigma * sigma ->
    exists v w w' l, nth_error m (i + global_size (fs_space test) * j) = Some v /\ nth_error A (i + global_size (fs_space test) * j) = Some l /\ double_integral Triangle test trial F F' P P (fun n x y => fst (waves e kappa n x y)) i j w /\ double_integral Triangle test trial F F' P P (fun n x y => snd (waves e kappa n x y)) i j w' /\
      let bound := 6 * (1 + reach / a) * sigma ^ (k + 1) / ((1 - sigma) ^ 3) * exp (2 * (Rabs kappa * (a + reach) / sigma)) * (Rabs e * (M * support_area test Triangle P i * (M' * support_area trial Triangle P j)) / (4 * PI * (a * a))) in
      Rabs (fst v - w) <= (/ 2) ^ (prec - 15) * l + bound /\ Rabs (snd v - w') <= (/ 2) ^ (prec - 15) * l + bound.
Proof. exact sphere_toll_double. Qed.
Print Assumptions C132_double.

(** The adjoint double layer. *)
Theorem C132_adjoint : forall prec, (15 <= prec)%nat -> let u := growth ((/ 2) ^ prec) 5 - 1 in
  forall (X X' : externals R) level id wmod wmod' (G : R -> @green (R * R) R) kappa' e kappa o o' deg pts (b : builder vec) (test trial : fspace R R) (test' trial' rtest rtrial : fspace (R * R) R) relP rt P F F' k d n N,
  regular_sphere real_numbers level 1 = Ok b -> fs_grid test = built_grid id Triangle b -> fs_grid trial = built_grid id Triangle b ->
  dense_setting X' wmod' (laplace_adjoint_double_layer (newton e)) o' deg pts Triangle test trial -> mapped_space embed_real test test' -> mapped_space embed_real trial trial' ->
  positive_externals (Rle 0) X' -> inside_rules X' Triangle -> exact_to X' Triangle (pts Triangle) (k + d + 1) -> flat_cells X' (built_grid id Triangle b) b ->
  element_functions test Triangle d F -> element_functions trial Triangle d F' -> (forall t p q r, corners_of b t p q r -> P t = (p, q, r)) ->
  standard (fs_family test) -> standard (fs_family trial) -> legal_runtime (s_add (complex_of (floats prec))) rt -> dense_setting X wmod (helmholtz_adjoint_double_layer G kappa') o deg pts Triangle rtest rtrial ->
  same_dofs rtest test' -> same_dofs rtrial trial' -> related_externals (real_close u n) (nonzero_close u n) (real_close u n) relP X X' ->
  related_kernel (close u cnorm complexes n) X X' (helmholtz_adjoint_double_layer G kappa') (helmholtz_adjoint_double_layer (waves e) kappa) deg pts rtest rtrial ->
  related_basis (close u cnorm complexes n) relP (helmholtz_adjoint_double_layer G kappa') rtest test' -> related_basis (close u cnorm complexes n) relP (helmholtz_adjoint_double_layer G kappa') rtrial trial' ->
  points_at_most X deg pts Triangle N -> (8 * n + 45 + N <= 2 ^ 11)%nat ->
  exists m A, assemble (complex_of (floats prec)) X rt wmod (helmholtz_adjoint_double_layer G kappa') o rtrial rtest = Ok m /\
  assemble absolute X' (sequential Rplus) wmod' (absolute_operator cnorm (helmholtz_adjoint_double_layer (waves e) kappa)) o' (absolute_space cnorm trial') (absolute_space cnorm test') = Ok A /\
  forall t s i j p q r p' q' r' M M' sigma, corners_of b t p q r -> corners_of b s p' q' r' -> In i (dofs_at test t) -> In j (dofs_at trial s) ->
    (forall z x y, In z (support test i) -> inside Triangle x y -> Rabs (piece test F i z x y) <= M) ->
    (forall z x y, In z (support trial j) -> inside Triangle x y -> Rabs (piece trial F' j z x y) <= M') ->
    let reach := 3 * sqrt (32 / (3 * (4 ^ level + 2))) in let a := dist (centre Triangle p q r) (centre Triangle p' q' r') in reach < a -> 0 < sigma < 1 -> reach / a <= sigma * sigma ->
    exists v w w' l, nth_error m (i + global_size (fs_space test) * j) = Some v /\ nth_error A (i + global_size (fs_space test) * j) = Some l /\ adjoint_integral Triangle test trial F F' P P (fun n x y => fst (waves e kappa n x y)) i j w /\ adjoint_integral Triangle test trial F F' P P (fun n x y => snd (waves e kappa n x y)) i j w' /\
      let bound := 6 * (1 + reach / a) * sigma ^ (k + 1) / ((1 - sigma) ^ 3) * exp (2 * (Rabs kappa * (a + reach) / sigma)) * (Rabs e * (M * support_area test Triangle P i * (M' * support_area trial Triangle P j)) / (4 * PI * (a * a))) in
      Rabs (fst v - w) <= (/ 2) ^ (prec - 15) * l + bound /\ Rabs (snd v - w') <= (/ 2) ^ (prec - 15) * l + bound.
Proof. exact sphere_toll_adjoint. Qed.
Print Assumptions C132_adjoint.

(** The hypersingular operator on the sphere *)
Theorem C132_hypersingular : forall prec, (15 <= prec)%nat -> let u := growth ((/ 2) ^ prec) 5 - 1 in
  forall (X X' : externals R) level id wmod wmod' (G : R -> @green (R * R) R) kappa' e kappa o o' deg pts (b : builder vec) (test trial : fspace R R) (test' trial' rtest rtrial : fspace (R * R) R) relP rt P F F1 F2 F' F1' F2' k d n N,
  regular_sphere real_numbers level 1 = Ok b -> fs_grid test = built_grid id Triangle b -> fs_grid trial = built_grid id Triangle b ->
  dense_setting X' wmod' (laplace_hypersingular (newton e)) o' deg pts Triangle test trial -> mapped_space embed_real test test' -> mapped_space embed_real trial trial' ->
  positive_externals (Rle 0) X' -> inside_rules X' Triangle -> exact_to X' Triangle (pts Triangle) (k + d) -> flat_cells X' (built_grid id Triangle b) b ->
  element_slopes test Triangle d F F1 F2 -> element_slopes trial Triangle d F' F1' F2' -> element_functions test Triangle d F -> element_functions trial Triangle d F' -> (forall t p q r, corners_of b t p q r -> P t = (p, q, r)) ->
  standard (fs_family test) -> standard (fs_family trial) -> legal_runtime (s_add (complex_of (floats prec))) rt -> dense_setting X wmod (helmholtz_hypersingular (complex_of (floats prec)) G kappa') o deg pts Triangle rtest rtrial ->
  same_dofs rtest test' -> same_dofs rtrial trial' -> related_externals (real_close u n) (nonzero_close u n) (real_close u n) relP X X' ->
  related_kernel (close u cnorm complexes n) X X' (helmholtz_hypersingular (complex_of (floats prec)) G kappa') (helmholtz_hypersingular complexes (waves e) kappa) deg pts rtest rtrial ->
  related_basis (close u cnorm complexes n) relP (helmholtz_hypersingular (complex_of (floats prec)) G kappa') rtest test' -> related_basis (close u cnorm complexes n) relP (helmholtz_hypersingular (complex_of (floats prec)) G kappa') rtrial trial' ->
  related_form (close u cnorm complexes n) (op_integrand (helmholtz_hypersingular (complex_of (floats prec)) G kappa')) (op_integrand (helmholtz_hypersingular complexes (waves e) kappa)) ->
  points_at_most X deg pts Triangle N -> (11 * n + 51 + N <= 2 ^ 11)%nat ->
  exists m A, assemble (complex_of (floats prec)) X rt wmod (helmholtz_hypersingular (complex_of (floats prec)) G kappa') o rtrial rtest = Ok m /\
  assemble absolute X' (sequential Rplus) wmod' (absolute_operator cnorm (helmholtz_hypersingular complexes (waves e) kappa)) o' (absolute_space cnorm trial') (absolute_space cnorm test') = Ok A /\
  forall t s i j p q r p' q' r' M M' B B' sigma, corners_of b t p q r -> corners_of b s p' q' r' -> In i (dofs_at test t) -> In j (dofs_at trial s) ->
    0 <= M -> (forall z x y, In z (support test i) -> inside Triangle x y -> inner (piece_swirl test F1 F2 P i z x y) (piece_swirl test F1 F2 P i z x y) <= M * M) ->
    0 <= M' -> (forall z x y, In z (support trial j) -> inside Triangle x y -> inner (piece_swirl trial F1' F2' P j z x y) (piece_swirl trial F1' F2' P j z x y) <= M' * M') ->
    (forall z x y, In z (support test i) -> inside Triangle x y -> Rabs (piece test F i z x y) <= B) -> (forall z x y, In z (support trial j) -> inside Triangle x y -> Rabs (piece trial F' j z x y) <= B') ->
    let reach := 3 * sqrt (32 / (3 * (4 ^ level + 2))) in let a := dist (centre Triangle p q r) (centre Triangle p' q' r') in reach < a -> 0 < sigma < 1 -> reach / a <= sigma ->
    exists v w w' l, nth_error m (i + global_size (fs_space test) * j) = Some v /\ nth_error A (i + global_size (fs_space test) * j) = Some l /\ surges_integral Triangle test trial F F1 F2 F' F1' F2' P P kappa (fun x y => fst (waves e kappa 0 x y)) i j w /\ surges_integral Triangle test trial F F1 F2 F' F1' F2' P P kappa (fun x y => snd (waves e kappa 0 x y)) i j w' /\
      let bound := 2 * (sigma ^ (k + 1) / (1 - reach / a)) * exp (Rabs kappa * (a + reach) / sigma) * ((M * M' + kappa * kappa * (B * B')) * (support_area test Triangle P i * support_area trial Triangle P j) / (4 * PI * a)) in
      Rabs (fst v - w) <= (/ 2) ^ (prec - 15) * l + bound /\ Rabs (snd v - w') <= (/ 2) ^ (prec - 15) * l + bound.
Proof. exact sphere_toll_hypersingular. Qed.
Print Assumptions C132_hypersingular.

(** and on screens. *)
Theorem C132_screens_hypersingular : forall prec, (15 <= prec)%nat -> let u := growth ((/ 2) ^ prec) 5 - 1 in
  forall (X X' : externals R) h id wmod wmod' ct (G : R -> @green (R * R) R) kappa' e kappa o o' deg pts (b : builder (nat * nat)) (test trial : fspace R R) (test' trial' rtest rtrial : fspace (R * R) R) relP rt P F F1 F2 F' F1' F2' k d n N,
  screen h ct b -> fs_grid test = built_grid id ct b -> fs_grid trial = built_grid id ct b ->
  dense_setting X' wmod' (laplace_hypersingular (newton e)) o' deg pts ct test trial -> mapped_space embed_real test test' -> mapped_space embed_real trial trial' ->
  positive_externals (Rle 0) X' -> inside_rules X' ct -> exact_to X' ct (pts ct) (k + d) -> flat_screen h X' (built_grid id ct b) b ->
  element_slopes test ct d F F1 F2 -> element_slopes trial ct d F' F1' F2' -> element_functions test ct d F -> element_functions trial ct d F' ->
  (forall t p q r, corner b t 0 p -> corner b t 1 q -> corner b t 2 r -> P t = (screen_position h p, screen_position h q, screen_position h r)) ->
  standard (fs_family test) -> standard (fs_family trial) -> legal_runtime (s_add (complex_of (floats prec))) rt -> dense_setting X wmod (helmholtz_hypersingular (complex_of (floats prec)) G kappa') o deg pts ct rtest rtrial ->
  same_dofs rtest test' -> same_dofs rtrial trial' -> related_externals (real_close u n) (nonzero_close u n) (real_close u n) relP X X' ->
  related_kernel (close u cnorm complexes n) X X' (helmholtz_hypersingular (complex_of (floats prec)) G kappa') (helmholtz_hypersingular complexes (waves e) kappa) deg pts rtest rtrial ->
  related_basis (close u cnorm complexes n) relP (helmholtz_hypersingular (complex_of (floats prec)) G kappa') rtest test' -> related_basis (close u cnorm complexes n) relP (helmholtz_hypersingular (complex_of (floats prec)) G kappa') rtrial trial' ->
  related_form (close u cnorm complexes n) (op_integrand (helmholtz_hypersingular (complex_of (floats prec)) G kappa')) (op_integrand (helmholtz_hypersingular complexes (waves e) kappa)) ->
  points_at_most X deg pts ct N -> (11 * n + 51 + N <= 2 ^ 11)%nat ->
  exists m A, assemble (complex_of (floats prec)) X rt wmod (helmholtz_hypersingular (complex_of (floats prec)) G kappa') o rtrial rtest = Ok m /\
  assemble absolute X' (sequential Rplus) wmod' (absolute_operator cnorm (helmholtz_hypersingular complexes (waves e) kappa)) o' (absolute_space cnorm trial') (absolute_space cnorm test') = Ok A /\
  forall t s i j p q r p' q' r' M M' B B' sigma, corner b t 0 p -> corner b t 1 q -> corner b t 2 r -> corner b s 0 p' -> corner b s 1 q' -> corner b s 2 r' -> In i (dofs_at test t) -> In j (dofs_at trial s) ->
    0 <= M -> (forall z x y, In z (support test i) -> inside ct x y -> inner (piece_swirl test F1 F2 P i z x y) (piece_swirl test F1 F2 P i z x y) <= M * M) ->
    0 <= M' -> (forall z x y, In z (support trial j) -> inside ct x y -> inner (piece_swirl trial F1' F2' P j z x y) (piece_swirl trial F1' F2' P j z x y) <= M' * M') ->
    (forall z x y, In z (support test i) -> inside ct x y -> Rabs (piece test F i z x y) <= B) -> (forall z x y, In z (support trial j) -> inside ct x y -> Rabs (piece trial F' j z x y) <= B') ->
    let a := dist (centre ct (screen_position h p) (screen_position h q) (screen_position h r)) (centre ct (screen_position h p') (screen_position h q') (screen_position h r')) in
    let reach := 3 * (sqrt (spread ct / 2) / INR (h + 1)) in reach < a -> 0 < sigma < 1 -> reach / a <= sigma ->
    exists v w w' l, nth_error m (i + global_size (fs_space test) * j) = Some v /\ nth_error A (i + global_size (fs_space test) * j) = Some l /\ surges_integral ct test trial F F1 F2 F' F1' F2' P P kappa (fun x y => fst (waves e kappa 0 x y)) i j w /\ surges_integral ct test trial F F1 F2 F' F1' F2' P P kappa (fun x y => snd (waves e kappa 0 x y)) i j w' /\
      let bound := 2 * (sigma ^ (k + 1) / (1 - reach / a)) * exp (Rabs kappa * (a + reach) / sigma) * ((M * M' + kappa * kappa * (B * B')) * (support_area test ct P i * support_area trial ct P j) / (4 * PI * a)) in
      Rabs (fst v - w) <= (/ 2) ^ (prec - 15) * l + bound /\ Rabs (snd v - w') <= (/ 2) ^ (prec - 15) * l + bound.
Proof. exact screen_toll_hypersingular. Qed.
Print Assumptions C132_screens_hypersingular.

(** Continuous linear functions on opposite triangles of the sphere *)
Example C132_sphere_example : forall prec kappa level id e, (3 <= level)%nat -> (15 <= prec)%nat -> exists (b : builder vec) X (fs : fspace R R) (fs' : fspace (R * R) R) P wmod deg pts,
  regular_sphere real_numbers level 1 = Ok b /\ fs_grid fs = built_grid id Triangle b /\ standard (fs_family fs) /\ fs_family fs = lagrange 1 /\
  (forall O, O = laplace_single_layer (newton e) \/ O = laplace_double_layer (newton e) \/ O = laplace_adjoint_double_layer (newton e) \/ O = laplace_hypersingular (newton e) -> dense_setting X wmod O (after [SetBatch 3; SetRegular Triangle (few Triangle)]) deg pts Triangle fs fs) /\ mapped_space embed_real fs fs' /\
  let u := growth ((/ 2) ^ prec) 5 - 1 in
  (forall O O' : operator (R * R) R, (O = helmholtz_single_layer (waves e) kappa /\ O' = helmholtz_single_layer (waves e) kappa) \/ (O = helmholtz_double_layer (waves e) kappa /\ O' = helmholtz_double_layer (waves e) kappa) \/ (O = helmholtz_adjoint_double_layer (waves e) kappa /\ O' = helmholtz_adjoint_double_layer (waves e) kappa) \/ (O = helmholtz_hypersingular (complex_of (floats prec)) (waves e) kappa /\ O' = helmholtz_hypersingular complexes (waves e) kappa) ->
    dense_setting X wmod O (after [SetBatch 3; SetRegular Triangle (few Triangle)]) deg pts Triangle fs' fs' /\ related_kernel (close u cnorm complexes 1) X X O O' deg pts fs' fs' /\
    related_basis (close u cnorm complexes 1) eq O fs' fs' /\ related_form (close u cnorm complexes 1) (op_integrand O) (op_integrand O')) /\
  same_dofs fs' fs' /\ related_externals (real_close u 1) (nonzero_close u 1) (real_close u 1) eq X X /\
  points_at_most X deg pts Triangle 9 /\ (7 * 1 + 42 + 9 <= 2 ^ 11)%nat /\ (8 * 1 + 45 + 9 <= 2 ^ 11)%nat /\ (11 * 1 + 51 + 9 <= 2 ^ 11)%nat /\
  positive_externals (Rle 0) X /\
  inside_rules X Triangle /\ exact_to X Triangle (pts Triangle) (1 + 1) /\ flat_cells X (built_grid id Triangle b) b /\
  let F := fun (a : nat) (x y : R) => match a with 0%nat => 1 - x - y | 1%nat => x | _ => y end in
  let F1 := fun (a : nat) (x y : R) => match a with 0%nat => -1 | 1%nat => 1 | _ => 0 end in let F2 := fun (a : nat) (x y : R) => match a with 0%nat => -1 | 1%nat => 0 | _ => 1 end in
  element_functions fs Triangle 1 F /\ element_slopes fs Triangle 1 F F1 F2 /\ (forall t p q r, corners_of b t p q r -> P t = (p, q, r)) /\
  exists t s i j p q r p' q' r' sigma M M', corners_of b t p q r /\ corners_of b s p' q' r' /\ In i (dofs_at fs t) /\ In j (dofs_at fs s) /\
    (forall z x y, In z (support fs i) -> inside Triangle x y -> Rabs (piece fs F i z x y) <= 1) /\
    (forall z x y, In z (support fs j) -> inside Triangle x y -> Rabs (piece fs F j z x y) <= 1) /\
    0 <= M /\ (forall z x y, In z (support fs i) -> inside Triangle x y -> inner (piece_swirl fs F1 F2 P i z x y) (piece_swirl fs F1 F2 P i z x y) <= M * M) /\
    0 <= M' /\ (forall z x y, In z (support fs j) -> inside Triangle x y -> inner (piece_swirl fs F1 F2 P j z x y) (piece_swirl fs F1 F2 P j z x y) <= M' * M') /\
    let reach := 3 * sqrt (32 / (3 * (4 ^ level + 2))) in let a := dist (centre Triangle p q r) (centre Triangle p' q' r') in reach < a /\ 0 < sigma < 1 /\ reach / a <= sigma * sigma.
Proof. exact sphere_toll_example. Qed.

(** and continuous bilinear functions on opposite corners of a screen. *)
Example C132_screen_example : forall prec kappa n id e, (6 <= n)%nat -> (15 <= prec)%nat -> exists (b : builder (nat * nat)) X (fs : fspace R R) (fs' : fspace (R * R) R) P wmod deg pts,
  screen n Quadrilateral b /\ fs_grid fs = built_grid id Quadrilateral b /\ standard (fs_family fs) /\ fs_family fs = lagrange 1 /\
  (forall O, O = laplace_single_layer (newton e) \/ O = laplace_hypersingular (newton e) -> dense_setting X wmod O (after [SetBatch 3; SetRegular Quadrilateral (few Quadrilateral)]) deg pts Quadrilateral fs fs) /\ mapped_space embed_real fs fs' /\
  let u := growth ((/ 2) ^ prec) 5 - 1 in
  (forall O O' : operator (R * R) R, (O = helmholtz_single_layer (waves e) kappa /\ O' = helmholtz_single_layer (waves e) kappa) \/ (O = helmholtz_hypersingular (complex_of (floats prec)) (waves e) kappa /\ O' = helmholtz_hypersingular complexes (waves e) kappa) ->
    dense_setting X wmod O (after [SetBatch 3; SetRegular Quadrilateral (few Quadrilateral)]) deg pts Quadrilateral fs' fs' /\ related_kernel (close u cnorm complexes 1) X X O O' deg pts fs' fs' /\
    related_basis (close u cnorm complexes 1) eq O fs' fs' /\ related_form (close u cnorm complexes 1) (op_integrand O) (op_integrand O')) /\
  same_dofs fs' fs' /\ related_externals (real_close u 1) (nonzero_close u 1) (real_close u 1) eq X X /\
  points_at_most X deg pts Quadrilateral 25 /\ (7 * 1 + 42 + 25 <= 2 ^ 11)%nat /\ (11 * 1 + 51 + 25 <= 2 ^ 11)%nat /\
  positive_externals (Rle 0) X /\
  inside_rules X Quadrilateral /\ exact_to X Quadrilateral (pts Quadrilateral) (0 + 2) /\ flat_screen n X (built_grid id Quadrilateral b) b /\
  let F := fun (a : nat) (x y : R) => match a with 0%nat => (1 - x) * (1 - y) | 1%nat => x * (1 - y) | 2%nat => (1 - x) * y | _ => x * y end in
  let F1 := fun (a : nat) (x y : R) => match a with 0%nat => y - 1 | 1%nat => 1 - y | 2%nat => - y | _ => y end in let F2 := fun (a : nat) (x y : R) => match a with 0%nat => x - 1 | 1%nat => - x | 2%nat => 1 - x | _ => x end in
  element_functions fs Quadrilateral 2 F /\ element_slopes fs Quadrilateral 2 F F1 F2 /\
  (forall t p q r, corner b t 0 p -> corner b t 1 q -> corner b t 2 r -> P t = (screen_position n p, screen_position n q, screen_position n r)) /\
  exists t s i j p q r p' q' r' sigma M M', corner b t 0 p /\ corner b t 1 q /\ corner b t 2 r /\ corner b s 0 p' /\ corner b s 1 q' /\ corner b s 2 r' /\ In i (dofs_at fs t) /\ In j (dofs_at fs s) /\
    (forall z x y, In z (support fs i) -> inside Quadrilateral x y -> Rabs (piece fs F i z x y) <= 1) /\
    (forall z x y, In z (support fs j) -> inside Quadrilateral x y -> Rabs (piece fs F j z x y) <= 1) /\
    0 <= M /\ (forall z x y, In z (support fs i) -> inside Quadrilateral x y -> inner (piece_swirl fs F1 F2 P i z x y) (piece_swirl fs F1 F2 P i z x y) <= M * M) /\
    0 <= M' /\ (forall z x y, In z (support fs j) -> inside Quadrilateral x y -> inner (piece_swirl fs F1 F2 P j z x y) (piece_swirl fs F1 F2 P j z x y) <= M' * M') /\
    let a := dist (centre Quadrilateral (screen_position n p) (screen_position n q) (screen_position n r)) (centre Quadrilateral (screen_position n p') (screen_position n q') (screen_position n r')) in
    let reach := 3 * (sqrt (spread Quadrilateral / 2) / INR (n + 1)) in reach < a /\ 0 < sigma < 1 /\ reach / a <= sigma.
Proof. exact screen_toll_example. Qed.
