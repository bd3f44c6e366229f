(** * Property C117: the sphere is convex *)
From Coq Require Import SpecFloat Reals.
From Verif Require Import Base Topology DofMap SpecDof Space Options SpecOptions Scalar Integrand CellPair Operators SpecLocal SpecOperators Interleave Assembly SpecAssembly AssemblyResults AssemblySingular SpecTransfer SpecDigits
  SpecRounding SpecShapeSpaces Shapes SpecShapes SpecSphere SpecWidth SpecTurns SpecWaves SpecDecay SpecPlanes SpecConvex ConvexSigns ConvexFloats ConvexResults ConvexExamples.

Local Open Scope R_scope.

(** C117: all angles of the triangles of the sphere are less than right angles. *)
Theorem C117_acute : forall level (b : builder vec), regular_sphere real_numbers level 1 = Ok b ->
  forall k p q r, corners_of b k p q r -> acute p q r.
Proof. exact sphere_acute. Qed.
Print Assumptions C117_acute.

(** All points of the grid other than the corners of a cell are strictly below its plane. *)
Theorem C117_convex : forall level (b : builder vec), regular_sphere real_numbers level 1 = Ok b ->
  forall k p q r, corners_of b k p q r -> forall x, In x (points_of b) -> (x = p \/ x = q \/ x = r) /\ above_plane p q r x = 0 \/ above_plane p q r x < 0.
Proof. exact sphere_convex. Qed.
Print Assumptions C117_convex.

(** So is the surface: no point of it is above the plane of a cell, the inner points of
    other cells are strictly below. *)
Theorem C117_surface : forall level (b : builder vec), regular_sphere real_numbers level 1 = Ok b ->
  forall k p q r k' p' q' r' s t o, corners_of b k p q r -> corners_of b k' p' q' r' -> weights s t o ->
  above_plane p q r (point_of p' q' r' s t o) <= 0 /\
  (k = k' -> above_plane p q r (point_of p' q' r' s t o) = 0) /\
  (k <> k' -> inner_weights s t o -> above_plane p q r (point_of p' q' r' s t o) < 0).
Proof. exact sphere_below. Qed.
Print Assumptions C117_surface.

(** In any arithmetic with signs: if the derivative of the kernel in the direction of the
    normal has a sign at all points that are used, so has the entry. *)
Theorem C117_entries : forall (T R : Type) (S : scalar T R) (neg below pos above : T -> Prop), signs S neg below pos above ->
  forall (X : externals R) kd (G : @green T R), kd = Double \/ kd = Adjoint -> forall deg pts (test trial : fspace T R), proper_rules X -> forall wmod o ct rt,
  legal_runtime (s_add S) rt -> dense_setting X wmod (laplace_operator kd G) o deg pts ct test trial -> data_in S pos X test trial ->
  exists m, assemble S X rt wmod (laplace_operator kd G) o trial test = Ok m /\
  length m = (global_size (fs_space test) * global_size (fs_space trial))%nat /\
  forall i j, (i < global_size (fs_space test))%nat -> (j < global_size (fs_space trial))%nat ->
    (forall t s, carried test i t -> carried trial j s -> derivative_in S neg X kd G deg pts test trial t s) ->
    exists v, nth_error m (i + global_size (fs_space test) * j) = Some v /\ neg v /\
      (some_points X -> data_in S above X test trial ->
       (exists t s, carried test i t /\ carried trial j s /\ derivative_in S below X kd G deg pts test trial t s) -> below v).
Proof. exact (@signed_entries). Qed.
Print Assumptions C117_entries.

(** Floating point numbers that are not greater than zero. *)
Theorem C117_binary : forall prec emax limit, signs (binary prec emax limit) not_above (fun _ => False) not_below (fun _ => False).
Proof. exact binary_signs. Qed.
Print Assumptions C117_binary.

Theorem C117_real : signs reals (fun v => v <= 0) (fun v => v < 0) (Rle 0) (Rlt 0).
Proof. exact real_signs. Qed.
Print Assumptions C117_real.

(** On the sphere no entry of the double layer matrices is positive. *)
Theorem C117_sphere : forall (X : externals R) level id wmod kd, kd = Double \/ kd = Adjoint -> forall G : @green R R, repelling G ->
  forall o deg pts (b : builder vec) (test trial : fspace R R), regular_sphere real_numbers level 1 = Ok b ->
  fs_grid test = built_grid id Triangle b -> fs_grid trial = built_grid id Triangle b ->
  dense_setting X wmod (laplace_operator kd G) o deg pts Triangle test trial ->
  flat_cells X (built_grid id Triangle b) b -> inside_rules X Triangle -> weights_in (Rle 0) X -> positive_basis (Rle 0) X test -> positive_basis (Rle 0) X trial ->
  forall rt, legal_runtime Rplus rt ->
  exists m, assemble reals X rt wmod (laplace_operator kd G) o trial test = Ok m /\ Forall (fun v => v <= 0) m.
Proof. exact sphere_negative. Qed.
Print Assumptions C117_sphere.

(** With rules that have inner points and positive weights, entries of functions that are
    not on the same single cell are negative. *)
Theorem C117_strict : forall (X : externals R) level id wmod kd, kd = Double \/ kd = Adjoint -> forall G : @green R R, repelling G ->
  forall o deg pts (b : builder vec) (test trial : fspace R R), regular_sphere real_numbers level 1 = Ok b ->
  fs_grid test = built_grid id Triangle b -> fs_grid trial = built_grid id Triangle b ->
  dense_setting X wmod (laplace_operator kd G) o deg pts Triangle test trial ->
  flat_cells X (built_grid id Triangle b) b -> inside_rules X Triangle -> weights_in (Rle 0) X -> positive_basis (Rle 0) X test -> positive_basis (Rle 0) X trial ->
  forall rt, legal_runtime Rplus rt -> inner_rules X -> some_points X -> weights_in (Rlt 0) X -> positive_basis (Rlt 0) X test -> positive_basis (Rlt 0) X trial ->
  exists m, assemble reals X rt wmod (laplace_operator kd G) o trial test = Ok m /\
  forall i j t s, carried test i t -> carried trial j s -> t <> s -> exists v, nth_error m (i + global_size (fs_space test) * j) = Some v /\ v < 0.
Proof. exact sphere_strict. Qed.
Print Assumptions C117_strict.

(** The values of the singular part. *)
Theorem C117_singular : forall (X : externals R) level id wmod kd, kd = Double \/ kd = Adjoint -> forall G : @green R R, repelling G ->
  forall o deg pts (b : builder vec) (test trial : fspace R R), regular_sphere real_numbers level 1 = Ok b ->
  fs_grid test = built_grid id Triangle b -> fs_grid trial = built_grid id Triangle b ->
  dense_setting X wmod (laplace_operator kd G) o deg pts Triangle test trial ->
  flat_cells X (built_grid id Triangle b) b -> inside_rules X Triangle -> weights_in (Rle 0) X -> positive_basis (Rle 0) X test -> positive_basis (Rle 0) X trial ->
  forall rt, legal_runtime Rplus rt ->
  exists m, assemble_singular_part reals X rt wmod (laplace_operator kd G) o (shape_of test trial) trial test = Ok m /\ Forall (fun v => v <= 0) (sm_data m).
Proof. exact sphere_singular_negative. Qed.
Print Assumptions C117_singular.

(** The hypotheses hold for the Laplace kernel, every level and every standard family. *)
Example C117_example : forall level id tf, standard tf -> exists b X (test : fspace R R) deg pts wmod,
  regular_sphere real_numbers level 1 = Ok b /\ fs_grid test = built_grid id Triangle b /\ made_on (built_grid id Triangle b) tf test /\
  flat_cells X (built_grid id Triangle b) b /\ inside_rules X Triangle /\ inner_rules X /\ some_points X /\ weights_in (Rlt 0) X /\ weights_in (Rle 0) X /\
  positive_basis (Rlt 0) X test /\ positive_basis (Rle 0) X test /\ repelling (newton (-1)) /\
  (forall kd, kd = Double \/ kd = Adjoint -> dense_setting X wmod (laplace_operator kd (newton (-1))) (after [SetBatch 3]) deg pts Triangle test test) /\
  exists p q r, corners_of b 0 p q r.
Proof. exact convex_sphere_example. Qed.
