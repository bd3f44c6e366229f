(** * Property C120: turned data have turned solutions *)
From Coq Require Import Reals.
From Verif Require Import Base Topology DofMap Space Options SpecOptions Scalar Integrand CellPair Operators SpecLocal SpecOperators Interleave Assembly SpecAssembly
  SpecAlgebra SpecDistributed SpecRenumber SpecSimilar SpecRounding SpecShapeSpaces SpecAutomorphism
  Shapes SpecShapes SpecSphere SpecWidth SpecSymmetry SpecTurns TurnExamples SpecOrbit OrbitResults OrbitExamples.

(** C120: on every level of the sphere the matrices commute with the eight upright turns:
    if [y] is the matrix times [x], the turned [y] is the matrix times the turned [x]. *)
Theorem C120_laplace : forall (T : Type) (S : scalar T R) (X : externals R) level id wmod (b : builder vec) calls tf sf (test trial : fspace T R) rt,
  exact S -> exact_cast S -> r_neg S = Ropp -> regular_sphere real_numbers level 1 = Ok b -> standard tf -> standard sf ->
  made_on (built_grid id Triangle b) tf test -> made_on (built_grid id Triangle b) sf trial ->
  flat_cells X (built_grid id Triangle b) b -> proper_rules X -> rules_exist X Triangle (after calls) ->
  0 < get_batch_size (after calls) < wmod ->
  2 * ent_count (built_grid id Triangle b) 2 * ent_count (built_grid id Triangle b) 2 <= wmod -> legal_runtime (s_add S) rt ->
  forall kd (G : @green T R), radial S G -> exists m,
    assemble S X rt wmod (laplace_operator kd G) (after calls) trial test = Ok m /\
    forall k s t o, upright k s t o -> exists tau, renumbering (ent_count (built_grid id Triangle b) 2) tau /\
      carries b (octahedral k s t o) tau /\ commutes S test trial m tau.
Proof. exact @laplace_commutes. Qed.
Print Assumptions C120_laplace.

Theorem C120_helmholtz : forall (T : Type) (S : scalar T R) (X : externals R) level id wmod (b : builder vec) calls tf sf (test trial : fspace T R) rt,
  exact S -> exact_cast S -> r_neg S = Ropp -> regular_sphere real_numbers level 1 = Ok b -> standard tf -> standard sf ->
  made_on (built_grid id Triangle b) tf test -> made_on (built_grid id Triangle b) sf trial ->
  flat_cells X (built_grid id Triangle b) b -> proper_rules X -> rules_exist X Triangle (after calls) ->
  0 < get_batch_size (after calls) < wmod ->
  2 * ent_count (built_grid id Triangle b) 2 * ent_count (built_grid id Triangle b) 2 <= wmod -> legal_runtime (s_add S) rt ->
  forall kd (G : R -> @green T R) wavenumber, radial S (G wavenumber) -> exists m,
    assemble S X rt wmod (helmholtz_operator S kd G wavenumber) (after calls) trial test = Ok m /\
    forall k s t o, upright k s t o -> exists tau, renumbering (ent_count (built_grid id Triangle b) 2) tau /\
      carries b (octahedral k s t o) tau /\ commutes S test trial m tau.
Proof. exact @helmholtz_commutes. Qed.
Print Assumptions C120_helmholtz.

(** Hence the solution for a right-hand side that a turn does not change is not changed
    by the turn, if the equation has not more than one solution. *)
Theorem C120_solutions : forall (T R : Type) (S : scalar T R) G sf (test trial : fspace T R) m tau x y,
  exact S -> shape_grid G -> standard sf -> fs_grid test = G -> made_on G sf trial -> renumbering (ent_count G 2) tau -> commutes S test trial m tau ->
  at_most_one S (global_size (fs_space test)) (global_size (fs_space trial)) m y -> turned test tau y y ->
  product S (global_size (fs_space test)) (global_size (fs_space trial)) m x y -> turned trial tau x x.
Proof. exact @symmetric_data. Qed.
Print Assumptions C120_solutions.

(** On the octahedron the rows of functions with the same local number have the same
    sum, and the columns. *)
Theorem C120_octahedron : forall (T : Type) (S : scalar T R) (X : externals R) id wmod (b : builder vec) calls tf sf (test trial : fspace T R) rt,
  exact S -> exact_cast S -> r_neg S = Ropp -> regular_sphere real_numbers 0 1 = Ok b -> standard tf -> standard sf ->
  made_on (built_grid id Triangle b) tf test -> made_on (built_grid id Triangle b) sf trial ->
  flat_cells X (built_grid id Triangle b) b -> proper_rules X -> rules_exist X Triangle (after calls) ->
  0 < get_batch_size (after calls) < wmod -> 128 <= wmod -> legal_runtime (s_add S) rt ->
  (forall kd (G : @green T R), radial S G -> exists m,
     assemble S X rt wmod (laplace_operator kd G) (after calls) trial test = Ok m /\ forall c c', c < 8 -> c' < 8 -> like_sums S test trial m c c') /\
  (forall kd (G : R -> @green T R) wavenumber, radial S (G wavenumber) -> exists m,
     assemble S X rt wmod (helmholtz_operator S kd G wavenumber) (after calls) trial test = Ok m /\ forall c c', c < 8 -> c' < 8 -> like_sums S test trial m c c').
Proof. exact @octahedron_sums. Qed.
Print Assumptions C120_octahedron.

(** With one function on each cell: the matrix takes constants to constants. *)
Theorem C120_constants : forall (T : Type) (S : scalar T R) id (b : builder vec) (test trial : fspace T R) m,
  regular_sphere real_numbers 0 1 = Ok b ->
  made_on (built_grid id Triangle b) (interior_only (fun _ => 1)) test -> made_on (built_grid id Triangle b) (interior_only (fun _ => 1)) trial ->
  (forall c c', c < 8 -> c' < 8 -> like_sums S test trial m c c') ->
  exists r s, (forall i, i < 8 -> row_sum S 8 8 m i r) /\ (forall j, j < 8 -> column_sum S 8 m j s).
Proof. exact @one_function_sums. Qed.
Print Assumptions C120_constants.

(** Non-vacuity: the settings of C97 on every level; an equation with one solution and
    one with more. *)
Example C120_hypotheses_met : forall level id tf sf (basis : cell_type -> list R -> nat -> nat -> nat -> nat -> R) (cbasis : cell_type -> list R -> nat -> nat -> nat -> nat -> R * R),
  standard tf -> standard sf -> exists b X,
  regular_sphere real_numbers level 1 = Ok b /\ flat_cells X (built_grid id Triangle b) b /\ proper_rules X /\
  rules_exist X Triangle (after [SetBatch 3]) /\ get_batch_size (after [SetBatch 3]) = 3 /\
  (exists test trial : fspace R R, made_on (built_grid id Triangle b) tf test /\ made_on (built_grid id Triangle b) sf trial /\ fs_basis test = basis /\ fs_basis trial = basis) /\
  (exists test trial : fspace (R * R) R, made_on (built_grid id Triangle b) tf test /\ made_on (built_grid id Triangle b) sf trial /\ fs_basis test = cbasis /\ fs_basis trial = cbasis) /\
  exact reals /\ exact_cast reals /\ r_neg reals = Ropp /\ radial reals laplace_green /\ legal_runtime (s_add reals) (AssemblyResults.sequential (s_add reals)) /\
  exact complexes /\ exact_cast complexes /\ r_neg complexes = Ropp /\ (forall k, radial complexes (helmholtz_green k)) /\
  legal_runtime (s_add complexes) (AssemblyResults.sequential (s_add complexes)).
Proof. exact turns_example. Qed.
Example C120_one_solution : (forall y, at_most_one reals 2 2 two_one y) /\ product reals 2 2 two_one (fun _ => 1%R) (fun _ => 3%R) /\
  ~ at_most_one reals 2 2 [1%R; 1%R; 1%R; 1%R] (fun _ => 0%R).
Proof. exact two_one_solution. Qed.
