(** * Property C97: the matrices have the symmetry of the grid *)
From Coq Require Import Reals.
From Verif Require Import Base Topology DofMap Space Options SpecOptions Scalar Integrand CellPair Operators SpecLocal SpecOperators Interleave Assembly SpecAssembly
  SpecAlgebra SpecDistributed SpecRenumber SpecSimilar SpecRounding SpecShapeSpaces SpecAutomorphism AutomorphismResults
  Shapes SpecShapes SpecSphere SpecWidth SpecSymmetry SpecTurns TurnResults TurnExamples AssemblyResults.

(** C97: if the grid is mapped to itself, with the order of the vertices of the cells,
    by a rigid motion that does not change the Green's function, then the entry of two
    basis functions is that of their images. *)
Theorem C97_automorphism_laplace : forall (T R : Type) (S : scalar T R) (X : externals R) move A one G kd rt wmod o deg pts ct test trial L,
  exact S -> exact_cast S -> orthogonal S A -> (forall x, s_mul S one x = x) -> similar_green S move A one one G G ->
  legal_runtime (s_add S) rt -> dense_setting X wmod (laplace_operator kd G) o deg pts ct test trial -> fs_grid trial = fs_grid test ->
  renumbered_grid (fs_grid test) (fs_grid test) L -> moved_cells S move A one (fs_grid test) X L ->
  exists m f h, assemble S X rt wmod (laplace_operator kd G) o trial test = Ok m /\
    renumbering (global_size (fs_space test)) f /\ renumbering (global_size (fs_space trial)) h /\
    (forall c, c < ent_count (fs_grid test) 2 ->
       dofs_at test c = map f (dofs_at test (L 2 c)) /\ dofs_at trial c = map h (dofs_at trial (L 2 c))) /\
    forall i j, i < global_size (fs_space test) -> j < global_size (fs_space trial) ->
      exists x, entry_at (global_size (fs_space test)) m i j = Some x /\ entry_at (global_size (fs_space test)) m (f i) (h j) = Some x.
Proof. exact @laplace_automorphism. Qed.
Print Assumptions C97_automorphism_laplace.

Theorem C97_automorphism_helmholtz : forall (T R : Type) (S : scalar T R) (X : externals R) move A one (G : R -> @green T R) wavenumber kd rt wmod o deg pts ct test trial L,
  exact S -> exact_cast S -> orthogonal S A -> (forall x, s_mul S one x = x) -> similar_green S move A one one (G wavenumber) (G wavenumber) ->
  legal_runtime (s_add S) rt -> dense_setting X wmod (helmholtz_operator S kd G wavenumber) o deg pts ct test trial -> fs_grid trial = fs_grid test ->
  renumbered_grid (fs_grid test) (fs_grid test) L -> moved_cells S move A one (fs_grid test) X L ->
  exists m f h, assemble S X rt wmod (helmholtz_operator S kd G wavenumber) o trial test = Ok m /\
    renumbering (global_size (fs_space test)) f /\ renumbering (global_size (fs_space trial)) h /\
    (forall c, c < ent_count (fs_grid test) 2 ->
       dofs_at test c = map f (dofs_at test (L 2 c)) /\ dofs_at trial c = map h (dofs_at trial (L 2 c))) /\
    forall i j, i < global_size (fs_space test) -> j < global_size (fs_space trial) ->
      exists x, entry_at (global_size (fs_space test)) m i j = Some x /\ entry_at (global_size (fs_space test)) m (f i) (h j) = Some x.
Proof. exact @helmholtz_automorphism. Qed.
Print Assumptions C97_automorphism_helmholtz.

(** On every level of the sphere the eight upright turns map cells to cells with the
    order of their vertices. *)
Theorem C97_cells : forall L (b : builder vec) k s t o, regular_sphere real_numbers L 1 = Ok b -> upright k s t o ->
  mapped_in_order b (octahedral k s t o).
Proof. exact sphere_in_order. Qed.
Print Assumptions C97_cells.

(** The other turns of the octahedron (C89) need not: a third of a turn about a
    diagonal. *)
Theorem C97_other_turns : forall (b : builder vec), regular_sphere real_numbers 0 1 = Ok b -> ~ mapped_in_order b (octahedral 1 false false false).
Proof. exact not_in_order. Qed.
Print Assumptions C97_other_turns.

(** Hence the matrices on the sphere: the same for a pair of basis functions and for
    the pair turned. *)
Theorem C97_laplace : forall (T : Type) (S : scalar T R) (X : externals R) level id wmod (b : builder vec) calls tf sf (test trial : fspace T R) rt,
  exact S -> exact_cast S -> r_neg S = Ropp -> regular_sphere real_numbers level 1 = Ok b -> standard tf -> standard sf ->
  made_on (built_grid id Triangle b) tf test -> made_on (built_grid id Triangle b) sf trial ->
  flat_cells X (built_grid id Triangle b) b -> proper_rules X -> rules_exist X Triangle (after calls) ->
  0 < get_batch_size (after calls) < wmod ->
  2 * ent_count (built_grid id Triangle b) 2 * ent_count (built_grid id Triangle b) 2 <= wmod -> legal_runtime (s_add S) rt ->
  forall kd (G : @green T R), radial S G -> exists m,
    assemble S X rt wmod (laplace_operator kd G) (after calls) trial test = Ok m /\
    forall k s t o, upright k s t o -> exists tau, renumbering (ent_count (built_grid id Triangle b) 2) tau /\
      carries b (octahedral k s t o) tau /\ same_on_images test trial m tau.
Proof. exact @laplace_turns. Qed.
Print Assumptions C97_laplace.

Theorem C97_helmholtz : forall (T : Type) (S : scalar T R) (X : externals R) level id wmod (b : builder vec) calls tf sf (test trial : fspace T R) rt,
  exact S -> exact_cast S -> r_neg S = Ropp -> regular_sphere real_numbers level 1 = Ok b -> standard tf -> standard sf ->
  made_on (built_grid id Triangle b) tf test -> made_on (built_grid id Triangle b) sf trial ->
  flat_cells X (built_grid id Triangle b) b -> proper_rules X -> rules_exist X Triangle (after calls) ->
  0 < get_batch_size (after calls) < wmod ->
  2 * ent_count (built_grid id Triangle b) 2 * ent_count (built_grid id Triangle b) 2 <= wmod -> legal_runtime (s_add S) rt ->
  forall kd (G : R -> @green T R) wavenumber, radial S (G wavenumber) -> exists m,
    assemble S X rt wmod (helmholtz_operator S kd G wavenumber) (after calls) trial test = Ok m /\
    forall k s t o, upright k s t o -> exists tau, renumbering (ent_count (built_grid id Triangle b) 2) tau /\
      carries b (octahedral k s t o) tau /\ same_on_images test trial m tau.
Proof. exact @helmholtz_turns. Qed.
Print Assumptions C97_helmholtz.

(** On the octahedron every cell is the image of every other: all cells have the same
    block. *)
Theorem C97_octahedron : forall (T : Type) (S : scalar T R) (X : externals R) id wmod (b : builder vec) calls tf sf (test trial : fspace T R) rt,
  exact S -> exact_cast S -> r_neg S = Ropp -> regular_sphere real_numbers 0 1 = Ok b -> standard tf -> standard sf ->
  made_on (built_grid id Triangle b) tf test -> made_on (built_grid id Triangle b) sf trial ->
  flat_cells X (built_grid id Triangle b) b -> proper_rules X -> rules_exist X Triangle (after calls) ->
  0 < get_batch_size (after calls) < wmod -> 128 <= wmod -> legal_runtime (s_add S) rt ->
  (forall kd (G : @green T R), radial S G -> exists m,
     assemble S X rt wmod (laplace_operator kd G) (after calls) trial test = Ok m /\ like_blocks test trial m) /\
  (forall kd (G : R -> @green T R) wavenumber, radial S (G wavenumber) -> exists m,
     assemble S X rt wmod (helmholtz_operator S kd G wavenumber) (after calls) trial test = Ok m /\ like_blocks test trial m).
Proof. exact @octahedron_blocks. Qed.
Print Assumptions C97_octahedron.

(** Non-vacuity: flat triangles, spaces and the Green's functions of the two equations,
    on every level. *)
Example C97_hypotheses_met : forall level id tf sf (basis : cell_type -> list R -> nat -> nat -> nat -> nat -> R) (cbasis : cell_type -> list R -> nat -> nat -> nat -> nat -> R * R),
  standard tf -> standard sf -> exists b X,
  regular_sphere real_numbers level 1 = Ok b /\ flat_cells X (built_grid id Triangle b) b /\ proper_rules X /\
  rules_exist X Triangle (after [SetBatch 3]) /\ get_batch_size (after [SetBatch 3]) = 3 /\
  (exists test trial : fspace R R, made_on (built_grid id Triangle b) tf test /\ made_on (built_grid id Triangle b) sf trial /\ fs_basis test = basis /\ fs_basis trial = basis) /\
  (exists test trial : fspace (R * R) R, made_on (built_grid id Triangle b) tf test /\ made_on (built_grid id Triangle b) sf trial /\ fs_basis test = cbasis /\ fs_basis trial = cbasis) /\
  exact reals /\ exact_cast reals /\ r_neg reals = Ropp /\ radial reals laplace_green /\ legal_runtime (s_add reals) (sequential (s_add reals)) /\
  exact complexes /\ exact_cast complexes /\ r_neg complexes = Ropp /\ (forall k, radial complexes (helmholtz_green k)) /\
  legal_runtime (s_add complexes) (sequential (s_add complexes)).
Proof. exact turns_example. Qed.
Example C97_turns : upright 0 true true false /\ upright 3 true false false /\ ~ upright 1 false false false.
Proof. unfold upright. split; [now left|]. split; [now right|]. intros [(H & _)|(H & _)]; discriminate. Qed.
