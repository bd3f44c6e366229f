(** * Property C100: on screens the matrices do not change when functions are moved *)
From Coq Require Import Reals ZArith.
From Verif Require Import Base Topology DofMap Space Options SpecOptions Scalar Integrand CellPair Operators SpecLocal SpecOperators Interleave Assembly SpecAssembly
  SpecAlgebra SpecSimilar SpecAutomorphism SpecRounding SpecShapeSpaces SpecShift ShiftResults
  Shapes SpecShapes SpecSphere SpecScreen SpecWidth SpecSymmetry SpecTurns TurnExamples SpecToeplitz ToeplitzResults ToeplitzExamples AssemblyResults.

(** C100: parts of the grid that look alike.  If some cells have copies, put together in
    the same way and with the geometry moved by a similarity, then the entry of the
    copies of two basis functions is that of the functions, times a factor of the
    operator. *)
Theorem C100_copies_laplace : forall (T R : Type) (S : scalar T R) (X : externals R) kd (G : @green T R) rt wmod o deg pts ct (test trial : fspace T R),
  exact S -> exact_cast S -> legal_runtime (s_add S) rt -> dense_setting X wmod (laplace_operator kd G) o deg pts ct test trial -> fs_grid trial = fs_grid test ->
  exists m, assemble S X rt wmod (laplace_operator kd G) o trial test = Ok m /\
    forall move A scale sign mu D tau i j i' j',
      orthogonal S A -> divides_out S scale -> similar_green S move A scale mu G G ->
      copied (fs_grid test) D tau -> moved_copies S move A scale sign (fs_grid test) X D tau ->
      (forall c, lives_on test i c -> D c) -> (forall c, lives_on trial j c -> D c) -> copy_of test tau i i' -> copy_of trial tau j j' ->
      exists x, entry_at (global_size (fs_space test)) m i j = Some x /\
        entry_at (global_size (fs_space test)) m i' j' = Some (s_mul S (similarity_factor S scale sign mu kd) x).
Proof. exact @laplace_copies. Qed.
Print Assumptions C100_copies_laplace.

Theorem C100_copies_helmholtz : forall (T R : Type) (S : scalar T R) (X : externals R) kd (G : R -> @green T R) wavenumber rt wmod o deg pts ct (test trial : fspace T R),
  exact S -> exact_cast S -> legal_runtime (s_add S) rt -> dense_setting X wmod (helmholtz_operator S kd G wavenumber) o deg pts ct test trial -> fs_grid trial = fs_grid test ->
  exists m, assemble S X rt wmod (helmholtz_operator S kd G wavenumber) o trial test = Ok m /\
    forall move A one D tau i j i' j',
      orthogonal S A -> (forall x, s_mul S one x = x) -> similar_green S move A one one (G wavenumber) (G wavenumber) ->
      copied (fs_grid test) D tau -> moved_copies S move A one one (fs_grid test) X D tau ->
      (forall c, lives_on test i c -> D c) -> (forall c, lives_on trial j c -> D c) -> copy_of test tau i i' -> copy_of trial tau j j' ->
      exists x, entry_at (global_size (fs_space test)) m i j = Some x /\ entry_at (global_size (fs_space test)) m i' j' = Some x.
Proof. exact @helmholtz_copies. Qed.
Print Assumptions C100_copies_helmholtz.

(** Screens: a cell can be moved if and only if all its corners stay on the screen, and
    to one cell only. *)
Theorem C100_cells : forall n t b dx dy c, screen n t b -> c < length (cells_of b) ->
  ((exists c', moved_cell b dx dy c c') <->
   forall k p, corner b c k p -> (0 <= Z.of_nat (fst p) + dx <= Z.of_nat n)%Z /\ (0 <= Z.of_nat (snd p) + dy <= Z.of_nat n)%Z) /\
  (forall c1 c2, moved_cell b dx dy c c1 -> moved_cell b dx dy c c2 -> c1 = c2).
Proof. exact cells_move. Qed.
Print Assumptions C100_cells.

(** The functions with the same local number on a cell and the moved cell are moved into
    each other if they belong to the interior of the cells, or to a vertex or an edge
    with an end that is not moved to or from the boundary. *)
Theorem C100_functions : forall (T R : Type) n id t b fam (fs : fspace T R), screen n t b -> standard fam -> made_on (built_grid id t b) fam fs ->
  forall dx dy c c' d e l a i i', moved_cell b dx dy c c' -> el_edofs (fam t) d e = Some l -> In a l ->
  (d = 2 \/ exists k p, corner_of_entity t d e k /\ corner b c k p /\ alike n dx (fst p) /\ alike n dy (snd p)) ->
  nth_error (dofs_at fs c) a = Some i -> nth_error (dofs_at fs c') a = Some i' -> moved_function b fs dx dy i i'.
Proof. exact @moves_with_cell. Qed.
Print Assumptions C100_functions.

(** All functions of a discontinuous space. *)
Theorem C100_discontinuous : forall (T R : Type) n id t b dofs (fs : fspace T R) dx dy c c' a i i', screen n t b ->
  (forall u, 0 < dofs u) -> made_on (built_grid id t b) (interior_only dofs) fs -> moved_cell b dx dy c c' ->
  nth_error (dofs_at fs c) a = Some i -> nth_error (dofs_at fs c') a = Some i' -> moved_function b fs dx dy i i'.
Proof. exact @discontinuous_moves. Qed.
Print Assumptions C100_discontinuous.

(** The matrices on screens: the entry of two functions is that of the functions moved
    together. *)
Theorem C100_laplace : forall (T : Type) (S : scalar T R) (X : externals R) n id wmod t b calls tf sf (test trial : fspace T R) rt,
  exact S -> exact_cast S -> screen n t b -> standard tf -> standard sf ->
  made_on (built_grid id t b) tf test -> made_on (built_grid id t b) sf trial ->
  flat_screen n X (built_grid id t b) b -> proper_rules X -> rules_exist X t (after calls) ->
  0 < get_batch_size (after calls) < wmod ->
  2 * ent_count (built_grid id t b) 2 * ent_count (built_grid id t b) 2 <= wmod -> legal_runtime (s_add S) rt ->
  forall kd (G : @green T R), radial S G -> exists m,
    assemble S X rt wmod (laplace_operator kd G) (after calls) trial test = Ok m /\ same_when_moved b test trial m.
Proof. exact @laplace_toeplitz. Qed.
Print Assumptions C100_laplace.

Theorem C100_helmholtz : forall (T : Type) (S : scalar T R) (X : externals R) n id wmod t b calls tf sf (test trial : fspace T R) rt,
  exact S -> exact_cast S -> screen n t b -> standard tf -> standard sf ->
  made_on (built_grid id t b) tf test -> made_on (built_grid id t b) sf trial ->
  flat_screen n X (built_grid id t b) b -> proper_rules X -> rules_exist X t (after calls) ->
  0 < get_batch_size (after calls) < wmod ->
  2 * ent_count (built_grid id t b) 2 * ent_count (built_grid id t b) 2 <= wmod -> legal_runtime (s_add S) rt ->
  forall kd (G : R -> @green T R) wavenumber, radial S (G wavenumber) -> exists m,
    assemble S X rt wmod (helmholtz_operator S kd G wavenumber) (after calls) trial test = Ok m /\ same_when_moved b test trial m.
Proof. exact @helmholtz_toeplitz. Qed.
Print Assumptions C100_helmholtz.

(** Non-vacuity: flat screens of both kinds and all sizes, spaces, Green's functions. *)
Example C100_hypotheses_met : forall n t id tf sf (basis : cell_type -> list R -> nat -> nat -> nat -> nat -> R) (cbasis : cell_type -> list R -> nat -> nat -> nat -> nat -> R * R),
  0 < n -> t = Triangle \/ t = Quadrilateral -> standard tf -> standard sf -> exists b X,
  screen n t b /\ flat_screen n X (built_grid id t b) b /\ proper_rules X /\
  rules_exist X t (after [SetBatch 3]) /\ get_batch_size (after [SetBatch 3]) = 3 /\
  (exists test trial : fspace R R, made_on (built_grid id t b) tf test /\ made_on (built_grid id t b) sf trial /\ fs_basis test = basis /\ fs_basis trial = basis) /\
  (exists test trial : fspace (R * R) R, made_on (built_grid id t b) tf test /\ made_on (built_grid id t b) sf trial /\ fs_basis test = cbasis /\ fs_basis trial = cbasis) /\
  exact reals /\ exact_cast reals /\ radial reals laplace_green /\ legal_runtime (s_add reals) (sequential (s_add reals)) /\
  exact complexes /\ exact_cast complexes /\ (forall k, radial complexes (helmholtz_green k)) /\ legal_runtime (s_add complexes) (sequential (s_add complexes)).
Proof. exact toeplitz_example. Qed.

(** On a continuous space the functions of any two interior vertices are moved into
    each other. *)
Example C100_interior_vertices : forall (T R : Type) n id t b p (fs : fspace T R) x y u v, screen n t b -> 1 <= p ->
  made_on (built_grid id t b) (lagrange p) fs -> 0 < x < n -> 0 < y < n -> 0 < u < n -> 0 < v < n ->
  exists c c' i i', corner b c 0 (x, y) /\ corner b c' 0 (u, v) /\ nth_error (dofs_at fs c) 0 = Some i /\ nth_error (dofs_at fs c') 0 = Some i' /\
    moved_function b fs (Z.of_nat u - Z.of_nat x) (Z.of_nat v - Z.of_nat y) i i'.
Proof. exact @interior_vertices_move. Qed.
