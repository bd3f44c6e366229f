(** * Specification vocabulary: spaces on the built-in shapes *)
From Verif Require Import Base Topology DofMap SpecDof Process Space SpecSpace Assembly SpecAssembly Options SpecOptions Adjacency SpecAdjacency.

(** [fs] is what [FunctionSpace::new] gives for the grid and the family on one
    process. *)
Record made_on {T R : Type} (G : grid) (fam : family) (fs : fspace T R) : Prop := {
  mo_grid : fs_grid fs = G;
  mo_family : fs_family fs = fam;
  mo_processes : fs_processes fs = 1;
  mo_components : forall t, 0 < fs_components fs t;
  mo_made : exists dm eager sp, assign_dofs 0 G fam = Ok dm /\ creates 1 eager (fun _ => dm) sp /\ fs_space fs = sp 0
}.

(** Continuous Lagrange elements, and discontinuous elements. *)
Inductive standard : family -> Prop :=
| standard_continuous : forall p, 1 <= p -> standard (lagrange p)
| standard_discontinuous : forall n, (forall t, 0 < n t) -> standard (interior_only n).

(** The external crates have the rules that the options ask for. *)
Record rules_exist {R : Type} (X : externals R) (t : cell_type) (o : options) : Prop := {
  re_regular : forall n, get_regular_quadrature_degree t o = Some n -> exists q, x_simplex X t n = Some q;
  re_singular : forall n p kind, get_singular_quadrature_degree (t, t) o = Some n -> In p (possible_pairs t t) -> duffy_for t t = Some kind ->
    exists q, x_duffy X kind (connectivity_dimension p) p n = Some q
}.
