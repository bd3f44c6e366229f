(** * Property C121: the hypersingular matrix is the single layer matrix between curls *)
From Coq Require Import Reals.
From Verif Require Import Base Topology DofMap SpecDof Process Space Options SpecOptions Scalar Integrand CellPair Operators SpecLocal SpecOperators Interleave Assembly SpecAssembly
  SpecBroken SpecAlgebra SpecRounding SpecGalerkin SpecShapeSpaces AssemblyResults
  Shapes SpecShapes SpecSphere SpecScreen SpecWidth SpecSymmetry SpecAutomorphism SpecTurns SpecShift SpecToeplitz ToeplitzExamples GaussExamples
  SpecCurls CurlResults CurlSpaces CurlExamples SpecDefinite DefiniteResults DefiniteShapes DefiniteExamples.

(** C121: the Laplace hypersingular matrix of [assemble] is the sum over the three
    components of C_n' V D_n, where V is the single layer matrix, with the same options,
    of spaces whose functions combine to the surface curls. *)
Theorem C121_laplace : forall (T R : Type) (S : scalar T R) (X : externals R) rt wmod (G H : @green T R) o deg pts ct (test trial ftest ftrial : fspace T R) C D,
  exact S -> legal_runtime (s_add S) rt -> (forall x y, H 0 x y = G 0 x y) ->
  dense_setting X wmod (laplace_hypersingular G) o deg pts ct test trial -> dense_setting X wmod (laplace_single_layer H) o deg pts ct ftest ftrial ->
  spanned S (surface_curl S X) test ftest C -> spanned S (surface_curl S X) trial ftrial D ->
  exists m fm e, assemble S X rt wmod (laplace_hypersingular G) o trial test = Ok m /\ assemble S X rt wmod (laplace_single_layer H) o ftrial ftest = Ok fm /\
    (forall k l, k < global_size (fs_space ftest) -> l < global_size (fs_space ftrial) ->
      nth_error fm (k + global_size (fs_space ftest) * l) = Some (e k l)) /\
    forall i j, i < global_size (fs_space test) -> j < global_size (fs_space trial) ->
      nth_error m (i + global_size (fs_space test) * j) =
        Some (three_products S C D (global_size (fs_space ftest)) (global_size (fs_space ftrial)) e i j).
Proof. exact laplace_curls. Qed.
Print Assumptions C121_laplace.

(** The same for the sparse matrices of the cells that touch. *)
Theorem C121_near : forall (T R : Type) (S : scalar T R) (X : externals R) rt wmod (G H : @green T R) o deg pts ct (test trial ftest ftrial : fspace T R) C D,
  exact S -> legal_runtime (s_add S) rt -> (forall x y, H 0 x y = G 0 x y) ->
  dense_setting X wmod (laplace_hypersingular G) o deg pts ct test trial -> dense_setting X wmod (laplace_single_layer H) o deg pts ct ftest ftrial ->
  spanned S (surface_curl S X) test ftest C -> spanned S (surface_curl S X) trial ftrial D ->
  exists m fm,
    assemble_singular_part S X rt wmod (laplace_hypersingular G) o (global_size (fs_space test), global_size (fs_space trial)) trial test = Ok m /\
    assemble_singular_part S X rt wmod (laplace_single_layer H) o (global_size (fs_space ftest), global_size (fs_space ftrial)) ftrial ftest = Ok fm /\
    forall i j, i < global_size (fs_space test) -> j < global_size (fs_space trial) -> sparse_entry S m i j =
      three_products S C D (global_size (fs_space ftest)) (global_size (fs_space ftrial)) (sparse_entry S fm) i j.
Proof. exact laplace_curls_near. Qed.
Print Assumptions C121_near.

(** Helmholtz: minus the square of the wavenumber times the single layer matrix between
    the functions times the components of the normal is added. *)
Theorem C121_helmholtz : forall (T R : Type) (S : scalar T R) (X : externals R) rt wmod (G H : R -> @green T R) wavenumber o deg pts ct (test trial ftest ftrial : fspace T R) C D M N,
  exact S -> legal_runtime (s_add S) rt -> (forall x y, H wavenumber 0 x y = G wavenumber 0 x y) ->
  dense_setting X wmod (helmholtz_hypersingular S G wavenumber) o deg pts ct test trial ->
  dense_setting X wmod (helmholtz_single_layer H wavenumber) o deg pts ct ftest ftrial ->
  spanned S (surface_curl S X) test ftest C -> spanned S (surface_curl S X) trial ftrial D ->
  spanned S (normal_times S X) test ftest M -> spanned S (normal_times S X) trial ftrial N ->
  exists m fm e, assemble S X rt wmod (helmholtz_hypersingular S G wavenumber) o trial test = Ok m /\
    assemble S X rt wmod (helmholtz_single_layer H wavenumber) o ftrial ftest = Ok fm /\
    (forall k l, k < global_size (fs_space ftest) -> l < global_size (fs_space ftrial) ->
      nth_error fm (k + global_size (fs_space ftest) * l) = Some (e k l)) /\
    forall i j, i < global_size (fs_space test) -> j < global_size (fs_space trial) ->
      nth_error m (i + global_size (fs_space test) * j) =
        Some (s_add S (three_products S C D (global_size (fs_space ftest)) (global_size (fs_space ftrial)) e i j)
          (s_mul S (s_cast S (r_neg S (r_mul S wavenumber wavenumber)))
             (three_products S M N (global_size (fs_space ftest)) (global_size (fs_space ftrial)) e i j))).
Proof. exact helmholtz_curls. Qed.
Print Assumptions C121_helmholtz.

(** Spaces that have such combinations: surface curls that are constant on the cells are
    combinations of the functions of any space on the cells whose functions add up to
    one; functions times normals that are constant on the cells are combinations of the
    functions of the discontinuous space of the same degree. *)
Theorem C121_spaces : forall (T R : Type) (S : scalar T R) (X : externals R), exact S -> exists one, (forall x, s_mul S one x = x) /\
  (forall (fs fine : fspace T R) (U : nat -> nat -> nat -> T),
    serial_space fine -> fs_grid fine = fs_grid fs -> interior_family (g_types (fs_grid fine) 2) (fs_family fine) -> adds_to_one S one fine ->
    (forall c i points n p, c < ent_count (fs_grid fs) 2 -> i < global_size (fs_space fs) -> n < 3 -> 2 * (p + 1) <= length points ->
       surface_curl S X fs c i points n p = U c n i) ->
    exists C, spanned S (surface_curl S X) fs fine C /\ forall c k n i, c < ent_count (fs_grid fs) 2 -> In k (dofs_at fine c) -> C n k i = U c n i) /\
  (forall (fs disc : fspace T R) (U : nat -> nat -> T), serial_space fs -> serial_space disc -> broken fs disc ->
    (forall c points n p, c < ent_count (fs_grid fs) 2 -> n < 3 -> 2 * (p + 1) <= length points -> SpecLocal.normal S (cell_of X fs c points) p n = U c n) ->
    exists N, spanned S (normal_times S X) fs disc N /\
      forall c a a' k i n, c < ent_count (fs_grid fs) 2 -> nth_error (dofs_at disc c) a = Some k -> nth_error (dofs_at fs c) a' = Some i ->
        N n k i = if a =? a' then U c n else s_zero S).
Proof. exact exact_spaces. Qed.
Print Assumptions C121_spaces.

(** Linear functions on flat triangles: the curl of the function of a corner is the
    opposite edge divided by twice the area. *)
Theorem C121_edges : forall (X : externals R) (fs : fspace R R) V, serial_space fs -> g_types (fs_grid fs) 2 = [Triangle] -> el_dim (fs_family fs Triangle) = 3 ->
  linear_functions fs -> flat_triangles X (fs_grid fs) V -> forall fine : fspace R R,
  serial_space fine -> fs_grid fine = fs_grid fs -> interior_family (g_types (fs_grid fine) 2) (fs_family fine) -> adds_to_one reals 1%R fine ->
  exists C, spanned reals (surface_curl reals X) fs fine C /\
  forall c u v w k n, c < ent_count (fs_grid fs) 2 -> g_sub (fs_grid fs) c 0 = [u; v; w] -> In k (dofs_at fine c) -> n < 3 ->
    (forall a i, nth_error (dofs_at fs c) a = Some i -> C n k i = edge_curl a (V u) (V v) (V w) n) /\
    (forall i, ~ In i (dofs_at fs c) -> C n k i = 0%R).
Proof. exact linear_curls. Qed.
Print Assumptions C121_edges.

(** For linear functions on flat triangles: if the single layer matrix of the piecewise
    constant functions is semidefinite (symmetric) so is the hypersingular matrix; if it
    is definite and the grid is connected, the form of the hypersingular matrix is zero at
    the constants only, and these are its kernel. *)
Theorem C121_form : forall (X : externals R) rt wmod (G H : @green R R) o deg pts (fs fine : fspace R R) V,
  legal_runtime Rplus rt -> (forall x y, H 0 x y = G 0 x y) ->
  dense_setting X wmod (laplace_hypersingular G) o deg pts Triangle fs fs -> dense_setting X wmod (laplace_single_layer H) o deg pts Triangle fine fine ->
  fs_grid fine = fs_grid fs -> fs_family fs = lagrange 1 -> linear_functions fs -> flat_triangles X (fs_grid fs) V ->
  constants reals 1%R fine -> interior_family [Triangle] (fs_family fine) ->
  exists m fm w e, assemble reals X rt wmod (laplace_hypersingular G) o fs fs = Ok m /\ assemble reals X rt wmod (laplace_single_layer H) o fine fine = Ok fm /\
    has_entries (global_size (fs_space fs)) m w /\ has_entries (global_size (fs_space fine)) fm e /\
    (semidefinite (global_size (fs_space fine)) e -> semidefinite (global_size (fs_space fs)) w) /\
    (symmetric_entries (global_size (fs_space fine)) e -> symmetric_entries (global_size (fs_space fs)) w) /\
    (definite (global_size (fs_space fine)) e -> proper_triangles (fs_grid fs) V -> connected (vertex_lists (fs_grid fs)) ->
      kernel_of_constants (global_size (fs_space fs)) w).
Proof. exact linear_form. Qed.
Print Assumptions C121_form.

(** The shapes are connected, for all numbers of refinements and sizes. *)
Theorem C121_connected :
  (forall R L b, regular_sphere R L 1 = Ok b -> connected (cells_of b)) /\
  (forall n t b, screen n t b -> connected (cells_of b)) /\
  (forall P id t (b : builder P), t = Triangle \/ t = Quadrilateral -> vertex_lists (built_grid id t b) = cells_of b).
Proof. exact (conj sphere_connected (conj screen_connected (@built_lists))). Qed.
Print Assumptions C121_connected.

(** Hence on the sphere, *)
Theorem C121_sphere : forall (X : externals R) rt wmod (G H : @green R R) calls level id (b : builder vec) (fs fine : fspace R R),
  legal_runtime Rplus rt -> (forall x y, H 0 x y = G 0 x y) -> regular_sphere real_numbers level 1 = Ok b ->
  flat_cells X (built_grid id Triangle b) b -> proper_rules X -> rules_exist X Triangle (after calls) ->
  0 < get_batch_size (after calls) < wmod -> 2 * length (cells_of b) * length (cells_of b) <= wmod ->
  made_on (built_grid id Triangle b) (lagrange 1) fs -> linear_functions fs ->
  made_on (built_grid id Triangle b) (interior_only (fun _ => 1)) fine -> constants reals 1%R fine ->
  exists m fm w e,
    assemble reals X rt wmod (laplace_hypersingular G) (after calls) fs fs = Ok m /\ assemble reals X rt wmod (laplace_single_layer H) (after calls) fine fine = Ok fm /\
    has_entries (global_size (fs_space fs)) m w /\ has_entries (global_size (fs_space fine)) fm e /\
    (semidefinite (global_size (fs_space fine)) e -> semidefinite (global_size (fs_space fs)) w) /\
    (symmetric_entries (global_size (fs_space fine)) e -> symmetric_entries (global_size (fs_space fs)) w) /\
    (definite (global_size (fs_space fine)) e -> kernel_of_constants (global_size (fs_space fs)) w).
Proof. exact sphere_form. Qed.
Print Assumptions C121_sphere.

(** and on triangulated screens. *)
Theorem C121_screen : forall (X : externals R) rt wmod (G H : @green R R) calls n id (b : builder (nat * nat)) (fs fine : fspace R R),
  legal_runtime Rplus rt -> (forall x y, H 0 x y = G 0 x y) -> screen_triangles n = Ok b ->
  flat_screen n X (built_grid id Triangle b) b -> proper_rules X -> rules_exist X Triangle (after calls) ->
  0 < get_batch_size (after calls) < wmod -> 2 * length (cells_of b) * length (cells_of b) <= wmod ->
  made_on (built_grid id Triangle b) (lagrange 1) fs -> linear_functions fs ->
  made_on (built_grid id Triangle b) (interior_only (fun _ => 1)) fine -> constants reals 1%R fine ->
  exists m fm w e,
    assemble reals X rt wmod (laplace_hypersingular G) (after calls) fs fs = Ok m /\ assemble reals X rt wmod (laplace_single_layer H) (after calls) fine fine = Ok fm /\
    has_entries (global_size (fs_space fs)) m w /\ has_entries (global_size (fs_space fine)) fm e /\
    (semidefinite (global_size (fs_space fine)) e -> semidefinite (global_size (fs_space fs)) w) /\
    (symmetric_entries (global_size (fs_space fine)) e -> symmetric_entries (global_size (fs_space fs)) w) /\
    (definite (global_size (fs_space fine)) e -> kernel_of_constants (global_size (fs_space fs)) w).
Proof. exact screen_form. Qed.
Print Assumptions C121_screen.

(** ** Examples *)

(** Complex linear functions on the sphere and their discontinuous space. *)
Example C121_example : forall level id, exists (b : builder vec) X (fs disc : fspace (R * R) R) C M,
  regular_sphere real_numbers level 1 = Ok b /\ flat_cells X (built_grid id Triangle b) b /\ proper_rules X /\ rules_exist X Triangle (after [SetBatch 3]) /\
  made_on (built_grid id Triangle b) (lagrange 1) fs /\ made_on (built_grid id Triangle b) (interior_only (fun _ => 3)) disc /\ broken fs disc /\
  exact complexes /\ legal_runtime (s_add complexes) (sequential (s_add complexes)) /\
  spanned complexes (surface_curl complexes X) fs disc C /\ spanned complexes (normal_times complexes X) fs disc M.
Proof. exact curls_example. Qed.

(** A kernel whose single layer matrix is definite, on every level. *)
Example C121_example_definite : forall level id rt, legal_runtime Rplus rt -> exists (b : builder vec) X (fs fine : fspace R R) wmod,
  regular_sphere real_numbers level 1 = Ok b /\ flat_cells X (built_grid id Triangle b) b /\ proper_rules X /\ rules_exist X Triangle (after [SetBatch 3]) /\
  0 < get_batch_size (after [SetBatch 3]) < wmod /\ 2 * length (cells_of b) * length (cells_of b) <= wmod /\
  made_on (built_grid id Triangle b) (lagrange 1) fs /\ linear_functions fs /\
  made_on (built_grid id Triangle b) (interior_only (fun _ => 1)) fine /\ constants reals 1%R fine /\
  forall m e, assemble reals X rt wmod (laplace_single_layer equal_green) (after [SetBatch 3]) fine fine = Ok m -> has_entries (global_size (fs_space fine)) m e ->
    definite (global_size (fs_space fine)) e.
Proof. exact definite_example. Qed.

(** Flat screens. *)
Example C121_example_screen : forall n b id, screen_triangles n = Ok b ->
  flat_screen n (flat_screen_externals n b) (built_grid id Triangle b) b /\ proper_rules (flat_screen_externals n b).
Proof. exact (fun n b id _ => conj (flat_screen_flat n (built_grid id Triangle b) b) (flat_screen_proper n b)). Qed.

(** A definite form is semidefinite. *)
Example C121_example_semidefinite : forall n e, definite n e -> semidefinite n e.
Proof. intros n e H y. exact (proj1 (H y)). Qed.
