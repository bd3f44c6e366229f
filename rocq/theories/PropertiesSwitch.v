(** * Property C104: the singular part as a matrix of its own *)
From Coq Require Import Reals ZArith QArith Qcanon.
From Verif Require Import Base Topology DofMap SpecDof Process Space SpecSpace Options SpecOptions Scalar Integrand CellPair Operators SpecLocal SpecOperators Interleave Assembly SpecAssembly
  SpecAlgebra SpecDistributed DistributedExamples SpecRenumber RenumberExamples SpecParts PartsResults PartsExamples SpecRounding SpecShapeSpaces SpecAutomorphism SpecSimilar SpecShift
  Shapes SpecShapes SpecSphere SpecScreen SpecWidth SpecSymmetry SpecTurns TurnExamples SpecToeplitz ToeplitzExamples LocalExamples AssemblyExamples AssemblyResults SpecSwitch SwitchResults SwitchExamples.
Local Open Scope nat_scope.

(** C104. In exact arithmetic the singular part is the dense matrix that is assembled when the weights
    of all the regular rules are zero: no regular rule enters, and nothing else is missing. *)
Theorem C104_switched_off : forall (T R : Type) (S : scalar T R) (X : externals R) rt rt' wmod (O : operator T R) o deg pts ct (test trial : fspace T R),
  exact S -> exact_cast S -> cast_zero S -> legal_runtime (s_add S) rt -> legal_runtime (s_add S) rt' -> dense_setting X wmod O o deg pts ct test trial ->
  exists m, assemble_singular_part S X rt wmod O o (global_size (fs_space test), global_size (fs_space trial)) trial test = Ok m /\
    assemble S (regular_off S X) rt' wmod O o trial test = Ok (filled S (global_size (fs_space test)) (global_size (fs_space trial)) m).
Proof. exact @switched_off. Qed.
Print Assumptions C104_switched_off.

(** Hence it has what the dense matrices have: on a grid with other numbers the rows and columns
    are permuted ... *)
Theorem C104_renumbered_grid : forall (T R : Type) (S : scalar T R) (X : externals R) wmod (O : operator T R) o deg pts ct (test trial wtest wtrial : fspace T R) L M,
  dense_setting X wmod O o deg pts ct wtest wtrial ->
  serial_space test -> serial_space trial -> same_object test trial ->
  renumbered_space X wtest test L -> renumbered_space X wtrial trial M -> renumbered_alike wtest wtrial test trial L M ->
  forall rt rt', exact S -> exact_cast S -> cast_zero S -> legal_runtime (s_add S) rt -> legal_runtime (s_add S) rt' ->
  exists m m' f h,
    assemble_singular_part S X rt wmod O o (global_size (fs_space wtest), global_size (fs_space wtrial)) wtrial wtest = Ok m /\
    assemble_singular_part S X rt' wmod O o (global_size (fs_space test), global_size (fs_space trial)) trial test = Ok m' /\
    renumbering (global_size (fs_space wtest)) f /\ renumbering (global_size (fs_space wtrial)) h /\
    (forall c, c < ent_count (fs_grid test) 2 -> dofs_at test c = map f (dofs_at wtest (L 2 c))) /\
    (forall c, c < ent_count (fs_grid trial) 2 -> dofs_at trial c = map h (dofs_at wtrial (M 2 c))) /\
    forall i j, i < global_size (fs_space wtest) -> j < global_size (fs_space wtrial) -> sparse_entry S m' (f i) (h j) = sparse_entry S m i j.
Proof. exact @renumbered_singular. Qed.
Print Assumptions C104_renumbered_grid.

(** ... on a part of the grid it is a submatrix ... *)
Theorem C104_parts : forall (T R : Type) (S : scalar T R) (X : externals R) wmod (O : operator T R) o deg pts ct (test trial wtest wtrial : fspace T R) L M,
  dense_setting X wmod O o deg pts ct wtest wtrial ->
  serial_space test -> serial_space trial -> same_object test trial ->
  part_of X wtest test L -> part_of X wtrial trial M -> placed wtest wtrial test trial L M ->
  forall rt rt', exact S -> exact_cast S -> cast_zero S -> legal_runtime (s_add S) rt -> legal_runtime (s_add S) rt' ->
  exists m m' f h,
    assemble_singular_part S X rt wmod O o (global_size (fs_space wtest), global_size (fs_space wtrial)) wtrial wtest = Ok m /\
    assemble_singular_part S X rt' wmod O o (global_size (fs_space test), global_size (fs_space trial)) trial test = Ok m' /\
    embeds wtest test L f /\ embeds wtrial trial M h /\
    forall i j, i < global_size (fs_space test) -> j < global_size (fs_space trial) ->
      supported wtest test L (f i) -> supported wtrial trial M (h j) -> sparse_entry S m' i j = sparse_entry S m (f i) (h j).
Proof. exact @parts_singular. Qed.
Print Assumptions C104_parts.

(** ... on a screen it is the same for two functions moved together ... *)
Theorem C104_screen_laplace : forall (T : Type) (S : scalar T R) (X : externals R) n id wmod t b calls tf sf (test trial : fspace T R) rt,
  exact S -> exact_cast S -> cast_zero S -> screen n t b -> standard tf -> standard sf ->
  made_on (built_grid id t b) tf test -> made_on (built_grid id t b) sf trial ->
  flat_screen n X (built_grid id t b) b -> proper_rules X -> rules_exist X t (after calls) ->
  0 < get_batch_size (after calls) < wmod ->
  2 * ent_count (built_grid id t b) 2 * ent_count (built_grid id t b) 2 <= wmod -> legal_runtime (s_add S) rt ->
  forall kd (G : @green T R), radial S G -> exists m,
    assemble_singular_part S X rt wmod (laplace_operator kd G) (after calls) (global_size (fs_space test), global_size (fs_space trial)) trial test = Ok m /\
    forall dx dy i j i' j', moved_function b test dx dy i i' -> moved_function b trial dx dy j j' -> sparse_entry S m i' j' = sparse_entry S m i j.
Proof. exact @laplace_singular_moved. Qed.
Print Assumptions C104_screen_laplace.

Theorem C104_screen_helmholtz : forall (T : Type) (S : scalar T R) (X : externals R) n id wmod t b calls tf sf (test trial : fspace T R) rt,
  exact S -> exact_cast S -> cast_zero S -> screen n t b -> standard tf -> standard sf ->
  made_on (built_grid id t b) tf test -> made_on (built_grid id t b) sf trial ->
  flat_screen n X (built_grid id t b) b -> proper_rules X -> rules_exist X t (after calls) ->
  0 < get_batch_size (after calls) < wmod ->
  2 * ent_count (built_grid id t b) 2 * ent_count (built_grid id t b) 2 <= wmod -> legal_runtime (s_add S) rt ->
  forall kd (G : R -> @green T R) wavenumber, radial S (G wavenumber) -> exists m,
    assemble_singular_part S X rt wmod (helmholtz_operator S kd G wavenumber) (after calls) (global_size (fs_space test), global_size (fs_space trial)) trial test = Ok m /\
    forall dx dy i j i' j', moved_function b test dx dy i i' -> moved_function b trial dx dy j j' -> sparse_entry S m i' j' = sparse_entry S m i j.
Proof. exact @helmholtz_singular_moved. Qed.
Print Assumptions C104_screen_helmholtz.

(** ... and on the sphere for two functions turned together. *)
Theorem C104_sphere_laplace : forall (T : Type) (S : scalar T R) (X : externals R) level id wmod (b : builder vec) calls tf sf (test trial : fspace T R) rt,
  exact S -> exact_cast S -> cast_zero S -> r_neg S = Ropp -> regular_sphere real_numbers level 1 = Ok b -> standard tf -> standard sf ->
  made_on (built_grid id Triangle b) tf test -> made_on (built_grid id Triangle b) sf trial ->
  flat_cells X (built_grid id Triangle b) b -> proper_rules X -> rules_exist X Triangle (after calls) ->
  0 < get_batch_size (after calls) < wmod ->
  2 * ent_count (built_grid id Triangle b) 2 * ent_count (built_grid id Triangle b) 2 <= wmod -> legal_runtime (s_add S) rt ->
  forall kd (G : @green T R), radial S G -> exists m,
    assemble_singular_part S X rt wmod (laplace_operator kd G) (after calls) (global_size (fs_space test), global_size (fs_space trial)) trial test = Ok m /\
    forall k s t o, upright k s t o -> exists tau, renumbering (ent_count (built_grid id Triangle b) 2) tau /\
      carries b (octahedral k s t o) tau /\ same_sparse_on_images S test trial m tau.
Proof. exact @laplace_singular_turns. Qed.
Print Assumptions C104_sphere_laplace.

Theorem C104_sphere_helmholtz : forall (T : Type) (S : scalar T R) (X : externals R) level id wmod (b : builder vec) calls tf sf (test trial : fspace T R) rt,
  exact S -> exact_cast S -> cast_zero S -> r_neg S = Ropp -> regular_sphere real_numbers level 1 = Ok b -> standard tf -> standard sf ->
  made_on (built_grid id Triangle b) tf test -> made_on (built_grid id Triangle b) sf trial ->
  flat_cells X (built_grid id Triangle b) b -> proper_rules X -> rules_exist X Triangle (after calls) ->
  0 < get_batch_size (after calls) < wmod ->
  2 * ent_count (built_grid id Triangle b) 2 * ent_count (built_grid id Triangle b) 2 <= wmod -> legal_runtime (s_add S) rt ->
  forall kd (G : R -> @green T R) wavenumber, radial S (G wavenumber) -> exists m,
    assemble_singular_part S X rt wmod (helmholtz_operator S kd G wavenumber) (after calls) (global_size (fs_space test), global_size (fs_space trial)) trial test = Ok m /\
    forall k s t o, upright k s t o -> exists tau, renumbering (ent_count (built_grid id Triangle b) 2) tau /\
      carries b (octahedral k s t o) tau /\ same_sparse_on_images S test trial m tau.
Proof. exact @helmholtz_singular_turns. Qed.
Print Assumptions C104_sphere_helmholtz.

(** Non-vacuity: the strip of four triangles; two of the 24 entries of the singular part are zero, six
    differ from those of the matrix, and 23 change places on the renumbered grid.  The hypotheses about
    renumbered grids, parts, screens and spheres are those of C60, C76, C100 and C97, met there. *)
Example C104_hypotheses_met :
  exact qc_scalar /\ exact_cast qc_scalar /\ cast_zero qc_scalar /\ legal_runtime (s_add qc_scalar) demo_rt /\
  dense_setting strip_externals 256 demo_op demo_options (fun _ _ => 2) (fun _ => 2) Triangle whole_p1 whole_dp0 /\
  length strip_near = 24 /\ length strip_off = 24 /\ differ strip_near strip_off = 0 /\
  zeros strip_near = 2 /\ zeros strip_matrix = 0 /\ differ strip_near strip_matrix = 6 /\ differ strip_near other_near = 23.
Proof. exact switch_example. Qed.
Example C104_casts : cast_zero reals /\ cast_zero complexes.
Proof. exact (conj real_cast_zero complex_cast_zero). Qed.
