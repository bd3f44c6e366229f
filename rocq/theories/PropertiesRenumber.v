(** * Property C60: renumbering the grid *)
From Verif Require Import Base Topology DofMap Space Options Scalar Integrand CellPair Operators SpecLocal Interleave Assembly SpecAssembly
  SpecDistributed SpecRenumber RenumberResults LocalExamples AssemblyExamples DistributedExamples RenumberExamples.

(** C60: if the entities of the grids are given other numbers, the entries of the
    matrix stay the same and only their positions change, as the DOFs do. *)
Theorem C60_renumbered_grid : forall (T R : Type) (S : scalar T R) (X : externals R) wmod (O : operator T R) o deg pts ct test trial wtest wtrial L M,
  dense_setting X wmod O o deg pts ct wtest wtrial ->
  serial_space test -> serial_space trial -> same_object test trial ->
  renumbered_space X wtest test L -> renumbered_space X wtrial trial M ->
  renumbered_alike wtest wtrial test trial L M ->
  forall rt rt', exact S -> legal_runtime (s_add S) rt -> legal_runtime (s_add S) rt' ->
  exists m m' f h,
    assemble S X rt wmod O o wtrial wtest = Ok m /\ assemble S X rt' wmod O o trial test = Ok m' /\
    length m' = length m /\
    renumbering (global_size (fs_space wtest)) f /\ renumbering (global_size (fs_space wtrial)) h /\
    (forall c, c < ent_count (fs_grid test) 2 -> dofs_at test c = map f (dofs_at wtest (L 2 c))) /\
    (forall c, c < ent_count (fs_grid trial) 2 -> dofs_at trial c = map h (dofs_at wtrial (M 2 c))) /\
    forall i j, i < global_size (fs_space wtest) -> j < global_size (fs_space wtrial) ->
      exists x, nth_error m (i + global_size (fs_space wtest) * j) = Some x /\
        nth_error m' (f i + global_size (fs_space wtest) * h j) = Some x.
Proof. exact (@renumbered_matrix). Qed.
Print Assumptions C60_renumbered_grid.

(** Non-vacuity: four triangles with all vertices, edges and cells renumbered. *)
Example C60_hypotheses_met :
  dense_setting strip_externals 256 demo_op demo_options (fun _ _ => 2) (fun _ => 2) Triangle whole_p1 whole_dp0 /\
  serial_space other_p1 /\ serial_space other_dp0 /\ same_object other_p1 other_dp0 /\
  renumbered_space strip_externals whole_p1 other_p1 other_map /\ renumbered_space strip_externals whole_dp0 other_dp0 other_map /\
  renumbered_alike whole_p1 whole_dp0 other_p1 other_dp0 other_map other_map /\
  map (dofs_at whole_p1) [0; 3] = [[0; 1; 2]; [3; 5; 4]] /\ map (dofs_at other_p1) [0; 3] = [[0; 1; 2]; [5; 4; 3]] /\
  length strip_matrix = 24 /\ length other_matrix = 24 /\ differ strip_matrix other_matrix = 24.
Proof. exact renumber_example. Qed.
