(** * Property C76: a part of a grid *)
From Verif Require Import Base Topology DofMap SpecDof Process Space SpecSpace Options Scalar Integrand CellPair Operators SpecLocal LocalExamples
  Interleave Assembly SpecAssembly AssemblyExamples SpecDistributed DistributedExamples SpecParts PartsResults PartsExamples.

(** C76. The matrix assembled on parts of the grids is a submatrix of the matrix on the
    whole grids, for all the DOFs whose cells all belong to the part.  The parts are
    the same for test and trial functions, or do not touch. *)
Theorem C76_parts : forall (T R : Type) (S : scalar T R) (X : externals R) wmod (O : operator T R) o deg pts ct test trial wtest wtrial L M,
  dense_setting X wmod O o deg pts ct wtest wtrial ->
  serial_space test -> serial_space trial -> same_object test trial ->
  part_of X wtest test L -> part_of X wtrial trial M -> placed wtest wtrial test trial L M ->
  forall rt rt', exact S -> legal_runtime (s_add S) rt -> legal_runtime (s_add S) rt' ->
  exists m m' f h,
    assemble S X rt wmod O o wtrial wtest = Ok m /\ assemble S X rt' wmod O o trial test = Ok m' /\
    embeds wtest test L f /\ embeds wtrial trial M h /\
    forall i j, i < global_size (fs_space test) -> j < global_size (fs_space trial) ->
      supported wtest test L (f i) -> supported wtrial trial M (h j) ->
      exists x, nth_error m (f i + global_size (fs_space wtest) * h j) = Some x /\
        nth_error m' (i + global_size (fs_space test) * j) = Some x.
Proof. exact (@parts_matrix). Qed.
Print Assumptions C76_parts.

(** For discontinuous functions these are all the DOFs. *)
Theorem C76_discontinuous : forall (T R : Type) (S : scalar T R) (X : externals R) wmod (O : operator T R) o deg pts ct test trial wtest wtrial L M,
  dense_setting X wmod O o deg pts ct wtest wtrial ->
  serial_space test -> serial_space trial -> same_object test trial ->
  part_of X wtest test L -> part_of X wtrial trial M -> placed wtest wtrial test trial L M ->
  forall rt rt', exact S -> legal_runtime (s_add S) rt -> legal_runtime (s_add S) rt' ->
  interior_family (g_types (fs_grid wtest) 2) (fs_family wtest) -> interior_family (g_types (fs_grid wtrial) 2) (fs_family wtrial) ->
  exists m m' f h,
    assemble S X rt wmod O o wtrial wtest = Ok m /\ assemble S X rt' wmod O o trial test = Ok m' /\
    embeds wtest test L f /\ embeds wtrial trial M h /\
    forall i j, i < global_size (fs_space test) -> j < global_size (fs_space trial) ->
      exists x, nth_error m (f i + global_size (fs_space wtest) * h j) = Some x /\
        nth_error m' (i + global_size (fs_space test) * j) = Some x.
Proof. exact (@parts_matrix_discontinuous). Qed.
Print Assumptions C76_discontinuous.

(** Non-vacuity: the first three of four triangles, and the first and the last one. *)
Example C76_example :
  exact qc_scalar /\ legal_runtime (s_add qc_scalar) demo_rt /\
  dense_setting parts_externals 256 demo_op demo_options (fun _ _ => 2) (fun _ => 2) Triangle whole_p1 whole_dp0 /\
  (* one part *)
  serial_space head_p1 /\ serial_space head_dp0 /\ same_object head_p1 head_dp0 /\
  part_of parts_externals whole_p1 head_p1 head_map /\ part_of parts_externals whole_dp0 head_dp0 head_map /\
  placed whole_p1 whole_dp0 head_p1 head_dp0 head_map head_map /\
  supported whole_p1 head_p1 head_map 2 /\ ~ supported whole_p1 head_p1 head_map 3 /\
  (* two parts that do not touch *)
  serial_space first_p1 /\ serial_space last_dp0 /\ same_object first_p1 last_dp0 /\
  part_of parts_externals whole_p1 first_p1 first_map /\ part_of parts_externals whole_dp0 last_dp0 last_map /\
  placed whole_p1 whole_dp0 first_p1 last_dp0 first_map last_map /\ supported whole_p1 first_p1 first_map 0.
Proof. exact parts_example. Qed.
