(** * Properties C21, C25-C28, C30-C35, C52: matrices *)
From Verif Require Import Base Topology DofMap Colouring Space Options Adjacency Scalar Integrand CellPair Operators SpecLocal
  Interleave Assembly SpecAssembly AssemblyRaces AssemblySingular AssemblyDense AssemblyResults LocalExamples AssemblyExamples.

(** C21: the batch size does not matter; for every addition. *)
Theorem C21_dense_batch_size : forall (T R : Type) (S : scalar T R) (X : externals R) rt rt' wmod (O : operator T R) o n deg pts ct test trial output,
  legal_runtime (s_add S) rt -> legal_runtime (s_add S) rt' ->
  dense_setting X wmod O o deg pts ct test trial -> 0 < n -> n < wmod ->
  length output = global_size (fs_space test) * global_size (fs_space trial) ->
  exists result, assemble_into_memory S X rt wmod O o trial test output = Ran (Ok result) /\
    assemble_into_memory S X rt' wmod O (set_batch_size n o) trial test output = Ran (Ok result).
Proof. exact (@dense_batch_independent). Qed.
Print Assumptions C21_dense_batch_size.

Theorem C21_singular_batch_size : forall (T R : Type) (S : scalar T R) (X : externals R) rt rt' wmod (O : operator T R) o n deg test trial,
  legal_runtime (s_add S) rt -> legal_runtime (s_add S) rt' ->
  singular_setting X wmod O o deg test trial -> 0 < n -> n < wmod ->
  exists m m', assemble_singular_part S X rt wmod O o (global_size (fs_space test), global_size (fs_space trial)) trial test = Ok m /\
    assemble_singular_part S X rt' wmod O (set_batch_size n o) (global_size (fs_space test), global_size (fs_space trial)) trial test = Ok m' /\
    triplets m = triplets m' /\ sm_shape m = sm_shape m'.
Proof. exact (@singular_batch_independent). Qed.
Print Assumptions C21_singular_batch_size.

(** C25: the sparse matrix does not depend on how the reduction is done, for any
    spaces and options, failures included. *)
Theorem C25_every_reduction : forall (T R : Type) (S : scalar T R) (X : externals R) rt rt' wmod (O : operator T R) o trial test,
  legal_runtime (s_add S) rt -> legal_runtime (s_add S) rt' ->
  assemble_singular S X rt wmod O o trial test = assemble_singular S X rt' wmod O o trial test /\
  forall m, assemble_singular_part S X rt wmod O o (global_size (fs_space test), global_size (fs_space trial)) trial test = Ok m ->
    length (sm_rows m) = length (sm_data m) /\ length (sm_cols m) = length (sm_data m) /\
    exists m', assemble_singular_part S X rt' wmod O o (global_size (fs_space test), global_size (fs_space trial)) trial test = Ok m' /\
      sm_rows m' = sm_rows m /\ sm_cols m' = sm_cols m /\ sm_data m' = sm_data m /\ sm_shape m' = sm_shape m.
Proof. exact (@sparse_any_schedule). Qed.
Print Assumptions C25_every_reduction.

(** C26: the triplets are inside the matrix. *)
Theorem C26_inside : forall (T R : Type) (S : scalar T R) (X : externals R) rt wmod (O : operator T R) o deg test trial,
  legal_runtime (s_add S) rt -> singular_setting X wmod O o deg test trial ->
  exists m, assemble_singular_part S X rt wmod O o (global_size (fs_space test), global_size (fs_space trial)) trial test = Ok m /\
    (forall i, In i (sm_rows m) -> i < global_size (fs_space test)) /\
    (forall j, In j (sm_cols m) -> j < global_size (fs_space trial)) /\
    length (sm_rows m) = length (sm_data m) /\ length (sm_cols m) = length (sm_data m).
Proof. exact (@singular_part_inside). Qed.
Print Assumptions C26_inside.

(** Each block fills the capacity reserved for it. *)
Theorem C26_capacity : forall (T R : Type) (S : scalar T R) (X : externals R) wmod (O : operator T R) o deg test trial,
  singular_setting X wmod O o deg test trial ->
  exists st blocks, singular_rules (make_rule X O trial test) o (g_types (fs_grid test) 2) = Ok st /\
    singular_blocks wmod st o (fs_grid test) = Ok blocks /\
    forall block, In block blocks -> exists part,
      singular_block S X O (global_size (fs_space test), global_size (fs_space trial)) trial test st block = Ok part /\
      length (sm_data part) = sm_reserved part /\ length (sm_rows part) = sm_reserved part /\ length (sm_cols part) = sm_reserved part.
Proof. exact (@block_capacity). Qed.
Print Assumptions C26_capacity.

(** There is exactly one triplet for every owned test cell, trial cell touching it,
    test function and trial function, and its value is that of the Duffy rule. *)
Theorem C26_triplets : forall (T R : Type) (S : scalar T R) (X : externals R) rt wmod (O : operator T R) o deg test trial,
  legal_runtime (s_add S) rt -> singular_setting X wmod O o deg test trial ->
  exists m ks, assemble_singular_part S X rt wmod O o (global_size (fs_space test), global_size (fs_space trial)) trial test = Ok m /\
    sm_shape m = (global_size (fs_space test), global_size (fs_space trial)) /\
    length (sm_rows m) = length ks /\ length (sm_cols m) = length ks /\ length (sm_data m) = length ks /\
    NoDup ks /\ (forall k, In k ks <-> singular_label test trial k) /\
    Forall2 (fun k x => triplet_of test trial (singular_value S X O deg test trial) (fst (fst k)) (snd (fst k)) (fst (snd k)) (snd (snd k)) x)
      ks (triplets m).
Proof. exact (@singular_part_labels). Qed.
Print Assumptions C26_triplets.

(** C27 is false: non-zero contributions, all of modulus at most 1e-10, are dropped. *)
Theorem C27_refuted : exists (X : externals _) (O : operator _ _) o deg test trial m,
  exact qc_scalar /\ legal_runtime (s_add qc_scalar) demo_rt /\ singular_setting X 256 O o deg test trial /\
  assemble_singular_part qc_scalar X demo_rt 256 O o (global_size (fs_space test), global_size (fs_space trial)) trial test = Ok m /\
  (exists v, In v (sm_data m) /\ v <> s_zero qc_scalar) /\
  assemble_singular qc_scalar X demo_rt 256 O o trial test = Ok (CsrEmpty (sm_shape m)).
Proof. exact tiny_refuted. Qed.
Print Assumptions C27_refuted.

(** What holds: the matrix consists of all triplets if one of them is large, and is
    empty if none is. *)
Theorem C27_threshold : forall (T R : Type) (S : scalar T R) (X : externals R) rt wmod (O : operator T R) o trial test m,
  assemble_singular_part S X rt wmod O o (global_size (fs_space test), global_size (fs_space trial)) trial test = Ok m ->
  ((exists v, In v (sm_data m) /\ s_large S v = true) ->
     assemble_singular S X rt wmod O o trial test = Ok (CsrFromAij (sm_shape m) (sm_rows m) (sm_cols m) (sm_data m))) /\
  ((forall v, In v (sm_data m) -> s_large S v = false) ->
     assemble_singular S X rt wmod O o trial test = Ok (CsrEmpty (sm_shape m))).
Proof. exact (@singular_threshold). Qed.
Print Assumptions C27_threshold.

(** C28: different grid objects. *)
Theorem C28_no_singular_part : forall (T R : Type) (S : scalar T R) (X : externals R) rt wmod (O : operator T R) o trial test,
  g_id (fs_grid test) <> g_id (fs_grid trial) ->
  assemble_singular S X rt wmod O o trial test = Ok (CsrEmpty (global_size (fs_space test), global_size (fs_space trial))) /\
  forall t s, neighbours (fs_grid test) (fs_grid trial) t s = Ok false.
Proof. exact (@other_grid_no_singular). Qed.
Print Assumptions C28_no_singular_part.

Theorem C28_all_regular : forall (T R : Type) (S : scalar T R) (X : externals R) rt wmod (O : operator T R) o deg pts ct test trial output,
  exact S -> legal_runtime (s_add S) rt -> dense_setting X wmod O o deg pts ct test trial ->
  g_id (fs_grid test) <> g_id (fs_grid trial) ->
  length output = global_size (fs_space test) * global_size (fs_space trial) ->
  exists result val,
    assemble_into_memory S X rt wmod O o trial test output = Ran (Ok result) /\
    (forall t s a b, t < ent_count (fs_grid test) 2 -> s < ent_count (fs_grid trial) 2 -> regular_value S X O pts test trial t s a b (val t s a b)) /\
    forall i j old, i < global_size (fs_space test) -> j < global_size (fs_space trial) ->
      nth_error output (i + global_size (fs_space test) * j) = Some old ->
      nth_error result (i + global_size (fs_space test) * j) = Some (s_add S old (matrix_entry S val test trial i j)).
Proof. exact (@other_grid_entries). Qed.
Print Assumptions C28_all_regular.

(** C30: in no state that the tasks of a phase can reach are two of them about to
    access the same entry. *)
Theorem C30_race_free : forall (T R : Type) (S : scalar T R) (X : externals R) wmod (O : operator T R) o shape trial test
    trial_col test_col phases tasks memory n c,
  serial_space test -> serial_space trial ->
  cell_colouring (fs_grid test) (fs_family test) = Ok test_col ->
  cell_colouring (fs_grid trial) (fs_family trial) = Ok trial_col ->
  nonsingular_phases S X wmod O o shape trial test trial_col test_col = Ok phases -> In tasks phases ->
  msteps (s_add S) n (launch tasks memory) c -> ~ race c.
Proof. exact (@phases_race_free). Qed.
Print Assumptions C30_race_free.

(** C31: a phase has exactly one outcome, that of the additions made one after the
    other; for every addition. *)
Theorem C31_one_outcome : forall (T R : Type) (S : scalar T R) (X : externals R) wmod (O : operator T R) o shape trial test
    trial_col test_col phases tasks memory,
  serial_space test -> serial_space trial ->
  cell_colouring (fs_grid test) (fs_family test) = Ok test_col ->
  cell_colouring (fs_grid trial) (fs_family trial) = Ok trial_col ->
  nonsingular_phases S X wmod O o shape trial test trial_col test_col = Ok phases -> In tasks phases ->
  length memory = global_size (fs_space test) * global_size (fs_space trial) ->
  forall r, outcome (s_add S) tasks memory r <-> r = Ok (after_ops (s_add S) (concat tasks) memory).
Proof. exact (@phases_deterministic). Qed.
Print Assumptions C31_one_outcome.

(** So the whole run is the same in every schedule, failures included. *)
Theorem C31_every_schedule : forall (T R : Type) (S : scalar T R) (X : externals R) rt rt' wmod (O : operator T R) o trial test output,
  legal_runtime (s_add S) rt -> legal_runtime (s_add S) rt' -> serial_space test -> serial_space trial ->
  assemble_into_memory S X rt wmod O o trial test output = assemble_into_memory S X rt' wmod O o trial test output.
Proof. exact (@dense_any_schedule). Qed.
Print Assumptions C31_every_schedule.

(** There is a schedule: one task after the other. *)
Theorem C31_sequential_schedule : forall (T : Type) (add : T -> T -> T), legal_runtime add (sequential add).
Proof. exact (@sequential_legal). Qed.
Print Assumptions C31_sequential_schedule.

(** C32: the entries. *)
Theorem C32_entries : forall (T R : Type) (S : scalar T R) (X : externals R) rt wmod (O : operator T R) o deg pts ct test trial output,
  exact S -> legal_runtime (s_add S) rt -> dense_setting X wmod O o deg pts ct test trial ->
  length output = global_size (fs_space test) * global_size (fs_space trial) ->
  exists result val,
    assemble_into_memory S X rt wmod O o trial test output = Ran (Ok result) /\
    (forall t s a b, t < ent_count (fs_grid test) 2 -> s < ent_count (fs_grid trial) 2 -> pair_value S X O deg pts test trial t s a b (val t s a b)) /\
    length result = length output /\
    forall i j old, i < global_size (fs_space test) -> j < global_size (fs_space trial) ->
      nth_error output (i + global_size (fs_space test) * j) = Some old ->
      nth_error result (i + global_size (fs_space test) * j) = Some (s_add S old (matrix_entry S val test trial i j)).
Proof. exact (@exact_entries). Qed.
Print Assumptions C32_entries.

Theorem C32_values_determined : forall (T R : Type) (S : scalar T R) (X : externals R) (O : operator T R) deg pts test trial t s a b v w,
  pair_value S X O deg pts test trial t s a b v -> pair_value S X O deg pts test trial t s a b w -> v = w.
Proof. exact (@pair_value_unique). Qed.
Print Assumptions C32_values_determined.

(** C33: bad input is refused with the memory as it was. *)
Theorem C33_rejected : forall (T R : Type) (S : scalar T R) (X : externals R) rt wmod (O : operator T R) o trial test output,
  (length output <> global_size (fs_space test) * global_size (fs_space trial) \/ fs_processes test <> 1 \/ fs_processes trial <> 1) ->
  assemble_into_memory S X rt wmod O o trial test output = Rejected output.
Proof. exact (@bad_output_rejected). Qed.
Print Assumptions C33_rejected.

(** Otherwise numbers that do not depend on the output are added to it. *)
Theorem C33_added : forall (T R : Type) (S : scalar T R) (X : externals R) rt wmod (O : operator T R) o deg pts ct test trial,
  legal_runtime (s_add S) rt -> dense_setting X wmod O o deg pts ct test trial ->
  exists ops, (forall a v, In (a, v) ops -> a < global_size (fs_space test) * global_size (fs_space trial)) /\
    forall output, length output = global_size (fs_space test) * global_size (fs_space trial) ->
    assemble_into_memory S X rt wmod O o trial test output = Ran (Ok (after_ops (s_add S) ops output)).
Proof. exact (@output_added). Qed.
Print Assumptions C33_added.

Theorem C33_assemble_is_on_zeros : forall (T R : Type) (S : scalar T R) (X : externals R) rt wmod (O : operator T R) o trial test,
  fs_processes test = 1 -> fs_processes trial = 1 ->
  assemble_into_memory S X rt wmod O o trial test
    (repeat (s_zero S) (global_size (fs_space test) * global_size (fs_space trial))) = Ran (assemble S X rt wmod O o trial test).
Proof. exact (@assemble_on_zeros). Qed.
Print Assumptions C33_assemble_is_on_zeros.

Theorem C33_assemble_refuses : forall (T R : Type) (S : scalar T R) (X : externals R) rt wmod (O : operator T R) o trial test,
  fs_processes test <> 1 \/ fs_processes trial <> 1 -> assemble S X rt wmod O o trial test = Panic.
Proof. exact (@assemble_refuses). Qed.
Print Assumptions C33_assemble_refuses.

(** C34: every write of a phase is inside the output, and no task ever gets to an
    operation outside it. *)
Theorem C34_writes_inside : forall (T R : Type) (S : scalar T R) (X : externals R) wmod (O : operator T R) o shape trial test
    trial_col test_col phases tasks memory n c,
  serial_space test -> serial_space trial ->
  cell_colouring (fs_grid test) (fs_family test) = Ok test_col ->
  cell_colouring (fs_grid trial) (fs_family trial) = Ok trial_col ->
  nonsingular_phases S X wmod O o shape trial test trial_col test_col = Ok phases -> In tasks phases ->
  length memory = global_size (fs_space test) * global_size (fs_space trial) ->
  (forall task a v, In task tasks -> In (a, v) task -> a < length memory) /\
  (msteps (s_add S) n (launch tasks memory) c -> ~ faulty c).
Proof. exact (@phases_inside). Qed.
Print Assumptions C34_writes_inside.

(** C35 is false: there are a triangle grid and a quadrilateral grid such that no
    operator, options or rules make the assembly return. *)
Theorem C35_refuted : exists (test trial : fspace _ _),
  serial_space test /\ serial_space trial /\ in_space test /\ in_space trial /\
  g_types (fs_grid test) 2 = [Triangle] /\ g_types (fs_grid trial) 2 = [Quadrilateral] /\
  forall X rt wmod (O : operator _ _) o result, assemble qc_scalar X rt wmod O o trial test <> Ok result.
Proof. exact quad_refuted. Qed.
Print Assumptions C35_refuted.

(** More generally it never returns when a cell of one grid has a type that the
    other grid does not have. *)
Theorem C35_missing_type : forall (T R : Type) (S : scalar T R) (X : externals R) rt wmod (O : operator T R) o trial test output t s,
  serial_space test -> serial_space trial -> t < ent_count (fs_grid test) 2 -> s < ent_count (fs_grid trial) 2 ->
  (~ In (g_ctype (fs_grid trial) s) (g_types (fs_grid test) 2) \/ ~ In (g_ctype (fs_grid test) t) (g_types (fs_grid trial) 2)) ->
  forall result, assemble_into_memory S X rt wmod O o trial test output <> Ran (Ok result).
Proof. exact (@other_types_fail). Qed.
Print Assumptions C35_missing_type.

(** C52 is false: on grids with triangles and quadrilaterals, with all the rules at
    hand, the assembly reads outside a table without a check. *)
Theorem C52_refuted : exists (X : externals _) (O : operator _ _) o pts test trial,
  shipped qc_scalar O /\ serial_space test /\ serial_space trial /\ in_space test /\ in_space trial /\
  g_types (fs_grid test) 2 = [Triangle; Quadrilateral] /\ g_types (fs_grid trial) 2 = [Triangle; Quadrilateral] /\
  proper_rules X /\ has_simplex X o [Triangle; Quadrilateral] pts /\ 0 < get_batch_size o /\
  forall rt, legal_runtime (s_add qc_scalar) rt -> assemble qc_scalar X rt 256 O o trial test = UB.
Proof. exact mixed_refuted. Qed.
Print Assumptions C52_refuted.

(** Non-vacuity: a setting for dense and singular assembly on [screen_triangles(2)]
    (P1 test functions, DP0 trial functions), the same with another grid object, one
    on two processes, and what is computed in the first and the third. *)
Example C21_C34_hypotheses_met :
  exact qc_scalar /\ legal_runtime (s_add qc_scalar) demo_rt /\
  dense_setting demo_externals 256 demo_op demo_options (fun _ _ => 2) (fun _ => 2) Triangle screen2_p1 screen2_dp0 /\
  singular_setting demo_externals 256 demo_op demo_options (fun _ _ => 2) screen2_p1 screen2_dp0 /\
  (dense_setting demo_externals 256 demo_op demo_options (fun _ _ => 2) (fun _ => 2) Triangle screen2_p1 other2_dp0 /\
   g_id (fs_grid screen2_p1) <> g_id (fs_grid other2_dp0)) /\
  (forall r, r < 2 -> singular_setting demo_externals 256 demo_op demo_options (fun _ _ => 2) (pair_space r) (pair_space r)) /\
  (exists m x, assemble qc_scalar demo_externals demo_rt 256 demo_op demo_options screen2_dp0 screen2_p1 = Ok m /\
    length m = 72 /\ nth_error m 1 = Some x /\ x <> s_zero qc_scalar) /\
  (exists m, assemble_singular_part qc_scalar demo_externals demo_rt 256 demo_op demo_options
      (shape_of (pair_space 1) (pair_space 1)) (pair_space 1) (pair_space 1) = Ok m /\ length (sm_data m) = 18 /\ sm_shape m = (4, 4)).
Proof. exact assembly_examples. Qed.
