(** * Properties C49, C50, C54 to C58 and C69: the Python layer *)
From Verif Require Import Base Topology Options SpecOptions Python SpecPython PythonFacts PythonResults PythonOptions PythonExamples.
From Coq Require Import ZArith.

(** C49: in every history of creations (successful or not) and deletions, every
    live space can be used: the native space, grid and family are allocated, and
    the grid is the one made from its Python grid.  It can be deleted without
    freeing anything twice.  No creation touches memory that is not allocated. *)
Theorem C49_no_dangling : forall E h w, history E h w ->
  (forall s p, In (s, p) (w_spaces w) -> exists a i, use_space s w = Return (a, NGrid (ps_grid p), NFamily i) w) /\
  (forall s, In s (map fst (w_spaces w)) -> exists w', delete_space s w = Return tt w') /\
  (forall g f, function_space E g f w <> Undefined).
Proof. exact spaces_safe. Qed.
Print Assumptions C49_no_dangling.

(** C49: the live spaces are those created and not deleted. *)
Theorem C49_live_spaces : forall E h w, history E h w ->
  map (fun x => (fst x, (ps_grid (snd x), ps_family (snd x)))) (w_spaces w) = survivors h.
Proof. exact live_spaces. Qed.
Print Assumptions C49_live_spaces.

(** C49: a creation from supported and compatible arguments succeeds, whatever
    happened before. *)
Theorem C49_creation_succeeds : forall E h w g f, history E h w ->
  grid_supported E g = true -> family_supported E f = true -> compatible E g f = true ->
  exists s w', function_space E g f w = Return s w'.
Proof. exact creation_succeeds. Qed.
Print Assumptions C49_creation_succeeds.

(** C49: two live spaces refer to the same native grid exactly if they were made
    from the same Python grid. *)
Theorem C49_shared_grid : forall E h w s p s' p', history E h w -> In (s, p) (w_spaces w) -> In (s', p') (w_spaces w) ->
  exists a a' n m n' m', use_space s w = Return (a, n, m) w /\ use_space s' w = Return (a', n', m') w /\ (a = a' <-> ps_grid p = ps_grid p').
Proof. exact grids_shared. Qed.
Print Assumptions C49_shared_grid.

(** C49: everything allocated is in use, if creations have failed only because the
    grid is not supported; in particular nothing is left after the last
    deletion. *)
Theorem C49_nothing_unused : forall E h w, history E h w -> (forall g f, In (Failed g f) h -> grid_supported E g = false) ->
  forall x, In x (w_heap w) -> in_use w (fst x).
Proof. exact nothing_leaks. Qed.
Print Assumptions C49_nothing_unused.

Theorem C49_nothing_left : forall E h w, history E h w -> (forall g f, In (Failed g f) h -> grid_supported E g = false) ->
  survivors h = [] -> w_heap w = [].
Proof. exact nothing_left. Qed.
Print Assumptions C49_nothing_left.

(** C49: a pointer to memory that was freed, or to an object of another kind, is
    reported wherever it is dereferenced. *)
Theorem C49_monitor : forall kind h w,
  deref kind h w = Undefined <-> forall n, assoc Nat.eqb h (w_heap w) = Some n -> kind n = false.
Proof. exact deref_reports. Qed.
Print Assumptions C49_monitor.

(** C49: the same for what is freed, and an object is of one kind only. *)
Theorem C49_monitor_free : forall kind h w,
  free kind h w = Undefined <-> forall n, assoc Nat.eqb h (w_heap w) = Some n -> kind n = false.
Proof. exact free_reports. Qed.
Print Assumptions C49_monitor_free.

(** C49: an attribute that is missing raises. *)
Theorem C49_monitor_attributes : forall o w,
  (at_handle (attributes_of w o) = None -> read_handle o w = Raise w) /\ (at_refcount (attributes_of w o) = None -> read_refcount o w = Raise w).
Proof. exact missing_reports. Qed.
Print Assumptions C49_monitor_attributes.

Theorem C49_kinds : forall n,
  (is_grid n = true <-> exists g, n = NGrid g) /\ (is_family n = true <-> exists i, n = NFamily i) /\
  (is_space n = true <-> exists g f, n = NSpace g f).
Proof. exact kinds_apart. Qed.
Print Assumptions C49_kinds.

Example C49_example : exists w, history demo_outside demo_events w /\ survivors demo_events = [(3, (0, 0)); (1, (0, 1))] /\
  length (w_heap w) = 5 /\ at_refcount (w_grid w 0) = Some 2%Z /\ at_handle (w_grid w 1) = None.
Proof.
  eexists. split; [|split; [|split; [|split]]].
  - apply (run_history demo_outside [] initial_world demo_events); [apply history_start|vm_compute; reflexivity].
  - vm_compute. reflexivity.
  - vm_compute. reflexivity.
  - vm_compute. reflexivity.
  - vm_compute. reflexivity.
Qed.

(** C54 (nothing is left after the last deletion, also if creations have failed) is
    false: a creation that fails because of the family has already counted the
    grid. *)
Theorem C54_no_leak_refuted : exists E h w, history E h w /\ survivors h = [] /\ w_spaces w = [] /\ w_heap w <> [].
Proof. exact leak. Qed.
Print Assumptions C54_no_leak_refuted.

(** C55 (a function space uses the family it is given) is false: the native family
    is always a Lagrange family of the same degree and continuity.  It holds
    exactly for Lagrange families. *)
Theorem C55_family_refuted : exists E h w s p a n m, history E h w /\ In (s, p) (w_spaces w) /\ use_space s w = Return (a, n, m) w /\
  m <> NFamily (family_of E (ps_family p)).
Proof. exact wrong_family. Qed.
Print Assumptions C55_family_refuted.

Theorem C55_always_lagrange : forall E h w s p, history E h w -> In (s, p) (w_spaces w) ->
  exists a n, use_space s w = Return (a, n, NFamily (mkFamilyInfo LagrangeFamily (fi_degree (family_of E (ps_family p))) (fi_continuous (family_of E (ps_family p))))) w.
Proof. exact family_used. Qed.
Print Assumptions C55_always_lagrange.

Theorem C55_lagrange_family : forall E h w s p, history E h w -> In (s, p) (w_spaces w) -> fi_kind (family_of E (ps_family p)) = LagrangeFamily ->
  exists a n, use_space s w = Return (a, n, NFamily (family_of E (ps_family p))) w.
Proof. exact lagrange_family_used. Qed.
Print Assumptions C55_lagrange_family.

(** C50: options that have been given to an assembler keep all their values under
    every sequence of calls, and every setter on them raises. *)
Theorem C50_frozen : forall cs s cs' s' i, leads_to loaded cs s -> given s i -> leads_to s cs' s' ->
  same_values s i s' i /\ (forall c, setter_of c = Some i -> execute c s' = Raised s').
Proof. exact options_frozen. Qed.
Print Assumptions C50_frozen.

(** C50: the options a native assembler refers to are, at any later time, those its
    options object had when the assembler was made. *)
Theorem C50_assembler_options : forall cs s o op d s1 cs' s' a, leads_to loaded cs s ->
  execute (CreateLaplaceAssembler o op d) s = Done s1 -> se_assemblers s1 = se_assemblers s ++ [a] -> leads_to s1 cs' s' ->
  exists v, nth_error (se_native s') (pa_native a) = Some v /\ values s (pa_options a) = Some v /\
    pa_options a = match o with Some i => i | None => 0 end.
Proof. exact assembler_options. Qed.
Print Assumptions C50_assembler_options.

(** C50: setting a degree for cell types without one raises. *)
Theorem C50_unknown_type_raises : forall cs s i t v, leads_to loaded cs s -> ~ supported t -> execute (SetRegularDegree i t v) s = Raised s.
Proof. exact unknown_types_raise. Qed.
Print Assumptions C50_unknown_type_raises.

Theorem C50_unknown_pair_raises : forall cs s i t0 t1 v, leads_to loaded cs s -> ~ (supported t0 /\ supported t1) ->
  execute (SetSingularDegree i t0 t1 v) s = Raised s.
Proof. exact unknown_pairs_raise. Qed.
Print Assumptions C50_unknown_pair_raises.

(** C56: an assembler made without options uses the default options, in every
    history. *)
Theorem C56_default_options : forall cs s op d s1 cs' s' a, leads_to loaded cs s ->
  execute (CreateLaplaceAssembler None op d) s = Done s1 -> se_assemblers s1 = se_assemblers s ++ [a] -> leads_to s1 cs' s' ->
  nth_error (se_native s') (pa_native a) = Some default_options.
Proof. exact default_assembler. Qed.
Print Assumptions C56_default_options.

(** C57: a setter that returns has set exactly its own value. *)
Theorem C57_setter_effect : forall cs s c s' i, leads_to loaded cs s -> setter_of c = Some i -> execute c s = Done s' ->
  match c with
  | SetRegularDegree _ t v => (0 <= v)%Z /\ py_regular_degree s' i t = Some (Z.to_nat v) /\
      (forall t', t' <> t -> py_regular_degree s' i t' = py_regular_degree s i t') /\
      (forall t0 t1, py_singular_degree s' i t0 t1 = py_singular_degree s i t0 t1) /\ py_batch_size s' i = py_batch_size s i
  | SetSingularDegree _ t0 t1 v => (0 <= v)%Z /\ py_singular_degree s' i t0 t1 = Some (Z.to_nat v) /\
      (forall t0' t1', (t0', t1') <> (t0, t1) -> py_singular_degree s' i t0' t1' = py_singular_degree s i t0' t1') /\
      (forall t, py_regular_degree s' i t = py_regular_degree s i t) /\ py_batch_size s' i = py_batch_size s i
  | SetBatchSize _ v => (0 <= v)%Z /\ py_batch_size s' i = Some (Z.to_nat v) /\
      (forall t, py_regular_degree s' i t = py_regular_degree s i t) /\
      (forall t0 t1, py_singular_degree s' i t0 t1 = py_singular_degree s i t0 t1)
  | _ => False
  end.
Proof. exact setter_effect. Qed.
Print Assumptions C57_setter_effect.

(** C57: a setter on options not given to an assembler returns if cell types and
    value are valid. *)
Theorem C57_setter_succeeds : forall cs s c i, leads_to loaded cs s -> setter_of c = Some i -> i < length (se_options s) -> ~ given s i ->
  (match c with
   | SetRegularDegree _ t v => supported t /\ (0 <= v < 2 ^ 64)%Z
   | SetSingularDegree _ t0 t1 v => supported t0 /\ supported t1 /\ (0 <= v < 2 ^ 64)%Z
   | SetBatchSize _ v => (0 <= v < 2 ^ 64)%Z
   | _ => False
   end) -> exists s', execute c s = Done s'.
Proof. exact setters_succeed. Qed.
Print Assumptions C57_setter_succeeds.

(** C57: a setter returns or raises, and one that raises, as any other call that
    raises, has changed nothing. *)
Theorem C57_raising_changes_nothing : forall cs s c, leads_to loaded cs s ->
  (forall s', execute c s = Raised s' -> s' = s) /\
  (setter_of c <> None -> execute c s = Raised s \/ exists s', execute c s = Done s').
Proof. exact raising_changes_nothing. Qed.
Print Assumptions C57_raising_changes_nothing.

(** C57: no call changes a value of another options object. *)
Theorem C57_others_unchanged : forall cs s c s' i, leads_to loaded cs s -> accessible s c -> (execute c s = Done s' \/ execute c s = Raised s') ->
  i < length (se_options s) -> setter_of c <> Some i -> same_values s i s' i.
Proof. exact others_unchanged. Qed.
Print Assumptions C57_others_unchanged.

Example C50_example : exists s l, run_calls demo_calls loaded = Some (s, l) /\
  l = [false; false; true; true; false; true; false; true] /\
  py_regular_degree s 1 Triangle = Some 5 /\ py_regular_degree s 0 Triangle = Some 37 /\ length (se_assemblers s) = 2.
Proof. do 2 eexists. split; [vm_compute; reflexivity|]. repeat split. Qed.

(** C58: what Python reads from the buffers it passes to the library is what the
    library has written, all of it, with no access outside the buffer. *)
Theorem C58_copies : forall (A : Type) (l : list A), py_copy l = Ok l.
Proof. exact py_copy_id. Qed.
Print Assumptions C58_copies.

Theorem C58_cell_dofs : forall dofs, py_cell_dofs dofs = Ok dofs.
Proof. exact py_cell_dofs_id. Qed.
Print Assumptions C58_cell_dofs.

Example C58_example : py_copy [3; 1; 2] = Ok [3; 1; 2] /\ copy_out [3; 1; 2] (repeat None 2) = UB.
Proof. vm_compute. auto. Qed.

(** C69 is false: creating an assembler can end the interpreter. *)
Theorem C69_refuted : exists cs s op d, leads_to loaded cs s /\ execute (CreateLaplaceAssembler None op d) s = Aborted.
Proof. exact creation_aborts. Qed.
Print Assumptions C69_refuted.

(** C69: it raises exactly for unknown data types, returns exactly for the four
    Laplace operators with real data types, and ends the interpreter otherwise. *)
Theorem C69_outcome : forall cs s o op d, leads_to loaded cs s ->
  (match o with Some i => i < length (se_options s) | None => True end) ->
  (execute (CreateLaplaceAssembler o op d) s = Raised s <-> d = OtherDtype) /\
  ((exists s', execute (CreateLaplaceAssembler o op d) s = Done s') <->
     (d = F32 \/ d = F64) /\ In op [SingleLayerOp; DoubleLayerOp; AdjointDoubleLayerOp; HypersingularOp]) /\
  (execute (CreateLaplaceAssembler o op d) s = Aborted <->
     d = C32 \/ d = C64 \/ (d = F32 \/ d = F64) /\ (op = ElectricFieldOp \/ op = MagneticFieldOp)).
Proof. exact creation_outcome. Qed.
Print Assumptions C69_outcome.

(** C69: no other call ends the interpreter. *)
Theorem C69_others_safe : forall cs s c, leads_to loaded cs s -> execute c s = Aborted -> exists o op d, c = CreateLaplaceAssembler o op d.
Proof. exact only_creation_aborts. Qed.
Print Assumptions C69_others_safe.

Example C69_hypotheses_met : leads_to loaded [NewOptions] (new_options loaded) /\ 1 < length (se_options (new_options loaded)).
Proof. split; [eapply leads_done; [discriminate|reflexivity|constructor]|exact (le_n 2)]. Qed.
