(** * Properties of the life of native objects behind Python *)
From Verif Require Import Base Python PythonLife SpecLife LifeResults LifeExamples.

(** ** C85: native objects are alive while Python needs them *)

(** No program uses memory that has been freed or frees memory twice, in whatever
    order it gives up options and assemblers. *)
Theorem C85_never_wild : forall l s0, module_loaded = Returned s0 -> act_all l s0 <> Wild.
Proof. exact never_wild. Qed.
Print Assumptions C85_never_wild.

(** The options an assembler refers to are allocated as long as the assembler is in
    use, and they are those of its Python options. *)
Theorem C85_options_outlive_assemblers : forall l s j p,
  reached l s -> In (j, p) (l_assemblers s) ->
  exists o, allocated s (ha_handle p) (Assembler o) /\ allocated s o Options /\ In (ha_options p, o) (l_options s).
Proof. exact options_outlive. Qed.
Print Assumptions C85_options_outlive_assemblers.

(** The native assemblers that are allocated are those of the Python assemblers that
    have not been collected. *)
Theorem C85_assemblers_freed : forall l s h,
  reached l s ->
  (exists o, In (h, Assembler o) (l_heap s)) <-> exists j p, In (j, p) (l_assemblers s) /\ ha_handle p = h.
Proof. exact assemblers_balance. Qed.
Print Assumptions C85_assemblers_freed.

(** An assembler gets the options it is made with, or the default of the module, and
    nothing else changes; a combination that is not supported never gets this far. *)
Theorem C85_options_passed : forall l s o op d s', reached l s -> act (MakeAssembler o op d) s = Returned s' ->
  exists h a, In (given_or_default o, h) (l_options s) /\ (forall t, ~ In (a, t) (l_heap s)) /\
    l_heap s' = (a, Assembler h) :: l_heap s /\ l_options s' = l_options s /\
    l_assemblers s' = (l_assemblers_made s, mkHeldAssembler (given_or_default o) a true) :: l_assemblers s.
Proof. exact options_passed. Qed.
Print Assumptions C85_options_passed.

(** Options and assemblers that the program has not given up can be used. *)
Theorem C85_use_succeeds : forall l s i h, reached l s -> In (i, h) (l_options s) -> act (UseOptions i) s = Returned s.
Proof. exact use_succeeds. Qed.
Print Assumptions C85_use_succeeds.

Theorem C85_assemble_succeeds : forall l s j p, reached l s -> In (j, p) (l_assemblers s) ->
  act (RunAssemble j Assembled) s = Returned s /\
  exists s', act (RunAssembleSingular j Assembled) s = Returned s' /\
    l_heap s' = l_heap s /\ l_options s' = l_options s /\ l_assemblers s' = l_assemblers s.
Proof. exact assemble_succeeds. Qed.
Print Assumptions C85_assemble_succeeds.

(** Wherever a pointer is followed, memory that was freed and objects of another kind are
    reported. *)
Theorem C85_monitor : forall s,
  (forall i h, assoc Nat.eqb i (l_options s) = Some h -> (act (UseOptions i) s = Wild <-> behind h s <> Some Options)) /\
  (forall o op d h, assoc Nat.eqb (given_or_default o) (l_options s) = Some h -> d <> OtherDtype -> laplace_accepts op d = true ->
    (act (MakeAssembler o op d) s = Wild <-> behind h s <> Some Options)) /\
  (forall j p, assoc Nat.eqb j (l_assemblers s) = Some p -> ha_owned p = true ->
    (act (CollectAssembler j) s = Wild <-> forall x, behind (ha_handle p) s <> Some (Assembler x))) /\
  (forall j p r, assoc Nat.eqb j (l_assemblers s) = Some p ->
    (act (RunAssemble j r) s = Wild <-> forall x, behind (ha_handle p) s = Some (Assembler x) -> behind x s <> Some Options)).
Proof. exact wild_reports. Qed.
Print Assumptions C85_monitor.

(** Only programs give things up: what an action does not collect stays. *)
Theorem C85_kept : forall l s a s' i h j p, reached l s -> (act a s = Returned s' \/ act a s = Threw s') ->
  (In (i, h) (l_options s) -> a <> CollectOptions i -> In (i, h) (l_options s')) /\
  (In (j, p) (l_assemblers s) -> a <> CollectAssembler j -> In (j, p) (l_assemblers s')).
Proof. exact kept. Qed.
Print Assumptions C85_kept.

(** A native matrix is left only by a conversion that ran out of memory. *)
Theorem C85_matrices_freed : forall l s, reached l s -> length (matrix_addresses s) <= times_no_memory l.
Proof. exact matrices_freed. Qed.
Print Assumptions C85_matrices_freed.

Example C85_program : reached program after_program /\ In (2, mkHeldAssembler 0 6 true) (l_assemblers after_program) /\ length (matrix_addresses after_program) = 1.
Proof. split; [exact program_reaches | split; [now left | reflexivity]]. Qed.

(** ** C86: nothing stays allocated once all Python objects are gone *)

(** The claim is false: options are never freed, so any number of them is left. *)
Theorem C86_no_leak_refuted : forall n, exists l s,
  reached l s /\ all_collected s /\ times_no_memory l = 0 /\ length (options_addresses s) = S n.
Proof. exact options_leak. Qed.
Print Assumptions C86_no_leak_refuted.

(** Every options object ever made is still allocated. *)
Theorem C86_options_accumulate : forall l s,
  reached l s -> NoDup (options_addresses s) /\ length (options_addresses s) = S (times_options l).
Proof. exact options_accumulate. Qed.
Print Assumptions C86_options_accumulate.

(** A program that uses the default options only leaves nothing else. *)
Theorem C86_default_options_clean : forall l s,
  reached l s -> all_collected s -> times_options l = 0 -> times_no_memory l = 0 -> exists h, l_heap s = [(h, Options)].
Proof. exact clean_without_options. Qed.
Print Assumptions C86_default_options_clean.

Example C86_clean_case :
  let l := [MakeAssembler None SingleLayerOp F64; RunAssembleSingular 0 Assembled; MakeAssembler None SingleLayerOp F32; CollectAssembler 0; CollectAssembler 1] in
  exists s, reached l s /\ all_collected s /\ times_options l = 0 /\ times_no_memory l = 0 /\ l_heap s = [(0, Options)].
Proof.
  eexists. split; [eexists; split; [reflexivity | vm_compute; reflexivity]|].
  split; [split; [reflexivity | now exists 0]|]. repeat split.
Qed.
