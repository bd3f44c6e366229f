(** * Python: assembly and queries of function spaces *)
From Coq Require Import QArith Qcanon Ring_theory.
From Verif Require Import Base BaseFacts Topology TopologyFacts DofMap DofMapFacts SpecDof DofMapResults Process Space SpecSpace
  DofExamples SpaceScript SpaceResults Options Adjacency SpecAdjacency AdjacencyFacts Scalar Integrand CellPair Operators SpecLocal LocalResults Interleave Assembly SpecAssembly
  AssemblySingular AssemblyDense AssemblyExact AssemblyResults SpecAlgebra AlgebraFacts DistributedResults Python PythonAssembly
  LocalExamples AssemblyExamples AlgebraExamples.

Local Open Scope nat_scope.

Section Results.
Context {T R : Type} (S : scalar T R) (X : externals R).

Lemma check_Ok {A B C : Type} (a : typed A) (trial : typed B) (test : typed C) d :
  d = F32 \/ d = F64 -> ty_dtype a = d -> ty_dtype trial = d -> ty_dtype test = d -> py_check a trial test = PyReturn tt.
Proof. intros [->| ->] E1 E2 E3; unfold py_check, py_space_dtype, py_assembler_dtype; rewrite E1, E2, E3; reflexivity. Qed.

Lemma dtype_eqb_spec a b : dtype_eqb a b = true <-> a = b.
Proof. split; [destruct a, b; cbn; congruence|intros ->; now destruct b]. Qed.

Lemma check_inv {A B C : Type} (a : typed A) (trial : typed B) (test : typed C) x :
  py_check a trial test = PyReturn x -> ty_dtype trial = ty_dtype a /\ ty_dtype test = ty_dtype a /\ (ty_dtype a = F32 \/ ty_dtype a = F64).
Proof.
  unfold py_check, py_space_dtype, py_assembler_dtype. cbn [lib exported].
  destruct (ty_dtype a), (ty_dtype trial), (ty_dtype test); cbn; intros H; try discriminate H; auto.
Qed.

Lemma check_raises {A B C : Type} (a : typed A) (trial : typed B) (test : typed C) :
  ~ (ty_dtype trial = ty_dtype a /\ ty_dtype test = ty_dtype a /\ (ty_dtype a = F32 \/ ty_dtype a = F64)) -> py_check a trial test = PyRaise.
Proof.
  unfold py_check, py_space_dtype, py_assembler_dtype. cbn [lib exported].
  destruct (ty_dtype a), (ty_dtype trial), (ty_dtype test); cbn; intros H; try reflexivity; exfalso; apply H; auto.
Qed.

(** The matrix in Python. *)
Theorem python_matrix rt wmod (a : typed (operator T R * options)) (trial test : typed (fspace T R)) deg pts ct :
  exact S -> legal_runtime (s_add S) rt ->
  ty_dtype a = F32 \/ ty_dtype a = F64 -> ty_dtype trial = ty_dtype a -> ty_dtype test = ty_dtype a ->
  dense_setting X wmod (fst (ty_native a)) (snd (ty_native a)) deg pts ct (ty_native test) (ty_native trial) ->
  exists m val, py_assemble S X rt wmod a trial test = PyReturn m /\
    nd_rows m = global_size (fs_space (ty_native test)) /\ nd_cols m = global_size (fs_space (ty_native trial)) /\
    (forall t s x y, t < ent_count (fs_grid (ty_native test)) 2 -> s < ent_count (fs_grid (ty_native trial)) 2 ->
       pair_value S X (fst (ty_native a)) deg pts (ty_native test) (ty_native trial) t s x y (val t s x y)) /\
    forall i j, nd_get m i j =
      if (i <? global_size (fs_space (ty_native test))) && (j <? global_size (fs_space (ty_native trial)))
      then PyReturn (matrix_entry S val (ty_native test) (ty_native trial) i j) else PyRaise.
Proof.
  intros ((one & RT) & _) L Hd Es Et D.
  destruct (assembled S one RT X rt wmod _ _ deg pts ct _ _ L D) as (m & val & E & Ln & V & H).
  exists (mkNdarray (global_size (fs_space (ty_native test))) (global_size (fs_space (ty_native trial))) m), val.
  split; [|split; [reflexivity|split; [reflexivity|split; [exact V|]]]].
  - unfold py_assemble. rewrite (check_Ok a trial test (ty_dtype a) Hd eq_refl Es Et). cbn [py_then lib exported nd_zeros nd_data nd_rows nd_cols].
    rewrite assemble_on_zeros; [|exact (ss_processes _ (dn_test _ _ _ _ _ _ _ _ _ D))|exact (ss_processes _ (dn_trial _ _ _ _ _ _ _ _ _ D))].
    now rewrite E.
  - intros i j. unfold nd_get. cbn [nd_rows nd_cols nd_data]. destruct (Nat.ltb_spec i (global_size (fs_space (ty_native test)))); [|reflexivity].
    destruct (Nat.ltb_spec j (global_size (fs_space (ty_native trial)))); [|reflexivity]. cbn [andb]. now rewrite H.
Qed.

(** Every call with other types raises, before any native code is run. *)
Theorem python_types rt wmod (a : typed (operator T R * options)) (trial test : typed (fspace T R)) :
  ~ (ty_dtype trial = ty_dtype a /\ ty_dtype test = ty_dtype a /\ (ty_dtype a = F32 \/ ty_dtype a = F64)) ->
  py_assemble S X rt wmod a trial test = PyRaise /\ py_assemble_singular S X rt wmod a trial test = PyRaise.
Proof. intros H. unfold py_assemble, py_assemble_singular. now rewrite (check_raises a trial test H). Qed.

(** The singular part in Python. *)
Theorem python_singular rt wmod (a : typed (operator T R * options)) (trial test : typed (fspace T R)) m :
  ty_dtype a = F32 \/ ty_dtype a = F64 -> ty_dtype trial = ty_dtype a -> ty_dtype test = ty_dtype a ->
  assemble_singular_part S X rt wmod (fst (ty_native a)) (snd (ty_native a))
    (global_size (fs_space (ty_native test)), global_size (fs_space (ty_native trial))) (ty_native trial) (ty_native test) = Ok m ->
  ((exists v, In v (sm_data m) /\ s_large S v = true) ->
     py_assemble_singular S X rt wmod a trial test = PyReturn (CsrFromAij (sm_shape m) (sm_rows m) (sm_cols m) (sm_data m))) /\
  ((forall v, In v (sm_data m) -> s_large S v = false) ->
     py_assemble_singular S X rt wmod a trial test = PyReturn (CsrEmpty (sm_shape m))).
Proof.
  intros Hd Es Et E. destruct (singular_threshold S X rt wmod _ _ _ _ m E) as (A & B).
  unfold py_assemble_singular. rewrite (check_Ok a trial test (ty_dtype a) Hd eq_refl Es Et). cbn [py_then lib exported].
  split; intros H; [rewrite (A H)|rewrite (B H)]; reflexivity.
Qed.

(** The data type of a space. *)
Theorem space_dtype_real {A : Type} (s : typed A) : py_space_dtype s = PyReturn (ty_dtype s) <-> ty_dtype s = F32 \/ ty_dtype s = F64.
Proof. unfold py_space_dtype. cbn [lib exported]. destruct (ty_dtype s); split; intros H; auto; try discriminate H; destruct H as [H|H]; discriminate H. Qed.

Theorem space_dtype_raises {A : Type} (s : typed A) : ty_dtype s = C32 \/ ty_dtype s = C64 -> py_space_dtype s = PyRaise.
Proof. intros [E|E]; unfold py_space_dtype; now rewrite E. Qed.

(** The singular correction. *)
Theorem correction_raises native (a : typed (operator T R * options)) trial test :
  @py_assemble_singular_correction T R native a trial test = PyRaise.
Proof.
  unfold py_assemble_singular_correction. destruct (py_check a trial test) eqn:E; try reflexivity.
  - exfalso. revert E. unfold py_check, py_space_dtype, py_assembler_dtype. cbn [lib exported].
    destruct (ty_dtype a), (ty_dtype trial), (ty_dtype test); discriminate.
  - exfalso. revert E. unfold py_check, py_space_dtype, py_assembler_dtype. cbn [lib exported].
    destruct (ty_dtype a), (ty_dtype trial), (ty_dtype test); discriminate.
Qed.

(** Ownership in a serial space. *)
Lemma serial_owned (fs : fspace T R) i : serial_space fs -> i < global_size (fs_space fs) -> ownership_of (fs_space fs) i = Ok Owned.
Proof.
  intros SF Hi. rewrite (serial_size fs SF) in Hi. destruct SF as [W F P Ow D (eager & sp & C & E) Np].
  destruct (serial_identity (fs_grid fs) (fs_family fs) (sp_dofmap (fs_space fs)) eager sp W F) as (_ & _ & Ls & H & _); auto.
  - intros c d j e p x (Hc & Hd & Hj). rewrite Ow; [discriminate|auto|].
    apply (wf_sub_lt _ W c d e Hc Hd). eapply nth_error_In; eauto.
  - rewrite <- E. apply H. now rewrite Ls.
Qed.

Theorem python_ownership native (s : typed (fspace T R)) i : serial_space (ty_native s) -> i < global_size (fs_space (ty_native s)) ->
  py_ownership native s i = PyReturn Owned.
Proof. intros SF Hi. unfold py_ownership. now rewrite (serial_owned _ i SF Hi). Qed.

(** On several processes it would raise for the others. *)
Theorem python_ownership_ghost native (s : typed (fspace T R)) i p x : ownership_of (fs_space (ty_native s)) i = Ok (Ghost p x) ->
  py_ownership native s i = PyRaise.
Proof. intros H. unfold py_ownership. now rewrite H. Qed.
End Results.

(** An assembler for complex spaces never works. *)
Lemma complex_dtype : exists s : typed (fspace Qc Qc), serial_space (ty_native s) /\ ty_dtype s = C64 /\ py_space_dtype s <> PyReturn (ty_dtype s) /\ py_space_dtype s = PyRaise.
Proof. exists (mkTyped C64 screen2_linear). split; [exact screen2_linear_serial|]. split; [reflexivity|]. split; [discriminate|reflexivity]. Qed.

Lemma correction_missing native : exists (a : typed (operator Qc Qc * options)) trial test,
  dense_setting demo_externals 256 (fst (ty_native a)) (snd (ty_native a)) (fun _ _ => 2) (fun _ => 2) Triangle (ty_native test) (ty_native trial) /\
  ty_dtype a = F64 /\ ty_dtype trial = F64 /\ ty_dtype test = F64 /\
  forall m, py_assemble_singular_correction native a trial test <> PyReturn m.
Proof.
  exists (mkTyped F64 (laplace_single_layer demo_green, demo_options)), (mkTyped F64 screen2_linear), (mkTyped F64 screen2_linear).
  split; [apply linear_dense, (shipped_fitting qc_scalar); constructor|]. repeat (split; [reflexivity|]). intros m. rewrite correction_raises. discriminate.
Qed.

Lemma python_example :
  let a := mkTyped F64 (laplace_double_layer demo_green, demo_options) in let s := mkTyped F64 screen2_linear in
  (exact qc_scalar /\ legal_runtime (s_add qc_scalar) demo_rt /\
   dense_setting demo_externals 256 (fst (ty_native a)) (snd (ty_native a)) (fun _ _ => 2) (fun _ => 2) Triangle (ty_native s) (ty_native s)) /\
  py_assemble qc_scalar demo_externals demo_rt 256 a s (mkTyped F32 screen2_linear) = PyRaise.
Proof.
  intros a s. split; [split; [exact qc_exact|split; [apply sequential_legal|]]|].
  - apply linear_dense, (shipped_fitting qc_scalar); constructor.
  - apply python_types. intros (_ & H & _). discriminate H.
Qed.

Lemma native_outcomes (A : Type) (r : res A) :
  (forall x, from_native r = PyReturn x <-> r = Ok x) /\ (from_native r = PyUndefined <-> r = UB) /\ from_native r <> PyRaise.
Proof.
  destruct r as [a| | |]; cbn; (split; [intros x; split; intros H|split; [split; intros H|]]); try discriminate; try (now inversion H); reflexivity.
Qed.
