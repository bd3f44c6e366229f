(** * The sparse matrix in Python *)
From Coq Require Import Ring_theory Ring QArith Qcanon.
From Verif Require Import Base BaseFacts Topology DofMap Space Options Scalar Integrand CellPair Operators SpecLocal Interleave Assembly SpecAssembly AssemblySingular AssemblyExact AssemblyResults SpecAlgebra
  Python PythonResults PythonAssembly PythonAssemblyResults PythonSparse SpecPythonSparse LocalExamples AssemblyExamples AlgebraExamples.
Local Open Scope nat_scope.

Lemma copied_id {A : Type} (l : list A) : copied (length l) l = Ok l.
Proof. exact (py_copy_id A l). Qed.

Lemma last_nth_error {A : Type} (l : list A) d n x : length l = n + 1 -> nth_error l n = Some x -> last l d = x.
Proof.
  revert n. induction l as [|y l IH]; intros n L E; [cbn in L; lia|].
  destruct l as [|z l].
  - cbn in L. assert (n = 0) by lia. subst n. cbn in E. now inversion E.
  - destruct n as [|n]; [cbn in L; lia|]. cbn [nth_error] in E. change (last (z :: l) d = x). apply (IH n); [cbn in *; lia|exact E].
Qed.

(** Arrays that fit together arrive as they are. *)
Theorem convert_same {T : Type} (m : csr_arrays T) : compressed m -> convert_to_scipy m = PyReturn m.
Proof.
  intros [H1 H2 H3 H4 H5 H6]. unfold convert_to_scipy, matrix_csr_data_size, matrix_csr_indices_size, matrix_csr_indptr_size.
  rewrite !copied_id. cbn [from_native py_then]. unfold scipy_csr, matrix_shape0, matrix_shape1. cbn [fst].
  rewrite H1, Nat.eqb_refl. cbn [negb]. destruct (cs_indptr m) as [|p l] eqn:P; [discriminate H2|]. cbn in H2. inversion H2; subst p. cbn [nth Nat.eqb negb].
  rewrite H5, Nat.eqb_refl. cbn [negb]. rewrite (last_nth_error (0 :: l) 0 (fst (cs_shape m)) (length (cs_data m)) H1 H3), Nat.ltb_irrefl.
  rewrite <- P. destruct m as [[r c] d i q]. reflexivity.
Qed.

(** The conversion is never undefined and never ends the process. *)
Theorem convert_defined {T : Type} (m : csr_arrays T) : convert_to_scipy m = PyReturn m \/ convert_to_scipy m = PyRaise.
Proof.
  unfold convert_to_scipy, matrix_csr_data_size, matrix_csr_indices_size, matrix_csr_indptr_size.
  rewrite !copied_id. cbn [from_native py_then]. unfold scipy_csr, matrix_shape0, matrix_shape1. destruct m as [[r c] d i q]. cbn [cs_shape cs_data cs_indices cs_indptr fst snd].
  repeat match goal with |- context [if ?b then _ else _] => destruct b; [now right|] end. now left.
Qed.

(** The matrix without entries. *)
Definition no_entries (T : Type) (rows cols : nat) : csr_arrays T := mkCsr (rows, cols) [] [] (repeat 0 (rows + 1)).

Lemma nth_error_zeros n i x : nth_error (repeat 0 n) i = Some x -> x = 0.
Proof. revert i. induction n as [|n IH]; intros [|i] H; try discriminate H; cbn in H; [now inversion H|now apply IH in H]. Qed.

Lemma no_entries_compressed T rows cols : compressed (no_entries T rows cols).
Proof.
  split; cbn [no_entries cs_shape cs_data cs_indices cs_indptr fst snd length].
  - apply repeat_length.
  - rewrite Nat.add_1_r. reflexivity.
  - apply nth_error_repeat. lia.
  - intros i b e Hb He. apply nth_error_zeros in Hb. lia.
  - reflexivity.
  - intros j [].
Qed.

Lemma no_entries_entry {T R : Type} (S : scalar T R) rows cols i j : csr_entry S (no_entries T rows cols) i j = s_zero S.
Proof.
  unfold csr_entry, no_entries. cbn [cs_indptr cs_indices cs_data combine].
  destruct (nth_error _ i) as [b|]; [|reflexivity]. destruct (nth_error _ (i + 1)) as [e|]; [|reflexivity].
  rewrite skipn_nil, firstn_nil. reflexivity.
Qed.

Theorem python_sparse {T R : Type} (S : scalar T R) (X : externals R) rt wmod from_aij
    (a : typed (operator T R * options)) (trial test : typed (fspace T R)) deg :
  legal_runtime (s_add S) rt -> adds_up S from_aij ->
  ty_dtype a = F32 \/ ty_dtype a = F64 -> ty_dtype trial = ty_dtype a -> ty_dtype test = ty_dtype a ->
  singular_setting X wmod (fst (ty_native a)) (snd (ty_native a)) deg (ty_native test) (ty_native trial) ->
  let shape := (global_size (fs_space (ty_native test)), global_size (fs_space (ty_native trial))) in
  exists m, assemble_singular_part S X rt wmod (fst (ty_native a)) (snd (ty_native a)) shape (ty_native trial) (ty_native test) = Ok m /\
    ((forall v, In v (sm_data m) -> s_large S v = false) ->
       exists c, py_singular_matrix S X rt wmod from_aij a trial test = PyReturn c /\ cs_shape c = shape /\ compressed c /\
         cs_data c = [] /\ forall i j, csr_entry S c i j = s_zero S) /\
    ((exists v, In v (sm_data m) /\ s_large S v = true) ->
       match from_aij shape (sm_rows m) (sm_cols m) (sm_data m) with
       | Some c => py_singular_matrix S X rt wmod from_aij a trial test = PyReturn c /\ cs_shape c = shape /\ compressed c /\
           forall i j, i < fst shape -> csr_entry S c i j = sparse_entry S m i j
       | None => py_singular_matrix S X rt wmod from_aij a trial test = PyAbort
       end).
Proof.
  intros HR A Hd Es Et HS shape.
  destruct (singular_part_inside S X rt wmod _ _ _ _ _ HR HS) as (m & E & Ri & Ci & Lr & Lc).
  destruct (singular_part_labels S X rt wmod _ _ _ _ _ HR HS) as (m' & ks & E' & Sh & _).
  assert (m' = m) by congruence. subst m'. exists m. split; [exact E|].
  destruct (python_singular S X rt wmod a trial test m Hd Es Et E) as (Big & Small).
  unfold py_singular_matrix. split; intros H.
  - rewrite (Small H), Sh. cbn [py_then native_csr from_native]. exists (no_entries T (fst shape) (snd shape)).
    split; [exact (convert_same _ (no_entries_compressed T _ _))|]. repeat split; try apply no_entries_compressed. intros. apply no_entries_entry.
  - rewrite (Big H), Sh. cbn [py_then native_csr]. change (shape_of (ty_native test) (ty_native trial)) with shape. destruct (from_aij shape (sm_rows m) (sm_cols m) (sm_data m)) as [c|] eqn:F; [|reflexivity].
    destruct (A shape _ _ _ c Lr Lc Ri Ci F) as (S1 & S2 & S3). cbn [unwrap from_native py_then].
    split; [exact (convert_same c S2)|]. split; [exact S1|]. split; [exact S2|]. intros i j Hi. rewrite (S3 i j Hi). reflexivity.
Qed.

(** ** An implementation of [from_aij] *)

Definition row_of {T : Type} (l : list (nat * nat * T)) (i : nat) : list (nat * T) :=
  map (fun x => (snd (fst x), snd x)) (filter (fun x => fst (fst x) =? i) l).
Definition by_rows {T : Type} (shape : nat * nat) (rows cols : list nat) (data : list T) : option (csr_arrays T) :=
  let rs := map (row_of (combine (combine rows cols) data)) (seq 0 (fst shape)) in
  Some (mkCsr shape (map snd (concat rs)) (map fst (concat rs)) (map (fun n => length (concat (firstn n rs))) (seq 0 (fst shape + 1)))).

Lemma nth_error_map_seq' {A : Type} (f : nat -> A) n i : i < n -> nth_error (map f (seq 0 n)) i = Some (f i).
Proof. intros L. apply map_nth_error. rewrite (nth_error_nth' _ 0) by now rewrite seq_length. now rewrite seq_nth by exact L. Qed.
Lemma nth_error_map_seq {A : Type} (f : nat -> A) n i x : nth_error (map f (seq 0 n)) i = Some x -> i < n /\ x = f i.
Proof.
  intros H. assert (L : i < n) by (rewrite <- (seq_length n 0), <- (map_length f); apply nth_error_Some; congruence).
  split; [exact L|]. rewrite (nth_error_map_seq' f n i L) in H. now inversion H.
Qed.

Lemma combine_fst_snd {A B : Type} (l : list (A * B)) : combine (map fst l) (map snd l) = l.
Proof. induction l as [|[a b] l IH]; cbn; [reflexivity|]. now rewrite IH. Qed.

Lemma concat_firstn_S {A : Type} (rs : list (list A)) i r : nth_error rs i = Some r -> concat (firstn (i + 1) rs) = concat (firstn i rs) ++ r.
Proof.
  revert i. induction rs as [|x rs IH]; intros [|i] H; try discriminate H; cbn in H.
  - inversion H; subst. cbn. now rewrite app_nil_r.
  - cbn. rewrite (IH i H). now rewrite app_assoc.
Qed.

Lemma row_segment {A : Type} (rs : list (list A)) i r : nth_error rs i = Some r ->
  firstn (length (concat (firstn (i + 1) rs)) - length (concat (firstn i rs))) (skipn (length (concat (firstn i rs))) (concat rs)) = r.
Proof.
  intros H. rewrite (concat_firstn_S rs i r H), app_length, Nat.add_comm, Nat.add_sub.
  rewrite <- (firstn_skipn (i + 1) rs) at 2. rewrite concat_app, (concat_firstn_S rs i r H), <- app_assoc.
  rewrite skipn_app, skipn_all, Nat.sub_diag. cbn [app skipn].
  now rewrite firstn_app, firstn_all, Nat.sub_diag, firstn_O, app_nil_r.
Qed.

Theorem by_rows_adds_up {T R : Type} (S : scalar T R) : exact S -> adds_up S (@by_rows T).
Proof.
  intros ((one & RT) & _) shape rows cols data m Lr Lc Ri Ci E. unfold by_rows in E. inversion E; subst m; clear E.
  set (tr := combine (combine rows cols) data). set (rs := map (row_of tr) (seq 0 (fst shape))).
  assert (Lrs : length rs = fst shape) by (unfold rs; now rewrite map_length, seq_length).
  split; [reflexivity|]. split.
  - split; cbn [cs_shape cs_data cs_indices cs_indptr].
    + now rewrite map_length, seq_length.
    + rewrite nth_error_map_seq' by lia. reflexivity.
    + rewrite nth_error_map_seq' by lia. rewrite map_length. now rewrite <- Lrs, firstn_all.
    + intros i b e Hb He. apply nth_error_map_seq in Hb. apply nth_error_map_seq in He. destruct Hb as [Lb ->]. destruct He as [Le ->].
      destruct (nth_error rs i) as [r|] eqn:Er; [|apply nth_error_None in Er; lia].
      rewrite (concat_firstn_S rs i r Er), app_length. lia.
    + now rewrite !map_length.
    + intros j Hj. apply in_map_iff in Hj. destruct Hj as ([j' v] & Ej & Hj). cbn in Ej. subst j'. apply in_concat in Hj. destruct Hj as (r & Hr & Hj).
      unfold rs in Hr. apply in_map_iff in Hr. destruct Hr as (i & Er & _). subst r. unfold row_of in Hj. apply in_map_iff in Hj.
      destruct Hj as ([[i' j'] v'] & Ej & Hj). cbn in Ej. inversion Ej; subst. apply filter_In in Hj. destruct Hj as [Hj _].
      apply in_combine_l in Hj. apply in_combine_r in Hj. now apply Ci.
  - intros i j Hi. unfold csr_entry. cbn [cs_indptr cs_indices cs_data]. rewrite !nth_error_map_seq' by lia.
    rewrite combine_fst_snd. assert (Er : nth_error rs i = Some (row_of tr i)) by (unfold rs; now rewrite nth_error_map_seq').
    rewrite (row_segment rs i _ Er). unfold row_of. rewrite (total_map S), (total_filter S one RT). apply (total_ext S).
    intros [[i' j'] v] _. cbn [fst snd]. destruct (i' =? i); reflexivity.
Qed.

(** ** Example *)

(** Triplets at the same place are added, a row may be empty. *)
Lemma by_rows_example :
  by_rows (3, 2) [2; 0; 2; 2] [1; 0; 0; 1] [1; 2; 3; 4]%nat = Some (mkCsr (3, 2) [2; 1; 3; 4] [0; 1; 0; 1] [0; 1; 1; 4]).
Proof. reflexivity. Qed.

Lemma sparse_example :
  let a := mkTyped F64 (demo_op, demo_options) in let trial := mkTyped F64 screen2_dp0 in let test := mkTyped F64 screen2_p1 in
  (exact qc_scalar /\ legal_runtime (s_add qc_scalar) demo_rt /\ adds_up qc_scalar (@by_rows Qc) /\
   singular_setting demo_externals 256 (fst (ty_native a)) (snd (ty_native a)) (fun _ _ => 2) (ty_native test) (ty_native trial)) /\
  match py_singular_matrix qc_scalar demo_externals demo_rt 256 (@by_rows Qc) a trial test with
  | PyReturn c => (cs_shape c, length (cs_data c), length (cs_indptr c))
  | _ => ((0, 0), 0, 0)
  end = ((9, 8), 150, 10).
Proof.
  intros a trial test. split; [split; [exact qc_exact|split; [apply sequential_legal|split; [exact (by_rows_adds_up qc_scalar qc_exact)|exact demo_singular_setting]]]|].
  vm_compute. reflexivity.
Qed.
