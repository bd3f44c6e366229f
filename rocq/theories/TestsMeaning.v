(** * What a passing test says *)
From Coq Require Import ZArith.
From Verif Require Import Base BaseFacts Topology DofMap Process Space Colouring Python PythonFacts PythonResults PythonAssembly Options Scalar Integrand CellPair Operators
  Interleave Assembly Tests SpecTests TestsResults.

Lemma check_iff b : check b = Ok tt <-> b = true.
Proof. destruct b; cbn; split; congruence. Qed.

Lemma bind_iff {A : Type} (m : res A) (k : A -> res unit) : (x <- m ;; k x) = Ok tt <-> exists x, m = Ok x /\ k x = Ok tt.
Proof.
  split.
  - intros H. destruct m as [a| | |]; cbn [bind] in H; try discriminate. now exists a.
  - intros (x & -> & H). exact H.
Qed.

Lemma then_iff (m k : res unit) : (_ <- m ;; k) = Ok tt <-> m = Ok tt /\ k = Ok tt.
Proof. rewrite bind_iff. split; [intros ([] & E & H); auto|intros (E & H); now exists tt]. Qed.

Lemma for_each_iff {A : Type} (f : A -> res unit) l : for_each f l = Ok tt <-> forall x, In x l -> f x = Ok tt.
Proof.
  split; [|apply for_each_ok]. unfold for_each. induction l as [|x l IH]; cbn [foldM]; [intros _ y []|].
  intros H. destruct (f x) as [[]| | |] eqn:E; cbn [bind] in H; try discriminate. intros y [<-|Hy]; auto.
Qed.

Lemma apart_iff (d : list nat) : (forall i n m, nth_error d i = Some n -> In m (skipn (i + 1) d) -> n <> m) <-> NoDup d.
Proof.
  induction d as [|x d IH]; split.
  - constructor.
  - intros _ i n m H. destruct i; discriminate.
  - intros H. constructor.
    + intros Hx. apply (H 0 x x); auto.
    + apply IH. intros i n m Hi Hm. apply (H (Datatypes.S i) n m); auto.
  - intros Nd i n m Hi Hm. inversion Nd as [|? ? Nx Nd']; subst. destruct i as [|i]; cbn in Hi, Hm.
    + injection Hi as <-. intros <-. contradiction.
    + apply (proj2 IH Nd' i n m); auto.
Qed.

Theorem run_test_means : forall g fam, run_test g fam = Ok tt <->
  exists dm, assign_dofs 0 g fam = Ok dm /\ (forall o, In o (dm_owner dm) -> ow_rank o = 0) /\
    (forall d, In d (dm_cells dm) -> NoDup d /\ forall n, In n d -> n < dm_size dm) /\
    forall l d n, In l (dm_ents dm) -> In d l -> In n d -> n < dm_size dm.
Proof.
  intros g fam. unfold run_test. rewrite bind_iff. split; intros (dm & A & H); exists dm; (split; [exact A|]).
  - rewrite !then_iff, !for_each_iff in H. destruct H as (H1 & H2 & H3). split; [|split].
    + intros o Ho. specialize (H1 o Ho). rewrite check_iff in H1. now apply Nat.eqb_eq.
    + intros d Hd. specialize (H2 d Hd). rewrite for_each_iff in H2.
      assert (K : forall i n, nth_error d i = Some n -> n < dm_size dm /\ forall m, In m (skipn (i + 1) d) -> n <> m).
      { intros i n Hi. specialize (H2 (i, n) (proj2 (In_enumerate d i n) Hi)). cbn [fst snd] in H2. rewrite then_iff, check_iff, for_each_iff in H2.
        destruct H2 as (L & N). split; [now apply Nat.ltb_lt|]. intros m Hm. specialize (N m Hm). rewrite check_iff in N.
        apply Bool.negb_true_iff, Nat.eqb_neq in N. exact N. }
      split.
      * apply apart_iff. intros i n m Hi Hm. now apply (K i n Hi).
      * intros n Hn. apply In_nth_error in Hn. destruct Hn as (i & Hi). apply (K i n Hi).
    + intros l d n Hl Hd Hn. specialize (H3 l Hl). rewrite for_each_iff in H3. specialize (H3 d Hd). rewrite for_each_iff in H3. specialize (H3 n Hn).
      rewrite check_iff in H3. now apply Nat.ltb_lt.
  - destruct H as (H1 & H2 & H3). rewrite !then_iff, !for_each_iff. split; [|split].
    + intros o Ho. apply check_iff, Nat.eqb_eq. auto.
    + intros d Hd. destruct (H2 d Hd) as (Nd & Lt). apply for_each_iff. intros (i, n) Hi. apply In_enumerate in Hi. cbn [fst snd]. rewrite then_iff, check_iff, for_each_iff. split.
      * apply Nat.ltb_lt, Lt. eapply nth_error_In; eauto.
      * intros m Hm. apply check_iff, Bool.negb_true_iff, Nat.eqb_neq. apply (proj2 (apart_iff d) Nd i n m Hi Hm).
    + intros l Hl. apply for_each_iff. intros d Hd. apply for_each_iff. intros n Hn. apply check_iff, Nat.ltb_lt. eauto.
Qed.

Theorem test_dofmap_means : forall g fam n, test_dofmap g fam n = Ok tt <-> exists sp, new_serial g fam = Ok sp /\ local_size sp = n /\ global_size sp = n.
Proof.
  intros g fam n. unfold test_dofmap. rewrite bind_iff. split; intros (sp & A & H); exists sp; (split; [exact A|]).
  - rewrite !then_iff, !check_iff in H. destruct H as (H1 & H2 & _). apply Nat.eqb_eq in H1, H2. lia.
  - rewrite !then_iff, !check_iff, !Nat.eqb_eq. split; [lia|]. split; [lia|reflexivity].
Qed.

Lemma test_classes_means g t classes : test_classes g t classes = Ok tt <-> classes_ok g t classes.
Proof.
  unfold test_classes, classes_ok. rewrite then_iff, check_iff, Nat.eqb_eq, for_each_iff. split; intros (H1 & H2); (split; [exact H1|]).
  - intros k k' l l' c N Hk Hk' Hc Hc'. specialize (H2 (k, l) (proj2 (In_enumerate _ _ _) Hk)). rewrite for_each_iff in H2.
    specialize (H2 (k', l') (proj2 (In_enumerate _ _ _) Hk')). cbn [fst snd] in H2. destruct (Nat.eqb_spec k k'); [contradiction|].
    rewrite for_each_iff in H2. specialize (H2 c Hc). rewrite for_each_iff in H2. specialize (H2 c Hc'). rewrite check_iff, Nat.eqb_refl in H2. discriminate.
  - intros (k, l) Hk. apply In_enumerate in Hk. apply for_each_iff. intros (k', l') Hk'. apply In_enumerate in Hk'. cbn [fst snd].
    destruct (Nat.eqb_spec k k') as [|N]; [reflexivity|]. apply for_each_iff. intros c Hc. apply for_each_iff. intros c' Hc'.
    apply check_iff, Bool.negb_true_iff, Nat.eqb_neq. intros <-. exact (H2 k k' l l' c N Hk Hk' Hc Hc').
Qed.

Lemma test_apart_means g d classes : test_apart g d classes = Ok tt <->
  forall l c c', In l classes -> In c l -> In c' l -> c <> c' ->
    entity_exists g 2 c = true /\ entity_exists g 2 c' = true /\ forall e, In e (g_sub g c d) -> ~ In e (g_sub g c' d).
Proof.
  unfold test_apart. rewrite for_each_iff. split; intros H.
  - intros l c c' Hl Hc Hc' N. specialize (H l Hl). rewrite for_each_iff in H. specialize (H c Hc). rewrite for_each_iff in H. specialize (H c' Hc').
    destruct (Nat.eqb_spec c c'); [contradiction|]. rewrite !then_iff, !check_iff, for_each_iff in H. destruct H as (H1 & H2 & H3).
    split; [exact H1|]. split; [exact H2|]. intros e He He'. specialize (H3 e He). rewrite for_each_iff in H3. specialize (H3 e He').
    rewrite check_iff, Nat.eqb_refl in H3. discriminate.
  - intros l Hl. apply for_each_iff. intros c Hc. apply for_each_iff. intros c' Hc'. destruct (Nat.eqb_spec c c') as [|N]; [reflexivity|].
    destruct (H l c c' Hl Hc Hc' N) as (H1 & H2 & H3). rewrite !then_iff, !check_iff, for_each_iff. split; [exact H1|]. split; [exact H2|].
    intros e He. apply for_each_iff. intros e' He'. apply check_iff, Bool.negb_true_iff, Nat.eqb_neq. intros <-. exact (H3 e He He').
Qed.

Lemma unwrap_iff {A : Type} (o : option A) x : unwrap o = Ok x <-> o = Some x.
Proof. destruct o; cbn; split; congruence. Qed.

Theorem test_colouring_means : forall g t fam d, test_colouring g t fam d = Ok tt <->
  exists sp col classes, new_serial g fam = Ok sp /\ cell_colouring g fam = Ok col /\ assoc ct_eqb t col = Some classes /\ classes_ok g t classes /\
    forall l c c', In l classes -> In c l -> In c' l -> c <> c' ->
      entity_exists g 2 c = true /\ entity_exists g 2 c' = true /\ forall e, In e (g_sub g c d) -> ~ In e (g_sub g c' d).
Proof.
  intros g t fam d. unfold test_colouring. rewrite bind_iff. split.
  - intros (sp & A & H). rewrite bind_iff in H. destruct H as (col & C & H). rewrite bind_iff in H. destruct H as (classes & U & H).
    rewrite unwrap_iff in U. rewrite then_iff, test_classes_means, test_apart_means in H. exists sp, col, classes. tauto.
  - intros (sp & col & classes & A & C & U & H1 & H2). exists sp. split; [exact A|]. rewrite bind_iff. exists col. split; [exact C|].
    rewrite bind_iff. exists classes. split; [now apply unwrap_iff|]. now rewrite then_iff, test_classes_means, test_apart_means.
Qed.

Theorem test_one_means : forall g t fam, test_colouring_one g t fam = Ok tt <->
  exists sp col classes, new_serial g fam = Ok sp /\ cell_colouring g fam = Ok col /\ assoc ct_eqb t col = Some classes /\ classes_ok g t classes /\ length classes = 1.
Proof.
  intros g t fam. unfold test_colouring_one. rewrite bind_iff. split.
  - intros (sp & A & H). rewrite bind_iff in H. destruct H as (col & C & H). rewrite bind_iff in H. destruct H as (classes & U & H).
    rewrite unwrap_iff in U. rewrite then_iff, test_classes_means, check_iff, Nat.eqb_eq in H. exists sp, col, classes. tauto.
  - intros (sp & col & classes & A & C & U & H1 & H2). exists sp. split; [exact A|]. rewrite bind_iff. exists col. split; [exact C|].
    rewrite bind_iff. exists classes. split; [now apply unwrap_iff|]. now rewrite then_iff, test_classes_means, check_iff, Nat.eqb_eq.
Qed.

(** ** Python *)

Lemma each_below_iff n (f : nat -> res unit) : for_each f (seq 0 n) = Ok tt <-> forall i, i < n -> f i = Ok tt.
Proof. rewrite for_each_iff. split; intros H i Hi; apply H; [apply in_seq; lia|apply in_seq in Hi; lia]. Qed.

Lemma length_means {A : Type} (m : res (list A)) n : (l <- m ;; dofs <- py_copy l ;; check (length dofs =? n)) = Ok tt <-> exists l, m = Ok l /\ length l = n.
Proof.
  rewrite bind_iff. split; intros (l & E & H); exists l; (split; [exact E|]).
  - rewrite py_copy_id in H. cbn [bind] in H. rewrite check_iff in H. now apply Nat.eqb_eq.
  - rewrite py_copy_id. cbn [bind]. now apply check_iff, Nat.eqb_eq.
Qed.

Theorem python_means : forall g p,
  (test_local_numbers g p = Ok tt <-> exists sp, new_serial g (lagrange p) = Ok sp /\
     (forall i, i < g_count g Point -> exists l, get_local_dof_numbers (sp_dofmap sp) 0 i = Ok l /\ length l = 1) /\
     (forall i, i < g_count g Interval -> exists l, get_local_dof_numbers (sp_dofmap sp) 1 i = Ok l /\ length l = p - 1) /\
     (forall i, i < g_count g Triangle -> exists l, get_local_dof_numbers (sp_dofmap sp) 2 i = Ok l /\ length l = (p - 1) * (p - 2) / 2)) /\
  (test_cell_dofs g p = Ok tt <-> exists sp, new_serial g (lagrange p) = Ok sp /\
     forall i, i < g_count g Triangle -> exists l, cell_dofs (sp_dofmap sp) i = Ok (Some l) /\ length l = (p + 1) * (p + 2) / 2) /\
  (test_global g p = Ok tt <-> exists sp, new_serial g (lagrange p) = Ok sp /\ local_size sp = global_size sp /\
     forall i, i < local_size sp -> global_dof_index sp i = Ok i) /\
  (test_ownership g p = Ok tt <-> exists sp, new_serial g (lagrange p) = Ok sp /\ local_size sp = global_size sp /\
     forall i, i < local_size sp -> exists o, ownership_of sp i = Ok o /\ is_owned o = true).
Proof.
  intros g p. split; [|split; [|split]].
  - unfold test_local_numbers. rewrite bind_iff. split; intros (sp & A & H); exists sp; (split; [exact A|]).
    + rewrite !then_iff, !each_below_iff in H. destruct H as (H1 & H2 & H3). split; [|split]; intros i Hi; apply length_means; auto.
    + destruct H as (H1 & H2 & H3). rewrite !then_iff, !each_below_iff. split; [|split]; intros i Hi; apply length_means; auto.
  - unfold test_cell_dofs. rewrite bind_iff. split; intros (sp & A & H); exists sp; (split; [exact A|]).
    + rewrite each_below_iff in H. intros i Hi. specialize (H i Hi). rewrite bind_iff in H. destruct H as (o & Eo & H). rewrite py_cell_dofs_id in H. cbn [bind] in H.
      rewrite bind_iff in H. destruct H as (l & El & H). rewrite unwrap_iff in El. subst o. rewrite check_iff, Nat.eqb_eq in H. now exists l.
    + apply each_below_iff. intros i Hi. destruct (H i Hi) as (l & El & Ll). rewrite bind_iff. exists (Some l). split; [exact El|].
      rewrite py_cell_dofs_id. cbn [bind unwrap]. now apply check_iff, Nat.eqb_eq.
  - unfold test_global. rewrite bind_iff. split; intros (sp & A & H); exists sp; (split; [exact A|]).
    + rewrite then_iff, check_iff, Nat.eqb_eq, each_below_iff in H. destruct H as (H1 & H2). split; [exact H1|]. intros i Hi. specialize (H2 i Hi).
      rewrite bind_iff in H2. destruct H2 as (n & En & H2). rewrite check_iff, Nat.eqb_eq in H2. now subst n.
    + rewrite then_iff, check_iff, Nat.eqb_eq, each_below_iff. destruct H as (H1 & H2). split; [exact H1|]. intros i Hi. rewrite bind_iff. exists i.
      split; [auto|]. apply check_iff, Nat.eqb_refl.
  - unfold test_ownership. rewrite bind_iff. split; intros (sp & A & H); exists sp; (split; [exact A|]).
    + rewrite then_iff, check_iff, Nat.eqb_eq, each_below_iff in H. destruct H as (H1 & H2). split; [exact H1|]. intros i Hi. specialize (H2 i Hi).
      rewrite bind_iff in H2. destruct H2 as (o & En & H2). rewrite check_iff in H2. now exists o.
    + rewrite then_iff, check_iff, Nat.eqb_eq, each_below_iff. destruct H as (H1 & H2). split; [exact H1|]. intros i Hi. rewrite bind_iff.
      destruct (H2 i Hi) as (o & Eo & Ho). exists o. split; [auto|]. now apply check_iff.
Qed.

Lemma py_then_iff {A : Type} (m : py_result A) (k : A -> py_result unit) : py_then m k = PyReturn tt <-> exists x, m = PyReturn x /\ k x = PyReturn tt.
Proof.
  split.
  - intros H. destruct m as [a| | |]; cbn [py_then] in H; try discriminate. now exists a.
  - intros (x & -> & H). exact H.
Qed.

Lemma py_loop_iff {A : Type} (f : A -> py_result unit) l : forall r, fold_left (fun r x => py_then r (fun _ => f x)) l r = PyReturn tt <->
  r = PyReturn tt /\ forall x, In x l -> f x = PyReturn tt.
Proof.
  induction l as [|x l IH]; intros r; cbn [fold_left].
  - split; [intros ->; split; [reflexivity|intros x []]|now intros (-> & _)].
  - rewrite IH, py_then_iff. split.
    + intros ((u & E & H) & Hl). destruct u. split; [exact E|]. intros y [<-|Hy]; auto.
    + intros (E & H). split; [exists tt; split; [exact E|apply H; now left]|]. intros y Hy. apply H. now right.
Qed.

Theorem singular_means : forall {T R : Type} (S : scalar T R) (X : externals R) rt rt' wmod close (a : typed (operator T R * options)) (trial test : typed (fspace T R)),
  test_singular S X rt rt' wmod close a trial test = PyReturn tt <->
  exists mat dense, py_assemble_singular S X rt wmod a trial test = PyReturn mat /\ py_assemble S X rt' wmod a trial test = PyReturn dense /\
    forall shape rows cols data, mat = CsrFromAij shape rows cols data ->
      forall i j v, In (i, j, v) (combine (combine rows cols) data) -> exists x, nd_get dense i j = PyReturn x /\ close x v = true.
Proof.
  intros T R S X rt rt' wmod close a trial test. unfold test_singular. rewrite py_then_iff. split.
  - intros (mat & E1 & H). rewrite py_then_iff in H. destruct H as (dense & E2 & H). exists mat, dense. split; [exact E1|]. split; [exact E2|].
    intros shape rows cols data -> i j v Hv. rewrite (py_loop_iff (fun ijv => py_then (nd_get dense (fst (fst ijv)) (snd (fst ijv))) (fun x => if close x (snd ijv) then PyReturn tt else PyRaise))) in H.
    destruct H as (_ & H). specialize (H (i, j, v) Hv). cbn [fst snd] in H. rewrite py_then_iff in H. destruct H as (x & Ex & H).
    exists x. split; [exact Ex|]. destruct (close x v); [reflexivity|discriminate].
  - intros (mat & dense & E1 & E2 & H). exists mat. split; [exact E1|]. rewrite py_then_iff. exists dense. split; [exact E2|].
    destruct mat as [sh|sh rows cols data]; [reflexivity|].
    rewrite (py_loop_iff (fun ijv => py_then (nd_get dense (fst (fst ijv)) (snd (fst ijv))) (fun x => if close x (snd ijv) then PyReturn tt else PyRaise))).
    split; [reflexivity|]. intros ((i, j), v) Hv. cbn [fst snd]. destruct (H sh rows cols data eq_refl i j v Hv) as (x & Ex & Hx).
    rewrite py_then_iff. exists x. split; [exact Ex|]. now rewrite Hx.
Qed.

(** Creation on one process either returns or panics: it never waits for a message. *)
Theorem serial_never_waits : forall g fam dm, assign_dofs 0 g fam = Ok dm ->
  (exists sp, new_serial g fam = Ok sp) \/ new_serial g fam = Panic.
Proof.
  intros g fam dm A. unfold new_serial. rewrite A. cbn [bind]. unfold fs_new. cbn [Nat.eqb].
  destruct (number_dofs 0 1 dm 0) as [st| | |]; cbn [local]; try (right; reflexivity).
  left. unfold exchange, send_requests, serve_requests. cbn. eexists. reflexivity.
Qed.

Example one_ghost : let g := grid_of_cells 0 Triangle 3 [[0; 1; 2]] in
  (exists sp, new_serial g (lagrange 1) = Ok sp) /\
  new_serial (with_ownership g (fun d e => if (d =? 0) && (e =? 1) then Ghost 1 0 else Owned)) (lagrange 1) = Panic.
Proof. cbn zeta. split; [eexists|]; vm_compute; reflexivity. Qed.
