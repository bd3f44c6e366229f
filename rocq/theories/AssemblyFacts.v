(** * Facts about the assembly of matrices *)
From Verif Require Import Base BaseFacts Topology TopologyFacts DofMap SpecDof Colouring Space SpecSpace Options Batch SpecBatch BatchFacts
  Adjacency SpecAdjacency AdjacencyFacts AdjacencyResults
  Scalar Integrand CellPair Operators SpecLocal LocalFacts LocalResults Interleave SpecAssembly InterleaveFacts Assembly.

(** ** Lists *)

Lemma skipn_blocks {A B : Type} (g : A -> list B) n (l : list A) j :
  (forall y, In y l -> length (g y) = n) -> skipn (n * j) (flat_map g l) = flat_map g (skipn j l).
Proof.
  revert l. induction j as [|j IH]; intros l L.
  - now rewrite Nat.mul_0_r.
  - destruct l as [|x l]; cbn [flat_map].
    + now rewrite !skipn_nil.
    + cbn [skipn]. rewrite <- IH by (intros; apply L; now right).
      rewrite skipn_app, (L x (or_introl eq_refl)).
      rewrite skipn_all2 by (rewrite (L x (or_introl eq_refl)); nia). cbn [app]. f_equal. nia.
Qed.

Lemma skipn_seq_cons a n j : j < n -> skipn j (seq a n) = (a + j) :: seq (a + Datatypes.S j) (n - Datatypes.S j).
Proof.
  revert a n. induction j as [|j IH]; intros a n H; (destruct n as [|n]; [lia|]).
  - cbn. rewrite Nat.add_0_r, Nat.sub_0_r. replace (a + 1) with (S a) by lia. reflexivity.
  - cbn [seq skipn]. rewrite IH by lia. f_equal; [lia|]. f_equal; lia.
Qed.

Lemma combine_map_r {A B C : Type} (g : B -> C) (l : list A) (m : list B) :
  combine l (map g m) = map (fun x => (fst x, g (snd x))) (combine l m).
Proof. revert m. induction l as [|a l IH]; intros [|b m]; cbn; f_equal; auto. Qed.

Lemma combine_swap {A B : Type} (l : list A) (m : list B) : combine m l = map (fun x => (snd x, fst x)) (combine l m).
Proof. revert m. induction l as [|a l IH]; intros [|b m]; cbn; f_equal; auto. Qed.

Lemma combine_enumerate {A C : Type} (g : nat -> C) (l : list A) :
  combine l (map g (seq 0 (length l))) = map (fun x => (snd x, g (fst x))) (enumerate l).
Proof.
  unfold enumerate. rewrite combine_map_r, (combine_swap (seq 0 (length l)) l), map_map. reflexivity.
Qed.

Lemma flat_map_flat_map {A B C : Type} (f : B -> list C) (g : A -> list B) l :
  flat_map f (flat_map g l) = flat_map (fun x => flat_map f (g x)) l.
Proof. induction l; cbn; [reflexivity|]. now rewrite flat_map_app, IHl. Qed.

Lemma map_flat_map {A B C : Type} (f : B -> C) (g : A -> list B) l : map f (flat_map g l) = flat_map (fun x => map f (g x)) l.
Proof. induction l; cbn; [reflexivity|]. now rewrite map_app, IHl. Qed.

Lemma flat_map_ext_in {A B : Type} (f g : A -> list B) l : (forall x, In x l -> f x = g x) -> flat_map f l = flat_map g l.
Proof. induction l as [|x l IH]; intros H; cbn; [reflexivity|]. rewrite H, IH; auto; [intros; apply H; now right|now left]. Qed.

Lemma flat_map_single {A B : Type} (f : A -> B) l : flat_map (fun x => [f x]) l = map f l.
Proof. induction l; cbn; f_equal; auto. Qed.

Lemma concat_map_flat_map {A B : Type} (f : A -> list B) l : concat (map f l) = flat_map f l.
Proof. now rewrite flat_map_concat_map. Qed.

Lemma list_prod_flat_map {A B : Type} (l : list A) (m : list B) : list_prod l m = flat_map (fun x => map (fun y => (x, y)) m) l.
Proof. induction l; cbn; f_equal; auto. Qed.

Lemma flat_map_list_prod {A B C : Type} (f : A * B -> list C) l m :
  flat_map f (list_prod l m) = flat_map (fun x => flat_map (fun y => f (x, y)) m) l.
Proof. rewrite list_prod_flat_map, flat_map_flat_map. apply flat_map_ext. intros x. apply flat_map_map. Qed.

Lemma Permutation_flat_map {A B : Type} (f : A -> list B) l l' : Permutation l l' -> Permutation (flat_map f l) (flat_map f l').
Proof.
  induction 1; cbn; auto.
  - now apply Permutation_app_head.
  - rewrite !app_assoc. apply Permutation_app_tail, Permutation_app_comm.
  - etransitivity; eauto.
Qed.

Lemma Permutation_list_prod_swap {A B : Type} (l : list A) (m : list B) :
  Permutation (list_prod l m) (flat_map (fun y => map (fun x => (x, y)) l) m).
Proof.
  induction l as [|x l IH]; cbn [list_prod].
  - induction m; cbn; auto.
  - rewrite IH. clear IH. induction m as [|y m IH]; cbn; [reflexivity|]. apply perm_skip.
    rewrite <- IH. rewrite !app_assoc. apply Permutation_app_tail, Permutation_app_comm.
Qed.

Lemma mapM_Forall2 {A B : Type} (f : A -> res B) l ys : mapM f l = Ok ys -> Forall2 (fun x y => f x = Ok y) l ys.
Proof.
  revert ys. induction l as [|x l IH]; intros ys H; cbn [mapM] in H.
  - inversion H. constructor.
  - apply bind_Ok_inv in H. destruct H as (y & Ey & H). apply bind_Ok_inv in H. destruct H as (ys' & Es & H).
    inversion H. constructor; auto.
Qed.

Lemma mapM_In {A B : Type} (f : A -> res B) l ys y : mapM f l = Ok ys -> In y ys -> exists x, In x l /\ f x = Ok y.
Proof.
  intros H. apply mapM_Forall2 in H. induction H as [|a b l ys Hab H IH]; intros Hy; [destruct Hy|].
  destruct Hy as [<-|Hy]; [exists a; split; auto; now left|].
  destruct (IH Hy) as (x & ? & ?). exists x. split; auto. now right.
Qed.

Lemma Forall2_concat {A B : Type} (Q : A -> B -> Prop) (ll : list (list A)) (mm : list (list B)) :
  Forall2 (fun l m => Forall2 Q l m) ll mm -> Forall2 Q (concat ll) (concat mm).
Proof. induction 1; cbn; auto using Forall2_app. Qed.

Lemma NoDup_blocks {A B : Type} (Q : A -> list B -> Prop) ps ls :
  Forall2 Q ps ls -> NoDup ps ->
  (forall p l, In p ps -> Q p l -> NoDup l) ->
  (forall p l p' l' x, In p ps -> In p' ps -> Q p l -> Q p' l' -> In x l -> In x l' -> p = p') ->
  NoDup (concat ls).
Proof.
  intros H. induction H as [|p l ps ls Hp H IH]; intros N D1 D2; cbn; [constructor|].
  inversion N; subst. apply NoDup_app_iff. split; [apply (D1 p); auto; now left|]. split.
  - apply IH; auto.
    + intros; eapply D1; eauto. now right.
    + intros; eapply D2; eauto; now right.
  - intros x Hx Hx'. apply in_concat in Hx'. destruct Hx' as (l' & Hl' & Hx').
    assert (E : exists p', In p' ps /\ Q p' l').
    { clear - H Hl'. induction H as [|a b ps ls Ha H IH]; [destruct Hl'|]. destruct Hl' as [<-|Hl'].
      - exists a. split; auto. now left.
      - destruct (IH Hl') as (p' & ? & ?). exists p'. split; auto. now right. }
    destruct E as (p' & Ip & Qp). assert (p = p') by (eapply D2; eauto; [now left|now right]). subst p'. contradiction.
Qed.

(** ** Batches *)

Lemma dense_tasks_Ok {A : Type} wmod batch (tc sc : list A) tasks : dense_tasks wmod batch tc sc = Ok tasks ->
  exists bs bt, tasks = list_prod bs bt /\ concat bs = tc /\ concat bt = sc.
Proof.
  unfold dense_tasks. intros H. destruct tc as [|x tc].
  - cbn in H. inversion H. exists [], [sc]. cbn. rewrite app_nil_r. auto.
  - assert (B : exists bt, block_loop (Datatypes.S (length sc)) wmod batch sc 0 = Ok bt).
    { cbn [test_loop] in H. replace (0 <? length (x :: tc)) with true in H by reflexivity.
      apply bind_Ok_inv in H. destruct H as (e & _ & H). apply bind_Ok_inv in H. destruct H as (b & _ & H).
      apply bind_Ok_inv in H. destruct H as (this & E & _). rewrite trial_loop_block in E.
      apply bind_Ok_inv in E. destruct E as (bt & E & _). eauto. }
    destruct B as (bt & Eb). rewrite (test_loop_block _ _ _ _ _ Eb) in H.
    apply bind_Ok_inv in H. destruct H as (bs & Es & H). inversion H.
    exists bs, bt. split; [symmetry; apply list_prod_flat_map|].
    split; [apply (block_loop_concat _ _ _ _ _ _ Es)|apply (block_loop_concat _ _ _ _ _ _ Eb)].
Qed.

(** The pairs of a task in the order of the loops. *)
Definition task_pairs (task : list nat * list nat) : list (nat * nat) :=
  flat_map (fun s => map (fun t => (t, s)) (fst task)) (snd task).

Lemma task_pairs_product bs bt :
  Permutation (flat_map task_pairs (list_prod bs bt)) (list_prod (concat bs) (concat bt)).
Proof.
  rewrite <- (tiles_product bs bt).
  induction (list_prod bs bt) as [|[a b] l IH]; cbn; [reflexivity|]. apply Permutation_app; [|exact IH].
  unfold task_pairs. cbn [fst snd]. symmetry. apply Permutation_list_prod_swap.
Qed.

Section Facts.
Context {T R : Type} (S : scalar T R) (X : externals R).

(** ** Entries of a local matrix *)

Lemma columns_table2 m n (f : nat -> nat -> T) :
  columns (mkArray [m; n] (table2 m n f)) = map (fun j => map (fun i => f i j) (seq 0 m)) (seq 0 n).
Proof.
  unfold columns. cbn [a_shape a_data]. apply map_ext_in. intros j Hj. apply in_seq in Hj.
  unfold table2. rewrite (skipn_blocks _ m) by (intros; now rewrite map_length, seq_length).
  rewrite skipn_seq_cons by lia. cbn [flat_map]. rewrite firstn_app, map_length, seq_length, Nat.sub_diag.
  cbn [firstn]. rewrite app_nil_r. cbn [Nat.add]. rewrite firstn_all2; [reflexivity|].
  now rewrite map_length, seq_length.
Qed.

(** Test DOF, trial DOF and value for each pair of basis functions. *)
Definition entry_list (td sd : list nat) (f : nat -> nat -> T) : list (nat * nat * T) :=
  flat_map (fun bj => map (fun ai => (snd ai, snd bj, f (fst ai) (fst bj))) (enumerate td)) (enumerate sd).

Lemma entries_table2 td sd (f : nat -> nat -> T) :
  entries td sd (mkArray [length td; length sd] (table2 (length td) (length sd) f)) = entry_list td sd f.
Proof.
  unfold entries, entry_list. rewrite columns_table2, combine_enumerate, flat_map_map. apply flat_map_ext. intros [b j].
  cbn [fst snd]. rewrite combine_enumerate, map_map. apply map_ext. intros [a i]. reflexivity.
Qed.

Lemma In_entries td sd (m : array T) i j v : In (i, j, v) (entries td sd m) -> In i td /\ In j sd.
Proof.
  unfold entries. rewrite in_flat_map. intros ([x col] & Hx & H). apply in_map_iff in H. destruct H as ([y e] & E & H).
  cbn in E, H. inversion E; subst. apply in_combine_l in Hx. apply in_combine_l in H. auto.
Qed.

Lemma NoDup_entries td sd (m : array T) : NoDup td -> NoDup sd -> NoDup (map fst (entries td sd m)).
Proof.
  intros Nt Ns. unfold entries. rewrite map_flat_map. generalize (columns m) as cols. intros cols. revert cols.
  induction Ns as [|j sd Hj Ns IH]; intros [|col cols]; cbn; try constructor.
  apply NoDup_app_iff. split; [|split].
  - rewrite map_map. cbn. generalize col as c. clear - Nt. induction Nt as [|i td Hi Nt IH]; intros [|e c]; cbn; try constructor; auto.
    intros H. apply in_map_iff in H. destruct H as ([y z] & E & H). inversion E; subst. apply in_combine_l in H. contradiction.
  - apply IH.
  - intros [i k] H H'. apply in_map_iff in H. destruct H as (e & E & H). apply in_map_iff in H. destruct H as (e' & E' & H).
    subst e. cbn in E. inversion E; subst. apply in_flat_map in H'. destruct H' as ([x c'] & Hx & H').
    apply in_map_iff in H'. destruct H' as (e & Ee & H'). apply in_map_iff in H'. destruct H' as (e2 & Ee' & H').
    subst e. cbn in Ee. inversion Ee; subst. apply in_combine_l in Hx. contradiction.
Qed.

Lemma address_inj rows i j i' j' : i < rows -> i' < rows -> i + rows * j = i' + rows * j' -> i = i' /\ j = j'.
Proof.
  intros Hi Hi' E. assert (j = j').
  { rewrite (Nat.div_unique (i + rows * j) rows j i) by lia.
    rewrite (Nat.div_unique (i' + rows * j') rows j' i') by lia. congruence. }
  subst. split; [|reflexivity]. nia.
Qed.

(** ** The writes of the non-singular part, in general *)

Section Writes.
Variables (O : operator T R) (rows : nat) (test trial : fspace T R).

(** What a pair of cells may write. *)
Definition block_of (p : nat * nat) (l : list (@op T)) : Prop :=
  l = [] \/ exists td sd m, cell_dofs_unchecked (sp_dofmap (fs_space test)) (fst p) = Ok td /\
    cell_dofs_unchecked (sp_dofmap (fs_space trial)) (snd p) = Ok sd /\ l = map (entry_op rows) (entries td sd m).

Definition blocks_of (ps : list (nat * nat)) (ops : list (@op T)) : Prop :=
  exists ls, Forall2 block_of ps ls /\ ops = concat ls.

Lemma blocks_of_app ps qs l m : blocks_of ps l -> blocks_of qs m -> blocks_of (ps ++ qs) (l ++ m).
Proof.
  intros (ls & F & ->) (ms & G & ->). exists (ls ++ ms). rewrite concat_app. split; auto using Forall2_app.
Qed.

Lemma blocks_of_nil : blocks_of [] [].
Proof. exists []. auto. Qed.

Lemma nonsingular_trial_blocks test_cells st s st' : nonsingular_trial S rows test trial test_cells st s = Ok st' ->
  exists l, snd st' = snd st ++ l /\ blocks_of (map (fun t => (t, s)) test_cells) l.
Proof.
  destruct st as [[a m] ops]. unfold nonsingular_trial. intros H.
  apply bind_Ok_inv in H. destruct H as (a1 & _ & H). apply bind_Ok_inv in H. destruct H as (sd & Esd & H).
  cbn [snd].
  apply (foldM_Ok_inv _ (fun done st => exists l, snd st = ops ++ l /\ blocks_of (map (fun t => (t, s)) done) l) _ _ _) in H.
  - exact H.
  - exists []. cbn. rewrite app_nil_r. split; auto. apply blocks_of_nil.
  - intros pre t post [[a2 m2] ops2] st2 _ (l & El & Bl) E. cbn [snd] in El. subst ops2.
    unfold nonsingular_pair in E. apply bind_Ok_inv in E. destruct E as (skip & _ & E).
    rewrite map_app. cbn [map]. destruct skip.
    + inversion E; subst st2. exists (l ++ []). split; [cbn; now rewrite app_nil_r|].
      apply blocks_of_app; auto. exists [[]]. split; auto. constructor; auto. now left.
    + apply bind_Ok_inv in E. destruct E as (a3 & _ & E). apply bind_Ok_inv in E. destruct E as ([a4 m4] & _ & E).
      apply bind_Ok_inv in E. destruct E as (td & Etd & E). inversion E; subst st2. cbn [fst snd] in *.
      exists (l ++ map (entry_op rows) (entries td sd m4)). split; [now rewrite <- app_assoc|].
      apply blocks_of_app; auto. exists [map (entry_op rows) (entries td sd m4)]. split; [|cbn; now rewrite app_nil_r].
      constructor; auto. right. exists td, sd, m4. auto.
Qed.

Lemma batch_blocks shape trial_t test_t trial_cells test_cells tp tw sp sw trial_table test_table ops r :
  rows = fst shape ->
  assemble_batch_nonadjacent S X O shape trial_t test_t trial trial_cells test test_cells tp tw sp sw trial_table test_table = Ok (ops, r) ->
  blocks_of (task_pairs (test_cells, trial_cells)) ops.
Proof.
  intros Er H. unfold assemble_batch_nonadjacent in H. rewrite <- Er in H.
  destruct (negb _) in H; [discriminate|].
  apply bind_Ok_inv in H. destruct H as (a & _ & H). apply bind_Ok_inv in H. destruct H as (e1 & _ & H).
  apply bind_Ok_inv in H. destruct H as (e2 & _ & H). apply bind_Ok_inv in H. destruct H as (st & E & H).
  inversion H; subst. unfold task_pairs. cbn [fst snd].
  apply (foldM_Ok_inv _ (fun done st => blocks_of (flat_map (fun s => map (fun t => (t, s)) test_cells) done) (snd st)) _ _ _) in E; auto.
  - apply blocks_of_nil.
  - intros pre s post st1 st2 _ B E1. destruct (nonsingular_trial_blocks _ _ _ _ E1) as (l & El & Bl).
    rewrite El, flat_map_app. cbn [flat_map]. rewrite app_nil_r. now apply blocks_of_app.
Qed.

(** The tasks of a phase. *)
Lemma phase_blocks wmod o shape test_t trial_t re colours tasks : rows = fst shape ->
  nonsingular_phase S X wmod O o shape trial test test_t trial_t re colours = Ok tasks ->
  exists ps, Permutation ps (list_prod (fst colours) (snd colours)) /\ blocks_of ps (concat tasks).
Proof.
  intros Er H. unfold nonsingular_phase in H. apply bind_Ok_inv in H. destruct H as (ts & Et & H).
  apply bind_Ok_inv in H. destruct H as (done & Ed & H).
  destruct (_ =? _) in H; [|discriminate]. inversion H; subst tasks. clear H.
  destruct (dense_tasks_Ok _ _ _ _ _ Et) as (bs & bt & -> & Es & Eb).
  exists (flat_map task_pairs (list_prod bs bt)). split.
  - rewrite <- Es, <- Eb. apply task_pairs_product.
  - apply mapM_Forall2 in Ed. clear - Ed Er. induction Ed as [|[tc sc] [ops r] ts done H F IH]; cbn.
    + apply blocks_of_nil.
    + apply blocks_of_app; auto. cbn [fst snd] in H. eapply batch_blocks; eauto.
Qed.

End Writes.

End Facts.
