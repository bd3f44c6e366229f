(** * The statements of C21, C25-C28, C30-C35 *)
From Verif Require Import Base BaseFacts Topology TopologyFacts DofMap SpecDof Colouring SpecColour ColouringResults Process Space SpecSpace
  Options Batch SpecBatch BatchFacts BatchResults Adjacency SpecAdjacency AdjacencyFacts AdjacencyResults
  Scalar Integrand CellPair Operators SpecLocal LocalFacts LocalResults Interleave Assembly SpecAssembly InterleaveFacts AssemblyFacts
  AssemblyRaces AssemblyValues AssemblySingular AssemblyDense AssemblyExact.

(** ** One task after the other *)

Section Sequential.
Context {T : Type} (add : T -> T -> T).

Lemma msteps_trans n m c1 c2 c3 : msteps add n c1 c2 -> msteps add m c2 c3 -> msteps add (m + n) c1 c3.
Proof. intros H K. induction K; cbn; [auto|]. econstructor; eauto. Qed.

Lemma set_nth_app {A : Type} (pre : list A) x post y : set_nth (pre ++ x :: post) (length pre) y = pre ++ y :: post.
Proof. induction pre; cbn; [reflexivity|]. now rewrite IHpre. Qed.

Lemma nth_app_length {A : Type} (pre : list A) x post : nth_error (pre ++ x :: post) (length pre) = Some x.
Proof. rewrite nth_error_app2, Nat.sub_diag; auto. Qed.

(** The additions of one task, the others waiting. *)
Lemma run_thread pre post ops memory :
  (exists n, msteps add n (mkConfig (pre ++ mkThread ops None :: post) memory)
     (mkConfig (pre ++ mkThread [] None :: post) (after_ops add ops memory)) /\
     forall a v, In (a, v) ops -> a < length memory) \/
  (exists n c, msteps add n (mkConfig (pre ++ mkThread ops None :: post) memory) c /\ faulty c) /\ (exists a v, In (a, v) ops /\ length memory <= a).
Proof.
  revert memory. induction ops as [|[a v] ops IH]; intros memory.
  - left. exists 0. rewrite after_ops_nil. split; [constructor|]. intros a v [].
  - destruct (nth_error memory a) as [x|] eqn:Ea.
    + assert (Ha : a < length memory) by (apply nth_error_Some; congruence).
      set (c0 := mkConfig (pre ++ mkThread ((a, v) :: ops) None :: post) memory).
      assert (S1 : mstep add c0 (mkConfig (pre ++ mkThread ((a, v) :: ops) (Some x) :: post) memory)).
      { rewrite <- (set_nth_app pre (mkThread ((a, v) :: ops) None) post (mkThread ((a, v) :: ops) (Some x))).
        apply (mstep_load add c0); auto. apply nth_app_length. }
      set (c1 := mkConfig (pre ++ mkThread ((a, v) :: ops) (Some x) :: post) memory) in *.
      assert (S2 : mstep add c1 (mkConfig (pre ++ mkThread ops None :: post) (set_nth memory a (add x v)))).
      { rewrite <- (set_nth_app pre (mkThread ((a, v) :: ops) (Some x)) post (mkThread ops None)).
        apply (mstep_store add c1 (length pre) a v ops x); auto. apply nth_app_length. }
      assert (M2 : msteps add 2 c0 (mkConfig (pre ++ mkThread ops None :: post) (set_nth memory a (add x v)))).
      { econstructor; [|exact S2]. econstructor; [|exact S1]. constructor. }
      assert (Em : set_nth memory a (add x v) = after_ops add [(a, v)] memory).
      { apply nth_error_ext. intros y. rewrite nth_error_after_ops. unfold effect. cbn [fold_left fst snd].
        destruct (Nat.eqb_spec a y) as [<-|N].
        - rewrite nth_error_set_nth_eq by auto. now rewrite Ea.
        - rewrite nth_error_set_nth_neq by auto. now destruct (nth_error memory y). }
      destruct (IH (set_nth memory a (add x v))) as [(n & M & B)|((n & c & M & F) & (b & w & Hb & Ho))].
      * left. exists (n + 2). split.
        -- eapply msteps_trans; eauto. change ((a, v) :: ops) with ([(a, v)] ++ ops). rewrite after_ops_app, <- Em. exact M.
        -- intros b w [E|Hb]; [inversion E; now subst|]. specialize (B b w Hb). now rewrite length_set_nth in B.
      * right. split; [exists (n + 2), c; split; auto; eapply msteps_trans; eauto|]. exists b, w. split; [now right|].
        now rewrite length_set_nth in Ho.
    + right. apply nth_error_None in Ea. split.
      * exists 0, (mkConfig (pre ++ mkThread ((a, v) :: ops) None :: post) memory). split; [constructor|].
        exists (mkThread ((a, v) :: ops) None), a, v, ops. cbn. split; [apply in_or_app; right; now left|auto].
      * exists a, v. split; [now left|auto].
Qed.

Lemma run_threads tasks pre memory :
  (exists n, msteps add n (mkConfig (pre ++ map (fun ops => mkThread ops None) tasks) memory)
     (mkConfig (pre ++ map (fun _ => mkThread [] None) tasks) (after_ops add (concat tasks) memory)) /\
     forall a v, In (a, v) (concat tasks) -> a < length memory) \/
  (exists n c, msteps add n (mkConfig (pre ++ map (fun ops => mkThread ops None) tasks) memory) c /\ faulty c) /\
    (exists a v, In (a, v) (concat tasks) /\ length memory <= a).
Proof.
  revert pre memory. induction tasks as [|ops tasks IH]; intros pre memory; cbn [map concat].
  - left. exists 0. rewrite after_ops_nil. split; [constructor|]. intros a v [].
  - destruct (run_thread pre (map (fun ops => mkThread ops None) tasks) ops memory) as [(n & M & B)|((n & c & M & F) & (a & v & Ha & Ho))].
    + destruct (IH (pre ++ [mkThread [] None]) (after_ops add ops memory)) as [(m & M' & B')|((m & c & M' & F) & (a & v & Ha & Ho))];
        rewrite <- ?app_assoc in M'; cbn [app] in M'.
      * left. exists (m + n). rewrite after_ops_app. split; [eapply msteps_trans; eauto|].
        intros a v Ha. apply in_app_or in Ha. destruct Ha as [Ha|Ha]; eauto. specialize (B' a v Ha). now rewrite length_after_ops in B'.
      * right. split; [exists (m + n), c; split; auto; eapply msteps_trans; eauto|]. exists a, v. split; [apply in_or_app; now right|].
        now rewrite length_after_ops in Ho.
    + right. split; [exists n, c; auto|]. exists a, v. split; [apply in_or_app; now left|auto].
Qed.

(** A runtime that runs one task after the other and joins from the right. *)
Definition sequential : runtime T := mkRuntime T
  (fun tasks memory => if forallb (fun o => fst o <? length memory) (concat tasks) then Ok (after_ops add (concat tasks) memory) else UB)
  (fun A identity join l => fold_right join identity l).

Lemma sequential_legal : legal_runtime add sequential.
Proof.
  split.
  - intros tasks memory. cbn [sequential rt_par].
    destruct (run_threads tasks [] memory) as [(n & M & B)|((n & c & M & F) & (a & v & Ha & Ho))]; cbn [app] in *.
    + assert (E : forallb (fun o : nat * T => fst o <? length memory) (concat tasks) = true).
      { apply forallb_forall. intros [a v] Ha. apply Nat.ltb_lt. cbn. eauto. }
      rewrite E. apply (outcome_ok add tasks memory n _ M). intros t Ht. cbn in Ht. apply in_map_iff in Ht. destruct Ht as (_ & <- & _). reflexivity.
    + assert (E : forallb (fun o : nat * T => fst o <? length memory) (concat tasks) = false).
      { destruct (forallb _ _) eqn:E; auto. rewrite forallb_forall in E. specialize (E _ Ha). apply Nat.ltb_lt in E. cbn in E. lia. }
      rewrite E. eapply outcome_ub; eauto.
  - intros A identity join l. cbn [sequential rt_reduce]. induction l as [|x l IH]; cbn; [constructor|].
    change (x :: l) with ([x] ++ l). apply reduces_app; [constructor|auto].
Qed.

End Sequential.

Section Results.
Context {T R : Type} (S : scalar T R) (X : externals R).

(** ** Schedules *)

Lemma part_fails rt rt' wmod O o shape trial test r : assemble_singular_part S X rt wmod O o shape trial test = r -> (forall m, r <> Ok m) ->
  assemble_singular_part S X rt' wmod O o shape trial test = r.
Proof.
  intros E N. destruct (part_any S X wmod O o shape trial test) as [(parts & _ & F)|(r' & F & _)].
  - rewrite (F rt) in E. exfalso. eapply N. eauto.
  - rewrite (F rt) in E. rewrite (F rt'). exact E.
Qed.

Theorem sparse_any_schedule rt rt' wmod O o trial test : legal_runtime (s_add S) rt -> legal_runtime (s_add S) rt' ->
  assemble_singular S X rt wmod O o trial test = assemble_singular S X rt' wmod O o trial test /\
  forall m, assemble_singular_part S X rt wmod O o (shape_of test trial) trial test = Ok m ->
    length (sm_rows m) = length (sm_data m) /\ length (sm_cols m) = length (sm_data m) /\
    exists m', assemble_singular_part S X rt' wmod O o (shape_of test trial) trial test = Ok m' /\
      sm_rows m' = sm_rows m /\ sm_cols m' = sm_cols m /\ sm_data m' = sm_data m /\ sm_shape m' = sm_shape m.
Proof.
  intros L L'. split.
  - unfold assemble_singular. fold (shape_of test trial).
    destruct (assemble_singular_part S X rt wmod O o (shape_of test trial) trial test) as [m| | |] eqn:E.
    + destruct (singular_part_schedule S X rt rt' wmod O o _ trial test m L L' E) as (_ & _ & m' & E' & E1 & E2 & E3 & E4).
      rewrite E'. cbn [bind]. now rewrite E1, E2, E3, E4.
    + rewrite (part_fails rt rt' _ _ _ _ _ _ _ E); [reflexivity|discriminate].
    + rewrite (part_fails rt rt' _ _ _ _ _ _ _ E); [reflexivity|discriminate].
    + rewrite (part_fails rt rt' _ _ _ _ _ _ _ E); [reflexivity|discriminate].
  - intros m E. exact (singular_part_schedule S X rt rt' wmod O o _ trial test m L L' E).
Qed.

Theorem dense_any_schedule rt rt' wmod O o trial test output :
  legal_runtime (s_add S) rt -> legal_runtime (s_add S) rt' -> serial_space test -> serial_space trial ->
  assemble_into_memory S X rt wmod O o trial test output = assemble_into_memory S X rt' wmod O o trial test output.
Proof.
  intros L L' St Ss. unfold assemble_into_memory.
  destruct (negb (length output =? _)) eqn:El; [reflexivity|]. destruct (negb (is_serial _ && is_serial _)); [reflexivity|].
  apply negb_false_iff, Nat.eqb_eq in El. f_equal.
  destruct (cell_colouring (fs_grid test) (fs_family test)) as [tcol| | |] eqn:Et; try reflexivity.
  destruct (cell_colouring (fs_grid trial) (fs_family trial)) as [scol| | |] eqn:Esc; try reflexivity. cbn [bind].
  destruct (nonsingular_phases _ _ _ _ _ _ _ _ _ _) as [phases| | |] eqn:Ep; try reflexivity. cbn [bind].
  rewrite (run_phases S X rt wmod O o _ trial test scol tcol phases output L St Ss Et Esc Ep El).
  rewrite (run_phases S X rt' wmod O o _ trial test scol tcol phases output L' St Ss Et Esc Ep El). cbn [bind]. fold (shape_of test trial).
  destruct (assemble_singular_part S X rt wmod O o (shape_of test trial) trial test) as [m| | |] eqn:E.
  - destruct (singular_part_schedule S X rt rt' wmod O o _ trial test m L L' E) as (_ & _ & m' & E' & E1 & E2 & E3 & E4).
    rewrite E'. cbn [bind]. now rewrite E1, E2, E3.
  - rewrite (part_fails rt rt' _ _ _ _ _ _ _ E); [reflexivity|discriminate].
  - rewrite (part_fails rt rt' _ _ _ _ _ _ _ E); [reflexivity|discriminate].
  - rewrite (part_fails rt rt' _ _ _ _ _ _ _ E); [reflexivity|discriminate].
Qed.

(** ** The threshold of [assemble_singular] *)

Theorem singular_threshold rt wmod O o trial test m :
  assemble_singular_part S X rt wmod O o (shape_of test trial) trial test = Ok m ->
  ((exists v, In v (sm_data m) /\ s_large S v = true) ->
     assemble_singular S X rt wmod O o trial test = Ok (CsrFromAij (sm_shape m) (sm_rows m) (sm_cols m) (sm_data m))) /\
  ((forall v, In v (sm_data m) -> s_large S v = false) ->
     assemble_singular S X rt wmod O o trial test = Ok (CsrEmpty (sm_shape m))).
Proof.
  intros E. unfold assemble_singular. fold (shape_of test trial). rewrite E. cbn [bind]. split.
  - intros (v & Hv & Lv).
    assert (Hf : In v (filter (s_large S) (sm_data m))) by (apply filter_In; auto).
    destruct (sm_data m) as [|x l] eqn:Ed; [destruct Hv|]. rewrite <- Ed in *.
    destruct (filter (s_large S) (sm_data m)) as [|y k]; [destruct Hf|]. rewrite Ed. reflexivity.
  - intros H. replace (filter (s_large S) (sm_data m)) with (@nil T); [cbn; now rewrite orb_true_r|].
    induction (sm_data m) as [|x l IH]; [reflexivity|]. cbn. rewrite (H x (or_introl eq_refl)). apply IH. intros; apply H; now right.
Qed.

(** ** Different grids *)

Theorem other_grid_no_singular rt wmod O o trial test : g_id (fs_grid test) <> g_id (fs_grid trial) ->
  assemble_singular S X rt wmod O o trial test = Ok (CsrEmpty (global_size (fs_space test), global_size (fs_space trial))) /\
  forall t s, neighbours (fs_grid test) (fs_grid trial) t s = Ok false.
Proof.
  intros N. apply Nat.eqb_neq in N. split.
  - unfold assemble_singular, assemble_singular_part, equal_grids. rewrite N. reflexivity.
  - intros t s. unfold neighbours, equal_grids. now rewrite N.
Qed.

(** ** The output *)

Theorem bad_output_rejected rt wmod O o trial test output :
  (length output <> global_size (fs_space test) * global_size (fs_space trial) \/ fs_processes test <> 1 \/ fs_processes trial <> 1) ->
  assemble_into_memory S X rt wmod O o trial test output = Rejected output.
Proof.
  intros H. unfold assemble_into_memory. destruct (Nat.eqb_spec (length output) (global_size (fs_space test) * global_size (fs_space trial))); [|reflexivity].
  cbn [negb]. unfold is_serial. destruct H as [H|[H|H]]; [contradiction| |]; apply Nat.eqb_neq in H; rewrite H, ?andb_false_r, ?andb_false_l; reflexivity.
Qed.

Theorem output_added rt wmod O o deg pts ct test trial :
  legal_runtime (s_add S) rt -> dense_setting X wmod O o deg pts ct test trial ->
  exists ops, (forall a v, In (a, v) ops -> a < global_size (fs_space test) * global_size (fs_space trial)) /\
    forall output, length output = global_size (fs_space test) * global_size (fs_space trial) ->
    assemble_into_memory S X rt wmod O o trial test output = Ran (Ok (after_ops (s_add S) ops output)).
Proof.
  intros L D.
  set (len := global_size (fs_space test) * global_size (fs_space trial)).
  destruct (into_memory_Ok S X rt wmod O o deg pts ct test trial (repeat (s_zero S) len) L D (repeat_length _ _))
    as (q & tcol & scol & tcl & scl & E1 & E2 & E3 & E4 & E5 & P1 & P2 & E).
  exists (all_ops S X O test trial ct q tcl scl ++ map (entry_op (global_size (fs_space test))) (singular_list S X O o deg test trial)).
  split.
  - intros a v Hin. apply in_app_or in Hin. destruct Hin as [Hin|Hin].
    + unfold all_ops in Hin. apply in_flat_map in Hin. destruct Hin as ([tc sc] & Hc & Hin). unfold phase_ops in Hin. cbn [fst snd] in Hin.
      apply in_prod_iff in Hc. destruct Hc as (Htc & Hsc).
      apply in_flat_map in Hin. destruct Hin as ([t s] & Hts & Hin). apply in_prod_iff in Hts. destruct Hts as (Ht & Hs).
      unfold regular_ops, pair_ops in Hin. cbn [fst snd] in Hin. destruct (touchb test trial t s); [destruct Hin|].
      apply in_map_iff in Hin. destruct Hin as ([[i j] w] & Ee & Hin). cbn in Ee. inversion Ee; subst. apply In_entry_list in Hin.
      assert (Lt : t < ent_count (fs_grid test) 2).
      { assert (I : In t (seq 0 (ent_count (fs_grid test) 2))) by (apply (Permutation_in _ P1), in_concat; eauto). apply in_seq in I. lia. }
      assert (Ls : s < ent_count (fs_grid trial) 2).
      { assert (I : In s (seq 0 (ent_count (fs_grid trial) 2))) by (apply (Permutation_in _ P2), in_concat; eauto). apply in_seq in I. lia. }
      destruct Hin as (Hi & Hj).
      apply (dofs_at_spec test t (dn_test _ _ _ _ _ _ _ _ _ D) Lt) in Hi. apply (dofs_at_spec trial s (dn_trial _ _ _ _ _ _ _ _ _ D) Ls) in Hj. nia.
    + apply in_map_iff in Hin. destruct Hin as ([[i j] w] & Ee & Hin). cbn in Ee. inversion Ee; subst.
      destruct (singular_list_Ok S X rt wmod O o deg pts ct test trial L D) as (_ & _ & _ & B). destruct (B i j v Hin). nia.
  - intros output Lo.
    destruct (into_memory_Ok S X rt wmod O o deg pts ct test trial output L D Lo) as (q' & tcol' & scol' & tcl' & scl' & F1 & F2 & F3 & F4 & F5 & _ & _ & F).
    assert (q' = q) by congruence. assert (tcol' = tcol) by congruence. assert (scol' = scol) by congruence. subst q' tcol' scol'.
    assert (tcl' = tcl) by congruence. assert (scl' = scl) by congruence. subst tcl' scl'. exact F.
Qed.

Theorem assemble_on_zeros rt wmod O o trial test : fs_processes test = 1 -> fs_processes trial = 1 ->
  assemble_into_memory S X rt wmod O o trial test
    (repeat (s_zero S) (global_size (fs_space test) * global_size (fs_space trial))) = Ran (assemble S X rt wmod O o trial test).
Proof.
  intros Ht Hs. unfold assemble, assemble_into_memory. rewrite Ht, Hs, repeat_length, Nat.eqb_refl. reflexivity.
Qed.

Theorem assemble_refuses rt wmod O o trial test : fs_processes test <> 1 \/ fs_processes trial <> 1 ->
  assemble S X rt wmod O o trial test = Panic.
Proof.
  intros H. unfold assemble, is_serial. destruct H as [H|H]; apply Nat.eqb_neq in H; rewrite H, ?andb_false_r, ?andb_false_l; reflexivity.
Qed.

(** ** Different cell types *)

Lemma mapM_arg {A B : Type} (f : A -> res B) l ys x : mapM f l = Ok ys -> In x l -> exists y, f x = Ok y.
Proof.
  revert ys. induction l as [|a l IH]; intros ys H Hx; [destruct Hx|]. cbn [mapM] in H.
  apply bind_Ok_inv in H. destruct H as (y & Ey & H). apply bind_Ok_inv in H. destruct H as (zs & Ez & _).
  destruct Hx as [<-|Hx]; eauto.
Qed.

Lemma fs_element_inv (fs : fspace T R) t el : fs_element fs t = Ok el -> In t (g_types (fs_grid fs) 2).
Proof.
  unfold fs_element. intros H. destruct (assoc _ _ _) as [e|] eqn:E; [|discriminate]. apply assoc_Some_In in E; [|apply ct_eqb_eq].
  apply in_map_iff in E. destruct E as (u & Eu & Hu). now inversion Eu; subst.
Qed.

Lemma dense_tasks_some {A : Type} wmod batch (tc sc : list A) tasks : tc <> [] -> sc <> [] -> dense_tasks wmod batch tc sc = Ok tasks -> tasks <> [].
Proof.
  intros Nt Ns H. unfold dense_tasks in H. cbn [test_loop] in H. destruct tc as [|x tc]; [contradiction|]. cbn [length Nat.ltb Nat.leb] in H.
  apply bind_Ok_inv in H. destruct H as (e & _ & H). apply bind_Ok_inv in H. destruct H as (b & _ & H).
  apply bind_Ok_inv in H. destruct H as (this & Et & H). apply bind_Ok_inv in H. destruct H as (rest & _ & H). inversion H; subst tasks.
  cbn [trial_loop] in Et. destruct sc as [|y sc]; [contradiction|]. cbn [length Nat.ltb Nat.leb] in Et.
  apply bind_Ok_inv in Et. destruct Et as (e' & _ & Et). apply bind_Ok_inv in Et. destruct Et as (b' & _ & Et).
  apply bind_Ok_inv in Et. destruct Et as (rest' & _ & Et). inversion Et; subst this. discriminate.
Qed.

Lemma coloured (fs : fspace T R) col t : serial_space fs -> cell_colouring (fs_grid fs) (fs_family fs) = Ok col -> t < ent_count (fs_grid fs) 2 ->
  exists classes l, assoc ct_eqb (g_ctype (fs_grid fs) t) col = Some classes /\ In l classes /\ In t l.
Proof.
  intros SS E Ht. destruct SS as [W F P _ _ _ _]. destruct (colouring_partition _ _ W F P) as (col' & K & E' & _ & _ & All & _).
  assert (col' = col) by congruence. subst col'. destruct (All t Ht) as (k & _ & cl & l & A & Hk & Hin). exists cl, l. repeat split; auto.
  eapply nth_error_In; eauto.
Qed.

(** A type missing on either side. *)
Theorem other_types_fail rt wmod O o trial test output t s :
  serial_space test -> serial_space trial -> t < ent_count (fs_grid test) 2 -> s < ent_count (fs_grid trial) 2 ->
  (~ In (g_ctype (fs_grid trial) s) (g_types (fs_grid test) 2) \/ ~ In (g_ctype (fs_grid test) t) (g_types (fs_grid trial) 2)) ->
  forall result, assemble_into_memory S X rt wmod O o trial test output <> Ran (Ok result).
Proof.
  intros St Ss Ht Hs Hty result H. unfold assemble_into_memory in H. destruct (negb _) in H; [discriminate|]. destruct (negb _) in H; [discriminate|].
  injection H as H. apply bind_Ok_inv in H. destruct H as (tcol & Et & H). apply bind_Ok_inv in H. destruct H as (scol & Es & H).
  apply bind_Ok_inv in H. destruct H as (phases & Ep & _). unfold nonsingular_phases in Ep.
  destruct (negb _) in Ep; [discriminate|]. destruct (negb _) in Ep; [discriminate|]. apply bind_Ok_inv in Ep. destruct Ep as (pp & Ep & _).
  destruct (coloured test tcol t St Et Ht) as (tcl & tl & At & Itl & Itt). destruct (coloured trial scol s Ss Es Hs) as (scl & sl & As & Isl & Iss).
  set (ct := g_ctype (fs_grid test) t) in *. set (cs := g_ctype (fs_grid trial) s) in *.
  assert (Ict : In ct (g_types (fs_grid test) 2)) by (apply (wf_ctype _ (ss_grid _ St)); auto).
  assert (Ics : In cs (g_types (fs_grid trial) 2)) by (apply (wf_ctype _ (ss_grid _ Ss)); auto).
  assert (F : exists ph, nonsingular_types S X wmod O o (global_size (fs_space test), global_size (fs_space trial)) trial test scol tcol (ct, cs) = Ok ph).
  { eapply mapM_arg; eauto. apply in_prod; auto. }
  destruct F as (ph & F). unfold nonsingular_types in F.
  apply bind_Ok_inv in F. destruct F as (n1 & _ & F). apply bind_Ok_inv in F. destruct F as (n2 & _ & F).
  apply bind_Ok_inv in F. destruct F as (re & _ & F). rewrite At in F. cbn [unwrap bind] in F.
  destruct tcl as [|t0 tcl]; [destruct Itl|]. rewrite As in F. cbn [unwrap bind] in F.
  destruct (mapM_arg _ _ _ (tl, sl) F) as (tasks & Ft); [now apply in_prod|]. unfold nonsingular_phase in Ft. cbn [fst snd] in Ft.
  apply bind_Ok_inv in Ft. destruct Ft as (ts & Ed & Ft). apply dense_tasks_some in Ed; [|intros ->; destruct Itt|intros ->; destruct Iss].
  apply bind_Ok_inv in Ft. destruct Ft as (done & Edn & _). destruct ts as [|t1 ts]; [contradiction|].
  destruct (mapM_arg _ _ _ t1 Edn (or_introl eq_refl)) as (r1 & F1). unfold assemble_batch_nonadjacent in F1.
  destruct (negb _) in F1; [discriminate|]. apply bind_Ok_inv in F1. destruct F1 as (a & _ & F1).
  apply bind_Ok_inv in F1. destruct F1 as (te & E1 & F1). apply bind_Ok_inv in F1. destruct F1 as (se & E2 & _).
  apply fs_element_inv in E1. apply fs_element_inv in E2. destruct Hty; contradiction.
Qed.

(** ** Exact arithmetic *)

Theorem exact_entries rt wmod O o deg pts ct test trial output : exact S ->
  legal_runtime (s_add S) rt -> dense_setting X wmod O o deg pts ct test trial ->
  length output = global_size (fs_space test) * global_size (fs_space trial) ->
  exists result val,
    assemble_into_memory S X rt wmod O o trial test output = Ran (Ok result) /\
    (forall t s a b, t < ent_count (fs_grid test) 2 -> s < ent_count (fs_grid trial) 2 -> pair_value S X O deg pts test trial t s a b (val t s a b)) /\
    length result = length output /\
    forall i j old, i < global_size (fs_space test) -> j < global_size (fs_space trial) ->
      nth_error output (i + global_size (fs_space test) * j) = Some old ->
      nth_error result (i + global_size (fs_space test) * j) = Some (s_add S old (matrix_entry S val test trial i j)).
Proof. intros ((one & RT) & _). exact (dense_entries S one RT X rt wmod O o deg pts ct test trial output). Qed.

Theorem other_grid_entries rt wmod O o deg pts ct test trial output : exact S ->
  legal_runtime (s_add S) rt -> dense_setting X wmod O o deg pts ct test trial ->
  g_id (fs_grid test) <> g_id (fs_grid trial) ->
  length output = global_size (fs_space test) * global_size (fs_space trial) ->
  exists result val,
    assemble_into_memory S X rt wmod O o trial test output = Ran (Ok result) /\
    (forall t s a b, t < ent_count (fs_grid test) 2 -> s < ent_count (fs_grid trial) 2 -> regular_value S X O pts test trial t s a b (val t s a b)) /\
    forall i j old, i < global_size (fs_space test) -> j < global_size (fs_space trial) ->
      nth_error output (i + global_size (fs_space test) * j) = Some old ->
      nth_error result (i + global_size (fs_space test) * j) = Some (s_add S old (matrix_entry S val test trial i j)).
Proof.
  intros Ex L D N Lo. destruct (exact_entries rt wmod O o deg pts ct test trial output Ex L D Lo) as (result & val & E & V & _ & H).
  exists result, val. split; auto. split; auto. intros t s a b Ht Hs. destruct (V t s a b Ht Hs) as [((C & _) & _)|(_ & Hv)]; [contradiction|exact Hv].
Qed.

(** The values are determined. *)
Lemma shared_dimension_unique g c c' d d' : shared_dimension g c c' d -> shared_dimension g c c' d' -> d = d'.
Proof.
  intros [(A & ->)|[(A & -> & v & w & N & V1 & V2 & W1 & W2)|(A & -> & v & V)]] [(B & ->)|[(B & -> & v' & w' & N' & V1' & V2' & W1' & W2')|(B & -> & v' & V')]];
    try reflexivity; try contradiction; exfalso.
  - apply N. rewrite (proj1 (V' v) (conj V1 V2)). symmetry. apply (proj1 (V' w) (conj W1 W2)).
  - apply N'. rewrite (proj1 (V v') (conj V1' V2')). symmetry. apply (proj1 (V w') (conj W1' W2')).
Qed.

Theorem pair_value_unique O deg pts test trial t s a b v w :
  pair_value S X O deg pts test trial t s a b v -> pair_value S X O deg pts test trial t s a b w -> v = w.
Proof.
  intros [(C & V)|(C & V)] [(C' & W)|(C' & W)]; try contradiction.
  - destruct V as (p & k & d & q & A1 & A2 & A3 & A4 & ->). destruct W as (p' & k' & d' & q' & B1 & B2 & B3 & B4 & ->).
    assert (p' = p) by (eapply adjacency_unique; eauto). assert (d' = d) by (eapply shared_dimension_unique; eauto).
    assert (k' = k) by congruence. subst. assert (q' = q) by congruence. now subst.
  - destruct V as (q & r & A1 & A2 & ->). destruct W as (q' & r' & B1 & B2 & ->).
    assert (q' = q) by congruence. assert (r' = r) by congruence. now subst.
Qed.

End Results.
