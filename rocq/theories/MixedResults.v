(** * Grids with several types of cells *)
From Verif Require Import Base BaseFacts Topology TopologyFacts DofMap SpecDof Colouring Space Options Batch BatchFacts Adjacency SpecAdjacency
  AdjacencyFacts Scalar Integrand CellPair Operators SpecLocal Interleave Assembly SpecAssembly AssemblyDense AssemblyResults.

(** ** Every pair of cells is in some task *)

Lemma batch_end_ge {A} wmod batch start (l : list A) e b : batch_end wmod batch start (length l) = Ok e -> slice l start e = Ok b ->
  b ++ skipn e l = skipn start l.
Proof.
  intros _ H. unfold slice in H. destruct (Nat.leb_spec start e); [|discriminate]. cbn [andb] in H.
  destruct (e <=? length l); [|discriminate]. injection H as <-. now apply firstn_skipn_rest.
Qed.

Lemma trial_loop_cover {A} wmod batch (tb l : list A) : forall fuel start tasks x,
  trial_loop fuel wmod batch tb l start = Ok tasks -> In x (skipn start l) -> exists b, In (tb, b) tasks /\ In x b.
Proof.
  induction fuel as [|fuel IH]; intros start tasks x H Hx; cbn [trial_loop] in H.
  - destruct (Nat.ltb_spec start (length l)); [discriminate|]. rewrite skipn_all2 in Hx by lia. destruct Hx.
  - destruct (Nat.ltb_spec start (length l)); [|rewrite skipn_all2 in Hx by lia; destruct Hx].
    apply bind_Ok_inv in H. destruct H as (e & Ee & H). apply bind_Ok_inv in H. destruct H as (b & Eb & H).
    apply bind_Ok_inv in H. destruct H as (rest & Er & H). injection H as <-.
    rewrite <- (batch_end_ge _ _ _ _ _ _ Ee Eb) in Hx. apply in_app_or in Hx. destruct Hx as [Hx|Hx].
    + exists b. split; [now left|exact Hx].
    + destruct (IH e rest x Er Hx) as (b' & I & Hb). exists b'. split; [now right|exact Hb].
Qed.

Lemma test_loop_cover {A} wmod batch (tc l : list A) : forall fuel start tasks x y,
  test_loop fuel wmod batch tc l start = Ok tasks -> In x (skipn start tc) -> In y l -> exists a b, In (a, b) tasks /\ In x a /\ In y b.
Proof.
  induction fuel as [|fuel IH]; intros start tasks x y H Hx Hy; cbn [test_loop] in H.
  - destruct (Nat.ltb_spec start (length tc)); [discriminate|]. rewrite skipn_all2 in Hx by lia. destruct Hx.
  - destruct (Nat.ltb_spec start (length tc)); [|rewrite skipn_all2 in Hx by lia; destruct Hx].
    apply bind_Ok_inv in H. destruct H as (e & Ee & H). apply bind_Ok_inv in H. destruct H as (b & Eb & H).
    apply bind_Ok_inv in H. destruct H as (this & Et & H). apply bind_Ok_inv in H. destruct H as (rest & Er & H). injection H as <-.
    rewrite <- (batch_end_ge _ _ _ _ _ _ Ee Eb) in Hx. apply in_app_or in Hx. destruct Hx as [Hx|Hx].
    + destruct (trial_loop_cover _ _ _ _ _ _ _ y Et Hy) as (b' & I & Hb). exists b, b'. split; [apply in_or_app; now left|]. now split.
    + destruct (IH e rest x y Er Hx Hy) as (a & b' & I & Ha & Hb). exists a, b'. split; [apply in_or_app; now right|]. now split.
Qed.

Lemma dense_tasks_cover {A} wmod batch (tc l : list A) tasks x y :
  dense_tasks wmod batch tc l = Ok tasks -> In x tc -> In y l -> exists a b, In (a, b) tasks /\ In x a /\ In y b.
Proof. intros H Hx Hy. exact (test_loop_cover wmod batch tc l _ 0 tasks x y H Hx Hy). Qed.

(** ** A pair of cells is looked at in a state with the tables of the task *)

Lemma foldM_at {St A : Type} (f : St -> A -> res St) (I : St -> Prop) l : forall s s' x,
  foldM f l s = Ok s' -> I s -> (forall u a v, I u -> f u a = Ok v -> I v) -> In x l -> exists u v, I u /\ f u x = Ok v.
Proof.
  induction l as [|a l IH]; intros s s' x H Hs P Hx; [destruct Hx|]. cbn [foldM] in H. apply bind_Ok_inv in H. destruct H as (s1 & E & H).
  destruct Hx as [<-|Hx]; [eauto|]. eapply (IH s1); eauto.
Qed.

Lemma foldM_keeps {St A : Type} (f : St -> A -> res St) (I : St -> Prop) l : forall s s',
  foldM f l s = Ok s' -> I s -> (forall u a v, I u -> f u a = Ok v -> I v) -> I s'.
Proof.
  induction l as [|a l IH]; intros s s' H Hs P; cbn [foldM] in H; [now injection H as <-|].
  apply bind_Ok_inv in H. destruct H as (s1 & E & H). eapply (IH s1); eauto.
Qed.

Section Mixed.
Context {T R : Type} (S : scalar T R) (X : externals R).

(** Every integrand reads both tables. *)
Lemma evaluate_reads (f : integrand T) k tt st gt gs v : evaluate S f k tt st gt gs = Ok v ->
  (exists i j x, tt i j = Ok x) /\ (exists i j x, st i j = Ok x).
Proof.
  revert v. induction f; intros v H; cbn [evaluate] in H;
    repeat (apply bind_Ok_inv in H; destruct H as (? & ? & H)); eauto 10.
Qed.

Lemma flat_index_bound shape : forall idx p k, flat_index shape idx = Some p -> forall n i, nth_error shape k = Some n -> nth_error idx k = Some i -> i < n.
Proof.
  induction shape as [|m shape IH]; intros idx p k H n i Hn Hi; [destruct k; discriminate|].
  destruct idx as [|a idx]; [discriminate|]. cbn [flat_index] in H. destruct (Nat.ltb_spec a m); [|discriminate].
  destruct (flat_index shape idx) as [q|] eqn:E; [|discriminate]. destruct k as [|k]; cbn in Hn, Hi.
  - injection Hn as <-. injection Hi as <-. assumption.
  - eapply IH; eauto.
Qed.

Lemma table_read_bound (table : array T) a b c d x point basis i j : a_shape table = [a; b; c; d] ->
  table_at table point basis i j = Ok x -> basis < c.
Proof.
  intros E H. unfold table_at, aget in H. rewrite E in H. destruct (flat_index _ _) as [p|] eqn:F; [|discriminate].
  exact (flat_index_bound _ _ _ 2 F c basis eq_refl eq_refl).
Qed.

Lemma fill_matrix_arg (f : nat -> nat -> res T) mat mat' m n i j : a_shape mat = [m; n] -> fill_matrix f mat = Ok mat' ->
  i < m -> j < n -> a_shape mat' = [m; n] /\ exists v, f i j = Ok v.
Proof.
  intros E H Hi Hj. unfold fill_matrix in H. rewrite E in H. apply bind_Ok_inv in H. destruct H as (cols & Ec & H). injection H as <-.
  split; [exact E|]. destruct (mapM_arg _ _ _ j Ec) as (col & Ecol); [apply in_seq; lia|].
  exact (mapM_arg _ _ _ i Ecol (proj2 (in_seq _ _ _) (conj (Nat.le_0_l _) Hi))).
Qed.

Lemma fill_matrix_shape (f : nat -> nat -> res T) mat mat' : fill_matrix f mat = Ok mat' -> a_shape mat' = a_shape mat.
Proof.
  unfold fill_matrix. intros H. destruct (a_shape mat) as [|m [|n [|p l]]] eqn:E; try discriminate.
  apply bind_Ok_inv in H. destruct H as (cols & Ec & H). now injection H as <-.
Qed.

(** An entry of the local matrix can only be computed inside the tables. *)
Lemma assemble_inside (a a' : @nonsingular_assembler T R) mat mat' m n dt nt ct et ds ns cs es i j :
  nonsingular_assemble S a mat = Ok (a', mat') -> a_shape mat = [m; n] ->
  a_shape (su_test_table (na_setup a)) = [dt; nt; ct; et] -> a_shape (su_trial_table (na_setup a)) = [ds; ns; cs; es] ->
  na_test_weights a <> [] -> na_trial_weights a <> [] -> i < m -> j < n -> i < ct /\ j < cs.
Proof.
  intros H Em Et Es Wt Ws Hi Hj. unfold nonsingular_assemble in H. apply bind_Ok_inv in H. destruct H as (test & _ & H).
  apply bind_Ok_inv in H. destruct H as (k & _ & H). apply bind_Ok_inv in H. destruct H as (m1 & Ef & _).
  destruct (fill_matrix_arg _ _ _ m n i j Em Ef Hi Hj) as (_ & v & Ev).
  destruct (na_test_weights a) as [|w ws]; [contradiction|]. cbn [enumerate length seq combine foldM] in Ev.
  apply bind_Ok_inv in Ev. destruct Ev as (v1 & Er & _). unfold nonsingular_row in Er.
  apply bind_Ok_inv in Er. destruct Er as (d & _ & Er). destruct (na_trial_weights a) as [|w' ws']; [contradiction|].
  cbn [enumerate length seq combine foldM] in Er. apply bind_Ok_inv in Er. destruct Er as (v2 & Er & _).
  unfold nonsingular_term in Er. apply bind_Ok_inv in Er. destruct Er as (x & Ex & _). unfold evaluate_nonsingular in Ex.
  destruct (evaluate_reads _ _ _ _ _ _ _ Ex) as ((p & q & y & Hy) & (p' & q' & z & Hz)).
  split; [exact (table_read_bound _ _ _ _ _ _ _ _ _ _ Et Hy)|exact (table_read_bound _ _ _ _ _ _ _ _ _ _ Es Hz)].
Qed.

(** What stays the same in a task. *)
Definition keeps (su : @setup T R) (wt ws : list R) (shape : list nat) (st : @nonsingular_assembler T R * array T * list (@op T)) : Prop :=
  na_setup (fst (fst st)) = su /\ na_test_weights (fst (fst st)) = wt /\ na_trial_weights (fst (fst st)) = ws /\ a_shape (snd (fst st)) = shape.

Lemma pair_keeps su wt ws sh rows (test trial : fspace T R) s dofs u t v : keeps su wt ws sh u ->
  nonsingular_pair S rows test trial s dofs u t = Ok v -> keeps su wt ws sh v.
Proof.
  destruct u as ((a, m), ops). intros (K1 & K2 & K3 & K4) H. unfold nonsingular_pair in H. cbn [fst snd] in *.
  apply bind_Ok_inv in H. destruct H as (skip & _ & H). destruct skip; [injection H as <-; now repeat split|].
  apply bind_Ok_inv in H. destruct H as (a1 & E1 & H). apply bind_Ok_inv in H. destruct H as ((a2, m2) & E2 & H).
  apply bind_Ok_inv in H. destruct H as (d & _ & H). injection H as <-. unfold keeps. cbn [fst snd].
  unfold nonsingular_set_test in E1. apply bind_Ok_inv in E1. destruct E1 as (i & _ & E1). injection E1 as <-.
  unfold nonsingular_assemble in E2. cbn [na_setup na_test_weights na_trial_weights] in E2. apply bind_Ok_inv in E2. destruct E2 as (te & _ & E2).
  apply bind_Ok_inv in E2. destruct E2 as (k & _ & E2). apply bind_Ok_inv in E2. destruct E2 as (m1 & Ef & E2). injection E2 as <- <-.
  cbn [na_setup na_test_weights na_trial_weights]. rewrite (fill_matrix_shape _ _ _ Ef). now repeat split.
Qed.

Lemma trial_keeps su wt ws sh rows (test trial : fspace T R) tests u s v : keeps su wt ws sh u ->
  nonsingular_trial S rows test trial tests u s = Ok v -> keeps su wt ws sh v.
Proof.
  destruct u as ((a, m), ops). intros (K1 & K2 & K3 & K4) H. unfold nonsingular_trial in H. cbn [fst snd] in *.
  apply bind_Ok_inv in H. destruct H as (a1 & E1 & H). apply bind_Ok_inv in H. destruct H as (d & _ & H).
  eapply foldM_keeps; [exact H| |intros; eapply pair_keeps; eauto].
  unfold nonsingular_set_trial in E1. apply bind_Ok_inv in E1. destruct E1 as (i & _ & E1). injection E1 as <-.
  now repeat split.
Qed.

Lemma fs_element_family (fs : fspace T R) t el : fs_element fs t = Ok el -> el = fs_family fs t.
Proof.
  unfold fs_element. intros H. destruct (assoc _ _ _) as [e|] eqn:E; [|discriminate]. apply assoc_Some_In in E; [|apply ct_eqb_eq].
  injection H as <-. apply in_map_iff in E. destruct E as (u & Eu & Hu). now inversion Eu; subst.
Qed.

Lemma tabulate_shape (fs : fspace T R) t derivs npts points table : tabulate fs t derivs npts points = Ok table ->
  a_shape table = [(derivs + 1) * (derivs + 2) / 2; npts; el_dim (fs_family fs t); fs_components fs t].
Proof.
  unfold tabulate. intros H. apply bind_Ok_inv in H. destruct H as (el & Ee & H). apply fs_element_family in Ee. subst el.
  destruct (length points =? 2 * npts); [|discriminate]. now injection H as <-.
Qed.

(** A pair of cells that do not touch: the local matrix has the dimensions for the
    other types, and must fit in the tables. *)
Lemma pair_fits rt wmod O o trial test output t s nt ns result :
  serial_space test -> serial_space trial -> same_object test trial -> proper_rules X ->
  t < ent_count (fs_grid test) 2 -> s < ent_count (fs_grid trial) 2 -> ~ touching test trial t s ->
  get_regular_quadrature_degree (g_ctype (fs_grid test) t) o = Some nt -> 0 < nt ->
  get_regular_quadrature_degree (g_ctype (fs_grid trial) s) o = Some ns -> 0 < ns ->
  assemble_into_memory S X rt wmod O o trial test output = Ran (Ok result) ->
  forall i j, i < el_dim (fs_family test (g_ctype (fs_grid trial) s)) -> j < el_dim (fs_family trial (g_ctype (fs_grid test) t)) ->
    i < el_dim (fs_family test (g_ctype (fs_grid test) t)) /\ j < el_dim (fs_family trial (g_ctype (fs_grid trial) s)).
Proof.
  intros St Ss Sa PR Ht Hs NT Ent Pnt Ens Pns H i j Hi Hj. unfold assemble_into_memory in H. destruct (negb _) in H; [discriminate|]. destruct (negb _) in H; [discriminate|].
  injection H as H. apply bind_Ok_inv in H. destruct H as (tcol & Et & H). apply bind_Ok_inv in H. destruct H as (scol & Es & H).
  apply bind_Ok_inv in H. destruct H as (phases & Ep & _). unfold nonsingular_phases in Ep.
  destruct (negb _) in Ep; [discriminate|]. destruct (negb _) in Ep; [discriminate|]. apply bind_Ok_inv in Ep. destruct Ep as (pp & Ep & _).
  destruct (coloured test tcol t St Et Ht) as (tcl & tl & At & Itl & Itt). destruct (coloured trial scol s Ss Es Hs) as (scl & sl & As & Isl & Iss).
  assert (Nb : neighbours (fs_grid test) (fs_grid trial) t s = Ok false).
  { rewrite (neighbours_touchb test trial t s Sa Ht Hs). f_equal. apply not_true_iff_false. intros C. apply NT, (touchb_spec test trial t s Sa), C. }
  assert (Ict : In (g_ctype (fs_grid test) t) (g_types (fs_grid test) 2)) by (apply (wf_ctype _ (ss_grid _ St)); auto).
  assert (Ics : In (g_ctype (fs_grid trial) s) (g_types (fs_grid trial) 2)) by (apply (wf_ctype _ (ss_grid _ Ss)); auto).
  set (ct := g_ctype (fs_grid test) t) in *. set (cs := g_ctype (fs_grid trial) s) in *.
  destruct (mapM_arg _ _ _ (ct, cs) Ep) as (ph & F); [now apply in_prod|]. unfold nonsingular_types in F.
  unfold get_regular_quadrature_degree in Ent, Ens. rewrite Ent, Ens in F. cbn [unwrap bind] in F.
  apply bind_Ok_inv in F. destruct F as (re & Ere & F). rewrite At in F. cbn [unwrap bind] in F.
  destruct tcl as [|t0 tcl]; [destruct Itl|]. rewrite As in F. cbn [unwrap bind] in F.
  destruct (mapM_arg _ _ _ (tl, sl) F) as (tasks & Ft); [now apply in_prod|]. unfold nonsingular_phase in Ft. cbn [fst snd] in Ft.
  apply bind_Ok_inv in Ft. destruct Ft as (ts & Ed & Ft). apply bind_Ok_inv in Ft. destruct Ft as (done & Edn & _).
  destruct (dense_tasks_cover _ _ _ _ _ t s Ed Itt Iss) as (ta & sa & Ita & Hta & Hsa).
  destruct (mapM_arg _ _ _ (ta, sa) Edn Ita) as (r1 & F1). cbn [fst snd] in F1.
  unfold regular_rule in Ere. apply bind_Ok_inv in Ere. destruct Ere as (qt & Eqt & Ere). apply bind_Ok_inv in Ere. destruct Ere as (pt & _ & Ere).
  apply bind_Ok_inv in Ere. destruct Ere as (qs & Eqs & Ere). apply bind_Ok_inv in Ere. destruct Ere as (ps & _ & Ere).
  apply bind_Ok_inv in Ere. destruct Ere as (tab & Etab & Ere). apply bind_Ok_inv in Ere. destruct Ere as (sab & Esab & Ere). injection Ere as <-.
  cbn [re_trial_points re_trial_weights re_test_points re_test_weights re_trial_table re_test_table] in F1.
  assert (Wt : qd_weights qt <> []).
  { destruct (x_simplex X ct nt) as [q|] eqn:E; [|discriminate]. injection Eqt as <-. destruct (pr_simplex _ PR _ _ _ E) as (_ & L). intros C. rewrite C in L. cbn in L. lia. }
  assert (Ws : qd_weights qs <> []).
  { destruct (x_simplex X cs ns) as [q|] eqn:E; [|discriminate]. injection Eqs as <-. destruct (pr_simplex _ PR _ _ _ E) as (_ & L). intros C. rewrite C in L. cbn in L. lia. }
  apply tabulate_shape in Etab. apply tabulate_shape in Esab.
  unfold assemble_batch_nonadjacent in F1.
  destruct (negb _) in F1; [discriminate|]. apply bind_Ok_inv in F1. destruct F1 as (a & Ea & F1).
  apply bind_Ok_inv in F1. destruct F1 as (te & E1 & F1). apply bind_Ok_inv in F1. destruct F1 as (se & E2 & F1).
  apply bind_Ok_inv in F1. destruct F1 as (st & F1 & _).
  apply fs_element_family in E1. apply fs_element_family in E2. subst te se.
  unfold nonsingular_new in Ea. apply bind_Ok_inv in Ea. destruct Ea as (cache & _ & Ea). injection Ea as <-.
  match type of F1 with foldM _ _ (mkNonsingular ?su _ _ _ ?wt ?ws _ _ _, new_array _ ?sh, _) = _ =>
    destruct (foldM_at _ (keeps su wt ws sh) _ _ _ s F1) as (u & v & Ku & Fu) end;
    [now repeat split|intros; eapply trial_keeps; eauto|exact Hsa|].
  destruct u as ((a, m), ops). destruct Ku as (K1 & K2 & K3 & K4). cbn [fst snd] in *. unfold nonsingular_trial in Fu.
  apply bind_Ok_inv in Fu. destruct Fu as (a1 & Ea1 & Fu). apply bind_Ok_inv in Fu. destruct Fu as (dofs & _ & Fu).
  unfold nonsingular_set_trial in Ea1. apply bind_Ok_inv in Ea1. destruct Ea1 as (arr & _ & Ea1). injection Ea1 as <-.
  match type of K1 with _ = ?su => match type of K4 with _ = ?sh =>
    destruct (foldM_at _ (keeps su (qd_weights qt) (qd_weights qs) sh) _ _ _ t Fu) as (u & w & Ku & Fw) end end;
    [now repeat split|intros; eapply pair_keeps; eauto|exact Hta|].
  destruct u as ((a', m'), ops'). destruct Ku as (L1 & L2 & L3 & L4). cbn [fst snd] in *. unfold nonsingular_pair in Fw.
  rewrite Nb in Fw. cbn [bind] in Fw. apply bind_Ok_inv in Fw. destruct Fw as (a2 & Ea2 & Fw).
  apply bind_Ok_inv in Fw. destruct Fw as ((a3, m3) & E3 & _).
  unfold nonsingular_set_test in Ea2. apply bind_Ok_inv in Ea2. destruct Ea2 as (ix & _ & Ea2). injection Ea2 as <-.
  refine (assemble_inside _ _ _ _ _ _ _ _ _ _ _ _ _ _ i j E3 L4 _ _ _ _ Hi Hj); cbn [na_setup na_test_weights na_trial_weights];
    rewrite ?L1, ?L2, ?L3; try assumption; [exact Etab|exact Esab].
Qed.

Theorem mixed_dimensions_fail rt wmod O o trial test output t s nt ns :
  serial_space test -> serial_space trial -> same_object test trial -> proper_rules X ->
  t < ent_count (fs_grid test) 2 -> s < ent_count (fs_grid trial) 2 -> ~ touching test trial t s ->
  get_regular_quadrature_degree (g_ctype (fs_grid test) t) o = Some nt -> 0 < nt ->
  get_regular_quadrature_degree (g_ctype (fs_grid trial) s) o = Some ns -> 0 < ns ->
  (el_dim (fs_family test (g_ctype (fs_grid test) t)) < el_dim (fs_family test (g_ctype (fs_grid trial) s)) /\
     0 < el_dim (fs_family trial (g_ctype (fs_grid test) t)) \/
   el_dim (fs_family trial (g_ctype (fs_grid trial) s)) < el_dim (fs_family trial (g_ctype (fs_grid test) t)) /\
     0 < el_dim (fs_family test (g_ctype (fs_grid trial) s))) ->
  forall result, assemble_into_memory S X rt wmod O o trial test output <> Ran (Ok result).
Proof.
  intros St Ss Sa PR Ht Hs NT Ent Pnt Ens Pns D result H.
  pose proof (pair_fits rt wmod O o trial test output t s nt ns result St Ss Sa PR Ht Hs NT Ent Pnt Ens Pns H) as F.
  destruct D as [(D & P)|(D & P)].
  - destruct (F _ _ D P) as (C & _). lia.
  - destruct (F _ _ P D) as (_ & C). lia.
Qed.

End Mixed.
