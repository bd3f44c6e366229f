(** * The writes of the dense assembly *)
From Verif Require Import Base BaseFacts Topology TopologyFacts DofMap SpecDof DofMapFacts DofMapResults DofExamples Colouring SpecColour ColouringResults
  Process Space SpecSpace SpaceResults Options Batch Adjacency AdjacencyFacts
  Scalar Integrand CellPair Operators Interleave SpecAssembly InterleaveFacts Assembly AssemblyFacts.

Section Races.
Context {T R : Type} (S : scalar T R) (X : externals R).

Lemma serial_sizes (fs : fspace T R) : serial_space fs ->
  global_size (fs_space fs) = dm_size (sp_dofmap (fs_space fs)) /\
  (forall i, i < dm_size (sp_dofmap (fs_space fs)) -> global_dof_index (fs_space fs) i = Ok i).
Proof.
  intros [W F P Ow D (eager & sp & C & E) Np].
  assert (NG : forall c d i e p x, sub_at (fs_grid fs) c d i e -> g_own (fs_grid fs) d e <> Ghost p x).
  { intros c d i e p x (Hc & Hd & Hi) Hg. rewrite Ow in Hg; [discriminate|lia|].
    apply (wf_sub_lt _ W c d e Hc Hd). eapply nth_error_In; eauto. }
  destruct (serial_identity _ _ _ eager sp W F NG D C) as (_ & A & B & G & _).
  rewrite E in A, B, G. split; [congruence|]. intros i Hi. apply G. congruence.
Qed.

Lemma dofs_at_spec (fs : fspace T R) c : serial_space fs -> c < ent_count (fs_grid fs) 2 ->
  cell_dofs_unchecked (sp_dofmap (fs_space fs)) c = Ok (dofs_at fs c) /\
  has_cell_dofs (sp_dofmap (fs_space fs)) c (dofs_at fs c) /\ NoDup (dofs_at fs c) /\
  length (dofs_at fs c) = el_dim (fs_family fs (g_ctype (fs_grid fs) c)) /\
  (forall i, In i (dofs_at fs c) -> i < global_size (fs_space fs)).
Proof.
  intros SS Hc. destruct (serial_sizes fs SS) as (Eg & _). destruct SS as [W F P Ow D Cr Np].
  destruct (cell_dofs_distinct_in_range _ _ _ _ c W F D Hc) as (l & H & L & N & B).
  unfold dofs_at. assert (H' := H). unfold has_cell_dofs in H. rewrite H.
  unfold cell_dofs in H. destruct (c <? _); [|discriminate]. apply bind_Ok_inv in H. destruct H as (r & Er & E).
  inversion E; subst. rewrite Er, Eg. repeat split; auto.
Qed.

Lemma conflict_dofs (fs : fspace T R) c c' i : serial_space fs ->
  c < ent_count (fs_grid fs) 2 -> c' < ent_count (fs_grid fs) 2 ->
  In i (dofs_at fs c) -> In i (dofs_at fs c') -> conflict (sp_dofmap (fs_space fs)) c c'.
Proof.
  intros SS Hc Hc' Hi Hi'. exists (dofs_at fs c), (dofs_at fs c'), i.
  destruct (dofs_at_spec fs c SS Hc) as (_ & A & _). destruct (dofs_at_spec fs c' SS Hc') as (_ & B & _). auto.
Qed.

(** A set of cells no two of which share a DOF. *)
Definition independent (fs : fspace T R) (cells : list nat) : Prop :=
  NoDup cells /\ (forall c, In c cells -> c < ent_count (fs_grid fs) 2) /\
  (forall c c' i, In c cells -> In c' cells -> In i (dofs_at fs c) -> In i (dofs_at fs c') -> c = c').

Lemma classes_independent (fs : fspace T R) col t classes l : serial_space fs ->
  cell_colouring (fs_grid fs) (fs_family fs) = Ok col ->
  assoc ct_eqb t col = Some classes -> In l classes -> independent fs l.
Proof.
  intros SS Ec Ea Hl. assert (SS' := SS). destruct SS' as [W F P Ow D Cr Np].
  destruct (colouring_partition _ _ W F P) as (col' & K & E' & Keys & Cc & All & Once & Ty & Nd).
  assert (col' = col) by congruence. subst col'.
  apply In_nth_error in Hl. destruct Hl as (k & Hk).
  assert (In_l : forall c, In c l -> in_class col t k c) by (intros c Hc; exists classes, l; auto).
  split; [eapply Nd; eauto|]. split; [intros c Hc; eapply Ty; eauto|].
  intros c c' i Hc Hc' Hi Hi'. destruct (Nat.eq_dec c c') as [|N]; auto. exfalso.
  apply (colouring_proper _ _ _ _ _ t t k c c' W F D Ec); auto.
  eapply conflict_dofs; eauto; eapply Ty; eauto.
Qed.

(** All additions of a pair of independent sets are to different addresses inside the
    matrix. *)
Lemma independent_addresses test trial tc sc ps (ops : list (@op T)) :
  serial_space test -> serial_space trial -> independent test tc -> independent trial sc ->
  Permutation ps (list_prod tc sc) -> blocks_of (global_size (fs_space test)) test trial ps ops ->
  NoDup (map fst ops) /\
  forall a, In a (map fst ops) -> a < global_size (fs_space test) * global_size (fs_space trial).
Proof.
  intros St Ss (Nt & Bt & It) (Ns & Bs & Is) P (ls & F & ->).
  assert (Inp : forall p, In p ps -> In (fst p) tc /\ In (snd p) sc).
  { intros [t s] Hp. apply (Permutation_in _ P) in Hp. now apply in_prod_iff in Hp. }
  set (rows := global_size (fs_space test)) in *.
  assert (Ad : forall p l a, In p ps -> block_of rows test trial p l -> In a (map fst l) ->
    exists i j, In i (dofs_at test (fst p)) /\ In j (dofs_at trial (snd p)) /\ a = i + rows * j).
  { intros p l a Hp [->|(td & sd & m & Et & Es & ->)] Ha; [destruct Ha|].
    destruct (Inp p Hp) as (Hpt & Hps).
    destruct (dofs_at_spec test (fst p) St (Bt _ Hpt)) as (Et' & _).
    destruct (dofs_at_spec trial (snd p) Ss (Bs _ Hps)) as (Es' & _).
    assert (td = dofs_at test (fst p)) by congruence. assert (sd = dofs_at trial (snd p)) by congruence. subst td sd.
    apply in_map_iff in Ha. destruct Ha as (o & Eo & Ho). apply in_map_iff in Ho. destruct Ho as ([[i j] v] & Ee & He).
    subst o. cbn in Eo. apply In_entries in He. exists i, j. intuition. }
  rewrite concat_map. split.
  - apply (NoDup_blocks (fun p l => exists l0, block_of rows test trial p l0 /\ l = map fst l0) ps).
    + clear - F. induction F; cbn; constructor; eauto.
    + eapply Permutation_NoDup; [apply Permutation_sym, P|]. now apply NoDup_list_prod.
    + intros p l Hp (l0 & Hl & ->). destruct Hl as [->|(td & sd & m & Et & Es & ->)]; [constructor|].
      destruct (Inp p Hp) as (Hpt & Hps).
      destruct (dofs_at_spec test (fst p) St (Bt _ Hpt)) as (Et' & _ & Ntd & _ & Btd).
      destruct (dofs_at_spec trial (snd p) Ss (Bs _ Hps)) as (Es' & _ & Nsd & _ & Bsd).
      assert (td = dofs_at test (fst p)) by congruence. assert (sd = dofs_at trial (snd p)) by congruence. subst td sd.
      pose proof (NoDup_entries (dofs_at test (fst p)) (dofs_at trial (snd p)) m Ntd Nsd) as N.
      rewrite map_map.
      rewrite (map_ext _ (fun e : nat * nat * T => (fun q : nat * nat => fst q + rows * snd q) (fst e))) by (intros [[i j] v]; reflexivity).
      rewrite <- (map_map fst (fun q : nat * nat => fst q + rows * snd q)).
      assert (B : forall q, In q (map fst (entries (dofs_at test (fst p)) (dofs_at trial (snd p)) m)) -> fst q < rows).
      { intros q Hq. apply in_map_iff in Hq. destruct Hq as ([[i j] v] & Eq & Hq). cbn in Eq. subst q.
        apply In_entries in Hq. cbn. apply Btd. tauto. }
      revert N B. generalize (map fst (entries (dofs_at test (fst p)) (dofs_at trial (snd p)) m)) as qs.
      intros qs N B. induction N as [|q qs Hq N IH]; cbn; constructor.
      * intros H. apply in_map_iff in H. destruct H as (q' & E & H).
        apply address_inj in E; [|apply B; now right|apply B; now left].
        destruct q, q'. cbn in E. destruct E; subst. contradiction.
      * apply IH. intros; apply B; now right.
    + intros p l p' l' a Hp Hp' (l0 & Hl & ->) (l1 & Hl' & ->) Ha Ha'.
      destruct (Ad p l0 a Hp Hl Ha) as (i & j & Hi & Hj & Ea).
      destruct (Ad p' l1 a Hp' Hl' Ha') as (i' & j' & Hi' & Hj' & Ea').
      destruct (Inp p Hp) as (Hpt & Hps). destruct (Inp p' Hp') as (Hpt' & Hps').
      rewrite Ea in Ea'. apply address_inj in Ea'.
      * destruct Ea' as (<- & <-). destruct p as [t s], p' as [t' s']. cbn in *. f_equal; [eapply It|eapply Is]; eauto.
      * eapply (dofs_at_spec test (fst p)); eauto.
      * eapply (dofs_at_spec test (fst p')); eauto.
  - intros a Ha. apply in_concat in Ha. destruct Ha as (l & Hl & Ha). apply in_map_iff in Hl. destruct Hl as (l0 & <- & Hl).
    assert (E : exists p, In p ps /\ block_of rows test trial p l0).
    { clear - F Hl. induction F as [|p l ps ls Hp F IH]; [destruct Hl|]. destruct Hl as [<-|Hl].
      - exists p. split; auto. now left.
      - destruct (IH Hl) as (q & ? & ?). exists q. split; auto. now right. }
    destruct E as (p & Hp & Bp). destruct (Ad p l0 a Hp Bp Ha) as (i & j & Hi & Hj & ->).
    destruct (Inp p Hp) as (Hpt & Hps).
    apply (dofs_at_spec test (fst p)) in Hi; auto. apply (dofs_at_spec trial (snd p)) in Hj; auto. nia.
Qed.

(** The phases of the assembly. *)
Lemma phases_inv wmod O o shape trial test trial_col test_col phases tasks :
  nonsingular_phases S X wmod O o shape trial test trial_col test_col = Ok phases -> In tasks phases ->
  fst shape = global_size (fs_space test) /\
  exists t s test_classes trial_classes re colours,
    In t (g_types (fs_grid test) 2) /\ In s (g_types (fs_grid trial) 2) /\
    assoc ct_eqb t test_col = Some test_classes /\ assoc ct_eqb s trial_col = Some trial_classes /\
    In (fst colours) test_classes /\ In (snd colours) trial_classes /\
    nonsingular_phase S X wmod O o shape trial test t s re colours = Ok tasks.
Proof.
  unfold nonsingular_phases. intros H Hin. destruct (negb _) in H; [discriminate|].
  destruct (negb _) eqn:Esh in H; [discriminate|]. apply bind_Ok_inv in H. destruct H as (pp & Ep & H). inversion H; subst phases.
  apply negb_false_iff, andb_true_iff in Esh. destruct Esh as (Esh & _). apply Nat.eqb_eq in Esh. split; [exact Esh|].
  apply in_concat in Hin. destruct Hin as (l & Hl & Hin).
  destruct (mapM_In _ _ _ _ Ep Hl) as ([t s] & Hts & Et).
  apply in_prod_iff in Hts. destruct Hts as (Ht & Hs).
  unfold nonsingular_types in Et.
  apply bind_Ok_inv in Et. destruct Et as (n1 & _ & Et). apply bind_Ok_inv in Et. destruct Et as (n2 & _ & Et).
  apply bind_Ok_inv in Et. destruct Et as (re & _ & Et). apply bind_Ok_inv in Et. destruct Et as (tc & Etc & Et).
  destruct tc as [|tc0 tcs]; [inversion Et; subst; destruct Hin|].
  apply bind_Ok_inv in Et. destruct Et as (sc & Esc & Et).
  destruct (mapM_In _ _ _ _ Et Hin) as (colours & Hc & Eph).
  destruct colours as [a b]. apply in_prod_iff in Hc.
  destruct (assoc ct_eqb t test_col) as [x|] eqn:E1; cbn [unwrap] in Etc; inversion Etc; subst x.
  destruct (assoc ct_eqb s trial_col) as [x|] eqn:E2; cbn [unwrap] in Esc; inversion Esc; subst x.
  exists t, s, (tc0 :: tcs), sc, re, (a, b). cbn [fst snd]. tauto.
Qed.

Lemma phase_addresses wmod O o shape trial test trial_col test_col phases tasks :
  serial_space test -> serial_space trial ->
  cell_colouring (fs_grid test) (fs_family test) = Ok test_col ->
  cell_colouring (fs_grid trial) (fs_family trial) = Ok trial_col ->
  nonsingular_phases S X wmod O o shape trial test trial_col test_col = Ok phases -> In tasks phases ->
  NoDup (addresses tasks) /\
  forall a, In a (addresses tasks) -> a < global_size (fs_space test) * global_size (fs_space trial).
Proof.
  intros St Ss Ct Cs H Hin. destruct (phases_inv _ _ _ _ _ _ _ _ _ _ H Hin) as
    (Esh & t & s & tcl & scl & re & colours & Ht & Hs & At & As & It & Is & Eph).
  destruct (phase_blocks S X O (fst shape) test trial _ _ _ _ _ _ _ _ eq_refl Eph) as (ps & P & B).
  rewrite Esh in B.
  eapply independent_addresses; eauto; eapply classes_independent; eauto.
Qed.

(** ** Every schedule *)

Lemma addresses_in (tasks : list (list (@op T))) l a : In l tasks -> In a (map fst l) -> In a (addresses tasks).
Proof.
  intros Hl Ha. unfold addresses. apply in_map_iff in Ha. destruct Ha as (o & <- & Ho). apply in_map.
  apply in_concat. eauto.
Qed.

Theorem phases_race_free wmod O o shape trial test trial_col test_col phases tasks memory n c :
  serial_space test -> serial_space trial ->
  cell_colouring (fs_grid test) (fs_family test) = Ok test_col ->
  cell_colouring (fs_grid trial) (fs_family trial) = Ok trial_col ->
  nonsingular_phases S X wmod O o shape trial test trial_col test_col = Ok phases -> In tasks phases ->
  msteps (s_add S) n (launch tasks memory) c -> ~ race c.
Proof.
  intros St Ss Ct Cs H Hin Hs. destruct (phase_addresses _ _ _ _ _ _ _ _ _ _ St Ss Ct Cs H Hin) as (N & B).
  eapply no_race; eauto. apply addresses_disjoint, N.
Qed.

Theorem phases_inside wmod O o shape trial test trial_col test_col phases tasks memory n c :
  serial_space test -> serial_space trial ->
  cell_colouring (fs_grid test) (fs_family test) = Ok test_col ->
  cell_colouring (fs_grid trial) (fs_family trial) = Ok trial_col ->
  nonsingular_phases S X wmod O o shape trial test trial_col test_col = Ok phases -> In tasks phases ->
  length memory = global_size (fs_space test) * global_size (fs_space trial) ->
  (forall task a v, In task tasks -> In (a, v) task -> a < length memory) /\
  (msteps (s_add S) n (launch tasks memory) c -> ~ faulty c).
Proof.
  intros St Ss Ct Cs H Hin L. destruct (phase_addresses _ _ _ _ _ _ _ _ _ _ St Ss Ct Cs H Hin) as (N & B).
  assert (In_ : forall l a, In l tasks -> In a (map fst l) -> a < length memory)
    by (intros l a Hl Ha; rewrite L; apply B; eapply addresses_in; eauto).
  split.
  - intros task a v Ht Ha. eapply In_; eauto. now apply (in_map fst) in Ha.
  - intros Hs. eapply not_faulty; eauto. apply addresses_disjoint, N.
Qed.

Theorem phases_deterministic wmod O o shape trial test trial_col test_col phases tasks memory :
  serial_space test -> serial_space trial ->
  cell_colouring (fs_grid test) (fs_family test) = Ok test_col ->
  cell_colouring (fs_grid trial) (fs_family trial) = Ok trial_col ->
  nonsingular_phases S X wmod O o shape trial test trial_col test_col = Ok phases -> In tasks phases ->
  length memory = global_size (fs_space test) * global_size (fs_space trial) ->
  forall r, outcome (s_add S) tasks memory r <-> r = Ok (after_ops (s_add S) (concat tasks) memory).
Proof.
  intros St Ss Ct Cs H Hin L r. destruct (phase_addresses _ _ _ _ _ _ _ _ _ _ St Ss Ct Cs H Hin) as (N & B).
  assert (In_ : forall l a, In l tasks -> In a (map fst l) -> a < length memory)
    by (intros l a Hl Ha; rewrite L; apply B; eapply addresses_in; eauto).
  split.
  - apply outcome_unique; auto. apply addresses_disjoint, N.
  - intros ->. apply run_exists; auto. apply addresses_disjoint, N.
Qed.

(** All phases one after the other. *)
Lemma run_phases rt wmod O o shape trial test trial_col test_col phases memory :
  legal_runtime (s_add S) rt -> serial_space test -> serial_space trial ->
  cell_colouring (fs_grid test) (fs_family test) = Ok test_col ->
  cell_colouring (fs_grid trial) (fs_family trial) = Ok trial_col ->
  nonsingular_phases S X wmod O o shape trial test trial_col test_col = Ok phases ->
  length memory = global_size (fs_space test) * global_size (fs_space trial) ->
  foldM (fun m tasks => rt_par rt tasks m) phases memory = Ok (after_ops (s_add S) (concat (map (@concat _) phases)) memory).
Proof.
  intros (Lp & _) St Ss Ct Cs H L.
  assert (D : forall tasks m, In tasks phases -> length m = global_size (fs_space test) * global_size (fs_space trial) ->
    rt_par rt tasks m = Ok (after_ops (s_add S) (concat tasks) m)).
  { intros tasks m Hin Lm. exact (proj1 (phases_deterministic wmod O o shape trial test trial_col test_col phases tasks m St Ss Ct Cs H Hin Lm _) (Lp tasks m)). }
  clear H. revert memory L D. induction phases as [|tasks phases IH]; intros memory L D; cbn [foldM map concat].
  - now rewrite after_ops_nil.
  - rewrite D by (auto; now left). cbn [bind]. rewrite IH.
    + now rewrite after_ops_app.
    + now rewrite length_after_ops.
    + intros; apply D; auto. now right.
Qed.

(** ** The reduction of the singular part *)

(** What can be seen of a result. *)
Definition seen (s : sparse T) : list nat * list nat * list T * (nat * nat) :=
  (sm_rows s, sm_cols s, sm_data s, sm_shape s).

Lemma reduces_sparse shape (parts : list (sparse T)) r :
  (forall p, In p parts -> sm_shape p = shape) -> reduces (sparse_new shape) sparse_add parts r ->
  seen r = (flat_map sm_rows parts, flat_map sm_cols parts, flat_map sm_data parts, shape).
Proof.
  intros Sh H. unfold seen.
  rewrite (reduces_concat (sparse_new shape) sparse_add sm_rows eq_refl (fun a b => eq_refl) _ _ H).
  rewrite (reduces_concat (sparse_new shape) sparse_add sm_cols eq_refl (fun a b => eq_refl) _ _ H).
  rewrite (reduces_concat (sparse_new shape) sparse_add sm_data eq_refl (fun a b => eq_refl) _ _ H).
  f_equal. clear - Sh H. induction H as [|x|l1 l2 a b H1 IH1 H2 IH2]; auto.
  - apply Sh. now left.
  - cbn [sparse_add sm_shape]. apply IH1. intros p Hp. apply Sh, in_or_app. now left.
Qed.

End Races.
