(** * What the batch functions compute *)
From Verif Require Import Base BaseFacts Topology TopologyFacts DofMap SpecDof Colouring Space SpecSpace Options Batch
  Adjacency SpecAdjacency
  Scalar Integrand CellPair Operators SpecLocal LocalFacts LocalResults Interleave SpecAssembly InterleaveFacts Assembly AssemblyFacts.

Section Values.
Context {T R : Type} (S : scalar T R) (X : externals R).

(** ** Cells that do not touch *)

(** The state of a batch, with the last trial cell. *)
Definition ready (su : setup) (tev : evaluator R) (cells : list nat) (wt ws : list R) (nk nt ns dt ds : nat) (ls : option nat)
    (st : @nonsingular_assembler T R * array T) : Prop :=
  na_setup (fst st) = su /\ na_tests (fst st) = map (arrays_of tev) cells /\
  na_test_weights (fst st) = wt /\ na_trial_weights (fst st) = ws /\
  a_shape (na_k (fst st)) = [nk; nt; ns] /\ length (a_data (na_k (fst st))) = nk * nt * ns /\
  (forall c i, assoc Nat.eqb c (na_test_indices (fst st)) = Some i -> nth_error cells i = Some c) /\
  (forall c, In c cells -> assoc Nat.eqb c (na_test_indices (fst st)) <> None) /\
  (exists x, holds ns x (na_trial (fst st)) /\ forall s, ls = Some s -> x = ev_cell (su_trial_ev su) s) /\
  a_shape (snd st) = [dt; ds].

Section Batch.
Variables (O : operator T R) (nt ns vt vs dt ds : nat) (ft fs : nat -> nat -> nat -> nat -> T) (tev sev : evaluator R)
  (cells : list nat) (wt ws : list R).
Hypotheses (F : fitting O) (Hvt : 0 < vt) (Hvs : 0 < vs) (Et : ev_npts tev = nt) (Es : ev_npts sev = ns)
  (Lt : length wt = nt) (Ls : length ws = ns).
Let su := mkSetup (op_integrand O) (op_kernel O) sev (tabulated (op_table_derivs O) nt dt vt ft) (tabulated (op_table_derivs O) ns ds vs fs).
Let value t s := tensor_entry S (op_integrand O) (kn_value (op_kernel O)) (ev_cell tev t) (ev_cell sev s)
  (fun d p b => ft d p b 0) (fun d p b => fs d p b 0) wt ws.

Lemma ready_assemble a m s t : ready su tev cells wt ws (op_deriv_size O) nt ns dt ds (Some s) (a, m) -> In t cells ->
  exists a1 a2, nonsingular_set_test t a = Ok a1 /\
    nonsingular_assemble S a1 m = Ok (a2, mkArray [dt; ds] (table2 dt ds (value t s))) /\
    ready su tev cells wt ws (op_deriv_size O) nt ns dt ds (Some s) (a2, mkArray [dt; ds] (table2 dt ds (value t s))).
Proof.
  intros (A1 & A2 & A3 & A4 & A5 & A6 & A7 & A8 & (x & A9 & A10) & A11) Hc. cbn [fst snd] in *.
  unfold nonsingular_set_test. assert (Hc' := Hc). apply A8 in Hc.
  destruct (assoc Nat.eqb t (na_test_indices a)) as [i|] eqn:Ei; [|congruence]. cbn [unwrap bind].
  eexists. eexists. split; [reflexivity|].
  assert (x = ev_cell sev s) by (apply A10; reflexivity). subst x.
  rewrite (nonsingular_assemble_Ok S _ m O nt ns vt vs dt ds ft fs (arrays_of tev t) (ev_cell tev t) (ev_cell sev s));
    cbn [na_setup na_k na_tests na_trial na_test_weights na_trial_weights na_test_cell na_trial_cell na_test_indices];
    auto; try (rewrite A1; reflexivity).
  - rewrite A3, A4. split; [reflexivity|]. unfold value.
    repeat split; cbn [fst snd na_setup na_tests na_test_weights na_trial_weights na_k na_test_indices na_test_cell na_trial a_shape a_data]; auto.
    + apply length_table3.
    + exists (ev_cell sev s). split; auto.
  - now rewrite A3.
  - now rewrite A4.
  - rewrite A2. apply map_nth_error. now apply A7.
  - rewrite <- Et. apply arrays_of_holds.
Qed.

Lemma ready_trial a m ls s : ready su tev cells wt ws (op_deriv_size O) nt ns dt ds ls (a, m) ->
  exists a1, nonsingular_set_trial s a = Ok a1 /\ ready su tev cells wt ws (op_deriv_size O) nt ns dt ds (Some s) (a1, m).
Proof.
  intros (A1 & A2 & A3 & A4 & A5 & A6 & A7 & A8 & (x & A9 & A10) & A11). cbn [fst snd] in *.
  unfold nonsingular_set_trial. rewrite A1. cbn [su_trial_ev su].
  rewrite (write_arrays_Ok _ s x) by now rewrite Es. cbn [bind]. eexists. split; [reflexivity|].
  repeat split; cbn [fst snd na_setup na_tests na_test_weights na_trial_weights na_k na_test_indices na_test_cell na_trial]; auto.
  exists (ev_cell sev s). split; [rewrite <- Es; apply arrays_of_holds|]. cbn [su_trial_ev su]. congruence.
Qed.

Variables (rows : nat) (test trial : fspace T R) (nb : nat -> nat -> bool).

(** What a pair of cells adds. *)
Definition pair_ops (t s : nat) : list (@op T) :=
  if nb t s then [] else map (entry_op rows) (entry_list (dofs_at test t) (dofs_at trial s) (value t s)).

Definition cells_ok (fsp : fspace T R) (dim : nat) (c : nat) : Prop :=
  cell_dofs_unchecked (sp_dofmap (fs_space fsp)) c = Ok (dofs_at fsp c) /\ length (dofs_at fsp c) = dim.

Hypothesis Ht : forall t, In t cells -> cells_ok test dt t.

Lemma trial_values s a m ls ops : cells_ok trial ds s ->
  (forall t, In t cells -> neighbours (fs_grid test) (fs_grid trial) t s = Ok (nb t s)) ->
  ready su tev cells wt ws (op_deriv_size O) nt ns dt ds ls (a, m) ->
  exists a' m', nonsingular_trial S rows test trial cells (a, m, ops) s = Ok (a', m', ops ++ flat_map (fun t => pair_ops t s) cells) /\
    ready su tev cells wt ws (op_deriv_size O) nt ns dt ds (Some s) (a', m').
Proof.
  intros (Ed & Ld) Nb Re. unfold nonsingular_trial.
  destruct (ready_trial a m ls s Re) as (a1 & E1 & Re1). rewrite E1, Ed. cbn [bind].
  assert (G : exists st, foldM (nonsingular_pair S rows test trial s (dofs_at trial s)) cells (a1, m, ops) = Ok st /\
    (ready su tev cells wt ws (op_deriv_size O) nt ns dt ds (Some s) (fst st) /\ snd st = ops ++ flat_map (fun t => pair_ops t s) cells)).
  { apply (foldM_inv (nonsingular_pair S rows test trial s (dofs_at trial s))
      (fun done st => ready su tev cells wt ws (op_deriv_size O) nt ns dt ds (Some s) (fst st) /\
         snd st = ops ++ flat_map (fun t => pair_ops t s) done)).
    - cbn. rewrite app_nil_r. auto.
    - intros done t rest [[a2 m2] ops2] Ec (Re2 & Eo). cbn [fst snd] in Re2, Eo. subst ops2.
      assert (Hc : In t cells) by (rewrite Ec; apply in_or_app; right; now left).
      unfold nonsingular_pair. rewrite (Nb t Hc). cbn [bind]. rewrite flat_map_app. cbn [flat_map]. rewrite app_nil_r.
      assert (Ep : pair_ops t s = if nb t s then [] else map (entry_op rows) (entry_list (dofs_at test t) (dofs_at trial s) (value t s)))
        by reflexivity.
      rewrite Ep. clear Ep. destruct (nb t s).
      + eexists. split; [reflexivity|]. cbn [fst snd]. rewrite app_nil_r. auto.
      + destruct (ready_assemble a2 m2 s t Re2 Hc) as (a3 & a4 & E3 & E4 & Re4). rewrite E3. cbn [bind]. rewrite E4. cbn [bind].
        destruct (Ht t Hc) as (Etd & Ltd). rewrite Etd. cbn [bind fst snd].
        eexists. split; [reflexivity|]. cbn [fst snd]. split; [exact Re4|].
        rewrite <- app_assoc, <- Ltd, <- Ld, entries_table2. reflexivity. }
  destruct G as ([[a' m'] ops'] & E & Re' & Eo). cbn [fst snd] in Re', Eo. subst ops'. eauto.
Qed.

End Batch.

Theorem batch_values O shape trial_t test_t trial test scells tcells sp sw tp tw vt vs ft fs et es nb :
  fitting O -> 0 < vt -> 0 < vs ->
  g_gdim (fs_grid test) = 3 -> g_tdim (fs_grid test) = 2 -> g_gdim (fs_grid trial) = 3 -> g_tdim (fs_grid trial) = 2 ->
  fs_element test test_t = Ok et -> fs_element trial trial_t = Ok es ->
  length tp = 2 * length tw -> length sp = 2 * length sw ->
  (forall t, In t tcells -> cells_ok test (el_dim et) t) -> (forall s, In s scells -> cells_ok trial (el_dim es) s) ->
  (forall t s, In t tcells -> In s scells -> neighbours (fs_grid test) (fs_grid trial) t s = Ok (nb t s)) ->
  assemble_batch_nonadjacent S X O shape trial_t test_t trial scells test tcells sp sw tp tw
    (tabulated (op_table_derivs O) (length sw) (el_dim es) vs fs) (tabulated (op_table_derivs O) (length tw) (el_dim et) vt ft) =
  Ok (flat_map (fun s => flat_map (fun t =>
        pair_ops O ft fs (geometry_map X (fs_grid test) test_t tp) (geometry_map X (fs_grid trial) trial_t sp) tw sw
          (fst shape) test trial nb t s) tcells) scells, 1).
Proof.
  intros F Hvt Hvs G1 G2 G3 G4 Ee Ees Ltp Lsp Ht Hs Nb.
  unfold assemble_batch_nonadjacent. rewrite G1, G2, G3, G4. cbn [Nat.eqb andb negb].
  assert (Et : ev_npts (geometry_map X (fs_grid test) test_t tp) = length tw).
  { cbn [geometry_map ev_npts]. rewrite Ltp, Nat.mul_comm. apply Nat.div_mul. lia. }
  assert (Es : ev_npts (geometry_map X (fs_grid trial) trial_t sp) = length sw).
  { cbn [geometry_map ev_npts]. rewrite Lsp, Nat.mul_comm. apply Nat.div_mul. lia. }
  set (tev := geometry_map X (fs_grid test) test_t tp) in *. set (sev := geometry_map X (fs_grid trial) trial_t sp) in *.
  set (su := mkSetup _ _ _ _ _).
  destruct (nonsingular_new_Ok S (length tw) (length sw) (op_deriv_size O) tcells su tev tw sw Et) as (ind & En & I1 & I2).
  rewrite En. cbn [bind]. rewrite Ee, Ees. cbn [bind].
  set (a0 := mkNonsingular _ _ _ _ _ _ _ _ _) in *.
  set (m0 := new_array (s_zero S) [el_dim et; el_dim es]).
  assert (R0 : ready su tev tcells tw sw (op_deriv_size O) (length tw) (length sw) (el_dim et) (el_dim es) None (a0, m0)).
  { repeat split; cbn [a0 m0 fst snd na_setup na_tests na_test_weights na_trial_weights na_k na_test_indices na_test_cell na_trial new_array a_shape a_data]; auto.
    - rewrite repeat_length. unfold size_of. cbn. lia.
    - exists (zero_map S). split; [apply new_arrays_hold|discriminate]. }
  assert (G : exists st, foldM (nonsingular_trial S (fst shape) test trial tcells) scells (a0, m0, []) = Ok st /\
    ((exists ls, ready su tev tcells tw sw (op_deriv_size O) (length tw) (length sw) (el_dim et) (el_dim es) ls (fst st)) /\
     snd st = flat_map (fun s => flat_map (fun t => pair_ops O ft fs tev sev tw sw (fst shape) test trial nb t s) tcells) scells)).
  { apply (foldM_inv (nonsingular_trial S (fst shape) test trial tcells)
      (fun done st => (exists ls, ready su tev tcells tw sw (op_deriv_size O) (length tw) (length sw) (el_dim et) (el_dim es) ls (fst st)) /\
         snd st = flat_map (fun s => flat_map (fun t => pair_ops O ft fs tev sev tw sw (fst shape) test trial nb t s) tcells) done)).
    - cbn [fst snd]. split; eauto.
    - intros done s rest [[a m] ops] Ec ((ls & Re) & Eo). cbn [fst snd] in Re, Eo. subst ops.
      assert (Hc : In s scells) by (rewrite Ec; apply in_or_app; right; now left).
      destruct (trial_values O (length tw) (length sw) vt vs (el_dim et) (el_dim es) ft fs tev sev tcells tw sw F Hvt Hvs Et Es eq_refl eq_refl
        (fst shape) test trial nb Ht s a m ls
        (flat_map (fun s => flat_map (fun t => pair_ops O ft fs tev sev tw sw (fst shape) test trial nb t s) tcells) done)
        (Hs s Hc) (fun t Hin => Nb t s Hin Hc) Re) as (a' & m' & E & Re').
      rewrite E. eexists. split; [reflexivity|]. cbn [fst snd]. split; [eauto|].
      rewrite flat_map_app. cbn [flat_map]. now rewrite app_nil_r. }
  destruct G as (st & E & _ & Eo). rewrite E. cbn [bind]. now rewrite Eo.
Qed.

(** ** Touching cells *)

Section Singular.
Variables (O : operator T R) (n vt vs dt ds : nat) (ft fs : nat -> nat -> nat -> nat -> T) (tev sev : evaluator R) (w : list R).
Hypotheses (F : fitting O) (Hvt : 0 < vt) (Hvs : 0 < vs) (Et : ev_npts tev = n) (Es : ev_npts sev = n) (Lw : length w = n).
Let su := mkSetup (op_integrand O) (op_kernel O) sev (tabulated (op_table_derivs O) n dt vt ft) (tabulated (op_table_derivs O) n ds vs fs).
Let value t s := pairwise_entry S (op_integrand O) (kn_value (op_kernel O)) (ev_cell tev t) (ev_cell sev s)
  (fun d p b => ft d p b 0) (fun d p b => fs d p b 0) w.

Lemma singular_ready a m lt ls t s : singular_state su tev w (op_deriv_size O) n dt ds lt ls (a, m) ->
  exists a1 a2 a3, singular_set_test t a = Ok a1 /\ singular_set_trial s a1 = Ok a2 /\
    singular_assemble S a2 m = Ok (a3, mkArray [dt; ds] (table2 dt ds (value t s))) /\
    singular_state su tev w (op_deriv_size O) n dt ds (Some t) (Some s) (a3, mkArray [dt; ds] (table2 dt ds (value t s))).
Proof.
  intros (A1 & A2 & A3 & A4 & A5 & (xt & A6 & A7) & (xs & A8 & A9) & A10). cbn [fst snd] in *.
  unfold singular_set_test. rewrite (write_arrays_Ok _ t xt) by now rewrite A2, Et. cbn [bind].
  eexists. eexists. eexists. split; [reflexivity|].
  unfold singular_set_trial. cbn [sa_setup sa_test_ev sa_k sa_test sa_trial sa_weights sa_test_cell]. rewrite A1. cbn [su_trial_ev su].
  rewrite (write_arrays_Ok sev s xs) by now rewrite Es. cbn [bind].
  split; [reflexivity|].
  rewrite (singular_assemble_Ok S _ m O n vt vs dt ds ft fs (ev_cell tev t) (ev_cell sev s));
    cbn [sa_setup sa_test_ev sa_weights sa_k sa_test sa_trial]; auto.
  - rewrite A2, A3. split; [reflexivity|]. unfold value.
    repeat split; cbn [fst snd sa_setup sa_test_ev sa_weights sa_k sa_test sa_trial a_shape a_data]; auto.
    + apply length_table2.
    + exists (ev_cell tev t). split; [rewrite <- Et; apply arrays_of_holds|]. congruence.
    + exists (ev_cell sev s). split; [rewrite <- Es; apply arrays_of_holds|]. cbn [su_trial_ev su]. congruence.
  - now rewrite A3.
  - rewrite A2, <- Et. apply arrays_of_holds.
  - rewrite <- Es. apply arrays_of_holds.
Qed.

End Singular.

(** The global number of a local DOF. *)
Definition global_of (fsp : fspace T R) (i : nat) : nat :=
  match global_dof_index (fs_space fsp) i with Ok n => n | _ => 0 end.

Definition globalise (test trial : fspace T R) (e : nat * nat * T) : nat * nat * T :=
  (global_of test (fst (fst e)), global_of trial (snd (fst e)), snd e).

(** A list of triplets added to a sparse matrix. *)
Definition extend (out : sparse T) (L : list (nat * nat * T)) : sparse T :=
  mkSparse (sm_data out ++ map snd L) (sm_rows out ++ map (fun e => fst (fst e)) L) (sm_cols out ++ map (fun e => snd (fst e)) L)
    (sm_shape out) (sm_reserved out).

Lemma extend_app out L M : extend (extend out L) M = extend out (L ++ M).
Proof. unfold extend. cbn [sm_data sm_rows sm_cols sm_shape sm_reserved]. now rewrite !map_app, !app_assoc. Qed.

Lemma extend_nil out : extend out [] = out.
Proof. unfold extend. cbn [map]. rewrite !app_nil_r. now destruct out. Qed.

Definition dof_known (fsp : fspace T R) (i : nat) : Prop := global_dof_index (fs_space fsp) i = Ok (global_of fsp i).

Lemma push_entries test trial es out :
  (forall e, In e es -> dof_known test (fst (fst e)) /\ dof_known trial (snd (fst e))) ->
  foldM (push_entry test trial) es out = Ok (extend out (map (globalise test trial) es)).
Proof.
  revert out. induction es as [|[[i j] v] es IH]; intros out H; cbn [foldM map].
  - now rewrite extend_nil.
  - destruct (H (i, j, v) (or_introl eq_refl)) as (Hi & Hj). cbn [fst snd] in Hi, Hj.
    unfold push_entry. unfold dof_known in Hi, Hj. rewrite Hi. cbn [bind]. rewrite Hj. cbn [bind].
    rewrite IH by (intros; apply H; now right).
    change (globalise test trial (i, j, v) :: map (globalise test trial) es)
      with ([globalise test trial (i, j, v)] ++ map (globalise test trial) es).
    rewrite <- extend_app. reflexivity.
Qed.

(** The triplets of a pair of cells. *)
Definition pair_triplets (O : operator T R) (ft fs : nat -> nat -> nat -> nat -> T) (tev sev : evaluator R) (w : list R)
    (test trial : fspace T R) (p : nat * nat) : list (nat * nat * T) :=
  map (globalise test trial) (entry_list (dofs_at test (fst p)) (dofs_at trial (snd p))
    (pairwise_entry S (op_integrand O) (kn_value (op_kernel O)) (ev_cell tev (fst p)) (ev_cell sev (snd p))
       (fun d p b => ft d p b 0) (fun d p b => fs d p b 0) w)).

Lemma In_entry_list td sd f (i j : nat) (v : T) : In (i, j, v) (entry_list td sd f) -> In i td /\ In j sd.
Proof. rewrite <- entries_table2. apply In_entries. Qed.

Theorem batch_singular_values O shape trial_t test_t trial test pairs w tp sp vt vs ft fs et es :
  fitting O -> 0 < vt -> 0 < vs -> g_gdim (fs_grid test) = 3 -> g_tdim (fs_grid test) = 2 ->
  fs_element test test_t = Ok et -> fs_element trial trial_t = Ok es ->
  length tp = 2 * length w -> length sp = 2 * length w ->
  (forall t s, In (t, s) pairs -> cells_ok test (el_dim et) t /\ cells_ok trial (el_dim es) s) ->
  (forall t s i, In (t, s) pairs -> In i (dofs_at test t) -> dof_known test i) ->
  (forall t s i, In (t, s) pairs -> In i (dofs_at trial s) -> dof_known trial i) ->
  assemble_batch_singular S X O shape trial_t test_t trial test pairs
    (mkRule w sp (tabulated (op_table_derivs O) (length w) (el_dim es) vs fs) tp (tabulated (op_table_derivs O) (length w) (el_dim et) vt ft)) =
  Ok (extend (sparse_known shape (length pairs * el_dim es * el_dim et))
        (flat_map (pair_triplets O ft fs (geometry_map X (fs_grid test) test_t tp) (geometry_map X (fs_grid test) trial_t sp) w test trial) pairs)).
Proof.
  intros F Hvt Hvs G1 G2 Ee Ees Ltp Lsp Hc Kt Ks.
  unfold assemble_batch_singular. rewrite Ees, Ee. cbn [bind]. rewrite G1, G2. cbn [Nat.eqb andb negb ru_weights ru_trial_points ru_test_points ru_test_table ru_trial_table].
  assert (Et : ev_npts (geometry_map X (fs_grid test) test_t tp) = length w).
  { cbn [geometry_map ev_npts]. rewrite Ltp, Nat.mul_comm. apply Nat.div_mul. lia. }
  assert (Es : ev_npts (geometry_map X (fs_grid test) trial_t sp) = length w).
  { cbn [geometry_map ev_npts]. rewrite Lsp, Nat.mul_comm. apply Nat.div_mul. lia. }
  set (tev := geometry_map X (fs_grid test) test_t tp) in *. set (sev := geometry_map X (fs_grid test) trial_t sp) in *.
  set (out0 := sparse_known shape _).
  set (su := mkSetup _ _ _ _ _).
  set (a0 := singular_new S (length w) (op_deriv_size O) su tev w).
  set (m0 := new_array (s_zero S) [el_dim et; el_dim es]).
  assert (R0 : singular_state su tev w (op_deriv_size O) (length w) (el_dim et) (el_dim es) None None (a0, m0)).
  { repeat split; cbn [a0 m0 fst snd singular_new sa_setup sa_test_ev sa_weights sa_k sa_test sa_trial new_array a_shape a_data]; auto.
    - rewrite repeat_length. unfold size_of. cbn. lia.
    - exists (zero_map S). split; [apply new_arrays_hold|discriminate].
    - exists (zero_map S). split; [apply new_arrays_hold|discriminate]. }
  assert (G : exists st, foldM (singular_pair S test trial) pairs (a0, m0, out0) = Ok st /\
    ((exists lt ls, singular_state su tev w (op_deriv_size O) (length w) (el_dim et) (el_dim es) lt ls (fst st)) /\
     snd st = extend out0 (flat_map (pair_triplets O ft fs tev sev w test trial) pairs))).
  { apply (foldM_inv (singular_pair S test trial)
      (fun done st => (exists lt ls, singular_state su tev w (op_deriv_size O) (length w) (el_dim et) (el_dim es) lt ls (fst st)) /\
         snd st = extend out0 (flat_map (pair_triplets O ft fs tev sev w test trial) done))).
    - cbn [fst snd flat_map]. rewrite extend_nil. split; eauto.
    - intros done [t s] rest [[a m] out] Ec ((lt & ls & Re) & Eo). cbn [fst snd] in Re, Eo. subst out.
      assert (Hp : In (t, s) pairs) by (rewrite Ec; apply in_or_app; right; now left).
      destruct (singular_ready O (length w) vt vs (el_dim et) (el_dim es) ft fs tev sev w F Hvt Hvs Et Es eq_refl a m lt ls t s Re)
        as (a1 & a2 & a3 & E1 & E2 & E3 & Re3).
      unfold singular_pair. cbn [fst snd]. rewrite E1. cbn [bind]. rewrite E2. cbn [bind]. rewrite E3. cbn [bind fst snd].
      destruct (Hc t s Hp) as ((Edt & Ldt) & (Eds & Lds)). rewrite Edt. cbn [bind]. rewrite Eds. cbn [bind].
      rewrite <- Ldt, <- Lds, entries_table2, Ldt, Lds. rewrite push_entries.
      + cbn [bind]. eexists. split; [reflexivity|]. cbn [fst snd]. split; [eauto|].
        rewrite extend_app, flat_map_app. cbn [flat_map]. rewrite app_nil_r. reflexivity.
      + intros [[i j] v] He. apply In_entry_list in He. cbn [fst snd]. split; [eapply Kt|eapply Ks]; eauto; tauto. }
  destruct G as (st & E & _ & Eo). rewrite E. cbn [bind]. now rewrite Eo.
Qed.

Lemma length_entry_list td sd (f : nat -> nat -> T) : length (entry_list td sd f) = length td * length sd.
Proof.
  unfold entry_list. rewrite (length_blocks _ (length td)).
  - now rewrite length_enumerate.
  - intros y _. now rewrite map_length, length_enumerate.
Qed.

End Values.
