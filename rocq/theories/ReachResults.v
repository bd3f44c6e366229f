(** * Which entries depend on which data *)
From Verif Require Import Base BaseFacts Topology TopologyFacts DofMap SpecDof DofMapFacts Process Space SpecSpace
  Options Adjacency SpecAdjacency AdjacencyFacts AdjacencyResults Scalar Integrand CellPair Operators SpecLocal LocalResults
  Interleave Assembly SpecAssembly AssemblyFacts AssemblyRaces AssemblySingular AssemblyDense AssemblyExact AssemblyResults AlgebraFacts SpecOrder OrderResults
  DistributedResults SpecTransfer TransferResults SpecNear NearResults SpecReach.
Local Open Scope nat_scope.

Section Reach.
Context {T R : Type} (S : scalar T R).

Lemma same_arithmetic : related_arithmetic (@eq T) (@eq R) (@eq R) S S.
Proof. constructor; intros; congruence. Qed.

Lemma same_operations : related_operations (@eq T) (@eq R) (@eq R) S S.
Proof. constructor; intros; congruence. Qed.

Lemma same_form (f : integrand T) : related_form eq f f.
Proof. induction f; cbn; auto. Qed.

(** The integrand depends on the values of its arguments only. *)
Lemma same_integrand f k k' phi phi' psi psi' (x x' : cell_map R) p (y y' : cell_map R) q :
  (forall n, k n = k' n) -> (forall n, phi n = phi' n) -> (forall n, psi n = psi' n) ->
  related_point eq eq x x' p -> related_point eq eq y y' q ->
  integrand_value S f k phi psi x p y q = integrand_value S f k' phi' psi' x' p y' q.
Proof.
  intros Hk Hp Hq Hx Hy.
  apply (related_form_value (@eq T) (@eq R) (@eq R) (@eq R) S S same_arithmetic f f same_operations (same_form f)); auto.
Qed.

Lemma enumerate_in {A : Type} (l : list A) p w : In (p, w) (enumerate l) -> nth_error l p = Some w.
Proof.
  unfold enumerate. assert (G : forall n, In (p, w) (combine (seq n (length l)) l) -> n <= p /\ nth_error l (p - n) = Some w).
  { induction l as [|x l IH]; intros n Hn; cbn in Hn; [contradiction|]. destruct Hn as [E|Hn].
    - injection E as -> ->. rewrite Nat.sub_diag. split; [lia|reflexivity].
    - apply IH in Hn. destruct Hn as (L & E). split; [lia|]. replace (p - n) with (Datatypes.S (p - Datatypes.S n)) by lia. exact E. }
  intros H. apply G in H. rewrite Nat.sub_0_r in H. apply H.
Qed.

Lemma in_enumerated {A : Type} (l : list A) p w : nth_error l p = Some w -> In (p, w) (enumerate l).
Proof.
  unfold enumerate. assert (G : forall n, nth_error l p = Some w -> In (n + p, w) (combine (seq n (length l)) l)).
  { revert p. induction l as [|x l IH]; intros [|p] n E; cbn in *; try discriminate.
    - left. inversion E. now rewrite Nat.add_0_r.
    - right. replace (n + Datatypes.S p) with (Datatypes.S n + p) by lia. now apply IH. }
  intros H. apply (G 0 H).
Qed.

Lemma fold_left_same {A B : Type} (f g : A -> B -> A) l a : (forall c x, In x l -> f c x = g c x) -> fold_left f l a = fold_left g l a.
Proof. revert a. induction l as [|x l IH]; intros a H; cbn; [reflexivity|]. rewrite H by now left. apply IH. intros. apply H. now right. Qed.

Section Pair.
Context (X X' : externals R) (O O' : operator T R) (test trial test' trial' : fspace T R) (t s a b : nat).
Hypothesis (HR : same_rules X X') (HI : op_integrand O' = op_integrand O).
Hypothesis (Gt : same_geometry X X' (fs_grid test) t) (Gs : same_geometry X X' (fs_grid trial) s).
Hypothesis (Ft : same_function test test' t a) (Fs : same_function trial trial' s b) (HK : same_kernel X O O' test trial t s).

Lemma geometry_point g c points p : same_geometry X X' g c -> 2 * p < length points ->
  related_point eq eq (x_geometry X g (g_ctype g c) points c) (x_geometry X' g (g_ctype g c) points c) p /\
  position (x_geometry X' g (g_ctype g c) points c) p = position (x_geometry X g (g_ctype g c) points c) p.
Proof.
  intros H Hp. destruct (H points p Hp) as (H1 & H2 & H3 & H4). split.
  - split; [|split]; intros; symmetry; auto.
  - unfold position. now rewrite !H1.
Qed.

Lemma point_value points points' p q : 2 * p < length points -> 2 * q < length points' ->
  let x := x_geometry X (fs_grid test) (g_ctype (fs_grid test) t) points t in
  let x' := x_geometry X' (fs_grid test) (g_ctype (fs_grid test) t) points t in
  let y := x_geometry X (fs_grid trial) (g_ctype (fs_grid trial) s) points' s in
  let y' := x_geometry X' (fs_grid trial) (g_ctype (fs_grid trial) s) points' s in
  integrand_value S (op_integrand O) (fun n => kn_value (op_kernel O) n (position x p) (position y q))
    (fun d => fs_basis test (g_ctype (fs_grid test) t) points d p a 0) (fun d => fs_basis trial (g_ctype (fs_grid trial) s) points' d q b 0) x p y q =
  integrand_value S (op_integrand O') (fun n => kn_value (op_kernel O') n (position x' p) (position y' q))
    (fun d => fs_basis test' (g_ctype (fs_grid test) t) points d p a 0) (fun d => fs_basis trial' (g_ctype (fs_grid trial) s) points' d q b 0) x' p y' q /\
  cm_jdet x' p = cm_jdet x p /\ cm_jdet y' q = cm_jdet y q.
Proof.
  intros Hp Hq x x' y y'. destruct (geometry_point _ _ points p Gt Hp) as (A1 & A2). destruct (geometry_point _ _ points' q Gs Hq) as (B1 & B2).
  fold x x' in A1, A2. fold y y' in B1, B2. rewrite HI. split; [|split].
  - apply same_integrand; auto.
    + intros n. rewrite A2, B2. symmetry. apply HK; assumption.
    + intros d. symmetry. now apply Ft.
    + intros d. symmetry. now apply Fs.
  - symmetry. apply A1.
  - symmetry. apply B1.
Qed.

Lemma regular_untouched pts v v' : proper_rules X -> fs_grid test' = fs_grid test -> fs_grid trial' = fs_grid trial ->
  regular_value S X O pts test trial t s a b v -> regular_value S X' O' pts test' trial' t s a b v' -> v' = v.
Proof.
  intros Pr E1 E2. unfold regular_value. rewrite E1, E2. intros (qt & qs & A1 & A2 & ->) (qt' & qs' & B1 & B2 & ->).
  rewrite (proj1 HR), A1 in B1. rewrite (proj1 HR), A2 in B2. injection B1 as <-. injection B2 as <-.
  destruct (pr_simplex _ Pr _ _ _ A1) as (L1 & L2). destruct (pr_simplex _ Pr _ _ _ A2) as (L3 & L4).
  unfold tensor_entry. apply fold_left_same. intros c [p w] Hp. apply fold_left_same. intros c' [q w'] Hq. cbn [fst snd].
  apply enumerate_in in Hp. apply enumerate_in in Hq.
  assert (Hp' : p < length (qd_weights qt)) by (apply nth_error_Some; congruence). assert (Hq' : q < length (qd_weights qs)) by (apply nth_error_Some; congruence).
  destruct (point_value (qd_points qt) (qd_points qs) p q) as (E & J1 & J2); try lia. now rewrite <- E, J1, J2.
Qed.

Lemma singular_untouched deg v v' : proper_rules X -> fs_grid test' = fs_grid test -> fs_grid trial = fs_grid test ->
  singular_value S X O deg test trial t s a b v -> singular_value S X' O' deg test' trial' t s a b v' -> v' = v.
Proof.
  intros Pr E1 E2. unfold singular_value. rewrite E1. cbv zeta.
  intros (pairs & kind & dim & q & A1 & A2 & A3 & A4 & ->) (pairs' & kind' & dim' & q' & B1 & B2 & B3 & B4 & ->).
  assert (pairs' = pairs) by (eapply adjacency_unique; eauto). assert (dim' = dim) by (eapply shared_dimension_unique; eauto).
  assert (kind' = kind) by congruence. subst pairs' dim' kind'. rewrite (proj2 HR), A4 in B4. injection B4 as <-.
  destruct (pr_duffy _ Pr _ _ _ _ _ A4) as (L1 & L2).
  unfold pairwise_entry. apply fold_left_same. intros c [p w] Hp. cbn [fst snd]. apply enumerate_in in Hp.
  assert (Hp' : p < length (pq_weights q)) by (apply nth_error_Some; congruence).
  destruct (point_value (pq_test q) (pq_trial q) p p) as (E & J1 & J2); try lia. rewrite E2 in E, J2. now rewrite <- E, J1, J2.
Qed.
End Pair.

(** ** The dense matrix *)
Lemma matrix_ordered ct (test0 trial0 : fspace T R) : order_setting ct test0 trial0 ->
  exists ord : nat -> nat -> list label,
    (forall i j, NoDup (ord i j) /\ forall k, In k (ord i j) <-> contributes test0 trial0 i j k) /\
    forall (X : externals R) rt wmod O o deg pts (test trial : fspace T R),
      same_dofs test0 test -> same_dofs trial0 trial -> legal_runtime (s_add S) rt -> dense_setting X wmod O o deg pts ct test trial ->
      exists m val, assemble S X rt wmod O o trial test = Ok m /\
        (forall t s a b, t < ent_count (fs_grid test) 2 -> s < ent_count (fs_grid trial) 2 ->
           pair_value S X O deg pts test trial t s a b (val t s a b)) /\
        forall i j, i < global_size (fs_space test) -> j < global_size (fs_space trial) ->
          nth_error m (i + global_size (fs_space test) * j) = Some (accumulate (s_add S) val (ord i j) (s_zero S)).
Proof.
  intros D0. destruct (ordered_entries ct test0 trial0 D0) as (ord & Ho & H). exists ord. split; [exact Ho|].
  intros X rt wmod O o deg pts test trial Et Es L D.
  destruct (H T R S X rt wmod O o deg pts test trial (repeat (s_zero S) (global_size (fs_space test) * global_size (fs_space trial))) Et Es L D)
    as (m & val & E & V & _ & N); [apply repeat_length|].
  rewrite assemble_on_zeros in E; [|apply (ss_processes _ (dn_test _ _ _ _ _ _ _ _ _ D))|apply (ss_processes _ (dn_trial _ _ _ _ _ _ _ _ _ D))].
  exists m, val. split; [now injection E|]. split; [exact V|]. intros i j Hi Hj. apply N; auto.
  rewrite nth_error_repeat; [reflexivity|]. nia.
Qed.

Lemma accumulate_ext (add : T -> T -> T) val val' ks old :
  (forall t s a b, In ((t, s), (a, b)) ks -> val t s a b = val' t s a b) -> accumulate add val ks old = accumulate add val' ks old.
Proof. intros H. unfold accumulate. apply fold_left_same. intros c [[t s] [a b]] Hk. f_equal. now apply H. Qed.

Theorem changes_stay_local X X' rt rt' wmod wmod' O O' o o' deg pts ct (test trial test' trial' : fspace T R) :
  legal_runtime (s_add S) rt -> legal_runtime (s_add S) rt' ->
  dense_setting X wmod O o deg pts ct test trial -> dense_setting X' wmod' O' o' deg pts ct test' trial' ->
  same_dofs test test' -> same_dofs trial trial' -> same_rules X X' -> op_integrand O' = op_integrand O ->
  exists m m', assemble S X rt wmod O o trial test = Ok m /\ assemble S X' rt' wmod' O' o' trial' test' = Ok m' /\
    forall i j, i < global_size (fs_space test) -> j < global_size (fs_space trial) -> untouched X X' O O' test trial test' trial' i j ->
      exists x, nth_error m (i + global_size (fs_space test) * j) = Some x /\ nth_error m' (i + global_size (fs_space test) * j) = Some x.
Proof.
  intros L L' D D' Et Es HR HI.
  destruct (matrix_ordered ct test trial (dense_order _ _ _ _ _ _ _ _ _ D)) as (ord & Ho & H).
  destruct (H X rt wmod O o deg pts test trial) as (m & val & E & V & N); auto; try (now repeat split).
  destruct (H X' rt' wmod' O' o' deg pts test' trial') as (m' & val' & E' & V' & N'); auto.
  exists m, m'. split; [exact E|]. split; [exact E'|]. intros i j Hi Hj U. destruct Et as (G1 & F1 & P1), Es as (G2 & F2 & P2).
  eexists. split; [apply N; auto|]. rewrite P1. rewrite N' by congruence. f_equal. apply accumulate_ext.
  intros t s a b Hk. apply Ho in Hk. assert (Hk' := Hk). destruct Hk' as (Ht & Hs & _).
  destruct (U t s a b Hk) as (U1 & U2 & U3 & U4 & U5). assert (Pr := dn_proper _ _ _ _ _ _ _ _ _ D).
  specialize (V t s a b Ht Hs). specialize (V' t s a b). rewrite <- G1, <- G2 in V'. specialize (V' Ht Hs).
  unfold pair_value, touching in V, V'. rewrite <- G1, <- G2 in V'. destruct V as [(To & V)|(To & V)], V' as [(To' & V')|(To' & V')]; try contradiction.
  - apply (singular_untouched X X' O O' test trial test' trial' t s a b HR HI U1 U2 U3 U4 U5 deg); auto.
    symmetry. apply (dn_same _ _ _ _ _ _ _ _ _ D). apply To.
  - now apply (regular_untouched X X' O O' test trial test' trial' t s a b HR HI U1 U2 U3 U4 U5 pts).
Qed.

(** ** Good numbers *)
Theorem good_stays (good : T -> Prop) X rt wmod O o deg pts ct (test trial : fspace T R) :
  good (s_zero S) -> (forall x y, good x -> good y -> good (s_add S x y)) ->
  legal_runtime (s_add S) rt -> dense_setting X wmod O o deg pts ct test trial ->
  exists m, assemble S X rt wmod O o trial test = Ok m /\
    forall i j, i < global_size (fs_space test) -> j < global_size (fs_space trial) ->
      (forall t s a b v, contributes test trial i j ((t, s), (a, b)) -> pair_value S X O deg pts test trial t s a b v -> good v) ->
      exists x, nth_error m (i + global_size (fs_space test) * j) = Some x /\ good x.
Proof.
  intros G0 G1 L D.
  destruct (matrix_ordered ct test trial (dense_order _ _ _ _ _ _ _ _ _ D)) as (ord & Ho & H).
  destruct (H X rt wmod O o deg pts test trial) as (m & val & E & V & N); auto; try (now repeat split).
  exists m. split; [exact E|]. intros i j Hi Hj Hg. eexists. split; [now apply N|].
  assert (K : forall ks old, incl ks (ord i j) -> good old -> good (accumulate (s_add S) val ks old)).
  { induction ks as [|[[t s] [a b]] ks IH]; intros old Hk Hold; cbn; [exact Hold|].
    apply IH; [intros k ?; apply Hk; now right|]. apply G1; [exact Hold|].
    assert (Hc : contributes test trial i j ((t, s), (a, b))) by (apply Ho, Hk; now left). apply (Hg t s a b); auto. apply V; apply Hc. }
  apply K; auto. apply incl_refl.
Qed.

(** ** Bad numbers *)
Lemma fold_bad {A : Type} (bad : T -> Prop) (f : T -> A -> T) l k old :
  In k l -> (forall c x, bad c -> bad (f c x)) -> (forall c, bad (f c k)) -> bad (fold_left f l old).
Proof.
  intros Hk H1 H2. assert (K : forall l c, bad c -> bad (fold_left f l c)) by (intros l0; induction l0; intros; cbn; auto).
  revert old. induction l as [|x l IH]; [contradiction|]. intros old. destruct Hk as [->|Hk]; cbn; auto.
Qed.

Lemma spoiled_value bad X O deg pts (test trial : fspace T R) t s a b v : absorbing S bad -> (touching test trial t s -> fs_grid trial = fs_grid test) ->
  spoiled S X O deg pts test trial bad t s a b -> pair_value S X O deg pts test trial t s a b v -> bad v.
Proof.
  intros [B1 B2 B3] Sag Sp V. unfold spoiled in Sp. cbv zeta in Sp. destruct Sp as [(To & Sp)|(To & Sp)], V as [(To' & V)|(To' & V)]; try contradiction.
  - rewrite (Sag To) in Sp. unfold singular_value in V. cbv zeta in V. destruct Sp as (pairs & kind & dim & q & p & A1 & A2 & A3 & A4 & Hp & A5).
    destruct V as (pairs' & kind' & dim' & q' & C1 & C2 & C3 & C4 & ->).
    assert (pairs' = pairs) by (eapply adjacency_unique; eauto). assert (dim' = dim) by (eapply shared_dimension_unique; eauto).
    assert (kind' = kind) by congruence. subst pairs' dim' kind'. assert (q' = q) by congruence. subst q'.
    destruct (nth_error (pq_weights q) p) as [w|] eqn:Ew; [|apply nth_error_None in Ew; lia].
    unfold pairwise_entry. apply (fold_bad bad _ _ (p, w)); [now apply in_enumerated|intros; now apply B1|].
    intros c. cbn [fst snd]. apply B2, B3. exact A5.
  - unfold regular_value in V. cbv zeta in V. destruct Sp as (qt & qs & p & q & A1 & A2 & Hp & Hq & A5). destruct V as (qt' & qs' & C1 & C2 & ->).
    assert (qt' = qt) by congruence. assert (qs' = qs) by congruence. subst qt' qs'.
    destruct (nth_error (qd_weights qt) p) as [w|] eqn:Ew; [|apply nth_error_None in Ew; lia].
    destruct (nth_error (qd_weights qs) q) as [w'|] eqn:Ew'; [|apply nth_error_None in Ew'; lia].
    assert (K : forall {A : Type} (l : list A) f c, (forall c x, bad c -> bad (f c x)) -> bad c -> bad (fold_left f l c))
      by (intros A l f; induction l; intros; cbn; auto).
    unfold tensor_entry. apply (fold_bad bad _ _ (p, w)); [now apply in_enumerated| |].
    + intros c x Hc. apply K; auto.
    + intros c. cbn [fst snd]. apply (fold_bad bad _ _ (q, w')); [now apply in_enumerated|intros; now apply B1|].
      intros c'. cbn [fst snd]. apply B2, B3, B3. exact A5.
Qed.

Theorem bad_shows (bad : T -> Prop) X rt wmod O o deg pts ct (test trial : fspace T R) :
  absorbing S bad -> legal_runtime (s_add S) rt -> dense_setting X wmod O o deg pts ct test trial ->
  exists m, assemble S X rt wmod O o trial test = Ok m /\
    forall i j t s a b, contributes test trial i j ((t, s), (a, b)) -> spoiled S X O deg pts test trial bad t s a b ->
      exists x, nth_error m (i + global_size (fs_space test) * j) = Some x /\ bad x.
Proof.
  intros Ab L D.
  destruct (matrix_ordered ct test trial (dense_order _ _ _ _ _ _ _ _ _ D)) as (ord & Ho & H).
  destruct (H X rt wmod O o deg pts test trial) as (m & val & E & V & N); auto; try (now repeat split).
  exists m. split; [exact E|]. intros i j t s a b Hc Sp. assert (Hc' := Hc). destruct Hc' as (Ht & Hs & Hi & Hj).
  assert (Hi' : i < global_size (fs_space test)).
  { destruct (dofs_at_spec test t (dn_test _ _ _ _ _ _ _ _ _ D) Ht) as (_ & _ & _ & _ & B). apply B. eapply nth_error_In; eauto. }
  assert (Hj' : j < global_size (fs_space trial)).
  { destruct (dofs_at_spec trial s (dn_trial _ _ _ _ _ _ _ _ _ D) Hs) as (_ & _ & _ & _ & B). apply B. eapply nth_error_In; eauto. }
  eexists. split; [now apply N|]. unfold accumulate. apply (fold_bad bad _ _ ((t, s), (a, b))).
  - now apply Ho.
  - intros c [[t' s'] [a' b']] Hb. now apply (ab_add_l _ _ Ab).
  - intros c. apply (ab_add_r _ _ Ab). apply (spoiled_value bad X O deg pts test trial t s a b); auto.
    intros To. symmetry. apply (dn_same _ _ _ _ _ _ _ _ _ D). apply To.
Qed.

(** ** The singular part *)
Lemma Forall2_same_length {A B : Type} (P : A -> B -> Prop) l l' : Forall2 P l l' -> length l = length l'.
Proof. induction 1; cbn; auto. Qed.

Theorem singular_changes_local X X' rt rt' wmod wmod' O O' o o' deg (test trial test' trial' : fspace T R) :
  legal_runtime (s_add S) rt -> legal_runtime (s_add S) rt' ->
  singular_setting X wmod O o deg test trial -> singular_setting X' wmod' O' o' deg test' trial' ->
  same_dofs test test' -> same_dofs trial trial' -> same_rules X X' -> op_integrand O' = op_integrand O ->
  exists m m', assemble_singular_part S X rt wmod O o (shape_of test trial) trial test = Ok m /\
    assemble_singular_part S X' rt' wmod' O' o' (shape_of test' trial') trial' test' = Ok m' /\
    same_triplets (fun r c => forall i j, global_dof_index (fs_space test) i = Ok r -> global_dof_index (fs_space trial) j = Ok c ->
      untouched X X' O O' test trial test' trial' i j) m m'.
Proof.
  intros L L' D D' Dt Ds HR HI.
  pose (good (r c : nat) := forall i j, global_dof_index (fs_space test) i = Ok r -> global_dof_index (fs_space trial) j = Ok c ->
      untouched X X' O O' test trial test' trial' i j).
  destruct (two_parts_at S S X X' wmod wmod' O O' o o' deg test trial test' trial' Dt Ds D D' (fun r c v v' => good r c -> v' = v) rt rt' L L')
    as (m & m' & E & E' & E1 & E2 & L1 & L2 & L3 & L4 & F).
  - intros t s a b i j r c v v' (Ht & Hs & Ho & To & Ha & Hb) Hi Hj Gi Gj V V' Hg.
    assert (Sag := sg_same _ _ _ _ _ _ _ D). destruct (Hg i j Gi Gj t s a b) as (U1 & U2 & U3 & U4 & U5).
    { split; [exact Ht|]. split; [now rewrite <- Sag|]. now split. }
    apply (singular_untouched X X' O O' test trial test' trial' t s a b HR HI U1 U2 U3 U4 U5 deg); auto.
    + apply (sg_proper _ _ _ _ _ _ _ D).
    + symmetry. apply Dt.
  - exists m, m'. split; [exact E|]. split; [exact E'|]. split; [exact E2|].
    destruct (zipped (fun _ _ => True) (sm_rows m) (sm_cols m) (sm_data m) (sm_rows m') (sm_cols m') (sm_data m') L1 L2 L3 L4) as (Er & Ec & Fd).
    { clear - F. unfold triplets in F. induction F as [|x y l l' (A & _) F IH]; constructor; auto. }
    split; [exact Er|]. split; [exact Ec|]. split; [symmetry; now apply Forall2_same_length in Fd|].
    intros k r c Hr Hc Hg. fold (good r c) in Hg. apply Forall2_same_length in Fd.
    destruct (nth_error (sm_data m) k) as [v|] eqn:Ev; [|apply nth_error_None in Ev; apply nth_error_None; lia].
    destruct (nth_error (sm_data m') k) as [v'|] eqn:Ev'; [|apply nth_error_None in Ev'; assert (k < length (sm_data m)) by (apply nth_error_Some; congruence); lia].
    unfold triplets in F. rewrite Er, Ec in F.
    assert (N : forall (l l' : list (nat * nat * T)), Forall2 (fun x y => fst y = fst x /\ (good (fst (fst x)) (snd (fst x)) -> snd y = snd x)) l l' ->
      forall k x y, nth_error l k = Some x -> nth_error l' k = Some y -> good (fst (fst x)) (snd (fst x)) -> snd y = snd x).
    { clear. induction 1 as [|x y l l' (A & B) F IH]; intros [|k] x' y'; cbn; try discriminate; intros Ex Ey Hg; [|eauto].
      inversion Ex; inversion Ey; subst. auto. }
    f_equal. apply (N _ _ F k (r, c, v) (r, c, v')); try assumption; (apply nth_error_combine; split; [apply nth_error_combine; now split|assumption]).
Qed.
End Reach.
