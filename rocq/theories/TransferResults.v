(** * Two related arithmetics *)
From Verif Require Import Base BaseFacts Topology TopologyFacts DofMap SpecDof DofMapFacts Process Space SpecSpace
  Options Adjacency SpecAdjacency AdjacencyFacts AdjacencyResults Scalar Integrand CellPair Operators SpecLocal LocalResults
  Interleave Assembly SpecAssembly AssemblyFacts AssemblyRaces AssemblySingular AssemblyDense AssemblyExact AssemblyResults AlgebraFacts SpecOrder OrderResults SpecTransfer.

Lemma deriv_count_mono m n : m <= n -> deriv_count m <= deriv_count n.
Proof. intros H. unfold deriv_count. apply Nat.div_le_mono; [lia|]. nia. Qed.

Section Transfer.
Context {T R T' R' : Type} (relT : T -> T' -> Prop) (relR relD relN : R -> R' -> Prop) (relP : list R -> list R' -> Prop).
Context (S : scalar T R) (S' : scalar T' R') (H : related_arithmetic relT relR relD S S').

(** ** Integrands *)

Lemma related_form_value f f' : related_operations relT relD relN S S' -> related_form relT f f' ->
  related_integrand relT relD relN S S' f f'.
Proof.
  intros Q. revert f'.
  assert (Z0 : 0 < deriv_count 0) by (vm_compute; lia).
  assert (Z1 : 1 < deriv_count 1) by (vm_compute; lia). assert (Z2 : 2 < deriv_count 1) by (vm_compute; lia).
  induction f; intros f' Hf; destruct f'; cbn [related_form] in Hf; try contradiction;
    intros k k' phi phi' psi psi' x x' p y y' q Hk Hp Hq (X1 & X2 & X3) (Y1 & Y2 & Y3); cbn [integrand_value]; cbn [kernel_used derivs_used] in *.
  - apply (ra_mul _ _ _ _ _ H); [apply (ra_mul _ _ _ _ _ H)|]; auto.
  - apply (ra_mul _ _ _ _ _ H); [apply (ra_mul _ _ _ _ _ H)|]; auto. unfold dot, normal.
    apply (ra_add _ _ _ _ _ H); [apply (ra_add _ _ _ _ _ H)|]; (apply (ra_mul _ _ _ _ _ H); [apply Hk; lia|apply (ro_cast _ _ _ _ _ Q); auto]).
  - apply (ra_mul _ _ _ _ _ H); [apply (ra_mul _ _ _ _ _ H)|]; auto. apply (ro_neg _ _ _ _ _ Q). unfold dot, normal.
    apply (ra_add _ _ _ _ _ H); [apply (ra_add _ _ _ _ _ H)|]; (apply (ra_mul _ _ _ _ _ H); [apply Hk; lia|apply (ro_cast _ _ _ _ _ Q); auto]).
  - unfold jdet. apply (ro_div _ _ _ _ _ Q); auto. apply (ro_div _ _ _ _ _ Q); auto. apply (ra_mul _ _ _ _ _ H); auto. unfold dot, curl.
    assert (C : forall i, relT (s_sub S (s_mul S (s_cast S (cm_jacobian x p (3 + i))) (phi 1)) (s_mul S (s_cast S (cm_jacobian x p i)) (phi 2)))
      (s_sub S' (s_mul S' (s_cast S' (cm_jacobian x' p (3 + i))) (phi' 1)) (s_mul S' (s_cast S' (cm_jacobian x' p i)) (phi' 2)))).
    { intros i. apply (ro_sub _ _ _ _ _ Q); (apply (ra_mul _ _ _ _ _ H); [apply (ro_cast _ _ _ _ _ Q); auto|apply Hp; auto]). }
    assert (C' : forall i, relT (s_sub S (s_mul S (s_cast S (cm_jacobian y q (3 + i))) (psi 1)) (s_mul S (s_cast S (cm_jacobian y q i)) (psi 2)))
      (s_sub S' (s_mul S' (s_cast S' (cm_jacobian y' q (3 + i))) (psi' 1)) (s_mul S' (s_cast S' (cm_jacobian y' q i)) (psi' 2)))).
    { intros i. apply (ro_sub _ _ _ _ _ Q); (apply (ra_mul _ _ _ _ _ H); [apply (ro_cast _ _ _ _ _ Q); auto|apply Hq; auto]). }
    apply (ra_add _ _ _ _ _ H); [apply (ra_add _ _ _ _ _ H)|]; (apply (ra_mul _ _ _ _ _ H); [apply C|apply C']).
  - apply (ra_mul _ _ _ _ _ H); [apply (ra_mul _ _ _ _ _ H)|]; auto. apply (ra_mul _ _ _ _ _ H); auto. unfold dot, normal.
    apply (ra_add _ _ _ _ _ H); [apply (ra_add _ _ _ _ _ H)|]; (apply (ra_mul _ _ _ _ _ H); apply (ro_cast _ _ _ _ _ Q); auto).
  - destruct Hf as (F1 & F2).
    assert (D1 := deriv_count_mono _ _ (Nat.le_max_l (derivs_used f1) (derivs_used f2))).
    assert (D2 := deriv_count_mono _ _ (Nat.le_max_r (derivs_used f1) (derivs_used f2))).
    apply (ra_add _ _ _ _ _ H).
    + apply (IHf1 f'1 F1); try (now split); intros n Hn; [apply Hk|apply Hp|apply Hq]; lia.
    + apply (IHf2 f'2 F2); try (now split); intros n Hn; [apply Hk|apply Hp|apply Hq]; lia.
  - destruct Hf as (F1 & F2). apply (ra_mul _ _ _ _ _ H); auto. apply (IHf f' F2); try (now split); auto.
Qed.

(** ** Formulas *)

Lemma fold_related {A A' : Type} (P : A -> A' -> Prop) (g : T -> A -> T) (g' : T' -> A' -> T') l l' a a' :
  Forall2 P l l' -> (forall c c' x x', relT c c' -> P x x' -> relT (g c x) (g' c' x')) -> relT a a' ->
  relT (fold_left g l a) (fold_left g' l' a').
Proof. intros F Hg. revert a a'. induction F; intros a a' Ha; cbn; auto. Qed.

Lemma enumerate_related {A A' : Type} (P : A -> A' -> Prop) (l : list A) (l' : list A') : Forall2 P l l' ->
  Forall2 (fun x x' => fst x = fst x' /\ fst x < length l /\ P (snd x) (snd x')) (enumerate l) (enumerate l').
Proof.
  intros F. unfold enumerate.
  assert (G : forall n a, n + length l <= a ->
    Forall2 (fun x x' => fst x = fst x' /\ fst x < a /\ P (snd x) (snd x')) (combine (seq n (length l)) l) (combine (seq n (length l')) l')).
  { clear - F. induction F as [|x x' l l' Px F IH]; intros n a Ha; cbn [length seq combine]; constructor.
    - cbn [fst snd length] in *. repeat split; auto. lia.
    - cbn [length] in Ha. apply IH. lia. }
  apply G. lia.
Qed.

Lemma Forall2_lengths {A A' : Type} (P : A -> A' -> Prop) l l' : Forall2 P l l' -> length l = length l'.
Proof. induction 1; cbn; auto. Qed.

Section Setting.
Context (X : externals R) (X' : externals R') (wmod wmod' : nat) (O : operator T R) (O' : operator T' R') (o o' : options).
Context (deg : cell_type -> cell_type -> nat) (pts : cell_type -> nat) (ct : cell_type).
Context (test trial : fspace T R) (test' trial' : fspace T' R').
Hypothesis (Dt : same_dofs test test') (Ds : same_dofs trial trial').
Hypothesis (D : dense_setting X wmod O o deg pts ct test trial) (D' : dense_setting X' wmod' O' o' deg pts ct test' trial').
Hypothesis (HX : related_externals relR relD relN relP X X') (HK : related_kernel relT X X' O O' deg pts test trial).
Hypothesis (Bt : related_basis relT relP O test test') (Bs : related_basis relT relP O trial trial').
Hypothesis (HI : related_integrand relT relD relN S S' (op_integrand O) (op_integrand O')).

Lemma value_transfer t s a b v v' : t < ent_count (fs_grid test) 2 -> s < ent_count (fs_grid trial) 2 ->
  a < length (dofs_at test t) -> b < length (dofs_at trial s) ->
  pair_value S X O deg pts test trial t s a b v -> pair_value S' X' O' deg pts test' trial' t s a b v' -> relT v v'.
Proof.
  intros Ht Hs Ha Hb V V'.
  destruct Dt as (G1 & F1 & P1), Ds as (G2 & F2 & P2).
  rewrite (proj1 (proj2 (proj2 (proj2 (dofs_at_spec test t (dn_test _ _ _ _ _ _ _ _ _ D) Ht))))) in Ha.
  rewrite (proj1 (proj2 (proj2 (proj2 (dofs_at_spec trial s (dn_trial _ _ _ _ _ _ _ _ _ D) Hs))))) in Hb.
  destruct (dn_fitting _ _ _ _ _ _ _ _ _ D) as (_ & Fk & Fd). pose proof (deriv_count_mono _ _ Fd) as Fd'.
  assert (Pr := dn_proper _ _ _ _ _ _ _ _ _ D).
  unfold pair_value, touching, singular_value, regular_value in *. rewrite <- G1, <- G2 in V'.
  destruct V as [(To & V)|(To & V)], V' as [(To' & V')|(To' & V')]; try contradiction.
  - destruct To as (Eg & To). assert (Sag := dn_same _ _ _ _ _ _ _ _ _ D Eg).
    destruct V as (pairs & kind & dim & q & A1 & A2 & A3 & A4 & ->). destruct V' as (pairs' & kind' & dim' & q' & B1 & B2 & B3 & B4 & ->).
    assert (pairs' = pairs) by (eapply adjacency_unique; eauto). assert (dim' = dim) by (eapply shared_dimension_unique; eauto).
    assert (kind' = kind) by congruence. subst pairs' dim' kind'.
    destruct (rx_duffy _ _ _ _ _ _ HX _ _ _ _ _ _ A4 B4) as (E1 & E2 & E3). destruct (pr_duffy _ Pr _ _ _ _ _ A4) as (L1 & L2).
    unfold pairwise_entry. eapply fold_related; [apply (enumerate_related _ _ _ E3)| |apply (ra_zero _ _ _ _ _ H)].
    intros c c' [p w] [p' w'] Hc (Ep & Hp & Hw). cbn [fst snd] in *. subst p'.
    assert (Gt : related_point relD relN (x_geometry X (fs_grid test) (g_ctype (fs_grid test) t) (pq_test q) t)
      (x_geometry X' (fs_grid test) (g_ctype (fs_grid test) t) (pq_test q') t) p) by (apply (rx_geometry _ _ _ _ _ _ HX); auto; lia).
    assert (Gs : related_point relD relN (x_geometry X (fs_grid test) (g_ctype (fs_grid test) s) (pq_trial q) s)
      (x_geometry X' (fs_grid test) (g_ctype (fs_grid test) s) (pq_trial q') s) p) by (apply (rx_geometry _ _ _ _ _ _ HX); auto; [lia|now rewrite Sag]).
    apply (ra_add _ _ _ _ _ H); auto. apply (ra_mul _ _ _ _ _ H).
    + apply HI; auto.
      * intros n Hn. eapply (rk_singular _ _ _ _ _ _ _ _ _ HK); eauto; try (now split); try lia. now rewrite Sag.
      * intros n Hn. apply Bt; auto; lia.
      * intros n Hn. apply Bs; auto; try lia. now rewrite Sag.
    + apply (ra_cast _ _ _ _ _ H), (ra_real_mul _ _ _ _ _ H); auto.
      apply (ra_real_mul _ _ _ _ _ H); apply (ra_denominator _ _ _ _ _ H); [apply Gt|apply Gs].
  - destruct V as (qt & qs & A1 & A2 & ->). destruct V' as (qt' & qs' & B1 & B2 & ->).
    destruct (rx_simplex _ _ _ _ _ _ HX _ _ _ _ A1 B1) as (E1 & E2). destruct (rx_simplex _ _ _ _ _ _ HX _ _ _ _ A2 B2) as (E3 & E4).
    destruct (pr_simplex _ Pr _ _ _ A1) as (L1 & L2). destruct (pr_simplex _ Pr _ _ _ A2) as (L3 & L4).
    unfold tensor_entry. eapply fold_related; [apply (enumerate_related _ _ _ E2)| |apply (ra_zero _ _ _ _ _ H)].
    intros c c' [p w] [p' w'] Hc (Ep & Hp & Hw). cbn [fst snd] in *. subst p'.
    eapply fold_related; [apply (enumerate_related _ _ _ E4)| |exact Hc]. clear c c' Hc.
    intros c c' [r z] [r' z'] Hc (Er & Hr & Hz). cbn [fst snd] in *. subst r'.
    assert (Gt : related_point relD relN (x_geometry X (fs_grid test) (g_ctype (fs_grid test) t) (qd_points qt) t)
      (x_geometry X' (fs_grid test) (g_ctype (fs_grid test) t) (qd_points qt') t) p) by (apply (rx_geometry _ _ _ _ _ _ HX); auto; lia).
    assert (Gs : related_point relD relN (x_geometry X (fs_grid trial) (g_ctype (fs_grid trial) s) (qd_points qs) s)
      (x_geometry X' (fs_grid trial) (g_ctype (fs_grid trial) s) (qd_points qs') s) r) by (apply (rx_geometry _ _ _ _ _ _ HX); auto; lia).
    apply (ra_add _ _ _ _ _ H); auto. apply (ra_mul _ _ _ _ _ H); [apply (ra_mul _ _ _ _ _ H)|].
    + apply HI; auto.
      * intros n Hn. eapply (rk_regular _ _ _ _ _ _ _ _ _ HK); eauto; lia.
      * intros n Hn. apply Bt; auto; lia.
      * intros n Hn. apply Bs; auto; lia.
    + apply (ra_cast _ _ _ _ _ H), (ra_real_mul _ _ _ _ _ H); auto. apply (ra_denominator _ _ _ _ _ H), Gs.
    + apply (ra_cast _ _ _ _ _ H), (ra_real_mul _ _ _ _ _ H); auto. apply (ra_denominator _ _ _ _ _ H), Gt.
Qed.

Theorem transfer rt rt' output output' : legal_runtime (s_add S) rt -> legal_runtime (s_add S') rt' ->
  length output = global_size (fs_space test) * global_size (fs_space trial) -> Forall2 relT output output' ->
  exists m m', assemble_into_memory S X rt wmod O o trial test output = Ran (Ok m) /\
    assemble_into_memory S' X' rt' wmod' O' o' trial' test' output' = Ran (Ok m') /\ Forall2 relT m m'.
Proof.
  intros L L' Lo F.
  destruct (ordered_entries ct test trial (dense_order _ _ _ _ _ _ _ _ _ D)) as (ord & Ho & Run).
  assert (Lo' : length output' = global_size (fs_space test') * global_size (fs_space trial')).
  { rewrite <- (Forall2_lengths _ _ _ F), Lo. destruct Dt as (_ & _ & ->), Ds as (_ & _ & ->). reflexivity. }
  destruct (Run T R S X rt wmod O o deg pts test trial output) as (m & val & E & V & Ln & M); auto; [repeat split|repeat split|].
  destruct (Run T' R' S' X' rt' wmod' O' o' deg pts test' trial' output') as (m' & val' & E' & V' & Ln' & M'); auto.
  exists m, m'. split; auto. split; auto.
  assert (N : forall k, match nth_error m k, nth_error m' k with Some x, Some y => relT x y | None, None => True | _, _ => False end).
  { assert (Le : length m = length m') by (rewrite Ln, Ln'; eapply Forall2_lengths; eauto).
    intros k. destruct (Nat.lt_ge_cases k (length m)) as [Hlt|Hge].
    - rewrite Ln, Lo in Hlt. destruct (position_split _ _ _ Hlt) as (i & j & Hi & Hj & ->).
      set (x := i + global_size (fs_space test) * j) in *.
      assert (Q : exists old old', nth_error output x = Some old /\ nth_error output' x = Some old' /\ relT old old').
      { assert (Hx : x < length output) by now rewrite Lo. clearbody x. clear - F Hx. revert x Hx.
        induction F as [|u u' l l' Pu F IH]; intros [|x] Hx; cbn [length nth_error] in *; try lia; [eauto|apply IH; lia]. }
      destruct Q as (old & old' & Eo & Eo' & Hold).
      assert (M1 := M i j old Hi Hj). fold x in M1. rewrite (M1 Eo).
      assert (M2 := M' i j old'). destruct Dt as (G1 & _ & P1), Ds as (G2 & _ & P2). rewrite <- P1, <- P2 in M2. fold x in M2. rewrite (M2 Hi Hj Eo').
      assert (Hk : forall k, In k (ord i j) -> contributes test trial i j k) by (intros k; apply Ho).
      assert (dt : forall c, dofs_at test' c = dofs_at test c) by (intros c; unfold dofs_at; now rewrite P1).
      assert (ds : forall c, dofs_at trial' c = dofs_at trial c) by (intros c; unfold dofs_at; now rewrite P2).
      clear - Hk Hold V V' H D D' HX HK Bt Bs HI Dt Ds G1 G2. revert old old' Hold. induction (ord i j) as [|k l IH]; intros old old' Hold; [exact Hold|].
      unfold accumulate in *. cbn [fold_left]. apply IH; [intros; apply Hk; now right|].
      assert (C := Hk k (or_introl eq_refl)). destruct k as [[t s] [a b]]. destruct C as (Ht & Hs & Ca & Cb).
      apply (ra_add _ _ _ _ _ H); auto. eapply value_transfer; eauto.
      + apply nth_error_Some. congruence.
      + apply nth_error_Some. congruence.
      + apply V'; congruence.
    - rewrite !(proj2 (nth_error_None _ _)) by lia. exact I. }
  clear - N. revert m' N. induction m as [|x m IH]; intros [|x' m'] N.
  - constructor.
  - destruct (N 0).
  - destruct (N 0).
  - constructor; [exact (N 0)|]. apply IH. intros k. exact (N (Datatypes.S k)).
Qed.

Theorem transfer_matrix rt rt' : legal_runtime (s_add S) rt -> legal_runtime (s_add S') rt' ->
  exists m m', assemble S X rt wmod O o trial test = Ok m /\ assemble S' X' rt' wmod' O' o' trial' test' = Ok m' /\ Forall2 relT m m'.
Proof.
  intros L L'.
  destruct (transfer rt rt' (repeat (s_zero S) (global_size (fs_space test) * global_size (fs_space trial)))
    (repeat (s_zero S') (global_size (fs_space test') * global_size (fs_space trial')))) as (m & m' & E & E' & F); auto.
  - apply repeat_length.
  - destruct Dt as (_ & _ & <-), Ds as (_ & _ & <-). generalize (global_size (fs_space test) * global_size (fs_space trial)) as n.
    induction n; cbn; constructor; auto. apply (ra_zero _ _ _ _ _ H).
  - rewrite assemble_on_zeros in E; [|apply (ss_processes _ (dn_test _ _ _ _ _ _ _ _ _ D))|apply (ss_processes _ (dn_trial _ _ _ _ _ _ _ _ _ D))].
    rewrite assemble_on_zeros in E'; [|apply (ss_processes _ (dn_test _ _ _ _ _ _ _ _ _ D'))|apply (ss_processes _ (dn_trial _ _ _ _ _ _ _ _ _ D'))].
    exists m, m'. split; [now injection E|]. split; [now injection E'|]. exact F.
Qed.
End Setting.
End Transfer.

(** ** Signs *)
Section Signs.
Context {T R : Type} (S : scalar T R) (pos : T -> Prop) (posR : R -> Prop) (H : closed_signs S pos posR).

Let relT (x y : T) : Prop := x = y /\ pos x.
Let relR (r s : R) : Prop := r = s /\ posR r.

Lemma Forall2_same {A : Type} (P : A -> Prop) l : Forall P l -> Forall2 (fun x y => x = y /\ P x) l l.
Proof. induction 1; constructor; auto. Qed.

Theorem positive_matrix X wmod O o deg pts ct test trial rt :
  legal_runtime (s_add S) rt -> op_integrand O = SingleLayer -> op_table_derivs O = 0 -> op_deriv_size O = 1 ->
  dense_setting X wmod O o deg pts ct test trial ->
  positive_externals posR X -> (forall x y, pos (kn_value (op_kernel O) 0 x y)) -> positive_basis pos X test -> positive_basis pos X trial ->
  exists m, assemble S X rt wmod O o trial test = Ok m /\ Forall pos m.
Proof.
  intros L HI Hd Hk D HX HK Bt Bs.
  set (relP := fun p p' : list R => p = p' /\ rule_points X p).
  assert (A : related_arithmetic relT relR relR S S).
  { constructor.
    - split; [reflexivity|apply (cs_zero _ _ _ H)].
    - intros x x' y y' (<- & Px) (<- & Py). split; [reflexivity|now apply (cs_add _ _ _ H)].
    - intros x x' y y' (<- & Px) (<- & Py). split; [reflexivity|now apply (cs_mul _ _ _ H)].
    - intros r r' (<- & Pr). split; [reflexivity|now apply (cs_cast _ _ _ H)].
    - intros r r' s s' (<- & Px) (<- & Py). split; [reflexivity|now apply (cs_real_mul _ _ _ H)].
    - auto. }
  assert (B : forall fs, positive_basis pos X fs -> related_basis relT relP O fs fs).
  { intros fs P t points points' d p b (<- & Rp) Hp Hl Hb. rewrite Hd in Hl. change (deriv_count 0) with 1 in Hl. replace d with 0 by lia.
    split; [reflexivity|now apply P]. }
  destruct (transfer_matrix relT relR relR (fun _ _ => True) relP S S A) with (X := X) (X' := X) (wmod := wmod) (wmod' := wmod) (O := O) (O' := O) (o := o) (o' := o)
    (deg := deg) (pts := pts) (ct := ct) (test := test) (trial := trial) (test' := test) (trial' := trial) (rt := rt) (rt' := rt) as (m & m' & E & _ & F);
    auto.
  - repeat split.
  - repeat split.
  - constructor.
    + intros t n q q' E1 E2. assert (q' = q) by congruence. subst q'. split; [split; [reflexivity|left; eauto 6]|].
      apply Forall2_same. eapply (px_simplex _ _ HX); eauto.
    + intros k d p n q q' E1 E2. assert (q' = q) by congruence. subst q'. split; [split; [reflexivity|right; eauto 10]|].
      split; [split; [reflexivity|right; eauto 10]|]. apply Forall2_same. eapply (px_duffy _ _ HX); eauto.
    + intros g t points points' c p (<- & Rp) Hp Hc. repeat split. now apply (px_geometry _ _ HX).
  - constructor.
    + intros t s qt qt' qs qs' p q n tt st _ _ _ E1 E2 E3 E4 _ _ Hn. assert (qt' = qt) by congruence. assert (qs' = qs) by congruence. subst qt' qs'.
      replace n with 0 by lia. split; [reflexivity|apply HK].
    + intros t s pairs kind dim q q' p n g tt st _ _ _ _ _ _ E1 E2 _ Hn. assert (q' = q) by congruence. subst q'.
      replace n with 0 by lia. split; [reflexivity|apply HK].
  - rewrite HI. intros k k' phi phi' psi psi' x x' p y y' q Hk0 Hp Hq _ _. cbn [integrand_value]. cbn [kernel_used derivs_used] in *.
    change (deriv_count 0) with 1 in *. apply (ra_mul _ _ _ _ _ A); [apply (ra_mul _ _ _ _ _ A)|]; auto.
  - exists m. split; auto. clear - F. induction F as [|x x' l l' (_ & Px) F IH]; constructor; auto.
Qed.

Theorem single_layer_sign X wmod (G : green) o deg pts ct test trial rt :
  legal_runtime (s_add S) rt -> dense_setting X wmod (laplace_single_layer G) o deg pts ct test trial ->
  positive_externals posR X -> (forall x y, pos (G 0 x y)) -> positive_basis pos X test -> positive_basis pos X trial ->
  exists m, assemble S X rt wmod (laplace_single_layer G) o trial test = Ok m /\ Forall pos m.
Proof. intros. eapply positive_matrix; eauto. Qed.
End Signs.
