(** * Two arithmetics whose distance grows with every operation *)
From Coq Require Import Reals.
From Verif Require Import Base BaseFacts Topology TopologyFacts DofMap SpecDof DofMapFacts Process Space SpecSpace
  Options Adjacency SpecAdjacency AdjacencyFacts AdjacencyResults Scalar Integrand CellPair Operators SpecLocal LocalResults
  Interleave Assembly SpecAssembly AssemblyFacts AssemblyRaces AssemblySingular AssemblyDense AssemblyExact AssemblyResults AlgebraFacts SpecOrder OrderResults SpecTransfer TransferResults
  SpecRounding.
Local Open Scope nat_scope.

Section Graded.
Context {T R R' T' : Type} (relT : nat -> T -> T' -> Prop) (relR relD relN : nat -> R -> R' -> Prop) (relP : list R -> list R' -> Prop).
Context (S : scalar T R) (S' : scalar T' R').

Record graded : Prop := {
  gr_mono : forall n m x x', n <= m -> relT n x x' -> relT m x x';
  gr_zero : relT 0 (s_zero S) (s_zero S');
  gr_add : forall n x x' y y', relT n x x' -> relT n y y' -> relT (n + 1) (s_add S x y) (s_add S' x' y');
  gr_sub : forall n x x' y y', relT n x x' -> relT n y y' -> relT (n + 1) (s_sub S x y) (s_sub S' x' y');
  gr_mul : forall n m x x' y y', relT n x x' -> relT m y y' -> relT (n + m + 1) (s_mul S x y) (s_mul S' x' y');
  gr_neg : forall n x x', relT n x x' -> relT n (s_neg S x) (s_neg S' x');
  gr_div : forall n m x x' r r', relT n x x' -> relD m r r' -> relT (n + m + 1) (s_div S x (s_cast S r)) (s_div S' x' (s_cast S' r'));
  gr_cast : forall n r r', relR n r r' -> relT n (s_cast S r) (s_cast S' r');
  gr_normal : forall n r r', relN n r r' -> relT n (s_cast S r) (s_cast S' r');
  gr_real_mul : forall n m r r' s s', relR n r r' -> relR m s s' -> relR (n + m + 1) (r_mul S r s) (r_mul S' r' s');
  gr_denominator : forall n r r', relD n r r' -> relR n r r'
}.
Hypothesis (H : graded).

Lemma at_level m n x x' : relT m x x' -> m <= n -> relT n x x'.
Proof. intros. eapply (gr_mono H); eauto. Qed.

(** Values of the integrands. *)
Lemma graded_form_value n f f' : related_form (relT n) f f' ->
  forall k k' phi phi' psi psi' x x' p y y' q,
    (forall i, i < kernel_used f -> relT n (k i) (k' i)) ->
    (forall i, i < deriv_count (derivs_used f) -> relT n (phi i) (phi' i)) ->
    (forall i, i < deriv_count (derivs_used f) -> relT n (psi i) (psi' i)) ->
    related_point (relD n) (relN n) x x' p -> related_point (relD n) (relN n) y y' q ->
    relT (roundings n f) (integrand_value S f k phi psi x p y q) (integrand_value S' f' k' phi' psi' x' p y' q).
Proof.
  revert f'.
  assert (Z0 : 0 < deriv_count 0) by (vm_compute; lia).
  assert (Z1 : 1 < deriv_count 1) by (vm_compute; lia). assert (Z2 : 2 < deriv_count 1) by (vm_compute; lia).
  assert (Dot : forall m u u' v v', (forall i, i < 3 -> relT (fst m) (u i) (u' i)) -> (forall i, i < 3 -> relT (snd m) (v i) (v' i)) ->
    relT (fst m + snd m + 3) (dot S u v) (dot S' u' v')).
  { intros [a b] u u' v v' Hu Hv. cbn [fst snd] in *. unfold dot.
    assert (M : forall i, i < 3 -> relT (a + b + 1) (s_mul S (u i) (v i)) (s_mul S' (u' i) (v' i))) by (intros; apply (gr_mul H); auto).
    apply at_level with (a + b + 1 + 1 + 1); [|lia]. apply (gr_add H); [apply (gr_add H); apply M; lia|]. apply at_level with (a + b + 1); [apply M|]; lia. }
  induction f; intros f' Hf; destruct f'; cbn [related_form] in Hf; try contradiction;
    intros k k' phi phi' psi psi' x x' p y y' q Hk Hp Hq (X1 & X2 & X3) (Y1 & Y2 & Y3); cbn [integrand_value roundings]; cbn [kernel_used derivs_used] in *.
  - apply at_level with ((n + n + 1) + n + 1); [|lia]. apply (gr_mul H); [apply (gr_mul H)|]; auto.
  - apply at_level with (((n + n + 3) + n + 1) + n + 1); [|lia]. apply (gr_mul H); [apply (gr_mul H)|]; auto.
    apply (Dot (n, n)); intros i Hi; [apply Hk; cbn; lia|apply (gr_normal H); auto].
  - apply at_level with (((n + n + 3) + n + 1) + n + 1); [|lia]. apply (gr_mul H); [apply (gr_mul H)|]; auto. apply (gr_neg H).
    apply (Dot (n, n)); intros i Hi; [apply Hk; cbn; lia|apply (gr_normal H); auto].
  - assert (C : forall z z' j w w', related_point (relD n) (relN n) z z' j -> (forall i, i < deriv_count 1 -> relT n (w i) (w' i)) ->
      forall i, relT (n + n + 1 + 1) (curl S z j w i) (curl S' z' j w' i)).
    { intros z z' j w w' (A1 & A2 & A3) Hw i. unfold curl. apply (gr_sub H); (apply (gr_mul H); [apply (gr_normal H); auto|auto]). }
    unfold jdet. apply at_level with ((n + ((n + n + 1 + 1) + (n + n + 1 + 1) + 3) + 1) + n + 1 + n + 1); [|lia].
    apply (gr_div H); auto. apply (gr_div H); auto. apply (gr_mul H); auto.
    apply (Dot (n + n + 1 + 1, n + n + 1 + 1)); intros i Hi; apply C; auto; split; auto.
  - apply at_level with (((n + (n + n + 3) + 1) + n + 1) + n + 1); [|lia]. apply (gr_mul H); [apply (gr_mul H)|]; auto. apply (gr_mul H); auto.
    apply (Dot (n, n)); intros i Hi; apply (gr_normal H); auto.
  - destruct Hf as (F1 & F2).
    assert (D1 := deriv_count_mono _ _ (Nat.le_max_l (derivs_used f1) (derivs_used f2))).
    assert (D2 := deriv_count_mono _ _ (Nat.le_max_r (derivs_used f1) (derivs_used f2))).
    apply (gr_add H).
    + apply at_level with (roundings n f1); [|lia]. apply (IHf1 f'1 F1); try (now split); intros i Hi; [apply Hk|apply Hp|apply Hq]; lia.
    + apply at_level with (roundings n f2); [|lia]. apply (IHf2 f'2 F2); try (now split); intros i Hi; [apply Hk|apply Hp|apply Hq]; lia.
  - destruct Hf as (F1 & F2). apply at_level with (n + roundings n f + 1); [|lia]. apply (gr_mul H); auto. apply (IHf f' F2); try (now split); auto.
Qed.

Lemma fold_graded {A A' : Type} (P : A -> A' -> Prop) (g : T -> A -> T) (g' : T' -> A' -> T') (K d : nat) l l' : Forall2 P l l' ->
  (forall m c c' x x', K <= m -> relT m c c' -> P x x' -> relT (m + d) (g c x) (g' c' x')) ->
  forall m a a', K <= m -> relT m a a' -> relT (m + d * length l) (fold_left g l a) (fold_left g' l' a').
Proof.
  intros F Hg. induction F as [|x x' l l' Px F IH]; intros m a a' Hm Ha; cbn [fold_left length].
  - now replace (m + d * 0) with m by lia.
  - replace (m + d * Datatypes.S (length l)) with ((m + d) + d * length l) by lia. apply IH; [lia|]. now apply Hg.
Qed.

Section Setting.
Context (X : externals R) (X' : externals R') (wmod wmod' : nat) (O : operator T R) (O' : operator T' R') (o o' : options).
Context (deg : cell_type -> cell_type -> nat) (pts : cell_type -> nat) (ct : cell_type) (n P : nat).
Context (test trial : fspace T R) (test' trial' : fspace T' R').
Hypothesis (Dt : same_dofs test test') (Ds : same_dofs trial trial').
Hypothesis (D : dense_setting X wmod O o deg pts ct test trial) (D' : dense_setting X' wmod' O' o' deg pts ct test' trial').
Hypothesis (HX : related_externals (relR n) (relD n) (relN n) relP X X') (HK : related_kernel (relT n) X X' O O' deg pts test trial).
Hypothesis (Bt : related_basis (relT n) relP O test test') (Bs : related_basis (relT n) relP O trial trial').
Hypothesis (HI : related_form (relT n) (op_integrand O) (op_integrand O')).
Hypothesis (HP : pts ct * pts ct <= P) (HQ : forall k d p q, x_duffy X k d p (deg ct ct) = Some q -> length (pq_weights q) <= P).

(** Roundings in a local value. *)
Definition local_roundings : nat := roundings n (op_integrand O) + 4 * n + 4 + P.

Lemma value_graded t s a b v v' : t < ent_count (fs_grid test) 2 -> s < ent_count (fs_grid trial) 2 ->
  a < length (dofs_at test t) -> b < length (dofs_at trial s) ->
  pair_value S X O deg pts test trial t s a b v -> pair_value S' X' O' deg pts test' trial' t s a b v' -> relT local_roundings v v'.
Proof.
  intros Ht Hs Ha Hb V V'.
  destruct Dt as (G1 & F1 & P1), Ds as (G2 & F2 & P2).
  rewrite (proj1 (proj2 (proj2 (proj2 (dofs_at_spec test t (dn_test _ _ _ _ _ _ _ _ _ D) Ht))))) in Ha.
  rewrite (proj1 (proj2 (proj2 (proj2 (dofs_at_spec trial s (dn_trial _ _ _ _ _ _ _ _ _ D) Hs))))) in Hb.
  destruct (dn_fitting _ _ _ _ _ _ _ _ _ D) as (_ & Fk & Fd). pose proof (deriv_count_mono _ _ Fd) as Fd'.
  assert (Pr := dn_proper _ _ _ _ _ _ _ _ _ D).
  assert (Tt : g_ctype (fs_grid test) t = ct).
  { pose proof (wf_ctype _ (ss_grid _ (dn_test _ _ _ _ _ _ _ _ _ D)) t Ht) as I. rewrite (dn_test_type _ _ _ _ _ _ _ _ _ D) in I. destruct I as [I|[]]. auto. }
  assert (Ts : g_ctype (fs_grid trial) s = ct).
  { pose proof (wf_ctype _ (ss_grid _ (dn_trial _ _ _ _ _ _ _ _ _ D)) s Hs) as I. rewrite (dn_trial_type _ _ _ _ _ _ _ _ _ D) in I. destruct I as [I|[]]. auto. }
  set (c0 := roundings n (op_integrand O) + 4 * n + 4).
  unfold pair_value, touching, singular_value, regular_value in *. rewrite <- G1, <- G2 in V'.
  destruct V as [(To & V)|(To & V)], V' as [(To' & V')|(To' & V')]; try contradiction.
  - destruct To as (Eg & To). assert (Sag := dn_same _ _ _ _ _ _ _ _ _ D Eg).
    destruct V as (pairs & kind & dim & q & A1 & A2 & A3 & A4 & ->). destruct V' as (pairs' & kind' & dim' & q' & B1 & B2 & B3 & B4 & ->).
    assert (pairs' = pairs) by (eapply adjacency_unique; eauto). assert (dim' = dim) by (eapply shared_dimension_unique; eauto).
    assert (kind' = kind) by congruence. subst pairs' dim' kind'.
    destruct (rx_duffy _ _ _ _ _ _ HX _ _ _ _ _ _ A4 B4) as (E1 & E2 & E3). destruct (pr_duffy _ Pr _ _ _ _ _ A4) as (L1 & L2).
    unfold pairwise_entry. apply at_level with (c0 + 1 * length (enumerate (pq_weights q))).
    2:{ unfold enumerate. rewrite combine_length, seq_length, Nat.min_id. unfold local_roundings. fold c0.
        pose proof Ts as Ts'. rewrite <- Sag in Ts'. rewrite Tt, Ts' in A4. pose proof (HQ _ _ _ _ A4). lia. }
    refine (fold_graded _ _ _ c0 1 _ _ (enumerate_related _ _ _ E3) _ c0 _ _ (le_n _) _).
    2:{ eapply at_level; [apply (gr_zero H)|lia]. }
    intros m c c' [p w] [p' w'] Hm Hc (Ep & Hp & Hw). cbn [fst snd] in *. subst p'.
    assert (Gt : related_point (relD n) (relN n) (x_geometry X (fs_grid test) (g_ctype (fs_grid test) t) (pq_test q) t)
      (x_geometry X' (fs_grid test) (g_ctype (fs_grid test) t) (pq_test q') t) p) by (apply (rx_geometry _ _ _ _ _ _ HX); auto; lia).
    assert (Gs : related_point (relD n) (relN n) (x_geometry X (fs_grid test) (g_ctype (fs_grid test) s) (pq_trial q) s)
      (x_geometry X' (fs_grid test) (g_ctype (fs_grid test) s) (pq_trial q') s) p) by (apply (rx_geometry _ _ _ _ _ _ HX); auto; [lia|now rewrite Sag]).
    apply (gr_add H); auto. apply at_level with (roundings n (op_integrand O) + (n + (n + n + 1) + 1) + 1); [|unfold c0 in Hm; lia]. apply (gr_mul H).
    + apply graded_form_value; auto.
      * intros i Hi. eapply (rk_singular _ _ _ _ _ _ _ _ _ HK); eauto; try (now split); try lia. now rewrite Sag.
      * intros i Hi. apply Bt; auto; lia.
      * intros i Hi. apply Bs; auto; try lia. now rewrite Sag.
    + apply (gr_cast H), (gr_real_mul H); auto.
      apply (gr_real_mul H); apply (gr_denominator H); [apply Gt|apply Gs].
  - destruct V as (qt & qs & A1 & A2 & ->). destruct V' as (qt' & qs' & B1 & B2 & ->).
    destruct (rx_simplex _ _ _ _ _ _ HX _ _ _ _ A1 B1) as (E1 & E2). destruct (rx_simplex _ _ _ _ _ _ HX _ _ _ _ A2 B2) as (E3 & E4).
    destruct (pr_simplex _ Pr _ _ _ A1) as (L1 & L2). destruct (pr_simplex _ Pr _ _ _ A2) as (L3 & L4).
    assert (Ln : forall l : list R, length (enumerate l) = length l) by (intros l; unfold enumerate; rewrite combine_length, seq_length; apply Nat.min_id).
    unfold tensor_entry. apply at_level with (c0 + (1 * length (enumerate (qd_weights qs))) * length (enumerate (qd_weights qt))).
    2:{ rewrite !Ln, L2, L4, Tt, Ts. unfold local_roundings. fold c0. lia. }
    refine (fold_graded _ _ _ c0 _ _ _ (enumerate_related _ _ _ E2) _ c0 _ _ (le_n _) _).
    2:{ eapply at_level; [apply (gr_zero H)|lia]. }
    intros m c c' [p w] [p' w'] Hm Hc (Ep & Hp & Hw). cbn [fst snd] in *. subst p'.
    refine (fold_graded _ _ _ c0 1 _ _ (enumerate_related _ _ _ E4) _ m _ _ Hm Hc). clear m c c' Hm Hc.
    intros m c c' [r z] [r' z'] Hm Hc (Er & Hr & Hz). cbn [fst snd] in *. subst r'.
    assert (Gt : related_point (relD n) (relN n) (x_geometry X (fs_grid test) (g_ctype (fs_grid test) t) (qd_points qt) t)
      (x_geometry X' (fs_grid test) (g_ctype (fs_grid test) t) (qd_points qt') t) p) by (apply (rx_geometry _ _ _ _ _ _ HX); auto; lia).
    assert (Gs : related_point (relD n) (relN n) (x_geometry X (fs_grid trial) (g_ctype (fs_grid trial) s) (qd_points qs) s)
      (x_geometry X' (fs_grid trial) (g_ctype (fs_grid trial) s) (qd_points qs') s) r) by (apply (rx_geometry _ _ _ _ _ _ HX); auto; lia).
    apply (gr_add H); auto. apply at_level with ((roundings n (op_integrand O) + (n + n + 1) + 1) + (n + n + 1) + 1); [|unfold c0 in Hm; lia].
    apply (gr_mul H); [apply (gr_mul H)|].
    + apply graded_form_value; auto.
      * intros i Hi. eapply (rk_regular _ _ _ _ _ _ _ _ _ HK); eauto; lia.
      * intros i Hi. apply Bt; auto; lia.
      * intros i Hi. apply Bs; auto; lia.
    + apply (gr_cast H), (gr_real_mul H); auto. apply (gr_denominator H), Gs.
    + apply (gr_cast H), (gr_real_mul H); auto. apply (gr_denominator H), Gt.
Qed.

Theorem graded_matrix rt rt' : legal_runtime (s_add S) rt -> legal_runtime (s_add S') rt' ->
  exists m m', assemble S X rt wmod O o trial test = Ok m /\ assemble S' X' rt' wmod' O' o' trial' test' = Ok m' /\
    length m = global_size (fs_space test) * global_size (fs_space trial) /\ length m' = length m /\
    forall i j, i < global_size (fs_space test) -> j < global_size (fs_space trial) ->
      exists ks x x', NoDup ks /\ (forall k, In k ks <-> contributes test trial i j k) /\
        nth_error m (i + global_size (fs_space test) * j) = Some x /\ nth_error m' (i + global_size (fs_space test) * j) = Some x' /\
        relT (local_roundings + length ks) x x'.
Proof.
  intros L L'.
  destruct (ordered_entries ct test trial (dense_order _ _ _ _ _ _ _ _ _ D)) as (ord & Ho & Run).
  set (size := global_size (fs_space test) * global_size (fs_space trial)).
  assert (Sz : global_size (fs_space test') * global_size (fs_space trial') = size).
  { destruct Dt as (_ & _ & P1), Ds as (_ & _ & P2). unfold size. now rewrite P1, P2. }
  destruct (Run T R S X rt wmod O o deg pts test trial (repeat (s_zero S) size)) as (m & val & E & V & Ln & M); auto; [repeat split|repeat split|apply repeat_length|].
  destruct (Run T' R' S' X' rt' wmod' O' o' deg pts test' trial' (repeat (s_zero S') size)) as (m' & val' & E' & V' & Ln' & M'); auto; [now rewrite repeat_length|].
  rewrite repeat_length in Ln, Ln'.
  unfold size in E. rewrite assemble_on_zeros in E; [|apply (ss_processes _ (dn_test _ _ _ _ _ _ _ _ _ D))|apply (ss_processes _ (dn_trial _ _ _ _ _ _ _ _ _ D))].
  rewrite <- Sz in E'. rewrite assemble_on_zeros in E'; [|apply (ss_processes _ (dn_test _ _ _ _ _ _ _ _ _ D'))|apply (ss_processes _ (dn_trial _ _ _ _ _ _ _ _ _ D'))].
  exists m, m'. split; [now injection E|]. split; [now injection E'|]. split; [exact Ln|]. split; [congruence|].
  intros i j Hi Hj. destruct (Ho i j) as (Nd & In0).
  assert (Hx : i + global_size (fs_space test) * j < size) by (unfold size; nia).
  assert (Rep : forall (A : Type) (z : A) k, k < size -> nth_error (repeat z size) k = Some z).
  { intros A z k Hk. rewrite (nth_error_nth' _ z) by now rewrite repeat_length. now rewrite nth_repeat. }
  assert (M1 := M i j _ Hi Hj (Rep _ _ _ Hx)).
  assert (M2 := M' i j (s_zero S')). destruct Dt as (G1 & _ & P1), Ds as (G2 & _ & P2). rewrite <- P1, <- P2 in M2. specialize (M2 Hi Hj (Rep _ _ _ Hx)).
  eexists (ord i j), _, _. split; [exact Nd|]. split; [exact In0|]. split; [exact M1|]. split; [exact M2|].
  assert (Hk : forall k, In k (ord i j) -> contributes test trial i j k) by (intros k; apply In0).
  assert (dt : forall c, dofs_at test' c = dofs_at test c) by (intros c; unfold dofs_at; now rewrite P1).
  assert (ds : forall c, dofs_at trial' c = dofs_at trial c) by (intros c; unfold dofs_at; now rewrite P2).
  assert (Base : relT local_roundings (s_zero S) (s_zero S')) by (eapply at_level; [apply (gr_zero H)|lia]).
  assert (Gen : forall l lev old old', local_roundings <= lev -> (forall k, In k l -> contributes test trial i j k) -> relT lev old old' ->
    relT (lev + length l) (accumulate (s_add S) val l old) (accumulate (s_add S') val' l old')).
  { clear M1 M2 Hk Nd In0. intros l. induction l as [|k l IH]; intros lev old old' Hl Hk Hold; [now rewrite Nat.add_0_r|].
    unfold accumulate in *. cbn [fold_left length]. replace (lev + Datatypes.S (length l)) with ((lev + 1) + length l) by lia.
    apply IH; [lia|intros; apply Hk; now right|].
    assert (C := Hk k (or_introl eq_refl)). destruct k as [[t s] [a b]]. destruct C as (Ht & Hs & Ca & Cb).
    apply (gr_add H); auto. apply at_level with local_roundings; [|assumption]. eapply value_graded; eauto.
    - apply nth_error_Some. congruence.
    - apply nth_error_Some. congruence.
    - apply V'; congruence. }
  apply Gen; auto.
Qed.
End Setting.
End Graded.
