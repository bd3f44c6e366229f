(** * The sphere: geometry *)
From Coq Require Import Reals Lra Psatz.
From Verif Require Import Base BaseFacts Topology TopologyFacts Shapes SpecShapes SphereFacts SphereSurface SphereResults SpecSphere.

Local Open Scope R_scope.

Definition det (p q r : vec) : R := inner p (cross q r).
Definition norm2 (p : vec) : R := inner p p.

Lemma det_normal p q r : inner p (normal p q r) = det p q r /\ inner q (normal p q r) = det p q r /\ inner r (normal p q r) = det p q r.
Proof. destruct p as [[a b] c], q as [[d e] f], r as [[g h] i]. unfold det, normal. cbn. repeat split; ring. Qed.

Lemma det_turn p q r : det p q r = det q r p.
Proof. destruct p as [[a b] c], q as [[d e] f], r as [[g h] i]. unfold det. cbn. ring. Qed.

(** The factor of the midpoint. *)
Definition factor (p q : vec) : R := / sqrt (norm2 (vadd p q)).

Lemma norm2_nonneg p : 0 <= norm2 p.
Proof. destruct p as [[a b] c]. unfold norm2. cbn. nra. Qed.

Lemma norm2_zero p : norm2 p = 0 -> p = origin.
Proof. destruct p as [[a b] c]. unfold norm2, origin. cbn. intros H. f_equal; [f_equal|]; nra. Qed.

Lemma sum_nonzero p q r : 0 < det p q r -> 0 < norm2 (vadd p q).
Proof.
  intros H. destruct (norm2_nonneg (vadd p q)) as [L|E]; auto. symmetry in E. apply norm2_zero in E. exfalso.
  destruct p as [[a b] c], q as [[d e] f], r as [[g h] i]. unfold det in H. cbn in *. inversion E.
  assert (d = - a) by lra. assert (e = - b) by lra. assert (f = - c) by lra. subst. clear -H. nra.
Qed.

Lemma factor_pos p q : 0 < norm2 (vadd p q) -> 0 < factor p q.
Proof. intros H. apply Rinv_0_lt_compat, sqrt_lt_R0, H. Qed.

Lemma factor_sym p q : factor p q = factor q p.
Proof. unfold factor. do 2 f_equal. destruct p as [[a b] c], q as [[d e] f]. unfold norm2. cbn. ring. Qed.

Lemma midpoint_scaled (p q : vec) : 0 < norm2 (vadd p q) -> edge_midpoint real_numbers p q = vscale (factor p q) (vadd p q).
Proof.
  intros H. destruct p as [[a b] c], q as [[d e] f]. unfold edge_midpoint. cbn [ro_mul ro_half ro_add ro_sqrt ro_zero ro_div real_numbers].
  unfold factor. set (n := norm2 (vadd (a, b, c) (d, e, f))) in *.
  replace (0 + 1 / 2 * (a + d) * (1 / 2 * (a + d)) + 1 / 2 * (b + e) * (1 / 2 * (b + e)) + 1 / 2 * (c + f) * (1 / 2 * (c + f))) with ((1/2) * (1/2) * n)
    by (unfold n, norm2; cbn; lra).
  rewrite sqrt_mult_alt by lra. rewrite sqrt_square by lra.
  assert (sqrt n <> 0) by (apply Rgt_not_eq, sqrt_lt_R0, H). cbn. f_equal; [f_equal|]; field; assumption.
Qed.

Lemma scaled_unit p q : 0 < norm2 (vadd p q) -> norm2 (vscale (factor p q) (vadd p q)) = 1.
Proof.
  intros H. replace (norm2 (vscale (factor p q) (vadd p q))) with (factor p q * factor p q * norm2 (vadd p q)).
  - unfold factor. rewrite <- (sqrt_sqrt (norm2 (vadd p q))) at 3 by lra. assert (sqrt (norm2 (vadd p q)) <> 0) by (apply Rgt_not_eq, sqrt_lt_R0, H). now field.
  - destruct p as [[a b] c], q as [[d e] f]. unfold norm2. cbn. ring.
Qed.

(** ** Weights *)

Fixpoint wsum (W : nat -> R) (c : list nat) : R := match c with [] => 0 | v :: c' => W v + wsum W c' end.

Lemma wsum_filter W c : wsum W c = wsum W (filter (fun v => if Req_EM_T (W v) 0 then false else true) c).
Proof. induction c as [|v c IH]; cbn; [reflexivity|]. destruct (Req_EM_T (W v) 0); cbn; lra. Qed.

Lemma wsum_perm W c c' : Permutation c c' -> wsum W c = wsum W c'.
Proof. induction 1; cbn; lra. Qed.

Lemma wsum_support W c c' : NoDup c -> NoDup c' -> (forall v, ~ In v c -> W v = 0) -> (forall v, ~ In v c' -> W v = 0) -> wsum W c = wsum W c'.
Proof.
  intros N N' Z Z'. rewrite (wsum_filter W c), (wsum_filter W c'). apply wsum_perm. apply NoDup_Permutation; auto using NoDup_filter.
  intros v. rewrite !filter_In. destruct (Req_EM_T (W v) 0) as [E|E]; [intuition discriminate|].
  split; intros (H & _); (split; [|reflexivity]).
  - destruct (in_dec Nat.eq_dec v c'); auto. now apply Z' in n.
  - destruct (in_dec Nat.eq_dec v c); auto. now apply Z in n.
Qed.

Lemma wsum_ext W W' c : (forall v, W v = W' v) -> wsum W c = wsum W' c.
Proof. intros H. induction c as [|v c IH]; cbn; [reflexivity|]. now rewrite H, IH. Qed.

(** Three vertices with weights. *)
Definition on3 (u v w : nat) (p q r : R) (y : nat) : R :=
  if Nat.eq_dec y u then p else if Nat.eq_dec y v then q else if Nat.eq_dec y w then r else 0.

Lemma on3_values u v w p q r : u <> v -> v <> w -> u <> w ->
  on3 u v w p q r u = p /\ on3 u v w p q r v = q /\ on3 u v w p q r w = r.
Proof.
  intros N1 N2 N3. unfold on3.
  destruct (Nat.eq_dec u u), (Nat.eq_dec v u), (Nat.eq_dec v v), (Nat.eq_dec w u), (Nat.eq_dec w v), (Nat.eq_dec w w); try congruence; auto.
Qed.

Lemma on3_nonneg u v w p q r : 0 <= p -> 0 <= q -> 0 <= r -> forall y, 0 <= on3 u v w p q r y.
Proof. intros P Q RR y. unfold on3. repeat destruct (Nat.eq_dec _ _); lra. Qed.

Lemma on3_outside u v w p q r y : y <> u -> y <> v -> y <> w -> on3 u v w p q r y = 0.
Proof. intros. unfold on3. repeat destruct (Nat.eq_dec _ _); congruence. Qed.

Lemma combination_rot pts c u v w W : rot c u v w ->
  combination pts W c = vadd (vscale (W u) (position pts u)) (vadd (vscale (W v) (position pts v)) (vscale (W w) (position pts w))).
Proof.
  intros R. destruct (position pts u) as [[a1 a2] a3] eqn:E1, (position pts v) as [[b1 b2] b3] eqn:E2, (position pts w) as [[d1 d2] d3] eqn:E3.
  destruct R as [->|[->| ->]]; cbn [combination]; rewrite E1, E2, E3; cbn; f_equal; [f_equal| |f_equal| |f_equal|]; ring.
Qed.

Lemma wsum_rot c u v w W : rot c u v w -> wsum W c = W u + W v + W w.
Proof. intros [->|[->| ->]]; cbn; ring. Qed.

(** ** One refinement *)

(** The cells face outwards, cover all directions, and overlap only in common faces. *)
Record tiling (pts : list vec) (cells : list (list nat)) : Prop := mkTiling {
  ti_unit : forall p, In p pts -> norm2 p = 1;
  ti_outward : forall c u v w, In c cells -> rot c u v w -> 0 < det (position pts u) (position pts v) (position pts w);
  ti_cover : forall x, exists c w, In c cells /\ in_cone pts c w x;
  ti_apart : forall c c' w w' x, In c cells -> In c' cells -> in_cone pts c w x -> in_cone pts c' w' x -> forall v, w v = w' v
}.

Lemma Forall2_at {A B : Type} (P : A -> B -> Prop) l l' : Forall2 P l l' -> forall i a, nth_error l i = Some a -> exists b, nth_error l' i = Some b /\ P a b.
Proof. induction 1 as [|a b l l' H F IH]; intros [|i] a0; cbn; intros E; try discriminate; [injection E as <-; eauto|auto]. Qed.

Lemma Forall2_same {A B : Type} (P : A -> B -> Prop) l l' : Forall2 P l l' -> length l = length l'.
Proof. induction 1; cbn; congruence. Qed.

Section Step.
Variables (pts np : list vec) (cells : list (list nat)).
Hypothesis SU : surface (length pts) cells.
Hypothesis TI : tiling pts cells.
Hypothesis MF : Forall2 (made_for real_numbers pts) (grid_edges Triangle cells) np.
Local Notation n := (length pts).
Local Notation keys := (grid_edges Triangle cells).
Local Notation m := (mid (length pts) (grid_edges Triangle cells)).
Local Notation pos := (position pts).
Local Notation pos' := (position (pts ++ np)).
Local Notation K u v := (factor (position pts u) (position pts v)).

Lemma old_position v : (v < n)%nat -> pos' v = pos v.
Proof. intros H. unfold position. now rewrite app_nth1. Qed.

Lemma pos_nth v p : nth_error pts v = Some p -> pos v = p.
Proof. intros H. unfold position. now apply nth_error_nth_Some. Qed.

Lemma edge_facts c u v w : In c cells -> rot c u v w ->
  (u < n /\ v < n /\ w < n)%nat /\ (u <> v /\ v <> w /\ u <> w)%nat /\
  0 < K u v /\ pos' (m u v) = vscale (K u v) (vadd (pos u) (pos v)) /\ norm2 (pos' (m u v)) = 1.
Proof.
  intros Hc R. destruct (rot_facts _ _ SU _ _ _ _ Hc R) as (B & N1 & N2 & N3).
  assert (P : 0 < norm2 (vadd (pos u) (pos v))) by (eapply sum_nonzero, (ti_outward _ _ TI); eauto).
  assert (E : pos' (m u v) = vscale (K u v) (vadd (pos u) (pos v))).
  { pose proof (keys_edge _ _ SU _ _ _ _ Hc R) as Hk. pose proof (index_of_nth _ _ Hk) as Hi.
    assert (F : exists p, nth_error np (index_of (norm_pair (u, v)) keys) = Some p /\ made_for real_numbers pts (norm_pair (u, v)) p).
    { exact (Forall2_at _ _ _ MF _ _ Hi). }
    destruct F as (p & Hp & (i & j & vi & vj & Ek & Hvi & Hvj & ->)).
    unfold position at 1, mid. rewrite app_nth2 by lia. replace (n + index_of (norm_pair (u, v)) keys - n)%nat with (index_of (norm_pair (u, v)) keys) by lia.
    rewrite (nth_error_nth_Some _ _ origin _ Hp). apply pos_nth in Hvi, Hvj. subst vi vj.
    apply norm_pair_eq in Ek. destruct Ek as [(-> & ->)|(-> & ->)].
    - now apply midpoint_scaled.
    - rewrite midpoint_scaled.
      + rewrite (factor_sym (pos v) (pos u)). f_equal. destruct (pos u) as [[? ?] ?], (pos v) as [[? ?] ?]. cbn. f_equal; [f_equal|]; ring.
      + destruct (pos u) as [[? ?] ?], (pos v) as [[? ?] ?]. unfold norm2 in *. cbn in *. lra. }
  split; [exact B|]. split; [auto|]. split; [now apply factor_pos|]. split; [exact E|]. rewrite E. now apply scaled_unit.
Qed.

(** All that is needed about a cell [u v w]. *)
Lemma cell_facts c u v w : In c cells -> rot c u v w ->
  (u < n /\ v < n /\ w < n)%nat /\ (u <> v /\ v <> w /\ u <> w)%nat /\
  (0 < K u v /\ 0 < K v w /\ 0 < K u w) /\
  (pos' (m u v) = vscale (K u v) (vadd (pos u) (pos v)) /\
   pos' (m v w) = vscale (K v w) (vadd (pos v) (pos w)) /\
   pos' (m u w) = vscale (K u w) (vadd (pos u) (pos w))) /\
  (m u v <> m u w /\ m u v <> m v w /\ m v w <> m u w) /\
  (n <= m u v /\ n <= m u w /\ n <= m v w)%nat /\
  0 < det (pos u) (pos v) (pos w).
Proof.
  intros Hc R. pose proof (rot_turn _ _ _ _ R) as R1. pose proof (rot_turn _ _ _ _ R1) as R2.
  destruct (edge_facts c u v w Hc R) as (B & (N1 & N2 & N3) & P1 & E1 & _).
  destruct (edge_facts c v w u Hc R1) as (_ & _ & P2 & E2 & _).
  destruct (edge_facts c w u v Hc R2) as (_ & _ & P3 & E3 & _).
  split; auto. split; auto. split.
  { rewrite (factor_sym (pos u) (pos w)). auto. }
  split.
  { split; auto. split; auto. rewrite (mid_swap (length pts) cells), E3. rewrite (factor_sym (pos u) (pos w)). f_equal.
    destruct (pos u) as [[? ?] ?], (pos w) as [[? ?] ?]. cbn. f_equal; [f_equal|]; ring. }
  pose proof (keys_edge _ _ SU _ _ _ _ Hc R) as K1. pose proof (keys_edge _ _ SU _ _ _ _ Hc R1) as K2. pose proof (keys_edge' _ _ SU _ _ _ _ Hc R) as K3.
  split.
  { repeat split; intros E; apply (mid_inj (length pts) cells) in E; auto; destruct E as [(? & ?)|(? & ?)]; congruence. }
  split; [repeat split; apply (mid_ge (length pts) cells)|]. eapply (ti_outward _ _ TI); eauto.
Qed.

Lemma det_corner (p q r : vec) s t : det p (vscale s (vadd p q)) (vscale t (vadd p r)) = s * t * det p q r.
Proof. destruct p as [[a b] c], q as [[d e] f], r as [[g h] i]. unfold det. cbn. ring. Qed.
Lemma det_center (p q r : vec) s t o : det (vscale s (vadd q r)) (vscale t (vadd p r)) (vscale o (vadd p q)) = 2 * (s * t * o) * det p q r.
Proof. destruct p as [[a b] c], q as [[d e] f], r as [[g h] i]. unfold det. cbn. ring. Qed.

Lemma rot_same c u v w x y z : rot c u v w -> rot c x y z -> rot [u; v; w] x y z.
Proof. intros [->|[->| ->]] [E|[E|E]]; injection E as -> -> ->; unfold rot; auto. Qed.

Lemma step_outward ch x y z : In ch (flat_map (children m) cells) -> rot ch x y z -> 0 < det (pos' x) (pos' y) (pos' z).
Proof.
  intros Hch Rc. apply in_flat_map in Hch. destruct Hch as (c & Hc & Hch). apply (child_cases _ _ SU) in Hch; auto.
  assert (G : forall a b d, rot ch a b d -> 0 < det (pos' a) (pos' b) (pos' d) -> 0 < det (pos' x) (pos' y) (pos' z)).
  { intros a b d Rd H. destruct (rot_same ch a b d x y z Rd Rc) as [E|[E|E]]; injection E as -> -> ->; auto;
      first [rewrite det_turn; exact H|rewrite <- det_turn; exact H|rewrite det_turn in H; exact H]. }
  destruct Hch as [(u & v & w & R & ->)|(a & b & d & -> & ->)].
  - apply (G u (m u v) (m u w)); [unfold rot; auto|].
    destruct (cell_facts c u v w Hc R) as (B & N & (P1 & P2 & P3) & (E1 & E2 & E3) & _ & _ & D).
    rewrite E1, E3, old_position by tauto. rewrite det_corner. apply Rmult_lt_0_compat; auto. now apply Rmult_lt_0_compat.
  - apply (G (m b d) (m d a) (m a b)); [unfold rot; auto|]. assert (R : rot [a; b; d] a b d) by (unfold rot; auto).
    destruct (cell_facts _ a b d Hc R) as (B & N & (P1 & P2 & P3) & (E1 & E2 & E3) & _ & _ & D).
    rewrite (mid_swap (length pts) cells d a), E1, E2, E3, det_center.
    apply Rmult_lt_0_compat; auto. apply Rmult_lt_0_compat; [lra|]. apply Rmult_lt_0_compat; auto. now apply Rmult_lt_0_compat.
Qed.

Lemma step_unit p : In p (pts ++ np) -> norm2 p = 1.
Proof.
  intros H. apply in_app_iff in H. destruct H as [H|H]; [now apply (ti_unit _ _ TI)|].
  destruct (In_nth_error _ _ H) as (i & Hi). assert (Li : (i < length np)%nat) by (apply nth_error_Some; congruence).
  assert (Lk : length keys = length np) by exact (Forall2_same _ _ _ MF).
  destruct (nth_error keys i) as [k|] eqn:Ek; [|apply nth_error_None in Ek; lia].
  pose proof (nth_error_In _ _ Ek) as Hk. apply (key_edges _ _ SU) in Hk. destruct Hk as (c & u & v & w & Hc & R & ->).
  destruct (edge_facts c u v w Hc R) as (_ & _ & _ & _ & U).
  enough (E : pos' (m u v) = p) by (rewrite <- E; exact U). unfold position, mid. rewrite app_nth2 by lia.
  assert (index_of (norm_pair (u, v)) keys = i) as ->.
  { eapply (NoDup_nth_error_inj keys); [apply dedup_NoDup| |exact Ek]. apply index_of_nth. eapply nth_error_In; eauto. }
  replace (n + i - n)%nat with i by lia. now apply nth_error_nth_Some.
Qed.

(** *** Covering *)

Lemma corner_in_cone c u v w p q r : In c cells -> rot c u v w -> 0 <= p -> 0 <= q -> 0 <= r ->
  in_cone (pts ++ np) [u; m u v; m u w] (on3 u (m u v) (m u w) p (q / K u v) (r / K u w))
    (vadd (vscale (p + q + r) (pos u)) (vadd (vscale q (pos v)) (vscale r (pos w)))).
Proof.
  intros Hc R P Q RR. destruct (cell_facts c u v w Hc R) as (B & N & (P1 & P2 & P3) & (E1 & E2 & E3) & (D1 & D2 & D3) & (G1 & G2 & G3) & _).
  split; [|split].
  - apply on3_nonneg; auto; apply Rle_mult_inv_pos; auto.
  - intros y Hy. apply on3_outside; intros ->; apply Hy; cbn; auto.
  - destruct (on3_values u (m u v) (m u w) p (q / K u v) (r / K u w)) as (V1 & V2 & V3); [lia|auto|lia|].
    rewrite (combination_rot _ _ u (m u v) (m u w)) by (unfold rot; auto). rewrite V1, V2, V3, E1, E3, old_position by tauto.
    destruct (pos u) as [[? ?] ?], (pos v) as [[? ?] ?], (pos w) as [[? ?] ?]. cbn. f_equal; [f_equal|]; field; split; apply Rgt_not_eq; assumption.
Qed.

Lemma center_in_cone a b d p q r : In [a; b; d] cells -> 0 <= p -> 0 <= q -> 0 <= r ->
  in_cone (pts ++ np) [m b d; m d a; m a b] (on3 (m b d) (m d a) (m a b) (p / K b d) (q / K a d) (r / K a b))
    (vadd (vscale (q + r) (pos a)) (vadd (vscale (p + r) (pos b)) (vscale (p + q) (pos d)))).
Proof.
  intros Hc P Q RR. assert (R : rot [a; b; d] a b d) by (unfold rot; auto).
  destruct (cell_facts _ a b d Hc R) as (B & N & (P1 & P2 & P3) & (E1 & E2 & E3) & (D1 & D2 & D3) & (G1 & G2 & G3) & _).
  rewrite (mid_swap (length pts) cells d a). split; [|split].
  - apply on3_nonneg; apply Rle_mult_inv_pos; auto.
  - intros y Hy. apply on3_outside; intros ->; apply Hy; cbn; auto.
  - destruct (on3_values (m b d) (m a d) (m a b) (p / K b d) (q / K a d) (r / K a b)) as (V1 & V2 & V3); auto.
    rewrite (combination_rot _ _ (m b d) (m a d) (m a b)) by (unfold rot; auto). rewrite V1, V2, V3, E1, E2, E3.
    destruct (pos a) as [[? ?] ?], (pos b) as [[? ?] ?], (pos d) as [[? ?] ?]. cbn. f_equal; [f_equal|]; field; repeat split; apply Rgt_not_eq; assumption.
Qed.

Lemma step_cover x : exists ch w, In ch (flat_map (children m) cells) /\ in_cone (pts ++ np) ch w x.
Proof.
  destruct (ti_cover _ _ TI x) as (c & W & Hc & (W0 & _ & Ex)). destruct (su_cell _ _ SU c Hc) as (a & b & d & -> & _).
  assert (Corner : forall u v w, rot [a; b; d] u v w -> W v + W w <= W u -> exists ch w', In ch (flat_map (children m) cells) /\ in_cone (pts ++ np) ch w' x).
  { intros u v w R Hle. eexists _, _. split; [apply in_flat_map; exists [a; b; d]; split; auto; apply (child_cases _ _ SU); auto; left; exists u, v, w; split; [exact R|reflexivity]|].
    rewrite Ex, (combination_rot _ _ _ _ _ _ R). replace (W u) with ((W u - W v - W w) + W v + W w) by ring. apply (corner_in_cone [a; b; d]); auto. lra. }
  destruct (Rle_dec (W b + W d) (W a)) as [H1|H1]; [apply (Corner a b d); unfold rot; auto|].
  destruct (Rle_dec (W d + W a) (W b)) as [H2|H2]; [apply (Corner b d a); unfold rot; auto|].
  destruct (Rle_dec (W a + W b) (W d)) as [H3|H3]; [apply (Corner d a b); unfold rot; auto|].
  eexists _, _. split; [apply in_flat_map; exists [a; b; d]; split; auto; apply (child_cases _ _ SU); auto; right; exists a, b, d; split; reflexivity|].
  pose proof (center_in_cone a b d ((W b + W d - W a) / 2) ((W a + W d - W b) / 2) ((W a + W b - W d) / 2) Hc) as G.
  rewrite Ex, (combination_rot _ _ a b d) by (unfold rot; auto).
  replace ((W a + W d - W b) / 2 + (W a + W b - W d) / 2) with (W a) in G by field.
  replace ((W b + W d - W a) / 2 + (W a + W b - W d) / 2) with (W b) in G by field.
  replace ((W b + W d - W a) / 2 + (W a + W d - W b) / 2) with (W d) in G by field.
  apply G; lra.
Qed.

(** *** Overlap *)

(** The weights on the new vertices, from those on the old ones. *)
Definition split_weights (W : nat -> R) (tot : R) (w : nat -> R) : Prop :=
  (forall y, (y < n)%nat -> w y = Rmax 0 (2 * W y - tot)) /\
  (forall y z, In (norm_pair (y, z)) keys -> w (m y z) = Rmax 0 (Rmin (W y) (Rmin (W z) ((2 * W y + 2 * W z - tot) / 2))) / K y z).

Lemma edge_of_cell c u v w y z : In c cells -> rot c u v w -> In (norm_pair (y, z)) keys ->
  (In y c /\ In z c -> m y z = m u v \/ m y z = m v w \/ m y z = m u w) /\ (y <> z).
Proof.
  intros Hc R Hk. assert (N : y <> z).
  { apply (key_edges _ _ SU) in Hk. destruct Hk as (c' & u' & v' & w' & Hc' & R' & E). destruct (rot_facts _ _ SU _ _ _ _ Hc' R') as (_ & N & _).
    apply norm_pair_eq in E. destruct E as [(-> & ->)|(-> & ->)]; auto. }
  split; auto. intros (Hy & Hz). apply (rot_In _ _ _ _ R) in Hy, Hz.
  destruct Hy as [->|[->| ->]], Hz as [->|[->| ->]]; try congruence; auto using mid_swap.
Qed.

Lemma Rmax0_neg a : a <= 0 -> Rmax 0 a = 0.
Proof. intros H. now apply Rmax_left. Qed.
Lemma Rmax0_pos a : 0 <= a -> Rmax 0 a = a.
Proof. intros H. now apply Rmax_right. Qed.
Lemma Rmin3 a b c x : (a = x /\ x <= b /\ x <= c) \/ (b = x /\ x <= a /\ x <= c) \/ (c = x /\ x <= a /\ x <= b) -> Rmin a (Rmin b c) = x.
Proof. intros H. unfold Rmin. repeat destruct (Rle_dec _ _); lra. Qed.
Lemma Rmin3_le a b c x : a <= x \/ b <= x \/ c <= x -> Rmin a (Rmin b c) <= x.
Proof. intros H. unfold Rmin. repeat destruct (Rle_dec _ _); lra. Qed.

(** The value of [split_weights] for an edge does not depend on the order. *)
Lemma split_edge_sym (W : nat -> R) tot y z :
  Rmax 0 (Rmin (W y) (Rmin (W z) ((2 * W y + 2 * W z - tot) / 2))) / K y z = Rmax 0 (Rmin (W z) (Rmin (W y) ((2 * W z + 2 * W y - tot) / 2))) / K z y.
Proof. rewrite (factor_sym (pos y) (pos z)). f_equal. f_equal. replace (2 * W z + 2 * W y) with (2 * W y + 2 * W z) by ring.
  unfold Rmin. repeat destruct (Rle_dec _ _); lra. Qed.

Lemma split_sym (W : nat -> R) tot (w : nat -> R) y z :
  w (m y z) = Rmax 0 (Rmin (W y) (Rmin (W z) ((2 * W y + 2 * W z - tot) / 2))) / K y z ->
  w (m z y) = Rmax 0 (Rmin (W z) (Rmin (W y) ((2 * W z + 2 * W y - tot) / 2))) / K z y.
Proof. intros H. rewrite (mid_swap (length pts) cells z y), <- split_edge_sym. exact H. Qed.

Lemma outside_edge (W : nat -> R) tot y z (w : nat -> R) : (forall v, 0 <= W v) -> W y = 0 \/ W z = 0 -> w (m y z) = 0 ->
  w (m y z) = Rmax 0 (Rmin (W y) (Rmin (W z) ((2 * W y + 2 * W z - tot) / 2))) / K y z.
Proof.
  intros Nn H ->. rewrite Rmax0_neg; [unfold Rdiv; ring|]. apply Rmin3_le. destruct H as [->| ->]; [left; lra|right; left; lra].
Qed.

Lemma corner_split c u v w p q r : In c cells -> rot c u v w -> 0 <= p -> 0 <= q -> 0 <= r ->
  let W := on3 u v w (p + q * K u v + r * K u w) (q * K u v) (r * K u w) in
  split_weights W (wsum W c) (on3 u (m u v) (m u w) p q r) /\
  in_cone pts c W (vadd (vscale p (pos' u)) (vadd (vscale q (pos' (m u v))) (vscale r (pos' (m u w))))).
Proof.
  intros Hc R P Q RR W. destruct (cell_facts c u v w Hc R) as (B & N & (P1 & P2 & P3) & (E1 & E2 & E3) & (D1 & D2 & D3) & (G1 & G2 & G3) & _).
  assert (QK : 0 <= q * K u v) by (apply Rmult_le_pos; lra). assert (RK : 0 <= r * K u w) by (apply Rmult_le_pos; lra).
  destruct (on3_values u v w (p + q * K u v + r * K u w) (q * K u v) (r * K u w)) as (V1 & V2 & V3); try tauto. fold W in V1, V2, V3.
  destruct (on3_values u (m u v) (m u w) p q r) as (X1 & X2 & X3); [lia|auto|lia|].
  assert (W0 : forall y, 0 <= W y) by (apply on3_nonneg; lra).
  rewrite (wsum_rot _ _ _ _ W R), V1, V2, V3. split; [split|].
  - intros y Hy. destruct (Nat.eq_dec y u) as [->|A]; [rewrite X1, V1, Rmax0_pos; lra|].
    rewrite on3_outside by lia. destruct (Nat.eq_dec y v) as [->|A']; [rewrite V2, Rmax0_neg; lra|].
    destruct (Nat.eq_dec y w) as [->|A'']; [rewrite V3, Rmax0_neg; lra|]. unfold W. rewrite on3_outside by auto. rewrite Rmax0_neg; lra.
  - assert (Huv : on3 u (m u v) (m u w) p q r (m u v) = Rmax 0 (Rmin (W u) (Rmin (W v) ((2 * W u + 2 * W v - (p + q * K u v + r * K u w + q * K u v + r * K u w)) / 2))) / K u v).
    { rewrite X2, V1, V2. rewrite (Rmin3 _ _ _ (q * K u v)), Rmax0_pos by lra. field. lra. }
    assert (Huw : on3 u (m u v) (m u w) p q r (m u w) = Rmax 0 (Rmin (W u) (Rmin (W w) ((2 * W u + 2 * W w - (p + q * K u v + r * K u w + q * K u v + r * K u w)) / 2))) / K u w).
    { rewrite X3, V1, V3. rewrite (Rmin3 _ _ _ (r * K u w)), Rmax0_pos by lra. field. lra. }
    assert (Hvw : on3 u (m u v) (m u w) p q r (m v w) = Rmax 0 (Rmin (W v) (Rmin (W w) ((2 * W v + 2 * W w - (p + q * K u v + r * K u w + q * K u v + r * K u w)) / 2))) / K v w).
    { rewrite on3_outside by (auto; lia). rewrite V2, V3. rewrite Rmax0_neg; [unfold Rdiv; ring|]. apply Rmin3_le. right. right. lra. }
    intros y z Hk. destruct (edge_of_cell c u v w y z Hc R Hk) as (_ & Nyz).
    destruct (in_dec Nat.eq_dec y c) as [Iy|Iy]; [destruct (in_dec Nat.eq_dec z c) as [Iz|Iz]|].
    + apply (rot_In _ _ _ _ R) in Iy, Iz.
      destruct Iy as [->|[->| ->]], Iz as [->|[->| ->]]; try congruence; auto using split_sym.
    + assert (Wz : W z = 0) by (apply on3_outside; intros ->; apply Iz; apply (rot_In _ _ _ _ R); auto).
      apply outside_edge; auto. pose proof (keys_edge _ _ SU _ _ _ _ Hc R) as K1. pose proof (keys_edge' _ _ SU _ _ _ _ Hc R) as K2.
      pose proof (mid_ge (length pts) cells y z). apply on3_outside; [lia|..]; intros E; apply (mid_inj (length pts) cells) in E; auto; apply Iz;
        apply (rot_In _ _ _ _ R); destruct E as [(? & ?)|(? & ?)]; auto.
    + assert (Wz : W y = 0) by (apply on3_outside; intros ->; apply Iy; apply (rot_In _ _ _ _ R); auto).
      apply outside_edge; auto. pose proof (keys_edge _ _ SU _ _ _ _ Hc R) as K1. pose proof (keys_edge' _ _ SU _ _ _ _ Hc R) as K2.
      pose proof (mid_ge (length pts) cells y z). apply on3_outside; [lia|..]; intros E; apply (mid_inj (length pts) cells) in E; auto; apply Iy;
        apply (rot_In _ _ _ _ R); destruct E as [(? & ?)|(? & ?)]; auto.
  - split; auto. split.
    + intros y Hy. apply on3_outside; intros ->; apply Hy; apply (rot_In _ _ _ _ R); auto.
    + rewrite (combination_rot _ _ _ _ _ _ R), V1, V2, V3, E1, E3, old_position by tauto.
      destruct (pos u) as [[? ?] ?], (pos v) as [[? ?] ?], (pos w) as [[? ?] ?]. cbn. f_equal; [f_equal|]; ring.
Qed.

Lemma center_split a b d p q r : In [a; b; d] cells -> 0 <= p -> 0 <= q -> 0 <= r ->
  let W := on3 a b d (q * K a d + r * K a b) (p * K b d + r * K a b) (p * K b d + q * K a d) in
  split_weights W (wsum W [a; b; d]) (on3 (m b d) (m d a) (m a b) p q r) /\
  in_cone pts [a; b; d] W (vadd (vscale p (pos' (m b d))) (vadd (vscale q (pos' (m d a))) (vscale r (pos' (m a b))))).
Proof.
  intros Hc P Q RR W. assert (R : rot [a; b; d] a b d) by (unfold rot; auto).
  destruct (cell_facts _ a b d Hc R) as (B & N & (P1 & P2 & P3) & (E1 & E2 & E3) & (D1 & D2 & D3) & (G1 & G2 & G3) & _).
  assert (PK : 0 <= p * K b d) by (apply Rmult_le_pos; lra). assert (QK : 0 <= q * K a d) by (apply Rmult_le_pos; lra). assert (RK : 0 <= r * K a b) by (apply Rmult_le_pos; lra).
  destruct (on3_values a b d (q * K a d + r * K a b) (p * K b d + r * K a b) (p * K b d + q * K a d)) as (V1 & V2 & V3); try tauto. fold W in V1, V2, V3.
  rewrite (mid_swap (length pts) cells d a).
  destruct (on3_values (m b d) (m a d) (m a b) p q r) as (X1 & X2 & X3); auto.
  assert (W0 : forall y, 0 <= W y) by (apply on3_nonneg; lra).
  rewrite (wsum_rot _ _ _ _ W R), V1, V2, V3. split; [split|].
  - intros y Hy. rewrite on3_outside by lia.
    destruct (Nat.eq_dec y a) as [->|A]; [rewrite V1, Rmax0_neg; lra|]. destruct (Nat.eq_dec y b) as [->|A']; [rewrite V2, Rmax0_neg; lra|].
    destruct (Nat.eq_dec y d) as [->|A'']; [rewrite V3, Rmax0_neg; lra|]. unfold W. rewrite on3_outside by auto. rewrite Rmax0_neg; lra.
  - set (tot := q * K a d + r * K a b + (p * K b d + r * K a b) + (p * K b d + q * K a d)).
    assert (Huv : on3 (m b d) (m a d) (m a b) p q r (m a b) = Rmax 0 (Rmin (W a) (Rmin (W b) ((2 * W a + 2 * W b - tot) / 2))) / K a b).
    { rewrite X3, V1, V2. unfold tot. rewrite (Rmin3 _ _ _ (r * K a b)), Rmax0_pos by lra. field. lra. }
    assert (Huw : on3 (m b d) (m a d) (m a b) p q r (m a d) = Rmax 0 (Rmin (W a) (Rmin (W d) ((2 * W a + 2 * W d - tot) / 2))) / K a d).
    { rewrite X2, V1, V3. unfold tot. rewrite (Rmin3 _ _ _ (q * K a d)), Rmax0_pos by lra. field. lra. }
    assert (Hvw : on3 (m b d) (m a d) (m a b) p q r (m b d) = Rmax 0 (Rmin (W b) (Rmin (W d) ((2 * W b + 2 * W d - tot) / 2))) / K b d).
    { rewrite X1, V2, V3. unfold tot. rewrite (Rmin3 _ _ _ (p * K b d)), Rmax0_pos by lra. field. lra. }
    intros y z Hk. destruct (edge_of_cell _ a b d y z Hc R Hk) as (_ & Nyz).
    pose proof (keys_edge _ _ SU _ _ _ _ Hc R) as K1. pose proof (keys_edge' _ _ SU _ _ _ _ Hc R) as K2. pose proof (keys_edge _ _ SU _ _ _ _ Hc (rot_turn _ _ _ _ R)) as K3.
    destruct (in_dec Nat.eq_dec y [a; b; d]) as [Iy|Iy]; [destruct (in_dec Nat.eq_dec z [a; b; d]) as [Iz|Iz]|].
    + apply (rot_In _ _ _ _ R) in Iy, Iz.
      destruct Iy as [->|[->| ->]], Iz as [->|[->| ->]]; try congruence; auto using split_sym.
    + assert (Wz : W z = 0) by (apply on3_outside; intros ->; apply Iz; cbn; auto).
      apply outside_edge; auto. apply on3_outside; intros E; apply (mid_inj (length pts) cells) in E; auto; apply Iz;
        apply (rot_In _ _ _ _ R); destruct E as [(? & ?)|(? & ?)]; auto.
    + assert (Wz : W y = 0) by (apply on3_outside; intros ->; apply Iy; cbn; auto).
      apply outside_edge; auto. apply on3_outside; intros E; apply (mid_inj (length pts) cells) in E; auto; apply Iy;
        apply (rot_In _ _ _ _ R); destruct E as [(? & ?)|(? & ?)]; auto.
  - split; auto. split.
    + intros y Hy. apply on3_outside; intros ->; apply Hy; cbn; auto.
    + rewrite (combination_rot _ _ _ _ _ _ R), V1, V2, V3, E1, E2, E3.
      destruct (pos a) as [[? ?] ?], (pos b) as [[? ?] ?], (pos d) as [[? ?] ?]. cbn. f_equal; [f_equal|]; ring.
Qed.

Lemma split_ext W tot w w' : (forall y, w y = w' y) -> split_weights W tot w -> split_weights W tot w'.
Proof. intros H (A & B). split; intros; rewrite <- H; auto. Qed.

Lemma on3_complete x y z (w : nat -> R) : x <> y -> y <> z -> x <> z -> (forall v, ~ In v [x; y; z] -> w v = 0) -> forall v, on3 x y z (w x) (w y) (w z) v = w v.
Proof.
  intros N1 N2 N3 H v. unfold on3. destruct (Nat.eq_dec v x) as [->|A]; auto. destruct (Nat.eq_dec v y) as [->|B]; auto. destruct (Nat.eq_dec v z) as [->|C]; auto.
  symmetry. apply H. cbn. intuition.
Qed.

Lemma child_split c ch w x : In c cells -> In ch (children m c) -> in_cone (pts ++ np) ch w x ->
  exists W, split_weights W (wsum W c) w /\ in_cone pts c W x.
Proof.
  intros Hc Hch (W0 & WZ & Ex). pose proof (child_shape _ _ SU c ch Hc Hch) as (x1 & x2 & x3 & Ech & _ & N1 & N2 & N3).
  apply (child_cases _ _ SU) in Hch; auto. destruct Hch as [(u & v & o & R & ->)|(a & b & d & -> & ->)].
  - injection Ech as <- <- <-. destruct (corner_split c u v o (w u) (w (m u v)) (w (m u o)) Hc R) as (A & B); auto.
    eexists. split; [eapply split_ext; [|exact A]; now apply on3_complete|].
    rewrite Ex, (combination_rot _ _ u (m u v) (m u o)) by (unfold rot; auto). exact B.
  - injection Ech as <- <- <-. destruct (center_split a b d (w (m b d)) (w (m d a)) (w (m a b)) Hc) as (A & B); auto.
    eexists. split; [eapply split_ext; [|exact A]; now apply on3_complete|].
    rewrite Ex, (combination_rot _ _ (m b d) (m d a) (m a b)) by (unfold rot; auto). exact B.
Qed.

Lemma cell_NoDup c : In c cells -> NoDup c.
Proof. intros Hc. apply (proj2 (surface_valid _ _ SU) c Hc). Qed.

Lemma step_apart ch ch' w w' x : In ch (flat_map (children m) cells) -> In ch' (flat_map (children m) cells) ->
  in_cone (pts ++ np) ch w x -> in_cone (pts ++ np) ch' w' x -> forall v, w v = w' v.
Proof.
  intros Hch Hch' C C' v. pose proof (su_cell _ _ (refined_surface _ _ SU) _ Hch) as (x1 & x2 & x3 & E & B & _).
  pose proof (su_cell _ _ (refined_surface _ _ SU) _ Hch') as (y1 & y2 & y3 & E' & B' & _).
  destruct (le_lt_dec (n + length keys) v) as [Hv|Hv].
  { destruct C as (_ & Z & _), C' as (_ & Z' & _). rewrite Z, Z'; auto; subst; cbn; intuition lia. }
  apply in_flat_map in Hch, Hch'. destruct Hch as (c & Hc & Hch), Hch' as (c' & Hc' & Hch').
  destruct (child_split c ch w x Hc Hch C) as (W & (S1 & S2) & I). destruct (child_split c' ch' w' x Hc' Hch' C') as (W' & (S1' & S2') & I').
  pose proof (ti_apart _ _ TI c c' W W' x Hc Hc' I I') as EW.
  assert (ET : wsum W c = wsum W' c').
  { rewrite <- (wsum_ext W W' c') by exact EW. destruct I as (_ & Z & _), I' as (_ & Z' & _). apply wsum_support; auto using cell_NoDup.
    intros y Hy. rewrite EW. auto. }
  destruct (lt_dec v n) as [Hl|Hl].
  - rewrite S1, S1' by exact Hl. now rewrite EW, ET.
  - destruct (nth_error keys (v - n)) as [[y z]|] eqn:Ek; [|apply nth_error_None in Ek; lia].
    pose proof (nth_error_In _ _ Ek) as Hk. pose proof Hk as Hk2. apply (key_edges _ _ SU) in Hk2. destruct Hk2 as (c1 & u1 & v1 & w1 & Hc1 & R1 & Ek1). rewrite Ek1 in Hk, Ek.
    assert (v = m u1 v1).
    { unfold mid. enough (index_of (norm_pair (u1, v1)) keys = (v - n)%nat) by lia.
      eapply (NoDup_nth_error_inj keys); [apply dedup_NoDup| |exact Ek]. now apply index_of_nth. }
    subst v. rewrite S2, S2' by exact Hk. now rewrite !EW, ET.
Qed.

Lemma step_tiling : tiling (pts ++ np) (flat_map (children m) cells).
Proof. constructor; [exact step_unit|intros; eapply step_outward; eauto|exact step_cover|exact step_apart]. Qed.

End Step.
