(** * Refinement of the sphere: closed surface *)
From Verif Require Import Base BaseFacts Topology TopologyFacts Shapes SpecShapes SphereFacts SpecAdjacency AdjacencyFacts.

Record surface (n : nat) (cells : list (list nat)) : Prop := mkSurface {
  su_cell : forall c, In c cells -> exists a b d, c = [a; b; d] /\ (a < n /\ b < n /\ d < n) /\ a <> b /\ b <> d /\ a <> d;
  su_nodup : NoDup cells;
  su_edge : forall c c' e, In c cells -> In c' cells -> In e (directed_edges c) -> In e (directed_edges c') -> c = c';
  su_closed : forall c u v, In c cells -> In (u, v) (directed_edges c) -> exists c', In c' cells /\ In (v, u) (directed_edges c');
  su_sets : forall c c', In c cells -> In c' cells -> (forall v, In v c -> In v c') -> c = c';
  su_used : forall v, v < n -> exists c, In c cells /\ In v c
}.

(** [c] up to rotation. *)
Definition rot (c : list nat) (u v w : nat) : Prop := c = [u; v; w] \/ c = [w; u; v] \/ c = [v; w; u].

Lemma rot_turn c u v w : rot c u v w -> rot c v w u.
Proof. unfold rot. tauto. Qed.

Lemma rot_In c u v w : rot c u v w -> forall x, In x c <-> x = u \/ x = v \/ x = w.
Proof. intros [->|[->| ->]] x; cbn; intuition. Qed.

Lemma edge_rot a b d u v : In (u, v) (directed_edges [a; b; d]) <-> exists w, rot [a; b; d] u v w.
Proof.
  unfold rot. cbn. split.
  - intros [E|[E|[E|[]]]]; inversion E; subst; eauto.
  - intros (w & [E|[E|E]]); inversion E; subst; auto.
Qed.

Section Refine.
Variables (n : nat) (cells : list (list nat)).
Hypothesis SU : surface n cells.
Let keys := grid_edges Triangle cells.
Local Notation m := (mid n keys).

Lemma rot_facts c u v w : In c cells -> rot c u v w -> (u < n /\ v < n /\ w < n) /\ u <> v /\ v <> w /\ u <> w.
Proof.
  intros Hc R. destruct (su_cell _ _ SU c Hc) as (a & b & d & -> & B & N1 & N2 & N3).
  destruct R as [E|[E|E]]; inversion E; subst; repeat split; auto; tauto.
Qed.

Lemma edge_rot_cell c u v : In c cells -> In (u, v) (directed_edges c) <-> exists w, rot c u v w.
Proof. intros Hc. destruct (su_cell _ _ SU c Hc) as (a & b & d & -> & _). apply edge_rot. Qed.

Lemma rot_unique c u v w v' w' : In c cells -> rot c u v w -> rot c u v' w' -> v = v' /\ w = w'.
Proof.
  intros Hc R R'. destruct (rot_facts c u v w Hc R) as (_ & N1 & N2 & N3).
  destruct R as [->|[->| ->]]; destruct R' as [E|[E|E]]; inversion E; subst; auto; congruence.
Qed.

Lemma same_rot c c' u v w w' : In c cells -> In c' cells -> rot c u v w -> rot c' u v w' -> c = c' /\ w = w'.
Proof.
  intros Hc Hc' R R'. assert (c = c').
  { apply (su_edge _ _ SU c c' (u, v)); auto; [apply edge_rot_cell; eauto|apply edge_rot_cell; eauto]. }
  subst c'. split; auto. now apply (rot_unique c u v w v w').
Qed.

Lemma opposite_rot c c' u v w : In c cells -> In c' cells -> rot c u v w -> rot c' u w v -> False.
Proof.
  intros Hc Hc' R R'. assert (c = c').
  { apply (su_sets _ _ SU); auto. intros x Hx. apply (rot_In _ _ _ _ R'). apply (rot_In _ _ _ _ R) in Hx. tauto. }
  subst c'. destruct (rot_unique c u v w w v Hc R R') as (-> & _). destruct (rot_facts _ _ _ _ Hc R) as (_ & _ & N & _). congruence.
Qed.

Lemma key_edges k : In k keys <-> exists c u v w, In c cells /\ rot c u v w /\ k = norm_pair (u, v).
Proof.
  unfold keys, grid_edges. rewrite dedup_In, in_flat_map. split.
  - intros (c & Hc & Hk). destruct (su_cell _ _ SU c Hc) as (a & b & d & -> & _).
    change (cell_edges Triangle [a; b; d]) with [norm_pair (b, d); norm_pair (a, d); norm_pair (a, b)] in Hk.
    destruct Hk as [<-|[<-|[<-|[]]]].
    + exists [a; b; d], b, d, a. split; auto. split; auto. unfold rot; auto.
    + exists [a; b; d], d, a, b. split; auto. split; [unfold rot; auto|]. apply norm_pair_swap.
    + exists [a; b; d], a, b, d. split; auto. split; auto. unfold rot; auto.
  - intros (c & u & v & w & Hc & R & ->). exists c. split; auto.
    destruct R as [->|[->| ->]]; cbn; auto. right. left. apply norm_pair_swap.
Qed.

Lemma keys_edge c u v w : In c cells -> rot c u v w -> In (norm_pair (u, v)) keys.
Proof. intros Hc R. apply key_edges. exists c, u, v, w. auto. Qed.

Lemma keys_edge' c u v w : In c cells -> rot c u v w -> In (norm_pair (u, w)) keys.
Proof. intros Hc R. rewrite norm_pair_swap. apply (keys_edge c w u v); auto. now do 2 apply rot_turn. Qed.

Ltac kedge :=
  match goal with
  | R : rot ?c ?u ?v ?w, H : In ?c cells |- In (norm_pair (?u, ?v)) keys => exact (keys_edge c u v w H R)
  | R : rot ?c ?u ?v ?w, H : In ?c cells |- In (norm_pair (?u, ?w)) keys => exact (keys_edge' c u v w H R)
  | R : rot ?c ?u ?v ?w, H : In ?c cells |- In (norm_pair (?v, ?w)) keys => exact (keys_edge c v w u H (rot_turn _ _ _ _ R))
  | R : rot ?c ?u ?v ?w, H : In ?c cells |- In (norm_pair (?w, ?u)) keys => exact (keys_edge c w u v H (rot_turn _ _ _ _ (rot_turn _ _ _ _ R)))
  end.

Lemma mid_ge u v : n <= m u v.
Proof. unfold mid. lia. Qed.

Lemma mid_lt u v : In (norm_pair (u, v)) keys -> m u v < n + length keys.
Proof. intros H. apply index_of_lt in H. unfold mid. lia. Qed.

Lemma mid_inj u v u' v' : In (norm_pair (u, v)) keys -> In (norm_pair (u', v')) keys -> m u v = m u' v' -> (u = u' /\ v = v') \/ (u = v' /\ v = u').
Proof. intros H H' E. apply norm_pair_eq. apply (index_of_inj _ _ keys); auto. unfold mid in E. lia. Qed.

Lemma mid_swap u v : m u v = m v u.
Proof. unfold mid. now rewrite norm_pair_swap. Qed.

Lemma child_cases c ch : In c cells -> In ch (children m c) <->
  (exists u v w, rot c u v w /\ ch = [u; m u v; m u w]) \/ (exists a b d, c = [a; b; d] /\ ch = [m b d; m d a; m a b]).
Proof.
  intros Hc. destruct (su_cell _ _ SU c Hc) as (a & b & d & -> & _). cbn [children]. unfold rot. split.
  - intros [<-|[<-|[<-|[<-|[]]]]].
    + left. exists a, b, d. auto.
    + left. exists b, d, a. auto.
    + left. exists d, a, b. auto.
    + right. exists a, b, d. auto.
  - intros [(u & v & w & R & ->)|(a' & b' & d' & E & ->)].
    + destruct R as [E|[E|E]]; inversion E; subst; cbn; auto.
    + inversion E; subst. cbn; auto.
Qed.

(** The directed edges of the new cells. *)
Lemma child_edges c ch x y : In c cells -> In ch (children m c) -> In (x, y) (directed_edges ch) ->
  exists u v w, rot c u v w /\
   ((ch = [u; m u v; m u w] /\ ((x = u /\ y = m u v) \/ (x = m u w /\ y = u) \/ (x = m u v /\ y = m u w))) \/
    ((exists a b d, c = [a; b; d] /\ ch = [m b d; m d a; m a b]) /\ x = m u w /\ y = m u v)).
Proof.
  intros Hc Hch He. apply child_cases in Hch; auto. destruct Hch as [(u & v & w & R & ->)|(a & b & d & -> & ->)].
  - exists u, v, w. split; auto. left. split; auto. cbn in He. destruct He as [E|[E|[E|[]]]]; inversion E; subst; auto.
  - cbn in He. destruct He as [E|[E|[E|[]]]]; inversion E; subst.
    + exists d, a, b. split; [unfold rot; auto|]. right. split; [eauto|]. split; auto. apply mid_swap.
    + exists a, b, d. split; [unfold rot; auto|]. right. split; [eauto|]. split; auto. apply mid_swap.
    + exists b, d, a. split; [unfold rot; auto|]. right. split; [eauto|]. split; auto. apply mid_swap.
Qed.

Ltac old_new :=
  match goal with
  | H : ?u = m ?a ?b, B : ?u < n /\ _ |- _ => exfalso; pose proof (mid_ge a b); lia
  | H : m ?a ?b = ?u, B : ?u < n /\ _ |- _ => exfalso; pose proof (mid_ge a b); lia
  end.

(** Two edges of a cell determine its rotation. *)
Lemma mids_determine c c' u v w u' v' w' : In c cells -> In c' cells -> rot c u v w -> rot c' u' v' w' ->
  m u v = m u' v' -> m u w = m u' w' -> c = c' /\ u = u' /\ v = v' /\ w = w'.
Proof.
  intros Hc Hc' R R' E1 E2.
  apply mid_inj in E1; [|kedge|kedge].
  apply mid_inj in E2; [|kedge|kedge].
  destruct (rot_facts _ _ _ _ Hc R) as (_ & N1 & N2 & N3). destruct (rot_facts _ _ _ _ Hc' R') as (_ & N1' & N2' & N3').
  assert (u = u' /\ v = v' /\ w = w') as (-> & -> & ->) by (destruct E1 as [(->&->)|(->&->)], E2 as [(E&->)|(E&E')]; subst; repeat split; congruence).
  destruct (same_rot c c' u' v' w' w' Hc Hc' R R') as (-> & _). repeat split.
Qed.

Lemma mids_opposite c c' u v w u' v' w' : In c cells -> In c' cells -> rot c u v w -> rot c' u' v' w' ->
  m u v = m u' w' -> m u w = m u' v' -> False.
Proof.
  intros Hc Hc' R R' E1 E2.
  apply mid_inj in E1; [|kedge|kedge].
  apply mid_inj in E2; [|kedge|kedge].
  destruct (rot_facts _ _ _ _ Hc R) as (_ & N1 & N2 & N3). destruct (rot_facts _ _ _ _ Hc' R') as (_ & N1' & N2' & N3').
  assert (u = u' /\ v = w' /\ w = v') as (-> & -> & ->) by (destruct E1 as [(->&->)|(->&->)], E2 as [(E&->)|(E&E')]; subst; repeat split; congruence).
  exact (opposite_rot c c' u' w' v' Hc Hc' R R').
Qed.

Lemma child_edge_unique c c' ch ch' e : In c cells -> In c' cells -> In ch (children m c) -> In ch' (children m c') ->
  In e (directed_edges ch) -> In e (directed_edges ch') -> c = c' /\ ch = ch'.
Proof.
  intros Hc Hc' Hch Hch' He He'. destruct e as [x y].
  destruct (child_edges c ch x y Hc Hch He) as (u & v & w & R & K). destruct (child_edges c' ch' x y Hc' Hch' He') as (u' & v' & w' & R' & K').
  destruct (rot_facts _ _ _ _ Hc R) as (B & N1 & N2 & N3). destruct (rot_facts _ _ _ _ Hc' R') as (B' & N1' & N2' & N3').
  destruct K as [(Ech & [(X & Y)|[(X & Y)|(X & Y)]])|((a & b & d & Ec & Ech) & X & Y)],
    K' as [(Ech' & [(X' & Y')|[(X' & Y')|(X' & Y')]])|((a' & b' & d' & Ec' & Ech') & X' & Y')];
    rewrite X in X'; rewrite Y in Y'; try old_new.
  - subst u'. apply mid_inj in Y'; [|kedge|kedge].
    assert (v = v') by (destruct Y' as [(_ & E)|(E & E')]; congruence). subst v'.
    destruct (same_rot c c' u v w w' Hc Hc' R R') as (-> & ->). now subst.
  - subst u'. apply mid_inj in X'; [|kedge|kedge].
    assert (w = w') by (destruct X' as [(_ & E)|(E & E')]; congruence). subst w'.
    destruct (same_rot c c' w u v v' Hc Hc') as (-> & ->); [now do 2 apply rot_turn|now do 2 apply rot_turn|]. now subst.
  - destruct (mids_determine c c' u v w u' v' w') as (-> & -> & -> & ->); auto. now subst.
  - exfalso. eapply (mids_opposite c c' u v w u' v' w'); eauto.
  - exfalso. eapply (mids_opposite c' c u' v' w' u v w); eauto.
  - destruct (mids_determine c c' u v w u' v' w') as (E & _); auto. split; auto. rewrite Ec, Ec' in E. injection E as -> -> ->. now subst.
Qed.

Lemma child_shape c ch : In c cells -> In ch (children m c) ->
  exists x y z, ch = [x; y; z] /\ (x < n + length keys /\ y < n + length keys /\ z < n + length keys) /\ x <> y /\ y <> z /\ x <> z.
Proof.
  intros Hc Hch. apply child_cases in Hch; auto. destruct Hch as [(u & v & w & R & ->)|(a & b & d & -> & ->)].
  - destruct (rot_facts _ _ _ _ Hc R) as (B & N1 & N2 & N3). exists u, (m u v), (m u w). split; auto.
    pose proof (mid_lt u v (keys_edge _ _ _ _ Hc R)). pose proof (mid_lt u w (keys_edge' _ _ _ _ Hc R)).
    pose proof (mid_ge u v). pose proof (mid_ge u w).
    repeat split; try lia. intros E. apply mid_inj in E; [|kedge|kedge].
    destruct E as [(_ & E)|(E & E')]; congruence.
  - assert (R : rot [a; b; d] a b d) by (unfold rot; auto). destruct (rot_facts _ _ _ _ Hc R) as (B & N1 & N2 & N3).
    assert (K1 : In (norm_pair (a, b)) keys) by (kedge).
    assert (K2 : In (norm_pair (b, d)) keys) by (kedge).
    assert (K3 : In (norm_pair (d, a)) keys) by (kedge).
    exists (m b d), (m d a), (m a b). split; auto. split; [auto using mid_lt|].
    repeat split; intros E; apply mid_inj in E; auto; destruct E as [(E & E')|(E & E')]; congruence.
Qed.

Lemma child_edge_exists c ch : In c cells -> In ch (children m c) -> exists e, In e (directed_edges ch).
Proof. intros Hc Hch. destruct (child_shape c ch Hc Hch) as (x & y & z & -> & _). eexists. left. reflexivity. Qed.

Lemma child_closed c ch x y : In c cells -> In ch (children m c) -> In (x, y) (directed_edges ch) ->
  exists c' ch', In c' cells /\ In ch' (children m c') /\ In (y, x) (directed_edges ch').
Proof.
  intros Hc Hch He. destruct (child_edges c ch x y Hc Hch He) as (u & v & w & R & K).
  destruct K as [(Ech & [(-> & ->)|[(-> & ->)|(-> & ->)]])|((a & b & d & Ec & Ech) & -> & ->)].
  - destruct (su_closed _ _ SU c u v Hc) as (c' & Hc' & He'); [apply edge_rot_cell; eauto|]. apply edge_rot_cell in He'; auto. destruct He' as (w' & R').
    exists c', [u; m u w'; m u v]. split; auto. split; [|cbn; auto]. apply child_cases; auto. left. exists u, w', v. split; auto. now apply rot_turn.
  - destruct (su_closed _ _ SU c w u Hc) as (c' & Hc' & He'); [apply edge_rot_cell; auto; exists v; now do 2 apply rot_turn|].
    apply edge_rot_cell in He'; auto. destruct He' as (w' & R').
    exists c', [u; m u w; m u w']. split; auto. split; [|cbn; auto]. apply child_cases; auto. left. exists u, w, w'. split; auto.
  - destruct (su_cell _ _ SU c Hc) as (a & b & d & -> & _). exists [a; b; d], [m b d; m d a; m a b]. split; auto. split; [cbn; auto|].
    destruct R as [E|[E|E]]; inversion E; subst; cbn; rewrite ?(mid_swap u w), ?(mid_swap u v), ?(mid_swap v w); auto.
  - exists c, [u; m u v; m u w]. split; auto. split; [apply child_cases; eauto 6|cbn; auto].
Qed.

Lemma center_mids a b d u v w : rot [a; b; d] u v w -> forall x, In x [m b d; m d a; m a b] <-> x = m u v \/ x = m v w \/ x = m w u.
Proof.
  intros [E|[E|E]] x; inversion E; subst; cbn; intuition.
Qed.

Lemma child_sets c c' ch ch' : In c cells -> In c' cells -> In ch (children m c) -> In ch' (children m c') ->
  (forall v, In v ch -> In v ch') -> ch = ch'.
Proof.
  intros Hc Hc' Hch Hch' H. apply child_cases in Hch, Hch'; auto.
  destruct Hch as [(u & v & w & R & ->)|(a & b & d & -> & ->)], Hch' as [(u' & v' & w' & R' & ->)|(a' & b' & d' & -> & ->)].
  - destruct (rot_facts _ _ _ _ Hc R) as (B & N1 & N2 & N3). destruct (rot_facts _ _ _ _ Hc' R') as (B' & N1' & N2' & N3').
    assert (u = u').
    { destruct (H u) as [E|[E|[E|[]]]]; [cbn; auto|auto|..]; [pose proof (mid_ge u' v')|pose proof (mid_ge u' w')]; lia. }
    subst u'. assert (A : m u v = m u v' \/ m u v = m u w').
    { destruct (H (m u v)) as [E|[E|[E|[]]]]; [cbn; auto|pose proof (mid_ge u v); lia|auto|auto]. }
    assert (A' : m u w = m u v' \/ m u w = m u w').
    { destruct (H (m u w)) as [E|[E|[E|[]]]]; [cbn; auto|pose proof (mid_ge u w); lia|auto|auto]. }
    assert (D : m u v <> m u w).
    { intros E. apply mid_inj in E; [|kedge|kedge]. destruct E as [(_ & E)|(E & E')]; congruence. }
    destruct A as [A|A], A' as [A'|A']; try congruence.
    exfalso. eapply (mids_opposite c c' u v w u v' w'); eauto.
  - destruct (rot_facts _ _ _ _ Hc R) as (B & N1 & N2 & N3). exfalso.
    destruct (H u) as [E|[E|[E|[]]]]; [cbn; auto|..]; [pose proof (mid_ge b' d')|pose proof (mid_ge d' a')|pose proof (mid_ge a' b')]; lia.
  - exfalso. assert (R : rot [a; b; d] a b d) by (unfold rot; auto). destruct (child_shape [a; b; d] [m b d; m d a; m a b] Hc) as (x & y & z & E & _ & D1 & D2 & D3); [cbn; auto|].
    injection E as <- <- <-. destruct (rot_facts _ _ _ _ Hc' R') as (B' & _).
    assert (A : forall p q, In (m p q) [m b d; m d a; m a b] -> m p q = m u' v' \/ m p q = m u' w').
    { intros p q Hp. destruct (H _ Hp) as [E|[E|[E|[]]]]; auto. pose proof (mid_ge p q). lia. }
    destruct (A b d), (A d a), (A a b); cbn; auto; congruence.
  - assert (R : rot [a; b; d] a b d) by (unfold rot; auto). assert (R' : rot [a'; b'; d'] a' b' d') by (unfold rot; auto).
    assert (K1 : In (norm_pair (a, b)) keys) by (kedge).
    assert (K2 : In (norm_pair (b, d)) keys) by (kedge).
    assert (K1' : In (norm_pair (a', b')) keys) by (kedge).
    assert (K2' : In (norm_pair (b', d')) keys) by (kedge).
    assert (K3' : In (norm_pair (d', a')) keys) by (kedge).
    assert (A : forall p q, In (norm_pair (p, q)) keys -> In (m p q) [m b' d'; m d' a'; m a' b'] -> In p [a'; b'; d'] /\ In q [a'; b'; d']).
    { intros p q Kp Hp. cbn in Hp. destruct Hp as [E|[E|[E|[]]]]; apply mid_inj in E; auto; destruct E as [(<- & <-)|(<- & <-)]; cbn; auto. }
    assert (E : [a; b; d] = [a'; b'; d']).
    { apply (su_sets _ _ SU); auto. destruct (A a b K1) as (P1 & P2); [apply H; cbn; auto|]. destruct (A b d K2) as (P3 & P4); [apply H; cbn; auto|].
      intros x [<-|[<-|[<-|[]]]]; auto. }
    now injection E as -> -> ->.
Qed.

Lemma refined_surface : surface (n + length keys) (flat_map (children m) cells).
Proof.
  assert (IN : forall ch, In ch (flat_map (children m) cells) -> exists c, In c cells /\ In ch (children m c)) by (intros ch H; now apply in_flat_map in H).
  constructor.
  - intros ch H. destruct (IN _ H) as (c & Hc & Hch). eapply child_shape; eauto.
  - apply NoDup_flat_map.
    + apply (su_nodup _ _ SU).
    + intros c Hc. destruct (su_cell _ _ SU c Hc) as (a & b & d & -> & B & N1 & N2 & N3). cbn [children].
      pose proof (mid_ge b d). repeat constructor; cbn; intros C; repeat (destruct C as [C|C]; [injection C as C|]); try contradiction; try congruence; lia.
    + intros c c' ch Hc Hc' Hch Hch'. destruct (child_edge_exists c ch Hc Hch) as (e & He).
      now apply (child_edge_unique c c' ch ch e).
  - intros ch ch' e H H' He He'. destruct (IN _ H) as (c & Hc & Hch). destruct (IN _ H') as (c' & Hc' & Hch').
    now apply (child_edge_unique c c' ch ch' e).
  - intros ch u v H He. destruct (IN _ H) as (c & Hc & Hch). destruct (child_closed c ch u v Hc Hch He) as (c' & ch' & Hc' & Hch' & He').
    exists ch'. split; auto. apply in_flat_map. eauto.
  - intros ch ch' H H' Hs. destruct (IN _ H) as (c & Hc & Hch). destruct (IN _ H') as (c' & Hc' & Hch').
    now apply (child_sets c c').
  - intros x Hx. destruct (lt_dec x n) as [Hl|Hl].
    + destruct (su_used _ _ SU x Hl) as (c & Hc & Hi). destruct (su_cell _ _ SU c Hc) as (a & b & d & -> & _).
      assert (exists v w, rot [a; b; d] x v w) as (v & w & R) by (destruct Hi as [<-|[<-|[<-|[]]]]; unfold rot; eauto 6).
      exists [x; m x v; m x w]. split; [|cbn; auto]. apply in_flat_map. exists [a; b; d]. split; auto. apply child_cases; eauto 6.
    + destruct (nth_error keys (x - n)) as [k|] eqn:Ek; [|apply nth_error_None in Ek; lia].
      pose proof (nth_error_In _ _ Ek) as Hk. apply key_edges in Hk. destruct Hk as (c & u & v & w & Hc & R & ->).
      exists [u; m u v; m u w]. split; [apply in_flat_map; exists c; split; auto; apply child_cases; eauto 6|].
      right. left. unfold mid. enough (index_of (norm_pair (u, v)) keys = x - n) by lia.
      eapply (NoDup_nth_error_inj keys); [apply dedup_NoDup| |exact Ek]. apply index_of_nth. eapply nth_error_In; eauto.
Qed.

(** Every edge belongs to two cells. *)
Lemma edge_count : 2 * length keys = 3 * length cells.
Proof.
  set (swap := fun e : nat * nat => (snd e, fst e)).
  assert (OR : forall a b, In (a, b) keys -> a < b).
  { intros a b H. apply key_edges in H. destruct H as (c & u & v & w & Hc & R & E). destruct (rot_facts _ _ _ _ Hc R) as (_ & N & _).
    unfold norm_pair in E. destruct (Nat.leb_spec u v); injection E as -> ->; lia. }
  assert (P : Permutation (flat_map directed_edges cells) (keys ++ map swap keys)).
  { apply NoDup_Permutation.
    - apply NoDup_flat_map; [apply (su_nodup _ _ SU)| |].
      + intros c Hc. destruct (su_cell _ _ SU c Hc) as (a & b & d & -> & B & N1 & N2 & N3). cbn.
        repeat constructor; cbn; intros C; repeat (destruct C as [C|C]; [injection C as C|]); try contradiction; congruence.
      + intros c c' e Hc Hc'. now apply (su_edge _ _ SU).
    - apply NoDup_app_iff. split; [apply dedup_NoDup|]. split.
      + apply NoDup_map_inj_in; [|apply dedup_NoDup]. intros [a b] [a' b'] _ _ E. unfold swap in E. cbn in E. injection E as -> ->. auto.
      + intros [a b] H H'. apply in_map_iff in H'. destruct H' as ([a' b'] & E & H'). unfold swap in E. cbn in E. injection E as -> ->.
        apply OR in H, H'. lia.
    - intros [u v]. rewrite in_flat_map, in_app_iff. split.
      + intros (c & Hc & He). apply edge_rot_cell in He; auto. destruct He as (w & R). pose proof (keys_edge _ _ _ _ Hc R) as K.
        unfold norm_pair in K. destruct (u <=? v); [now left|right]. apply in_map_iff. exists (v, u). auto.
      + assert (G : forall a b, In (a, b) keys -> (exists c, In c cells /\ In (a, b) (directed_edges c)) /\ (exists c, In c cells /\ In (b, a) (directed_edges c))).
        { intros a b H. apply key_edges in H. destruct H as (c & x & y & w & Hc & R & E).
          assert (He : In (x, y) (directed_edges c)) by (apply edge_rot_cell; eauto). pose proof (su_closed _ _ SU c x y Hc He) as Hs.
          destruct (norm_pair_cases x y) as [E'|E']; rewrite E' in E; injection E as -> ->; eauto. }
        intros [H|H]; [apply G in H; tauto|]. apply in_map_iff in H. destruct H as ([a b] & E & H). unfold swap in E. cbn in E. injection E as <- <-. apply G in H. tauto. }
  apply Permutation_length in P. rewrite app_length, map_length in P.
  enough (length (flat_map directed_edges cells) = 3 * length cells) by lia.
  pose proof (su_cell _ _ SU) as C. clear - C. induction cells as [|c l IH]; [reflexivity|]. cbn [flat_map]. rewrite app_length, IH by (intros; apply C; now right).
  destruct (C c (or_introl eq_refl)) as (a & b & d & -> & _). cbn. lia.
Qed.

Lemma children_count : length (flat_map (children m) cells) = 4 * length cells.
Proof.
  pose proof (su_cell _ _ SU) as C. generalize m. clear - C. intros m. induction cells as [|c l IH]; [reflexivity|]. cbn [flat_map]. rewrite app_length, IH by (intros; apply C; now right).
  destruct (C c (or_introl eq_refl)) as (a & b & d & -> & _). cbn. lia.
Qed.

End Refine.
