(** * Functions that are linear on the cells of the sphere *)
From Coq Require Import Reals Lra Psatz.
From Verif Require Import Base BaseFacts Topology TopologyFacts Shapes SpecShapes SphereFacts SphereSurface SphereResults SpecSphere SphereGeometry SphereTiling
  SpecWidth SpecFloatSphere FloatSphereError FloatSphereResults.

Local Open Scope R_scope.

(** A function on an interval that changes slowly between the zeros of some linear
    functions changes slowly. *)
Lemma slow_between (f : R -> R -> Prop) (K : R) : (forall t, exists a, f t a) ->
  forall (zs : list (R * R)) s t, s <= t ->
  (forall s' t', s <= s' -> s' <= t' -> t' <= t ->
     (forall ab m, In ab zs -> s' < m < t' -> fst ab + m * snd ab = 0 -> snd ab = 0) ->
     forall a a', f s' a -> f t' a' -> Rabs (a' - a) <= K * (t' - s')) ->
  forall a a', f s a -> f t a' -> Rabs (a' - a) <= K * (t - s).
Proof.
  intros T zs. induction zs as [|[al be] zs IH]; intros s t Hst H a a' Fa Fa'.
  - apply H; auto; try lra. intros ab m [].
  - destruct (Req_dec be 0) as [Z|Z].
    + apply IH; auto. intros s' t' H1 H2 H3 H4. apply H; auto. intros ab m [<-|Hab] Hm Hz; [exact Z|]. now apply (H4 ab m).
    + assert (U : forall m, al + m * be = 0 -> m = - al / be) by (intros m Hm; field_simplify_eq; [lra|exact Z]).
      destruct (Rlt_dec s (- al / be)) as [A|A]; [destruct (Rlt_dec (- al / be) t) as [B|B]|].
      * destruct (T (- al / be)) as (x & Fx).
        assert (P1 : Rabs (x - a) <= K * (- al / be - s)).
        { apply IH; auto; [lra|]. intros s' t' H1 H2 H3 H4. apply H; auto; [lra|]. intros ab m [<-|Hab] Hm Hz; [|now apply (H4 ab m)]. apply U in Hz. lra. }
        assert (P2 : Rabs (a' - x) <= K * (t - - al / be)).
        { apply IH; auto; [lra|]. intros s' t' H1 H2 H3 H4. apply H; auto; [lra|]. intros ab m [<-|Hab] Hm Hz; [|now apply (H4 ab m)]. apply U in Hz. lra. }
        replace (a' - a) with ((a' - x) + (x - a)) by ring. pose proof (Rabs_triang (a' - x) (x - a)). lra.
      * apply IH; auto. intros s' t' H1 H2 H3 H4. apply H; auto. intros ab m [<-|Hab] Hm Hz; [|now apply (H4 ab m)]. apply U in Hz. lra.
      * apply IH; auto. intros s' t' H1 H2 H3 H4. apply H; auto. intros ab m [<-|Hab] Hm Hz; [|now apply (H4 ab m)]. apply U in Hz. lra.
Qed.

(** ** Cones as intersections of half spaces *)

Definition sides (p q r : vec) : list vec := [cross q r; cross r p; cross p q].

Lemma solve p q r z : vscale (det p q r) z = vadd (vscale (inner (cross q r) z) p) (vadd (vscale (inner (cross r p) z) q) (vscale (inner (cross p q) z) r)).
Proof. destruct p as [[? ?] ?], q as [[? ?] ?], r as [[? ?] ?], z as [[? ?] ?]. unfold det. cbn. f_equal; [f_equal|]; ring. Qed.

Lemma weights_of p q r a b c : inner (cross q r) (vadd (vscale a p) (vadd (vscale b q) (vscale c r))) = a * det p q r /\
  inner (cross r p) (vadd (vscale a p) (vadd (vscale b q) (vscale c r))) = b * det p q r /\
  inner (cross p q) (vadd (vscale a p) (vadd (vscale b q) (vscale c r))) = c * det p q r.
Proof. destruct p as [[? ?] ?], q as [[? ?] ?], r as [[? ?] ?]. unfold det. cbn. repeat split; ring. Qed.

Definition between (x y : vec) (t : R) : vec := vadd x (vscale t (vsub y x)).

Lemma between_linear n x y t : inner n (between x y t) = inner n x + t * (inner n y - inner n x).
Proof. destruct n as [[? ?] ?], x as [[? ?] ?], y as [[? ?] ?]. unfold between. cbn. ring. Qed.

Lemma between_distance x y s t : s <= t -> distance (between x y t) (between x y s) = (t - s) * distance y x.
Proof.
  intros H. rewrite !distance_vlen. unfold vlen.
  replace (norm2 (vsub (between x y t) (between x y s))) with ((t - s) * (t - s) * norm2 (vsub y x)) by (destruct x as [[? ?] ?], y as [[? ?] ?]; unfold norm2, between; cbn; ring).
  rewrite sqrt_mult_alt by nra. rewrite sqrt_square by lra. reflexivity.
Qed.

Lemma between_ends x y : between x y 0 = x /\ between x y 1 = y.
Proof. destruct x as [[? ?] ?], y as [[? ?] ?]. unfold between. cbn. split; f_equal; try f_equal; ring. Qed.

Lemma size_by z m a D K : 0 < D -> a * D = inner m z -> vlen m <= K * D -> Rabs a <= K * vlen z.
Proof.
  intros PD E H. pose proof (cauchy m z) as C1. pose proof (cauchy (vscale (-1) m) z) as C2. rewrite vlen_opp in C2.
  replace (inner (vscale (-1) m) z) with (- inner m z) in C2 by (destruct m as [[? ?] ?], z as [[? ?] ?]; cbn; ring).
  rewrite <- E in C1, C2. pose proof (vlen_nonneg z) as Z. pose proof (Rmult_le_compat_r _ _ _ Z H) as M.
  unfold Rabs. destruct (Rcase_abs a); apply Rmult_le_reg_r with D; auto; lra.
Qed.

Section Hats.
Variables (pts : list vec) (cells : list (list nat)).
Hypothesis SU : surface (length pts) cells.
Hypothesis TI : tiling pts cells.
Variable K : R.
Local Notation pos := (position pts).
Hypothesis K0 : 0 <= K.
Hypothesis Kedge : forall c u v w, In c cells -> rot c u v w -> distance (pos u) (pos v) <= K * det (pos u) (pos v) (pos w).
Hypothesis Knormal : forall c u v w, In c cells -> rot c u v w -> vlen (normal (pos u) (pos v) (pos w)) <= K * det (pos u) (pos v) (pos w).
Variable S : nat -> bool.

(** The function that is 1 at the vertices [S], 0 at the others and linear on each cell. *)
Definition part_of (w : nat -> R) (c : list nat) : R := wsum (fun v => if S v then w v else 0) c.
Definition hat (x : vec) (a : R) : Prop := exists c w, In c cells /\ in_cone pts c w x /\ a = part_of w c.

Lemma hat_total x : exists a, hat x a.
Proof. destruct (ti_cover _ _ TI x) as (c & w & Hc & I). exists (part_of w c), c, w. auto. Qed.

Lemma hat_unique x a a' : hat x a -> hat x a' -> a = a'.
Proof.
  intros (c & w & Hc & I & ->) (c' & w' & Hc' & I' & ->). pose proof (ti_apart _ _ TI c c' w w' x Hc Hc' I I') as E.
  unfold part_of. rewrite (wsum_ext _ (fun v => if S v then w' v else 0) c) by (intros v; now rewrite E).
  apply wsum_support; [exact (cell_NoDup _ _ SU c Hc) | exact (cell_NoDup _ _ SU c' Hc') | |].
  - intros v Hv. destruct (S v); [|reflexivity]. rewrite <- E. now apply I.
  - intros v Hv. destruct (S v); [|reflexivity]. now apply I'.
Qed.

Lemma cell_three c : In c cells -> exists u v w, c = [u; v; w].
Proof. intros H. destruct (su_cell _ _ SU c H) as (u & v & w & -> & _). eauto. Qed.

Lemma cross_short q r D : norm2 r = 1 -> distance q r <= K * D -> vlen (cross q r) <= K * D.
Proof.
  intros N H. replace (cross q r) with (cross (vsub q r) r) by (destruct q as [[? ?] ?], r as [[? ?] ?]; cbn; f_equal; [f_equal|]; ring).
  pose proof (vlen_cross (vsub q r) r) as C. rewrite <- distance_vlen in C. assert (E : vlen r = 1) by (unfold vlen; rewrite N; apply sqrt_1). rewrite E in C. lra.
Qed.

Lemma pair_short q p r D : norm2 r = 1 -> distance q p <= K * D -> vlen (vadd (cross q r) (cross r p)) <= K * D.
Proof.
  intros N H. replace (vadd (cross q r) (cross r p)) with (cross (vsub q p) r) by (destruct q as [[? ?] ?], r as [[? ?] ?], p as [[? ?] ?]; cbn; f_equal; [f_equal|]; ring).
  pose proof (vlen_cross (vsub q p) r) as C. rewrite <- distance_vlen in C. assert (E : vlen r = 1) by (unfold vlen; rewrite N; apply sqrt_1). rewrite E in C. lra.
Qed.

(** On one cell the function changes slowly. *)
Lemma hat_in_cell c w w' x y : In c cells -> in_cone pts c w x -> in_cone pts c w' y -> Rabs (part_of w' c - part_of w c) <= K * distance y x.
Proof.
  intros Hc (_ & _ & Ex) (_ & _ & Ey). destruct (cell_three c Hc) as (u & v & t & ->).
  assert (Ru : rot [u; v; t] u v t) by (left; reflexivity). pose proof (rot_turn _ _ _ _ Ru) as Rv. pose proof (rot_turn _ _ _ _ Rv) as Rt.
  pose proof (ti_outward _ _ TI _ _ _ _ Hc Ru) as PD.
  pose proof (Kedge _ _ _ _ Hc Ru) as Kuv. pose proof (Kedge _ _ _ _ Hc Rv) as Kvt. pose proof (Kedge _ _ _ _ Hc Rt) as Ktu. pose proof (Knormal _ _ _ _ Hc Ru) as Kn.
  rewrite <- (det_turn (pos u)) in Kvt. rewrite (det_turn (pos t)) in Ktu.
  assert (UN : forall i, In i [u; v; t] -> norm2 (pos i) = 1).
  { intros i Hi. apply (ti_unit _ _ TI). apply nth_In. destruct (su_cell _ _ SU _ Hc) as (a & b & d & Ec & B & _). injection Ec as -> -> ->. cbn in Hi. intuition congruence. }
  pose proof (UN u ltac:(cbn; auto)) as Nu. pose proof (UN v ltac:(cbn; auto)) as Nv. pose proof (UN t ltac:(cbn; auto)) as Nt.
  cbn [combination] in Ex, Ey. unfold part_of. cbn [wsum]. 
  assert (Ez : vsub y x = vadd (vscale (w' u - w u) (pos u)) (vadd (vscale (w' v - w v) (pos v)) (vscale (w' t - w t) (pos t)))).
  { rewrite Ex, Ey. destruct (pos u) as [[? ?] ?], (pos v) as [[? ?] ?], (pos t) as [[? ?] ?]. unfold origin. cbn. f_equal; [f_equal|]; ring. }
  rewrite distance_vlen. set (z := vsub y x) in *. clearbody z. clear Ex Ey UN.
  destruct (weights_of (pos u) (pos v) (pos t) (w' u - w u) (w' v - w v) (w' t - w t)) as (Wu & Wv & Wt). rewrite <- Ez in Wu, Wv, Wt. clear Ez.
  set (p := pos u) in *. set (q := pos v) in *. set (r := pos t) in *. set (D := det p q r) in *.
  assert (Su : inner (vadd (cross q r) (cross r p)) z = inner (cross q r) z + inner (cross r p) z /\ inner (vadd (cross r p) (cross p q)) z = inner (cross r p) z + inner (cross p q) z /\
    inner (vadd (cross p q) (cross q r)) z = inner (cross p q) z + inner (cross q r) z /\ inner (normal p q r) z = inner (cross q r) z + inner (cross r p) z + inner (cross p q) z).
  { clear. destruct p as [[? ?] ?], q as [[? ?] ?], r as [[? ?] ?], z as [[? ?] ?]. unfold normal. cbn. repeat split; ring. }
  destruct Su as (S1 & S2 & S3 & S4).
  assert (Kqp : distance q p <= K * D) by (rewrite distance_sym; exact Kuv). assert (Krq : distance r q <= K * D) by (rewrite distance_sym; exact Kvt).
  assert (Kpr : distance p r <= K * D) by (rewrite distance_sym; exact Ktu).
  destruct (S u), (S v), (S t).
  - apply (size_by z (normal p q r) _ D); auto. rewrite S4. lra.
  - apply (size_by z (vadd (cross q r) (cross r p)) _ D); auto; [rewrite S1; lra | now apply pair_short].
  - apply (size_by z (vadd (cross p q) (cross q r)) _ D); auto; [rewrite S3; lra | now apply pair_short].
  - apply (size_by z (cross q r) _ D); auto; [lra | now apply cross_short].
  - apply (size_by z (vadd (cross r p) (cross p q)) _ D); auto; [rewrite S2; lra | now apply pair_short].
  - apply (size_by z (cross r p) _ D); auto; [lra | now apply cross_short].
  - apply (size_by z (cross p q) _ D); auto; [lra | now apply cross_short].
  - replace (0 + (0 + (0 + 0)) - (0 + (0 + (0 + 0)))) with 0 by ring. rewrite Rabs_R0. apply Rmult_le_pos; [exact K0 | apply vlen_nonneg].
Qed.

(** The half spaces whose intersections are the cones. *)
Definition cell_sides (c : list nat) : list vec := match c with [u; v; w] => sides (pos u) (pos v) (pos w) | _ => [] end.

Lemma cone_sides c x : In c cells -> (exists w, in_cone pts c w x) <-> (forall n, In n (cell_sides c) -> 0 <= inner n x).
Proof.
  intros Hc. destruct (cell_three c Hc) as (u & v & t & ->). cbn [cell_sides].
  assert (Ru : rot [u; v; t] u v t) by (left; reflexivity). pose proof (ti_outward _ _ TI _ _ _ _ Hc Ru) as PD. split.
  - intros (w & W0 & _ & ->). cbn [combination]. set (p := pos u) in *. set (q := pos v) in *. set (r := pos t) in *.
    replace (vadd (vscale (w t) r) origin) with (vscale (w t) r) by (destruct r as [[? ?] ?]; unfold origin; cbn; f_equal; [f_equal|]; ring).
    destruct (weights_of p q r (w u) (w v) (w t)) as (Wu & Wv & Wt). pose proof (W0 u). pose proof (W0 v). pose proof (W0 t).
    intros n [<-|[<-|[<-|[]]]]; rewrite ?Wu, ?Wv, ?Wt; apply Rmult_le_pos; lra.
  - intros H. set (p := pos u) in *. set (q := pos v) in *. set (r := pos t) in *. set (D := det p q r) in *.
    pose proof (cell_NoDup _ _ SU _ Hc) as ND. inversion ND as [|? ? N1 ND1]; subst. inversion ND1 as [|? ? N2 _]; subst. cbn in N1, N2.
    assert (A : u <> v) by (intros ->; tauto). assert (B : v <> t) by (intros ->; tauto). assert (C : u <> t) by (intros ->; tauto).
    assert (Pi : 0 < / D) by (now apply Rinv_0_lt_compat).
    exists (on3 u v t (/ D * inner (cross q r) x) (/ D * inner (cross r p) x) (/ D * inner (cross p q) x)).
    destruct (on3_values u v t (/ D * inner (cross q r) x) (/ D * inner (cross r p) x) (/ D * inner (cross p q) x) A B C) as (V1 & V2 & V3).
    split; [|split].
    + apply on3_nonneg; apply Rmult_le_pos; try lra; apply H; cbn; auto.
    + intros y Hy. apply on3_outside; intros ->; apply Hy; cbn; auto.
    + cbn [combination]. rewrite V1, V2, V3. fold p q r. pose proof (solve p q r x) as E. fold D in E.
      replace x with (vscale (/ D) (vscale D x)) at 1 by (destruct x as [[? ?] ?]; cbn; f_equal; [f_equal|]; field; lra).
      rewrite E. clear. generalize (inner (cross q r) x), (inner (cross r p) x), (inner (cross p q) x), (/ D). intros. destruct p as [[? ?] ?], q as [[? ?] ?], r as [[? ?] ?]. unfold origin. cbn. f_equal; [f_equal|]; ring.
Qed.

(** The function changes slowly everywhere. *)
Theorem hat_slow x y a a' : hat x a -> hat y a' -> Rabs (a' - a) <= K * distance y x.
Proof.
  intros Ha Ha'. destruct (between_ends x y) as (E0 & E1).
  pose proof (slow_between (fun t => hat (between x y t)) (K * distance y x) (fun t => hat_total _)
    (map (fun n => (inner n x, inner n y - inner n x)) (flat_map cell_sides cells)) 0 1 ltac:(lra)) as SB.
  cbn beta in SB. rewrite E0, E1 in SB. replace (K * distance y x) with (K * distance y x * (1 - 0)) by ring. apply SB; auto. clear SB a a' Ha Ha' E0 E1.
  intros s t _ Hst _ NZ a a' Ha Ha'. destruct (Req_dec s t) as [<-|NE].
  { rewrite (hat_unique _ _ _ Ha Ha'). rewrite Rminus_diag_eq, Rabs_R0 by reflexivity. lra. }
  assert (LT : s < t) by lra. set (m := (s + t) / 2). assert (Hm : s < m < t) by (unfold m; lra).
  destruct (ti_cover _ _ TI (between x y m)) as (c & wm & Hc & Im).
  assert (ALL : forall e, e = s \/ e = t -> exists w, in_cone pts c w (between x y e)).
  { intros e He. apply (cone_sides c _ Hc). intros n Hn. pose proof (proj1 (cone_sides c (between x y m) Hc) (ex_intro _ wm Im) n Hn) as Pm.
    rewrite between_linear in *. set (al := inner n x) in *. set (be := inner n y - al) in *.
    assert (Hin : In (al, be) (map (fun n => (inner n x, inner n y - inner n x)) (flat_map cell_sides cells))).
    { apply in_map_iff. exists n. split; [reflexivity|]. apply in_flat_map. eauto. }
    destruct (Rle_or_lt 0 (al + e * be)) as [?|NG]; [assumption|exfalso].
    assert (Z : be <> 0) by (intros Z; rewrite Z in *; lra).
    assert (Zm : s < - al / be < t).
    { assert (al + (- al / be) * be = 0) by (field; exact Z). destruct He as [-> | ->].
      - assert (be > 0) by (apply Rnot_le_lt; intros ?; nra). split; nra.
      - assert (be < 0) by (apply Rnot_le_lt; intros ?; nra). split; nra. }
    apply Z. apply (NZ (al, be) (- al / be) Hin Zm). cbn. field. exact Z. }
  destruct (ALL s (or_introl eq_refl)) as (ws & Is). destruct (ALL t (or_intror eq_refl)) as (wt & It).
  rewrite (hat_unique _ _ _ Ha (ex_intro _ c (ex_intro _ ws (conj Hc (conj Is eq_refl))))). rewrite (hat_unique _ _ _ Ha' (ex_intro _ c (ex_intro _ wt (conj Hc (conj It eq_refl))))).
  eapply Rle_trans; [exact (hat_in_cell c ws wt _ _ Hc Is It)|]. rewrite between_distance by lra. lra.
Qed.
End Hats.
