(** * Entries of the single layer matrix for cells that are far from each other *)
From Coq Require Import Reals Lra Psatz.
From Verif Require Import Base BaseFacts Topology TopologyFacts DofMap DofMapFacts SpecDof DofMapResults Process Space SpecSpace Options
  Adjacency SpecAdjacency Scalar Integrand CellPair Operators SpecLocal LocalFacts LocalResults Interleave Assembly SpecAssembly
  AssemblyFacts AssemblySingular AssemblyDense AssemblyExact AssemblyResults SpecAlgebra AlgebraFacts AlgebraResults
  SpecBroken BrokenResults SpecTransfer SpecRounding RoundingModels SpecGalerkin GalerkinResults SpecMeasure MeasureResults Shapes SpecShapes SpecSphere SpecWidth SpecTurns TurnExamples SpecShare
  SphereGeometry SpecFloatSphere FloatSphere FloatSphereNear FloatSphereError SpecWaves SpecDecay DecayResults DecayPoints SpecMoments.

Local Open Scope R_scope.

Local Notation dist := SpecWaves.distance.

Lemma dist_vlen x y : dist x y = vlen (vsub x y).
Proof. rewrite distance_chord. reflexivity. Qed.

Lemma dist_sym x y : dist x y = dist y x.
Proof. rewrite !distance_chord. f_equal. unfold chord2. destruct x as [[? ?] ?], y as [[? ?] ?]. cbn. ring. Qed.

(** ** The kernel far away *)

(** [a], [b]: lengths of [z] and [z + w]. *)
Lemma lengths z w k : vlen w <= k -> k < vlen z -> vlen z - k <= vlen (vadd z w) <= vlen z + k.
Proof.
  intros Hw Hk. pose proof (vlen_add z w) as A. pose proof (vlen_add (vadd z w) (vscale (-1) w)) as B.
  assert (N : vlen (vscale (-1) w) = vlen w) by (unfold vlen; f_equal; destruct w as [[? ?] ?]; unfold norm2; cbn; ring).
  assert (Z : vadd (vadd z w) (vscale (-1) w) = z) by (destruct z as [[? ?] ?], w as [[? ?] ?]; cbn; f_equal; [f_equal|]; ring).
  rewrite Z, N in B. lra.
Qed.

Lemma expansion z w k : vlen w <= k -> k < vlen z ->
  Rabs (1 / vlen (vadd z w) - 1 / vlen z + inner z w / (vlen z * vlen z * vlen z)) <= k * k / (vlen z * vlen z * (vlen z - k)).
Proof.
  intros Hw Hk. destruct (lengths z w k Hw Hk) as (L1 & L2). pose proof (lengths z w (vlen w) (Rle_refl _) (Rle_lt_trans _ _ _ Hw Hk)) as (M1 & M2).
  pose proof (vlen_nonneg w) as Pw.
  assert (S : vlen (vadd z w) * vlen (vadd z w) = vlen z * vlen z + 2 * inner z w + vlen w * vlen w).
  { rewrite !vlen_square. destruct z as [[? ?] ?], w as [[? ?] ?]. unfold norm2. cbn. ring. }
  set (a := vlen z) in *. set (b := vlen (vadd z w)) in *. set (o := vlen w) in *. set (i := inner z w) in *.
  assert (Pa : 0 < a) by lra. assert (Pb : 0 < b) by lra. assert (Pk : 0 < a - k) by lra. assert (0 <= k) by lra.
  assert (P3 : 0 < a * a * a) by (repeat apply Rmult_lt_0_compat; lra).
  assert (E : 1 / b - 1 / a + i / (a * a * a) = (b - a) * (b - a) * (b + 2 * a) / (2 * (a * a * a) * b) - o * o / (2 * (a * a * a))).
  { replace i with ((b * b - a * a - o * o) / 2) by lra. field. lra. }
  assert (Q : (b - a) * (b - a) <= o * o) by nra.
  assert (Ok : o * o <= k * k) by nra.
  assert (Lim : forall x, x * (a * a * (a - k)) <= k * k -> x <= k * k / (a * a * (a - k))).
  { intros x Hx. assert (0 < a * a * (a - k)) by (repeat apply Rmult_lt_0_compat; lra). apply (Rmult_le_reg_r (a * a * (a - k))); auto. replace (k * k / (a * a * (a - k)) * (a * a * (a - k))) with (k * k) by (field; lra). exact Hx. }
  apply Rabs_le. rewrite E. split.
  - apply Ropp_le_cancel. rewrite Ropp_involutive. apply Lim.
    assert (A : 0 <= (b - a) * (b - a) * (b + 2 * a) / (2 * (a * a * a) * b)).
    { apply Rmult_le_pos; [apply Rmult_le_pos; [exact (Rle_0_sqr (b - a))|lra]|]. left. apply Rinv_0_lt_compat. apply Rmult_lt_0_compat; lra. }
    apply Rle_trans with (o * o / (2 * (a * a * a)) * (a * a * (a - k))).
    + apply Rmult_le_compat_r; [|lra]. left. repeat apply Rmult_lt_0_compat; lra.
    + replace (o * o / (2 * (a * a * a)) * (a * a * (a - k))) with (o * o * ((a - k) / (2 * a))) by (field; lra).
      assert ((a - k) / (2 * a) <= 1). { apply (Rmult_le_reg_r (2 * a)); [lra|]. replace ((a - k) / (2 * a) * (2 * a)) with (a - k) by (field; lra). lra. }
      assert (0 <= (a - k) / (2 * a)) by (left; apply Rdiv_lt_0_compat; lra). nra.
  - apply Lim.
    assert (A : (b - a) * (b - a) * (b + 2 * a) / (2 * (a * a * a) * b) - o * o / (2 * (a * a * a)) <= o * o / (a * a * b)).
    { replace (o * o / (a * a * b)) with (o * o * (b + 2 * a) / (2 * (a * a * a) * b) - o * o / (2 * (a * a * a))) by (field; lra).
      apply Rplus_le_compat_r. unfold Rdiv. apply Rmult_le_compat_r; [left; apply Rinv_0_lt_compat; apply Rmult_lt_0_compat; lra|]. apply Rmult_le_compat_r; lra. }
    apply Rle_trans with (o * o / (a * a * b) * (a * a * (a - k))).
    + apply Rmult_le_compat_r; [|lra]. left. repeat apply Rmult_lt_0_compat; lra.
    + replace (o * o / (a * a * b) * (a * a * (a - k))) with (o * o * ((a - k) / b)) by (field; lra).
      assert ((a - k) / b <= 1). { apply (Rmult_le_reg_r b); [lra|]. replace ((a - k) / b * b) with (a - k) by (field; lra). lra. }
      assert (0 <= (a - k) / b) by (left; apply Rdiv_lt_0_compat; lra). nra.
Qed.

Lemma first_order z w k : vlen w <= k -> k < vlen z -> Rabs (1 / vlen (vadd z w) - 1 / vlen z) <= k / (vlen z * (vlen z - k)).
Proof.
  intros Hw Hk. destruct (lengths z w k Hw Hk) as (L1 & L2). pose proof (vlen_nonneg w) as Pw.
  set (a := vlen z) in *. set (b := vlen (vadd z w)) in *.
  assert (Pa : 0 < a) by lra. assert (Pb : 0 < b) by lra. assert (Pk : 0 < a - k) by lra. assert (0 <= k) by lra.
  replace (1 / b - 1 / a) with ((a - b) / (a * b)) by (field; lra).
  assert (0 < a * b) by nra. assert (0 < a * (a - k)) by nra.
  unfold Rdiv. rewrite Rabs_mult, (Rabs_right (/ (a * b))) by (left; now apply Rinv_0_lt_compat).
  assert (Rabs (a - b) <= k) by (apply Rabs_le; lra).
  apply Rmult_le_compat; auto using Rabs_pos. { left; now apply Rinv_0_lt_compat. } apply Rinv_le_contravar; nra.
Qed.

(** ** Points of cells and their centre *)

Lemma vlen_scale s p : 0 <= s -> vlen (vscale s p) = s * vlen p.
Proof.
  intros Hs. unfold vlen. replace (norm2 (vscale s p)) with ((s * s) * norm2 p) by (destruct p as [[? ?] ?]; unfold norm2; cbn; ring).
  rewrite sqrt_mult by (try apply norm2_nonneg; nra). now rewrite sqrt_square.
Qed.

Lemma combination_bound u v w s t o h : vlen u <= h -> vlen v <= h -> vlen w <= h -> 0 <= s -> 0 <= t -> 0 <= o -> s + t + o = 1 ->
  vlen (vadd (vscale s u) (vadd (vscale t v) (vscale o w))) <= h.
Proof.
  intros Hu Hv Hw Hs Ht Ho E. pose proof (vlen_add (vscale s u) (vadd (vscale t v) (vscale o w))) as A. pose proof (vlen_add (vscale t v) (vscale o w)) as B.
  rewrite vlen_scale in A by auto. rewrite !vlen_scale in B by auto. nra.
Qed.

Lemma near_centre ct p q r h x y : ct = Triangle \/ ct = Quadrilateral -> radius ct p q r h -> inside ct x y ->
  dist (vadd p (vadd (vscale x (vsub q p)) (vscale y (vsub r p)))) (centre ct p q r) <= h.
Proof.
  intros Ht (R1 & R2 & R3). rewrite dist_vlen in *. destruct Ht as [-> | ->]; cbn [inside centre] in *.
  - intros (I1 & I2 & I3). set (c := vscale (1 / 3) (vadd p (vadd q r))) in *.
    replace (vsub _ c) with (vadd (vscale (1 - x - y) (vsub p c)) (vadd (vscale x (vsub q c)) (vscale y (vsub r c)))).
    + apply combination_bound; auto; lra.
    + destruct p as [[? ?] ?], q as [[? ?] ?], r as [[? ?] ?], c as [[? ?] ?]. cbn. f_equal; [f_equal|]; ring.
  - intros (I1 & I2). set (c := vscale (1 / 2) (vadd q r)) in *.
    assert (R4 : vlen (vsub (vsub (vadd q r) p) c) <= h).
    { replace (vlen _) with (vlen (vsub p c)); [exact R1|]. unfold vlen, c. f_equal. destruct p as [[? ?] ?], q as [[? ?] ?], r as [[? ?] ?]. unfold norm2. cbn. field. }
    destruct (Rle_or_lt (x + y) 1) as [S|S].
    + replace (vsub _ c) with (vadd (vscale (1 - x - y) (vsub p c)) (vadd (vscale x (vsub q c)) (vscale y (vsub r c)))).
      * apply combination_bound; auto; lra.
      * destruct p as [[? ?] ?], q as [[? ?] ?], r as [[? ?] ?], c as [[? ?] ?]. cbn. f_equal; [f_equal|]; ring.
    + replace (vsub _ c) with (vadd (vscale (x + y - 1) (vsub (vsub (vadd q r) p) c)) (vadd (vscale (1 - y) (vsub q c)) (vscale (1 - x) (vsub r c)))).
      * apply combination_bound; auto; lra.
      * destruct p as [[? ?] ?], q as [[? ?] ?], r as [[? ?] ?], c as [[? ?] ?]. cbn. f_equal; [f_equal|]; ring.
Qed.

Lemma centre_point ct p q r : ct = Triangle \/ ct = Quadrilateral ->
  vadd p (vadd (vscale (middle ct) (vsub q p)) (vscale (middle ct) (vsub r p))) = centre ct p q r.
Proof. intros [-> | ->]; destruct p as [[? ?] ?], q as [[? ?] ?], r as [[? ?] ?]; cbn; f_equal; [f_equal| |f_equal|]; field. Qed.

(** ** Sums *)

Lemma total_single n x (f : nat -> R) : (x < n)%nat -> (forall y, (y < n)%nat -> y <> x -> f y = 0) -> total reals (seq 0 n) f = f x.
Proof.
  intros Hx H. rewrite (total_ext reals _ _ (fun y => if x =? y then f x else 0)); [now apply (total_pick reals 1 reals_ring)|].
  intros y Hy. apply in_seq in Hy. destruct (Nat.eqb_spec x y) as [->|N]; [reflexivity|]. apply H; lia.
Qed.

Lemma fold_total (l : list R) : fold_right Rplus 0 l = total reals l (fun x => x).
Proof. reflexivity. Qed.

Lemma weights_total (w : list R) (f : nat -> R) : total reals (enumerate w) (fun pw => snd pw * f (fst pw)) = fold_right Rplus 0 (map (fun j => nth j w 0 * f j) (seq 0 (length w))).
Proof.
  rewrite (total_ext reals _ _ (fun pw => (fun j => nth j w 0 * f j) (fst pw))).
  - rewrite (total_enumerate reals w (fun j => nth j w 0 * f j)). unfold total. generalize (seq 0 (length w)) as l. induction l as [|a l IH]; cbn; [reflexivity|]. now rewrite <- IH.
  - intros [j x] Hx. apply In_enumerate in Hx. cbn [fst snd] in *. now rewrite (nth_error_nth _ _ 0 Hx).
Qed.

Lemma sum_weights (w : list R) : total reals (enumerate w) (fun pw => snd pw) = fold_right Rplus 0 w.
Proof.
  rewrite (total_ext reals _ _ (fun pw => snd pw * 1)) by (intros; ring). rewrite (weights_total w (fun _ => 1)).
  f_equal. transitivity (map (fun j => nth j w 0) (seq 0 (length w))); [apply map_ext; intros; ring|].
  induction w as [|x w IH]; [reflexivity|]. cbn [length seq map nth]. f_equal. rewrite <- seq_shift, map_map. exact IH.
Qed.

Lemma real_total_add {A : Type} (f g : A -> R) l : total reals l (fun a => f a + g a) = total reals l f + total reals l g.
Proof. exact (total_add reals 1 reals_ring l f g). Qed.

Lemma real_total_abs {A : Type} (f g : A -> R) l : (forall a, In a l -> Rabs (f a) <= g a) -> Rabs (total reals l f) <= total reals l g.
Proof.
  induction l as [|a l IH]; intros H; [cbn; rewrite Rabs_R0; lra|]. rewrite !AssemblyExact.total_cons. cbn [s_add reals].
  eapply Rle_trans; [apply Rabs_triang|]. apply Rplus_le_compat; [apply H; now left|apply IH; intros; apply H; now right].
Qed.

(** A rule that is exact for linear functions has the value at the centre. *)
Lemma affine_total X ct n q f0 f1 f2 : exact_linear X ct -> x_simplex X ct n = Some q ->
  total reals (enumerate (qd_weights q)) (fun pw => snd pw * (f0 + f1 * nth (2 * fst pw) (qd_points q) 0 + f2 * nth (2 * fst pw + 1) (qd_points q) 0)) =
  reference_area ct * (f0 + f1 * middle ct + f2 * middle ct).
Proof.
  intros (C & L) Eq. destruct (L _ _ Eq) as (M0 & M1). specialize (C _ _ Eq). unfold moment in M0, M1.
  rewrite (total_ext reals _ _ (fun pw => f0 * snd pw + (f1 * (snd pw * nth (2 * fst pw + 0) (qd_points q) 0) + f2 * (snd pw * nth (2 * fst pw + 1) (qd_points q) 0)))).
  - rewrite !real_total_add, !real_total_mul, sum_weights, (weights_total _ (fun j => nth (2 * j + 0) (qd_points q) 0)), (weights_total _ (fun j => nth (2 * j + 1) (qd_points q) 0)), C, M0, M1. ring.
  - intros [j x] _. cbn [fst snd]. rewrite Nat.add_0_r. ring.
Qed.

(** ** One entry *)
Section Far.
Context (X : externals R) (wmod : nat) (e : R) (o : options) (deg : cell_type -> cell_type -> nat) (pts : cell_type -> nat) (ct : cell_type) (test trial : fspace R R).
Context (D : dense_setting X wmod (laplace_single_layer (newton e)) o deg pts ct test trial) (HX : positive_externals (Rle 0) X).
Context (Ct : constants reals 1 test) (Cs : constants reals 1 trial)
  (It : interior_family (g_types (fs_grid test) 2) (fs_family test)) (Is : interior_family (g_types (fs_grid trial) 2) (fs_family trial)).

Lemma only_dof (fs : fspace R R) t i : serial_space fs -> constants reals 1 fs -> (t < ent_count (fs_grid fs) 2)%nat -> In i (dofs_at fs t) -> dofs_at fs t = [i].
Proof.
  intros Sf Co Ht Hi. pose proof (dofs_at_dim fs t Sf Ht) as L1. rewrite (co_dim _ _ _ Co) in L1 by (apply wf_ctype; [apply Sf|auto]).
  destruct (dofs_at fs t) as [|y [|? ?]]; cbn in L1; try discriminate. destruct Hi as [->|[]]. reflexivity.
Qed.

Lemma single_entry val t s i j : (t < ent_count (fs_grid test) 2)%nat -> (s < ent_count (fs_grid trial) 2)%nat -> In i (dofs_at test t) -> In j (dofs_at trial s) ->
  matrix_entry reals val test trial i j = val t s 0%nat 0%nat.
Proof.
  pose proof (dn_test _ _ _ _ _ _ _ _ _ D) as St. pose proof (dn_trial _ _ _ _ _ _ _ _ _ D) as Ss.
  intros Ht Hs Hi Hj. unfold matrix_entry. rewrite (total_single _ t); auto.
  - rewrite (total_single _ s); auto.
    + rewrite (only_dof test t i), (only_dof trial s j) by auto. cbn. rewrite !Nat.eqb_refl. cbn. ring.
    + intros s' Hs' N. apply (total_zero reals 1 reals_ring). intros [a i'] Ha. apply (total_zero reals 1 reals_ring). intros [b j'] Hb. cbn [fst snd]. apply In_enumerate in Hb. cbn [fst snd] in Hb. apply nth_error_In in Hb.
      destruct (Nat.eqb_spec j' j) as [->|]; [|now rewrite andb_false_r]. exfalso. apply N. now apply (serial_disjoint trial s' s j).
  - intros t' Ht' N. apply (total_zero reals 1 reals_ring). intros s' Hs'. apply (total_zero reals 1 reals_ring). intros [a i'] Ha. apply (total_zero reals 1 reals_ring). intros [b j'] Hb. cbn [fst snd]. apply In_enumerate in Ha. cbn [fst snd] in Ha. apply nth_error_In in Ha.
    destruct (Nat.eqb_spec i' i) as [->|]; [|reflexivity]. exfalso. apply N. now apply (serial_disjoint test t' t i).
Qed.

(** Cells that do not touch. *)
Section Cells.
Context (t s : nat) (p q r p' q' r' : vec) (h h' : R).
Context (Kind : ct = Triangle \/ ct = Quadrilateral) (Ht : (t < ent_count (fs_grid test) 2)%nat) (Hs : (s < ent_count (fs_grid trial) 2)%nat).
Context (Ft : forall points, flat_cell points p q r (x_geometry X (fs_grid test) ct points t)) (Fs : forall points, flat_cell points p' q' r' (x_geometry X (fs_grid trial) ct points s)).
Context (In : inside_rules X ct) (Rt : radius ct p q r h) (Rs : radius ct p' q' r' h').

Notation c := (centre ct p q r).
Notation c' := (centre ct p' q' r').
Notation a := (dist c c').
Notation det := (sqrt (inner (normal p q r) (normal p q r))).
Notation det' := (sqrt (inner (normal p' q' r') (normal p' q' r'))).
Context (Far : h + h' < a) (Nt : ~ touching test trial t s).

Lemma type_t : g_ctype (fs_grid test) t = ct.
Proof. assert (W : List.In (g_ctype (fs_grid test) t) (g_types (fs_grid test) 2)) by (apply wf_ctype; [apply (dn_test _ _ _ _ _ _ _ _ _ D)|assumption]). rewrite (dn_test_type _ _ _ _ _ _ _ _ _ D) in W. destruct W as [W|[]]. congruence. Qed.

Lemma type_s : g_ctype (fs_grid trial) s = ct.
Proof. assert (W : List.In (g_ctype (fs_grid trial) s) (g_types (fs_grid trial) 2)) by (apply wf_ctype; [apply (dn_trial _ _ _ _ _ _ _ _ _ D)|assumption]). rewrite (dn_trial_type _ _ _ _ _ _ _ _ _ D) in W. destruct W as [W|[]]. congruence. Qed.

(** The point of a cell with the given coordinates. *)
Definition mapped (u v w : vec) (x y : R) : vec := vadd u (vadd (vscale x (vsub v u)) (vscale y (vsub w u))).

Lemma radius_nonneg u v w k : radius ct u v w k -> 0 <= k.
Proof. intros (A & _). rewrite dist_vlen in A. eapply Rle_trans; [apply vlen_nonneg|exact A]. Qed.

Lemma offset_pair x y x' y' : inside ct x y -> inside ct x' y' ->
  exists w, vlen w <= h + h' /\ w = vadd (vsub (mapped p q r x y) c) (vscale (-1) (vsub (mapped p' q' r' x' y') c')) /\ dist (mapped p q r x y) (mapped p' q' r' x' y') = vlen (vadd (vsub c c') w).
Proof.
  intros I1 I2. pose proof (near_centre ct p q r h x y Kind Rt I1) as N1. pose proof (near_centre ct p' q' r' h' x' y' Kind Rs I2) as N2. fold (mapped p q r x y) in N1. fold (mapped p' q' r' x' y') in N2.
  rewrite dist_vlen in N1, N2. eexists. split; [|split; [reflexivity|]].
  - eapply Rle_trans; [apply vlen_add|]. apply Rplus_le_compat; [exact N1|].
    replace (vlen (vscale (-1) (vsub (mapped p' q' r' x' y') c'))) with (vlen (vsub (mapped p' q' r' x' y') c')); [exact N2|].
    unfold vlen. f_equal. destruct (vsub (mapped p' q' r' x' y') c') as [[? ?] ?]. unfold norm2. cbn. ring.
  - rewrite dist_vlen. f_equal. destruct (mapped p q r x y) as [[? ?] ?], (mapped p' q' r' x' y') as [[? ?] ?], c as [[? ?] ?], c' as [[? ?] ?]. cbn. f_equal; [f_equal|]; ring.
Qed.

Lemma newton_far x y x' y' : inside ct x y -> inside ct x' y' ->
  newton e 0 (mapped p q r x y) (mapped p' q' r' x' y') = 1 / (4 * PI) * (1 / dist (mapped p q r x y) (mapped p' q' r' x' y')).
Proof.
  intros I1 I2. destruct (offset_pair x y x' y' I1 I2) as (w & W & _ & E). destruct (lengths (vsub c c') w (h + h') W) as (L & _); [now rewrite <- dist_vlen|]. rewrite <- dist_vlen in L.
  unfold newton. destruct (Req_EM_T (dist (mapped p q r x y) (mapped p' q' r' x' y')) 0) as [Z|Z]; [lra|]. field. split; [exact Z|]. pose proof PI_RGT_0. lra.
Qed.

Notation g1 := (inner (vsub c c') (vsub q p)).
Notation g2 := (inner (vsub c c') (vsub r p)).
Notation g1' := (inner (vsub c c') (vsub q' p')).
Notation g2' := (inner (vsub c c') (vsub r' p')).

Lemma inner_offsets x y x' y' :
  inner (vsub c c') (vadd (vsub (mapped p q r x y) c) (vscale (-1) (vsub (mapped p' q' r' x' y') c'))) =
  (x - middle ct) * g1 + (y - middle ct) * g2 - ((x' - middle ct) * g1' + (y' - middle ct) * g2').
Proof.
  rewrite <- (centre_point ct p q r Kind), <- (centre_point ct p' q' r' Kind) at 2. generalize (vsub c c') as z. intros [[z1 z2] z3]. unfold mapped.
  destruct p as [[? ?] ?], q as [[? ?] ?], r as [[? ?] ?], p' as [[? ?] ?], q' as [[? ?] ?], r' as [[? ?] ?]. cbn. ring.
Qed.

(** The terms of the sum. *)
Lemma regular_sum v : pair_value reals X (laplace_single_layer (newton e)) deg pts test trial t s 0 0 v -> exists qt qs,
  x_simplex X ct (pts ct) = Some qt /\ x_simplex X ct (pts ct) = Some qs /\
  v = total reals (enumerate (qd_weights qt)) (fun pw => total reals (enumerate (qd_weights qs)) (fun qw =>
    newton e 0 (mapped p q r (nth (2 * fst pw) (qd_points qt) 0) (nth (2 * fst pw + 1) (qd_points qt) 0)) (mapped p' q' r' (nth (2 * fst qw) (qd_points qs) 0) (nth (2 * fst qw + 1) (qd_points qs) 0))
    * (snd pw * det * (snd qw * det')))).
Proof.
  intros [(C & _)|(_ & qt & qs & A1 & A2 & ->)]; [contradiction|]. rewrite type_t in A1. rewrite type_s in A2. exists qt, qs. split; [exact A1|]. split; [exact A2|].
  rewrite (tensor_total reals 1 reals_ring). apply total_ext. intros pw _. apply total_ext. intros qw _.
  unfold tensor_term. cbn [laplace_single_layer op_integrand op_kernel kn_value integrand_value s_mul s_cast r_mul reals].
  rewrite type_t, type_s. rewrite (flat_position _ p q r _ (fst pw) (Ft _)), (flat_position _ p' q' r' _ (fst qw) (Fs _)), (fc_area _ _ _ _ _ (Ft _)), (fc_area _ _ _ _ _ (Fs _)), (co_value _ _ _ Ct), (co_value _ _ _ Cs).
  unfold mapped. ring.
Qed.

Lemma positive_weight n qd pw : x_simplex X ct n = Some qd -> List.In pw (enumerate (qd_weights qd)) -> 0 <= snd pw /\ inside ct (nth (2 * fst pw) (qd_points qd) 0) (nth (2 * fst pw + 1) (qd_points qd) 0).
Proof.
  intros A Hp. destruct pw as [j w]. apply In_enumerate in Hp. cbn [fst snd] in *. split.
  - pose proof (px_simplex _ _ HX _ _ _ A) as F. rewrite Forall_forall in F. apply F. eapply nth_error_In; eauto.
  - apply (proj1 In _ _ _ A). apply nth_error_Some. congruence.
Qed.

(** A sum over the pairs of points in which each term is bounded. *)
Lemma double_bound qt qs (f : nat * R -> nat * R -> R) bd : x_simplex X ct (pts ct) = Some qt -> x_simplex X ct (pts ct) = Some qs -> exact_constants X ct ->
  (forall pw qw, List.In pw (enumerate (qd_weights qt)) -> List.In qw (enumerate (qd_weights qs)) -> Rabs (f pw qw) <= bd * (snd pw * det * (snd qw * det'))) ->
  Rabs (total reals (enumerate (qd_weights qt)) (fun pw => total reals (enumerate (qd_weights qs)) (fun qw => f pw qw))) <= bd * (cell_area ct p q r * cell_area ct p' q' r').
Proof.
  intros A1 A2 C H.
  replace (bd * (cell_area ct p q r * cell_area ct p' q' r')) with (total reals (enumerate (qd_weights qt)) (fun pw => total reals (enumerate (qd_weights qs)) (fun qw => bd * (snd pw * det * (snd qw * det'))))).
  - apply real_total_abs. intros pw Hp. apply real_total_abs. intros qw Hq. now apply H.
  - rewrite (total_ext reals _ _ (fun pw => bd * det * det' * fold_right Rplus 0 (qd_weights qs) * snd pw)).
    + rewrite real_total_mul, sum_weights, (C _ _ A1), (C _ _ A2). unfold cell_area. ring.
    + intros pw _. rewrite (total_ext reals _ _ (fun qw => bd * det * det' * snd pw * snd qw)) by (intros; ring). rewrite real_total_mul, sum_weights. ring.
Qed.

Lemma total_minus {A : Type} (l : list A) (f g : A -> R) : total reals l f - total reals l g = total reals l (fun x => f x - g x).
Proof.
  rewrite (total_ext reals l (fun x => f x - g x) (fun x => f x + -1 * g x)) by (intros; ring). rewrite real_total_add, real_total_mul. ring.
Qed.

Lemma far_first v : exact_constants X ct -> pair_value reals X (laplace_single_layer (newton e)) deg pts test trial t s 0 0 v ->
  relatively_near ((h + h') / (a - (h + h'))) (cell_area ct p q r * cell_area ct p' q' r' / (4 * PI * a)) v.
Proof.
  intros C V. destruct (regular_sum v V) as (qt & qs & A1 & A2 & ->). pose proof PI_RGT_0 as Pi.
  assert (0 <= h + h') by (pose proof (radius_nonneg _ _ _ _ Rt); pose proof (radius_nonneg _ _ _ _ Rs); lra).
  unfold relatively_near.
  replace (cell_area ct p q r * cell_area ct p' q' r' / (4 * PI * a)) with
    (total reals (enumerate (qd_weights qt)) (fun pw => total reals (enumerate (qd_weights qs)) (fun qw => 1 / (4 * PI) * (1 / a) * (snd pw * det * (snd qw * det'))))) at 1.
  2:{ rewrite (total_ext reals _ _ (fun pw => 1 / (4 * PI) * (1 / a) * det * det' * fold_right Rplus 0 (qd_weights qs) * snd pw)).
      - rewrite real_total_mul, sum_weights, (C _ _ A1), (C _ _ A2). unfold cell_area. field. lra.
      - intros pw _. rewrite (total_ext reals _ _ (fun qw => 1 / (4 * PI) * (1 / a) * det * det' * snd pw * snd qw)) by (intros; ring). rewrite real_total_mul, sum_weights. ring. }
  rewrite total_minus. rewrite (total_ext reals _ _ _ (fun pw _ => total_minus _ _ _)).
  replace ((h + h') / (a - (h + h')) * (cell_area ct p q r * cell_area ct p' q' r' / (4 * PI * a))) with
    (1 / (4 * PI) * ((h + h') / (a * (a - (h + h')))) * (cell_area ct p q r * cell_area ct p' q' r')) by (field; lra).
  apply double_bound; auto. intros pw qw Hp Hq. destruct (positive_weight _ _ _ A1 Hp) as (W1 & I1), (positive_weight _ _ _ A2 Hq) as (W2 & I2).
  rewrite newton_far by auto. destruct (offset_pair _ _ _ _ I1 I2) as (w & W & _ & Ew). rewrite Ew.
  assert (Wp : 0 <= snd pw * det * (snd qw * det')) by (repeat apply Rmult_le_pos; auto using sqrt_pos).
  rewrite <- Rmult_minus_distr_r, <- Rmult_minus_distr_l, (Rabs_mult _ (snd pw * det * (snd qw * det'))), (Rabs_mult (1 / (4 * PI))), (Rabs_right (snd pw * det * (snd qw * det'))), (Rabs_right (1 / (4 * PI))) by (try lra; apply Rle_ge; left; apply Rdiv_lt_0_compat; lra).
  apply Rmult_le_compat_r; [exact Wp|]. apply Rmult_le_compat_l; [left; apply Rdiv_lt_0_compat; lra|].
  pose proof (first_order (vsub c c') w (h + h') W) as F. rewrite <- dist_vlen in F. now apply F.
Qed.

Lemma far_second v : exact_linear X ct -> pair_value reals X (laplace_single_layer (newton e)) deg pts test trial t s 0 0 v ->
  relatively_near ((h + h') * (h + h') / (a * (a - (h + h')))) (cell_area ct p q r * cell_area ct p' q' r' / (4 * PI * a)) v.
Proof.
  intros Ex V. destruct (regular_sum v V) as (qt & qs & A1 & A2 & ->). pose proof PI_RGT_0 as Pi.
  assert (0 <= h + h') by (pose proof (radius_nonneg _ _ _ _ Rt); pose proof (radius_nonneg _ _ _ _ Rs); lra).
  unfold relatively_near.
  set (lin := fun (pw qw : nat * R) => 1 / (4 * PI) * (1 / a - ((nth (2 * fst pw) (qd_points qt) 0 - middle ct) * g1 + (nth (2 * fst pw + 1) (qd_points qt) 0 - middle ct) * g2
    - ((nth (2 * fst qw) (qd_points qs) 0 - middle ct) * g1' + (nth (2 * fst qw + 1) (qd_points qs) 0 - middle ct) * g2')) / (a * a * a))).
  replace (cell_area ct p q r * cell_area ct p' q' r' / (4 * PI * a)) with
    (total reals (enumerate (qd_weights qt)) (fun pw => total reals (enumerate (qd_weights qs)) (fun qw => lin pw qw * (snd pw * det * (snd qw * det'))))) at 1.
  2:{ rewrite (total_ext reals _ _ (fun pw => det * det' * reference_area ct * (snd pw *
        (1 / (4 * PI) * (1 / a + middle ct * (g1 + g2) / (a * a * a)) + - (1 / (4 * PI) * (g1 / (a * a * a))) * nth (2 * fst pw) (qd_points qt) 0 + - (1 / (4 * PI) * (g2 / (a * a * a))) * nth (2 * fst pw + 1) (qd_points qt) 0)))).
      - rewrite real_total_mul, (affine_total X ct _ qt _ _ _ Ex A1). unfold cell_area. field. lra.
      - intros pw _. rewrite (total_ext reals _ _ (fun qw => snd pw * det * det' * (snd qw *
          (1 / (4 * PI) * (1 / a - ((nth (2 * fst pw) (qd_points qt) 0 - middle ct) * g1 + (nth (2 * fst pw + 1) (qd_points qt) 0 - middle ct) * g2 + middle ct * (g1' + g2')) / (a * a * a))
           + 1 / (4 * PI) * (g1' / (a * a * a)) * nth (2 * fst qw) (qd_points qs) 0 + 1 / (4 * PI) * (g2' / (a * a * a)) * nth (2 * fst qw + 1) (qd_points qs) 0)))).
        + rewrite real_total_mul, (affine_total X ct _ qs _ _ _ Ex A2). field. lra.
        + intros qw _. unfold lin. field. lra. }
  rewrite total_minus. rewrite (total_ext reals _ _ _ (fun pw _ => total_minus _ _ _)).
  replace ((h + h') * (h + h') / (a * (a - (h + h'))) * (cell_area ct p q r * cell_area ct p' q' r' / (4 * PI * a))) with
    (1 / (4 * PI) * ((h + h') * (h + h') / (a * a * (a - (h + h')))) * (cell_area ct p q r * cell_area ct p' q' r')) by (field; lra).
  apply double_bound; auto; [apply Ex|]. intros pw qw Hp Hq. destruct (positive_weight _ _ _ A1 Hp) as (W1 & I1), (positive_weight _ _ _ A2 Hq) as (W2 & I2).
  rewrite newton_far by auto. destruct (offset_pair _ _ _ _ I1 I2) as (w & W & Dw & Ew). rewrite Ew.
  assert (Wp : 0 <= snd pw * det * (snd qw * det')) by (repeat apply Rmult_le_pos; auto using sqrt_pos).
  unfold lin. rewrite <- inner_offsets, <- Dw.
  rewrite <- Rmult_minus_distr_r, <- Rmult_minus_distr_l, (Rabs_mult _ (snd pw * det * (snd qw * det'))), (Rabs_mult (1 / (4 * PI))), (Rabs_right (snd pw * det * (snd qw * det'))), (Rabs_right (1 / (4 * PI))) by (try lra; apply Rle_ge; left; apply Rdiv_lt_0_compat; lra).
  apply Rmult_le_compat_r; [exact Wp|]. apply Rmult_le_compat_l; [left; apply Rdiv_lt_0_compat; lra|].
  pose proof (expansion (vsub c c') w (h + h') W) as F. rewrite <- dist_vlen in F. specialize (F Far).
  replace (1 / vlen (vadd (vsub c c') w) - (1 / a - inner (vsub c c') w / (a * a * a))) with (1 / vlen (vadd (vsub c c') w) - 1 / a + inner (vsub c c') w / (a * a * a)) by ring. exact F.
Qed.
End Cells.

(** The matrix. *)
Theorem far_entries rt : ct = Triangle \/ ct = Quadrilateral -> inside_rules X ct -> exact_constants X ct -> legal_runtime Rplus rt ->
  exists m, assemble reals X rt wmod (laplace_single_layer (newton e)) o trial test = Ok m /\
  forall t s i j p q r p' q' r' h h', (t < ent_count (fs_grid test) 2)%nat -> (s < ent_count (fs_grid trial) 2)%nat -> List.In i (dofs_at test t) -> List.In j (dofs_at trial s) -> ~ touching test trial t s ->
    (forall points, flat_cell points p q r (x_geometry X (fs_grid test) ct points t)) -> (forall points, flat_cell points p' q' r' (x_geometry X (fs_grid trial) ct points s)) ->
    radius ct p q r h -> radius ct p' q' r' h' ->
    let a := dist (centre ct p q r) (centre ct p' q' r') in h + h' < a ->
    exists v, nth_error m (i + global_size (fs_space test) * j) = Some v /\
      relatively_near ((h + h') / (a - (h + h'))) (cell_area ct p q r * cell_area ct p' q' r' / (4 * PI * a)) v /\
      (exact_linear X ct -> relatively_near ((h + h') * (h + h') / (a * (a - (h + h')))) (cell_area ct p q r * cell_area ct p' q' r' / (4 * PI * a)) v).
Proof.
  intros K I C L. destruct (assembled reals 1 reals_ring X rt wmod _ o deg pts ct test trial L D) as (m & val & E & _ & V & H). exists m. split; [exact E|].
  intros t s i j p q r p' q' r' h h' Ht Hs Hi Hj N Ft Fs R1 R2 a Fa. eexists. split; [apply H|].
  - eapply serial_lt; eauto; apply D.
  - eapply serial_lt; eauto; apply D.
  - rewrite (single_entry val t s i j Ht Hs Hi Hj). specialize (V t s 0%nat 0%nat Ht Hs). split; [|intros Ex].
    + now apply (far_first t s p q r p' q' r' h h').
    + now apply (far_second t s p q r p' q' r' h h').
Qed.
End Far.

(** Two rules. *)
Lemma near_both e u v w : relatively_near e u v -> relatively_near e u w -> Rabs (v - w) <= 2 * e * u.
Proof.
  unfold relatively_near. intros A B. replace (v - w) with ((v - u) + - (w - u)) by ring. eapply Rle_trans; [apply Rabs_triang|]. rewrite Rabs_Ropp. lra.
Qed.

Theorem rules_agree (X X' : externals R) wmod wmod' e o o' deg deg' pts pts' ct (test trial : fspace R R) rt rt' :
  dense_setting X wmod (laplace_single_layer (newton e)) o deg pts ct test trial -> dense_setting X' wmod' (laplace_single_layer (newton e)) o' deg' pts' ct test trial ->
  positive_externals (Rle 0) X -> positive_externals (Rle 0) X' -> constants reals 1 test -> constants reals 1 trial ->
  interior_family (g_types (fs_grid test) 2) (fs_family test) -> interior_family (g_types (fs_grid trial) 2) (fs_family trial) ->
  ct = Triangle \/ ct = Quadrilateral -> inside_rules X ct -> inside_rules X' ct -> exact_linear X ct -> exact_linear X' ct -> legal_runtime Rplus rt -> legal_runtime Rplus rt' ->
  exists m m', assemble reals X rt wmod (laplace_single_layer (newton e)) o trial test = Ok m /\ assemble reals X' rt' wmod' (laplace_single_layer (newton e)) o' trial test = Ok m' /\
  forall t s i j p q r p' q' r' h h', (t < ent_count (fs_grid test) 2)%nat -> (s < ent_count (fs_grid trial) 2)%nat -> List.In i (dofs_at test t) -> List.In j (dofs_at trial s) -> ~ touching test trial t s ->
    (forall points, flat_cell points p q r (x_geometry X (fs_grid test) ct points t)) -> (forall points, flat_cell points p' q' r' (x_geometry X (fs_grid trial) ct points s)) ->
    (forall points, flat_cell points p q r (x_geometry X' (fs_grid test) ct points t)) -> (forall points, flat_cell points p' q' r' (x_geometry X' (fs_grid trial) ct points s)) ->
    radius ct p q r h -> radius ct p' q' r' h' ->
    let a := dist (centre ct p q r) (centre ct p' q' r') in h + h' < a ->
    exists v v', nth_error m (i + global_size (fs_space test) * j) = Some v /\ nth_error m' (i + global_size (fs_space test) * j) = Some v' /\
      Rabs (v - v') <= 2 * ((h + h') * (h + h') / (a * (a - (h + h')))) * (cell_area ct p q r * cell_area ct p' q' r' / (4 * PI * a)).
Proof.
  intros D D' HX HX' Ct Cs It Is K I I' Ex Ex' L L'.
  destruct (far_entries X wmod e o deg pts ct test trial D HX Ct Cs It Is rt K I (proj1 Ex) L) as (m & Em & H).
  destruct (far_entries X' wmod' e o' deg' pts' ct test trial D' HX' Ct Cs It Is rt' K I' (proj1 Ex') L') as (m' & Em' & H').
  exists m, m'. split; [exact Em|]. split; [exact Em'|]. intros t s i j p q r p' q' r' h h' Ht Hs Hi Hj N F1 F2 F1' F2' R1 R2 a Fa.
  destruct (H t s i j p q r p' q' r' h h' Ht Hs Hi Hj N F1 F2 R1 R2 Fa) as (v & Ev & _ & B).
  destruct (H' t s i j p q r p' q' r' h h' Ht Hs Hi Hj N F1' F2' R1 R2 Fa) as (v' & Ev' & _ & B').
  exists v, v'. split; [exact Ev|]. split; [exact Ev'|]. apply near_both; auto.
Qed.
