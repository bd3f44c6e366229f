(** * The third power of the reciprocal distance and polynomials *)
From Coq Require Import Reals Lra Psatz.
From Verif Require Import Base BaseFacts Topology Scalar Integrand CellPair Operators SpecLocal Assembly SpecAssembly AssemblyExact SpecAlgebra AlgebraFacts
  SpecTransfer SpecRounding RoundingModels SpecMeasure MeasureResults Shapes SpecShapes SpecSphere SpecWidth SpecTurns TurnExamples SpecShare
  SphereGeometry SpecFloatSphere FloatSphere FloatSphereNear FloatSphereError SpecWaves SpecDecay DecayResults DecayPoints SpecMoments MomentResults SpecDegree LegendreSeries DegreeIntegrals DegreeResults DegreeExact PatchKernel PieceKernel.

Local Open Scope R_scope.
Local Notation dist := SpecWaves.distance.

(** ** Products of series *)

(** The terms of degree at most [n] of the product of a series and a series with partial
    sums [B]; [left] terms are taken. *)
Fixpoint product_cut (u B : nat -> R) (n left : nat) : R :=
  match left with O => 0 | S l => u l * B (n - l)%nat + product_cut u B n l end.

Lemma sum_of_products u B b0 n left : product_cut u B n left = product_cut u (fun m => B m - b0) n left + b0 * product_cut u (fun _ => 1) n left.
Proof. induction left as [|l IH]; cbn; [ring|]. rewrite IH. ring. Qed.

Section Product.
Context (u B : nat -> R) (A b rho sigma tau alpha beta bmax : R).
Context (Rs : rho = tau * sigma) (Pt : 0 <= tau) (Ps : 0 <= sigma < 1) (Pb : 0 <= beta).
Context (Hu : forall n, Rabs (u n) <= rho ^ n) (HA : forall n, Rabs (product_cut u (fun _ => 1) n (S n) - A) <= alpha * tau ^ S n) (HB : forall n, Rabs (B n - b) <= beta * tau ^ S n) (Hb : Rabs b <= bmax).

Lemma partial_product n left : (left <= S n)%nat -> Rabs (product_cut u (fun m => B m - b) n left) <= beta * tau ^ S n * ((1 - sigma ^ left) / (1 - sigma)).
Proof.
  induction left as [|l IH]; intros L; cbn [product_cut].
  - rewrite Rabs_R0. cbn. right. field. lra.
  - eapply Rle_trans; [apply Rabs_triang|]. specialize (IH ltac:(lia)).
    assert (E : beta * tau ^ S n * ((1 - sigma ^ S l) / (1 - sigma)) = beta * tau ^ S n * sigma ^ l + beta * tau ^ S n * ((1 - sigma ^ l) / (1 - sigma))) by (cbn [pow]; field; lra).
    rewrite E. apply Rplus_le_compat; [|exact IH]. rewrite Rabs_mult.
    replace (beta * tau ^ S n * sigma ^ l) with (rho ^ l * (beta * tau ^ S (n - l))).
    + apply Rmult_le_compat; try apply Rabs_pos; [apply Hu|apply HB].
    + assert (En : S n = (l + S (n - l))%nat) by lia. rewrite En at 1. rewrite Rs, Rpow_mult_distr, pow_add. ring.
Qed.

Lemma product_near n : Rabs (product_cut u B n (S n) - A * b) <= (alpha * bmax + beta / (1 - sigma)) * tau ^ S n.
Proof.
  rewrite (sum_of_products u B b n (S n)). set (D := product_cut u (fun m => B m - b) n (S n)). set (C := product_cut u (fun _ => 1) n (S n)).
  replace (D + b * C - A * b) with (D + b * (C - A)) by ring. eapply Rle_trans; [apply Rabs_triang|]. rewrite Rabs_mult, Rmult_plus_distr_r, Rplus_comm.
  assert (Pn : 0 <= tau ^ S n) by now apply pow_le.
  apply Rplus_le_compat.
  - replace (alpha * bmax * tau ^ S n) with (bmax * (alpha * tau ^ S n)) by ring. apply Rmult_le_compat; try apply Rabs_pos; [exact Hb|apply HA].
  - unfold D. eapply Rle_trans; [apply partial_product; lia|]. replace (beta / (1 - sigma) * tau ^ S n) with (beta * tau ^ S n * (1 / (1 - sigma))) by (field; lra).
    apply Rmult_le_compat_l; [now apply Rmult_le_pos|]. unfold Rdiv. apply Rmult_le_compat_r; [left; apply Rinv_0_lt_compat; lra|]. pose proof (pow_le sigma (S n) (proj1 Ps)). lra.
Qed.
End Product.

Lemma partial_cut s q n : product_cut (coefficient s q) (fun _ => 1) n (S n) = partial_sum s q n 1.
Proof.
  assert (H : forall m left, product_cut (coefficient s q) (fun _ => 1) m (S left) = partial_sum s q left 1).
  { intros m. induction left as [|l IH]; [cbn [product_cut partial_sum]; rewrite coefficient_0; ring|].
    change (product_cut (coefficient s q) (fun _ => 1) m (S (S l))) with (coefficient s q (S l) * 1 + product_cut (coefficient s q) (fun _ => 1) m (S l)). rewrite IH. cbn [partial_sum]. rewrite pow1. ring. }
  apply H.
Qed.

(** The square and the cube of the series. *)
Definition square_cut (s q : R) (n : nat) : R := product_cut (coefficient s q) (fun m => partial_sum s q m 1) n (S n).
Definition cube_cut (s q : R) (n : nat) : R := product_cut (coefficient s q) (square_cut s q) n (S n).

Lemma cube_near s q rho sigma A : 0 <= rho <= sigma -> 0 < sigma < 1 -> (forall n, Rabs (coefficient s q n) <= rho ^ n) -> Rabs A <= 1 / (1 - sigma) ->
  (forall n, Rabs (partial_sum s q n 1 - A) <= rho ^ S n / (1 - rho)) -> forall n, Rabs (cube_cut s q n - A * (A * A)) <= 3 / ((1 - sigma) * (1 - sigma) * (1 - sigma)) * (rho / sigma) ^ S n.
Proof.
  intros Hr Hs Hu Ha Hp n. set (tau := rho / sigma). assert (Et : rho = tau * sigma) by (unfold tau; field; lra).
  assert (Pt : 0 <= tau) by (unfold tau, Rdiv; apply Rmult_le_pos; [lra|left; apply Rinv_0_lt_compat; lra]).
  set (g := / (1 - sigma)). assert (Pg : 0 < g) by (apply Rinv_0_lt_compat; lra).
  assert (One : forall n, Rabs (partial_sum s q n 1 - A) <= g * tau ^ S n).
  { intros m. eapply Rle_trans; [apply Hp|]. rewrite Rmult_comm. unfold Rdiv. apply Rmult_le_compat; [apply pow_le; lra|left; apply Rinv_0_lt_compat; lra| |apply Rinv_le_contravar; lra].
    apply pow_incr. split; [lra|]. rewrite Et at 1. rewrite <- (Rmult_1_r tau) at 2. apply Rmult_le_compat_l; lra. }
  assert (Ha' : Rabs A <= g) by (unfold g; lra).
  assert (Two : forall n, Rabs (square_cut s q n - A * A) <= (g * g + g / (1 - sigma)) * tau ^ S n).
  { intros m. apply (product_near (coefficient s q) (fun m => partial_sum s q m 1) A A rho sigma tau g g g); auto; try lra. intros k. rewrite partial_cut. apply One. }
  assert (G : g * g + g / (1 - sigma) = 2 * (g * g)) by (unfold g; field; lra). rewrite G in Two.
  pose proof (product_near (coefficient s q) (square_cut s q) A (A * A) rho sigma tau g (2 * (g * g)) (g * g) Et Pt ltac:(lra) ltac:(nra) Hu ltac:(intros k; rewrite partial_cut; apply One) Two) as Th.
  assert (Hb : Rabs (A * A) <= g * g) by (rewrite Rabs_mult; apply Rmult_le_compat; auto using Rabs_pos). specialize (Th Hb n).
  unfold cube_cut. eapply Rle_trans; [exact Th|]. right. f_equal. unfold g. field. lra.
Qed.

Lemma joint_product_cut (u B : nat -> R -> R -> R -> R -> R) n left : (left <= S n)%nat -> (forall i, joint i (u i)) -> (forall i, joint i (B i)) ->
  joint n (fun x y x' y' => product_cut (fun i => u i x y x' y') (fun i => B i x y x' y') n left).
Proof.
  intros L Ju Jb. induction left as [|l IH]; [exact (joint_const n 0)|]. cbn [product_cut].
  eapply joint_same; [apply (joint_sum n _ _ (joint_mono (l + (n - l)) n _ ltac:(lia) (joint_product l (n - l) _ _ (Ju l) (Jb (n - l)%nat))) (IH ltac:(lia)))|]. intros. reflexivity.
Qed.

Lemma joint_cube (s q : R -> R -> R -> R -> R) n : joint 1 s -> joint 2 q -> joint n (fun x y x' y' => cube_cut (s x y x' y') (q x y x' y') n).
Proof.
  intros Js Jq. assert (Ju : forall i, joint i (fun x y x' y' => coefficient (s x y x' y') (q x y x' y') i)) by (intros i; apply (joint_coefficients s q i Js Jq)).
  apply (joint_product_cut (fun i x y x' y' => coefficient (s x y x' y') (q x y x' y') i) (fun m x y x' y' => square_cut (s x y x' y') (q x y x' y') m) n (S n) (Nat.le_refl _) Ju).
  intros m. apply (joint_product_cut (fun i x y x' y' => coefficient (s x y x' y') (q x y x' y') i) (fun k x y x' y' => partial_sum (s x y x' y') (q x y x' y') k 1) m (S m) (Nat.le_refl _) Ju).
  intros k. now apply joint_partial.
Qed.

(** ** The kernel between two cells *)
Section Cube.
Context (t : cell_type) (Kind : t = Triangle \/ t = Quadrilateral) (p q r p' q' r' c c' : vec) (h h' sigma : R).
Context (Nc : forall x y, inside t x y -> vlen (vsub (mapped p q r x y) c) <= h) (Nc' : forall x y, inside t x y -> vlen (vsub (mapped p' q' r' x y) c') <= h').
Notation a := (dist c c').
Context (Far : h + h' < a).
Notation rho := ((h + h') / a).
Context (Hs : 0 < sigma < 1) (Rs : rho <= sigma).
Notation ti := (tilt p q r p' q' r' c c').
Notation si := (size p q r p' q' r' c c').

Definition cubed (x y x' y' : R) : R := let d := dist (mapped p q r x y) (mapped p' q' r' x' y') in if Req_EM_T d 0 then 0 else 1 / (d * d * d).

Lemma triangle_points x y : inside Triangle x y -> inside t x y.
Proof. destruct Kind as [-> | ->]; cbn; lra. Qed.
Lemma joint_shifts z : joint 1 (fun x y x' y' => inner z (shift p q r p' q' r' c c' x y x' y')).
Proof. apply (joint_shift p q r p' q' r' c c' h h'); intros x y I; [apply Nc|apply Nc']; now apply triangle_points. Qed.
Lemma joint_tilt : joint 1 ti.
Proof. eapply joint_same; [apply (joint_scale 1 (- / (a * a)) _ (joint_shifts (vsub c c')))|]. intros. cbn beta. unfold tilt, Rdiv. ring. Qed.
Lemma joint_size : joint 2 si.
Proof.
  pose proof joint_shifts as J.
  eapply joint_same; [apply (joint_scale 2 (/ (a * a)) _ (joint_sum 2 _ _ (joint_product 1 1 _ _ (J (1, 0, 0)) (J (1, 0, 0))) (joint_sum 2 _ _ (joint_product 1 1 _ _ (J (0, 1, 0)) (J (0, 1, 0))) (joint_product 1 1 _ _ (J (0, 0, 1)) (J (0, 0, 1))))))|].
  intros. cbn beta. unfold size, Rdiv. destruct (shift p q r p' q' r' c c' x y x' y') as [[? ?] ?]. cbn. ring.
Qed.

Lemma shift_length x y x' y' : inside t x y -> inside t x' y' -> vlen (shift p q r p' q' r' c c' x y x' y') <= h + h'.
Proof.
  intros I I'. unfold shift. eapply Rle_trans; [apply vlen_add|]. apply Rplus_le_compat; [now apply Nc|].
  replace (vlen (vscale (-1) (vsub (mapped p' q' r' x' y') c'))) with (vlen (vsub (mapped p' q' r' x' y') c')); [now apply Nc'|].
  unfold vlen. f_equal. destruct (vsub (mapped p' q' r' x' y') c') as [[? ?] ?]. unfold norm2. cbn. ring.
Qed.

Lemma apart x y x' y' : inside t x y -> inside t x' y' -> a - (h + h') <= dist (mapped p q r x y) (mapped p' q' r' x' y') <= a + (h + h').
Proof.
  intros I I'. pose proof (shift_length x y x' y' I I') as W. set (w := shift p q r p' q' r' c c' x y x' y') in *. set (z := vsub c c').
  assert (Ed : dist (mapped p q r x y) (mapped p' q' r' x' y') = vlen (vadd z w)).
  { unfold z, w, shift. rewrite dist_vlen. f_equal. destruct (mapped p q r x y) as [[? ?] ?], (mapped p' q' r' x' y') as [[? ?] ?], c as [[? ?] ?], c' as [[? ?] ?]. cbn. f_equal; [f_equal|]; ring. }
  assert (Ea : a = vlen z) by apply dist_vlen. rewrite Ed. destruct (lengths z w (h + h') W) as (L & _); [lra|]. pose proof (vlen_add z w). lra.
Qed.

Lemma coefficients_small n x y x' y' : inside t x y -> inside t x' y' -> Rabs (coefficient (ti x y x' y') (si x y x' y') n) <= rho ^ n.
Proof.
  intros I I'. destruct (newton_range t Kind p q r p' q' r' c c' h h' Nc Nc' Far) as (Hr & _). pose proof (shift_length x y x' y' I I') as W.
  assert (O : inside t 0 0) by (destruct Kind as [-> | ->]; cbn; lra).
  assert (Sn : 0 <= h + h') by (eapply Rle_trans; [apply vlen_nonneg|exact W]). assert (Pa : 0 < a) by lra.
  apply coefficient_bound; [lra| |].
  - unfold tilt, size. set (w := shift p q r p' q' r' c c' x y x' y'). set (z := vsub c c'). assert (Sa : a * a = inner z z) by (unfold z; rewrite dist_vlen, vlen_square; reflexivity).
    assert (Paa : 0 < a * a) by nra.
    assert (Cs : inner z w * inner z w <= (a * a) * inner w w).
    { rewrite Sa. destruct z as [[z1 z2] z3], w as [[w1 w2] w3]. cbn. pose proof (Rle_0_sqr (z1 * w2 - z2 * w1)). pose proof (Rle_0_sqr (z1 * w3 - z3 * w1)). pose proof (Rle_0_sqr (z2 * w3 - z3 * w2)). unfold Rsqr in *. nra. }
    apply (Rmult_le_reg_r (a * a * (a * a))); [nra|]. replace (- inner z w / (a * a) * (- inner z w / (a * a)) * (a * a * (a * a))) with (inner z w * inner z w) by (field; lra). replace (inner w w / (a * a) * (a * a * (a * a))) with (a * a * inner w w) by (field; lra). exact Cs.
  - unfold size. set (w := shift p q r p' q' r' c c' x y x' y') in *. assert (Sw : vlen w * vlen w = inner w w) by (rewrite vlen_square; reflexivity). pose proof (vlen_nonneg w) as Nw.
    replace (rho * rho) with ((h + h') * (h + h') / (a * a)) by (field; lra). unfold Rdiv. apply Rmult_le_compat_r; [left; apply Rinv_0_lt_compat; nra|]. rewrite <- Sw. nra.
Qed.

Lemma cubed_near k x y x' y' : inside t x y -> inside t x' y' ->
  Rabs (cubed x y x' y' - 1 / (a * a * a) * cube_cut (ti x y x' y') (si x y x' y') k) <= 1 / (a * a * a) * (3 / ((1 - sigma) * (1 - sigma) * (1 - sigma)) * (rho / sigma) ^ S k).
Proof.
  intros I I'. destruct (newton_range t Kind p q r p' q' r' c c' h h' Nc Nc' Far) as (Hr & Pu). pose proof (apart x y x' y' I I') as Ap. pose proof (shift_length x y x' y' I I') as W.
  assert (Sn : 0 <= h + h') by (eapply Rle_trans; [apply vlen_nonneg|exact W]). assert (Pa : 0 < a) by lra. pose proof PI_RGT_0 as Pi.
  set (d := dist (mapped p q r x y) (mapped p' q' r' x' y')) in *. assert (Pd : 0 < d) by lra.
  assert (Low : a * (1 - rho) <= d) by (replace (a * (1 - rho)) with (a - (h + h')) by (field; lra); lra).
  pose proof (cube_near (ti x y x' y') (si x y x' y') rho sigma (a / d) ltac:(lra) Hs (fun n => coefficients_small n x y x' y' I I')) as Cn.
  assert (B : Rabs (a / d) <= 1 / (1 - sigma)).
  { rewrite Rabs_pos_eq by (left; now apply Rdiv_lt_0_compat). apply (Rmult_le_reg_r (d * (1 - sigma))); [apply Rmult_lt_0_compat; lra|].
    replace (a / d * (d * (1 - sigma))) with (a * (1 - sigma)) by (field; lra). replace (1 / (1 - sigma) * (d * (1 - sigma))) with d by (field; lra). eapply Rle_trans; [|exact Low]. apply Rmult_le_compat_l; lra. }
  assert (Hp : forall n, Rabs (partial_sum (ti x y x' y') (si x y x' y') n 1 - a / d) <= rho ^ S n / (1 - rho)).
  { intros n. pose proof (newton_cut t p q r p' q' r' c c' h h' 1 Nc Nc' Far n x y x' y' I I') as N. unfold newton, cut in N. fold d in N. destruct (Req_EM_T d 0) as [Z|_]; [lra|].
    apply (Rmult_le_reg_l (1 / (4 * PI * a))); [exact Pu|]. eapply Rle_trans; [|exact N]. right. rewrite <- (Rabs_pos_eq (1 / (4 * PI * a))) at 1 by lra. rewrite <- Rabs_mult.
    match goal with |- Rabs ?z = _ => rewrite <- (Rabs_Ropp z) end. f_equal. field. lra. }
  specialize (Cn B Hp k). unfold cubed. fold d. destruct (Req_EM_T d 0) as [Z|_]; [lra|].
  assert (P3 : 0 < 1 / (a * a * a)) by (apply Rdiv_lt_0_compat; [lra|]; repeat apply Rmult_lt_0_compat; lra).
  replace (1 / (d * d * d) - 1 / (a * a * a) * cube_cut (ti x y x' y') (si x y x' y') k) with (1 / (a * a * a) * - (cube_cut (ti x y x' y') (si x y x' y') k - a / d * (a / d * (a / d)))) by (field; lra).
  rewrite Rabs_mult, Rabs_Ropp, (Rabs_pos_eq (1 / (a * a * a))) by lra. apply Rmult_le_compat_l; [lra|exact Cn].
Qed.

Theorem cubed_integral (f : R -> R -> R -> R -> R) d N : rho < sigma -> joint d f -> (forall x y x' y', inside t x y -> inside t x' y' -> Rabs (f x y x' y') <= N) ->
  exists v, pair_integral t (fun x y x' y' => cubed x y x' y' * f x y x' y') v /\
  forall k qd, (forall i j, (i + j <= k + d)%nat -> monomial_sum qd i j = monomial_integral t i j) ->
    (forall pw, List.In pw (enumerate (qd_weights qd)) -> 0 <= snd pw /\ inside t (nth (2 * fst pw) (qd_points qd) 0) (nth (2 * fst pw + 1) (qd_points qd) 0)) ->
    Rabs (rule_sum qd (fun x y x' y' => cubed x y x' y' * f x y x' y') - v) <=
      2 * (1 / (a * a * a) * (3 / ((1 - sigma) * (1 - sigma) * (1 - sigma)) * (rho / sigma) ^ S k) * N * (reference_area t * reference_area t)).
Proof.
  intros Strict J B. destruct (newton_range t Kind p q r p' q' r' c c' h h' Nc Nc' Far) as (Hr & Pu).
  assert (Pa : 0 < a). { pose proof PI_RGT_0. destruct (Rle_or_lt a 0) as [L|L]; [|exact L]. exfalso. assert (O : inside t 0 0) by (destruct Kind as [-> | ->]; cbn; lra).
    pose proof (Nc 0 0 O). pose proof (Nc' 0 0 O). pose proof (vlen_nonneg (vsub (mapped p q r 0 0) c)). pose proof (vlen_nonneg (vsub (mapped p' q' r' 0 0) c')). lra. }
  assert (P3 : 0 < 1 / (a * a * a)) by (apply Rdiv_lt_0_compat; [lra|]; repeat apply Rmult_lt_0_compat; lra).
  assert (Pq : 0 < 3 / ((1 - sigma) * (1 - sigma) * (1 - sigma))) by (apply Rdiv_lt_0_compat; [lra|]; repeat apply Rmult_lt_0_compat; lra).
  set (tau := rho / sigma). assert (Ht : 0 <= tau < 1).
  { unfold tau. split; [unfold Rdiv at 1; apply Rmult_le_pos; [lra|left; apply Rinv_0_lt_compat; lra]|]. apply (Rmult_lt_reg_r sigma); [lra|]. replace (rho / sigma * sigma) with rho by (field; lra). lra. }
  apply (approximated_integral t Kind cubed f (fun k x y x' y' => 1 / (a * a * a) * cube_cut (ti x y x' y') (si x y x' y') k) (fun k => 1 / (a * a * a) * (3 / ((1 - sigma) * (1 - sigma) * (1 - sigma)) * tau ^ S k)) d N).
  - intros k. apply joint_scale, joint_cube; [exact joint_tilt|exact joint_size].
  - exact J.
  - exact B.
  - exact cubed_near.
  - intros cc eps Hc He. set (U := 1 / (a * a * a)) in *. set (V := 3 / ((1 - sigma) * (1 - sigma) * (1 - sigma))) in *.
    assert (Puv : 0 <= cc * U * V) by (apply Rmult_le_pos; [apply Rmult_le_pos|]; lra).
    destruct (small_tail tau 0 (cc * U * V) eps Ht Puv He) as (l & _ & Hl). exists l. eapply Rle_trans; [|exact Hl].
    replace (cc * (U * (V * tau ^ S l))) with (cc * U * V * tau ^ S l) by ring. apply Rmult_le_compat_l; [exact Puv|].
    assert (Pn : 0 <= tau ^ S l) by (apply pow_le; lra). unfold Rdiv. rewrite <- (Rmult_1_r (tau ^ S l)) at 1. apply Rmult_le_compat_l; [exact Pn|]. rewrite <- Rinv_1 at 1. apply Rinv_le_contravar; lra.
Qed.
End Cube.
