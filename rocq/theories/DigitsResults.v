(** * Accuracy on the built-in shapes *)
From Coq Require Import Reals Lra.
From Verif Require Import Base BaseFacts Topology DofMap SpecDof Process Space Shapes SpecShapes Options Scalar Integrand CellPair Operators SpecLocal Interleave Assembly SpecAssembly
  SpecOrder SpecTransfer SpecScalars SpecRounding RoundingResults RoundingModels RoundingPositive SpecShapeSpaces SpecCounts CountsResults SpecDigits DigitsFacts.
Local Open Scope R_scope.

Lemma vertex_dof {T R' : Type} : forall Rm L b i (fs : fspace T R') v k n, regular_sphere Rm L 1 = Ok b -> fs_grid fs = built_grid i Triangle b -> serial_space fs ->
  (v < 2 + 4 ^ (L + 1))%nat -> listed (sp_dofmap (fs_space fs)) 0 v k n -> exactly (if (v <? 6)%nat then 4 else 6) (carried fs n).
Proof.
  intros Rm L b i fs v k n E Eg Sp Hv HL. destruct (sphere_valences Rm L b i v E Hv) as (l & N & H & Hl). exists l. split; auto. split; auto.
  intros c. rewrite H. rewrite (carried_entity fs 0 v k n Sp HL c). rewrite Eg. unfold cell_at_vertex, contains. intuition lia.
Qed.

Lemma terms_bound {T R' : Type} (test trial : fspace T R') t : shape_grid (fs_grid test) -> shape_grid (fs_grid trial) -> serial_space test -> serial_space trial ->
  g_types (fs_grid test) 2 = [t] -> g_types (fs_grid trial) 2 = [t] -> standard (fs_family test) -> standard (fs_family trial) ->
  forall i j ks, NoDup ks -> (forall k, In k ks <-> contributes test trial i j k) -> (length ks <= 36)%nat.
Proof.
  intros Gt Gs St Ss Et Es Ft Fs i j ks N H.
  assert (B : forall fs : fspace T R', shape_grid (fs_grid fs) -> g_types (fs_grid fs) 2 = [t] -> standard (fs_family fs) -> exists k, (k <= 6)%nat /\ cells_per_dof t (fs_family fs) k).
  { intros fs SG E Sd. assert (Ht : t = Triangle \/ t = Quadrilateral).
    { destruct SG as [? ? ? ? _|? ? ? _|? ? ? _]; unfold built_grid in E; cbn in E; injection E as <-; auto. }
    inversion Sd as [p Hp E1|m Hm E1].
    - destruct Ht as [-> | ->]; [exists 6%nat|exists 4%nat]; (split; [lia|now constructor]).
    - exists 1%nat. split; [lia|constructor]. }
  destruct (B test Gt Et Ft) as (k & Hk & Ck), (B trial Gs Es Fs) as (m & Hm & Cm).
  transitivity (k * m)%nat; [|nia]. apply (shape_terms test trial t i j k m); auto. intros x Hx. now apply H.
Qed.

Lemma growth_digits p n : (12 <= p)%nat -> (n <= 2 ^ 11)%nat -> growth ((/ 2) ^ p) n - 1 <= (/ 2) ^ (p - 12).
Proof.
  intros Hp Hn. set (q := (p - 12)%nat). assert (Ep : p = (q + 12)%nat) by lia. rewrite Ep. clearbody q. clear Ep Hp p.
  assert (H2 : (/ 2) ^ (q + 12) = (/ 2) ^ q * (/ 4096)).
  { rewrite pow_add. f_equal. replace ((/ 2) ^ 12) with (/ 2 ^ 12) by (rewrite pow_inv; auto). f_equal. ring. }
  assert (Hq : 0 < (/ 2) ^ q <= 1).
  { split; [apply pow_lt; lra|]. clear. induction q as [|q IH]; cbn [pow]; [lra|].
    assert (0 < (/ 2) ^ q) by (apply pow_lt; lra). lra. }
  assert (Hi : 0 <= INR n <= 2048).
  { split; [apply pos_INR|]. replace 2048 with (INR (2 ^ 11)); [now apply le_INR|]. rewrite pow_INR. cbn [INR]. ring. }
  rewrite H2. set (x := (/ 2) ^ q) in *.
  assert (P : INR n * (x * / 4096) <= / 2 * x) by nra.
  assert (P0 : 0 <= INR n * (x * / 4096)) by (apply Rmult_le_pos; lra).
  eapply Rle_trans; [apply growth_bound; [lra|lra|lra]|].
  apply (Rmult_le_reg_r (1 - INR n * (x * / 4096))); [lra|]. unfold Rdiv. rewrite Rmult_assoc, Rinv_l by lra. rewrite Rmult_1_r. nra.
Qed.

Lemma shape_error : forall (T : Type) u, 0 <= u < 1 -> forall (norm : T -> R) (E S : scalar T R), valued E norm -> rounds u norm E S ->
  forall (X X' : externals R) wmod wmod' (O O' : operator T R) o o' deg pts ct (test trial test' trial' : fspace T R) relP rt rt' rt'' n P,
  shape_grid (fs_grid test) -> shape_grid (fs_grid trial) -> standard (fs_family test) -> standard (fs_family trial) ->
  legal_runtime (s_add S) rt -> legal_runtime (s_add E) rt' -> legal_runtime Rplus rt'' ->
  dense_setting X wmod O o deg pts ct test trial -> dense_setting X' wmod' O' o' deg pts ct test' trial' ->
  same_dofs test test' -> same_dofs trial trial' ->
  related_externals (real_close u n) (nonzero_close u n) (real_close u n) relP X X' ->
  related_kernel (close u norm E n) X X' O O' deg pts test trial ->
  related_basis (close u norm E n) relP O test test' -> related_basis (close u norm E n) relP O trial trial' ->
  related_form (close u norm E n) (op_integrand O) (op_integrand O') -> points_at_most X deg pts ct P ->
  exists m e a,
    assemble S X rt wmod O o trial test = Ok m /\ assemble E X' rt' wmod' O' o' trial' test' = Ok e /\
    assemble absolute X' rt'' wmod' (absolute_operator norm O') o' (absolute_space norm trial') (absolute_space norm test') = Ok a /\
    length e = length m /\ length a = length m /\
    forall k x y z, nth_error m k = Some x -> nth_error e k = Some y -> nth_error a k = Some z ->
      norm y <= z /\ norm (s_sub E x y) <= (growth u (roundings n (op_integrand O) + 4 * n + 40 + P) - 1) * z.
Proof.
  intros T u Hu norm E S Hv Hr X X' wmod wmod' O O' o o' deg pts ct test trial test' trial' relP rt rt' rt'' n P Gt Gs Ft Fs L1 L2 L3 D D' A1 A2 H1 H2 H3 H4 H5 H6.
  destruct (@rounding_error T u Hu norm E S Hv Hr X X' wmod wmod' O O' o o' deg pts ct test trial test' trial' relP rt rt' rt'' n P L1 L2 L3 D D' A1 A2 H1 H2 H3 H4 H5 H6)
    as (m & e & a & Em & Ee & Ea & Lm & Le & La & H).
  exists m, e, a. split; auto. split; auto. split; auto. split; auto. split; auto.
  intros k x y z Hx Hy Hz. set (r := global_size (fs_space test)) in *. set (c := global_size (fs_space trial)) in *.
  assert (Hk : (k < r * c)%nat) by (rewrite <- Lm; apply nth_error_Some; congruence).
  assert (Hr0 : r <> 0%nat) by nia.
  destruct (H (k mod r)%nat (k / r)%nat) as (ks & x' & y' & z' & N & Hks & Hx' & Hy' & Hz' & B1 & B2).
  { now apply Nat.mod_upper_bound. } { apply Nat.div_lt_upper_bound; auto. }
  replace (k mod r + r * (k / r))%nat with k in * by (rewrite (Nat.div_mod k r) at 1 by auto; lia).
  assert (x' = x) by congruence. assert (y' = y) by congruence. assert (z' = z) by congruence. subst x' y' z'.
  split; auto. eapply Rle_trans; [exact B2|]. assert (Lk := terms_bound test trial ct Gt Gs (dn_test _ _ _ _ _ _ _ _ _ D) (dn_trial _ _ _ _ _ _ _ _ _ D)
    (dn_test_type _ _ _ _ _ _ _ _ _ D) (dn_trial_type _ _ _ _ _ _ _ _ _ D) Ft Fs _ _ ks N Hks).
  apply Rmult_le_compat_r; [|].
  - eapply Rle_trans; [|exact B1]. eapply norm_pos; eauto.
  - apply Rplus_le_compat_r. apply growth_mono; auto. lia.
Qed.

Lemma shape_accuracy : forall u, 0 <= u < 1 -> forall (S : scalar R R), rounds u Rabs reals S ->
  forall (X X' : externals R) wmod wmod' (G G' : green) o o' deg pts ct (test trial test' trial' : fspace R R) relP rt rt' n P,
  shape_grid (fs_grid test) -> shape_grid (fs_grid trial) -> standard (fs_family test) -> standard (fs_family trial) ->
  legal_runtime (s_add S) rt -> legal_runtime Rplus rt' ->
  dense_setting X wmod (laplace_single_layer G) o deg pts ct test trial -> dense_setting X' wmod' (laplace_single_layer G') o' deg pts ct test' trial' ->
  same_dofs test test' -> same_dofs trial trial' ->
  related_externals (real_close u n) (nonzero_close u n) (real_close u n) relP X X' ->
  related_kernel (close u Rabs reals n) X X' (laplace_single_layer G) (laplace_single_layer G') deg pts test trial ->
  related_basis (close u Rabs reals n) relP (laplace_single_layer G) test test' -> related_basis (close u Rabs reals n) relP (laplace_single_layer G) trial trial' ->
  points_at_most X deg pts ct P ->
  positive_externals (Rle 0) X' -> (forall x y, 0 <= G' 0%nat x y) -> positive_basis (Rle 0) X' test' -> positive_basis (Rle 0) X' trial' ->
  exists m e,
    assemble S X rt wmod (laplace_single_layer G) o trial test = Ok m /\ assemble reals X' rt' wmod' (laplace_single_layer G') o' trial' test' = Ok e /\
    length e = length m /\
    forall k x y, nth_error m k = Some x -> nth_error e k = Some y -> 0 <= y /\ within_part (growth u (7 * n + 42 + P) - 1) x y.
Proof.
  intros u Hu S Hr X X' wmod wmod' G G' o o' deg pts ct test trial test' trial' relP rt rt' n P Gt Gs Ft Fs L1 L2 D D' A1 A2 H1 H2 H3 H4 H5 H6 H7 H8 H9.
  destruct (single_layer_accuracy u Hu S Hr X X' wmod wmod' G G' o o' deg pts ct test trial test' trial' relP rt rt' n P L1 L2 D D' A1 A2 H1 H2 H3 H4 H5 H6 H7 H8 H9)
    as (m & e & Em & Ee & Lm & Le & H).
  exists m, e. split; auto. split; auto. split; auto.
  intros k x y Hx Hy. set (r := global_size (fs_space test)) in *. set (c := global_size (fs_space trial)) in *.
  assert (Hk : (k < r * c)%nat) by (rewrite <- Lm; apply nth_error_Some; congruence).
  assert (Hr0 : r <> 0%nat) by nia.
  destruct (H (k mod r)%nat (k / r)%nat) as (ks & x' & y' & N & Hks & Hx' & Hy' & B1 & B2).
  { now apply Nat.mod_upper_bound. } { apply Nat.div_lt_upper_bound; auto. }
  replace (k mod r + r * (k / r))%nat with k in * by (rewrite (Nat.div_mod k r) at 1 by auto; lia).
  assert (x' = x) by congruence. assert (y' = y) by congruence. subst x' y'.
  split; auto. eapply Rle_trans; [exact B2|]. assert (Lk := terms_bound test trial ct Gt Gs (dn_test _ _ _ _ _ _ _ _ _ D) (dn_trial _ _ _ _ _ _ _ _ _ D)
    (dn_test_type _ _ _ _ _ _ _ _ _ D) (dn_trial_type _ _ _ _ _ _ _ _ _ D) Ft Fs _ _ ks N Hks).
  apply Rmult_le_compat_r; auto. apply Rplus_le_compat_r. apply growth_mono; auto. lia.
Qed.

Lemma shape_digits : forall p, (12 <= p)%nat ->
  forall (X X' : externals R) wmod wmod' (G G' : green) o o' deg pts ct (test trial test' trial' : fspace R R) relP rt rt' n P,
  shape_grid (fs_grid test) -> shape_grid (fs_grid trial) -> standard (fs_family test) -> standard (fs_family trial) ->
  legal_runtime (s_add (floats p)) rt -> legal_runtime Rplus rt' ->
  dense_setting X wmod (laplace_single_layer G) o deg pts ct test trial -> dense_setting X' wmod' (laplace_single_layer G') o' deg pts ct test' trial' ->
  same_dofs test test' -> same_dofs trial trial' ->
  related_externals (real_close ((/ 2) ^ p) n) (nonzero_close ((/ 2) ^ p) n) (real_close ((/ 2) ^ p) n) relP X X' ->
  related_kernel (close ((/ 2) ^ p) Rabs reals n) X X' (laplace_single_layer G) (laplace_single_layer G') deg pts test trial ->
  related_basis (close ((/ 2) ^ p) Rabs reals n) relP (laplace_single_layer G) test test' ->
  related_basis (close ((/ 2) ^ p) Rabs reals n) relP (laplace_single_layer G) trial trial' ->
  points_at_most X deg pts ct P -> (7 * n + 42 + P <= 2 ^ 11)%nat ->
  positive_externals (Rle 0) X' -> (forall x y, 0 <= G' 0%nat x y) -> positive_basis (Rle 0) X' test' -> positive_basis (Rle 0) X' trial' ->
  exists m e,
    assemble (floats p) X rt wmod (laplace_single_layer G) o trial test = Ok m /\ assemble reals X' rt' wmod' (laplace_single_layer G') o' trial' test' = Ok e /\
    length e = length m /\
    forall k x y, nth_error m k = Some x -> nth_error e k = Some y -> 0 <= y /\ within_part ((/ 2) ^ (p - 12)) x y.
Proof.
  intros p Hp X X' wmod wmod' G G' o o' deg pts ct test trial test' trial' relP rt rt' n P Gt Gs Ft Fs L1 L2 D D' A1 A2 H1 H2 H3 H4 H5 HP H6 H7 H8 H9.
  assert (Hu : 0 <= (/ 2) ^ p < 1).
  { destruct p as [|p]; [lia|]. split; [apply pow_le; lra|]. clear. cbn [pow]. assert (0 < (/ 2) ^ p <= 1); [|lra].
    split; [apply pow_lt; lra|]. induction p as [|p IH]; cbn [pow]; [lra|]. assert (0 < (/ 2) ^ p) by (apply pow_lt; lra). lra. }
  destruct (shape_accuracy _ Hu (floats p) (floats_round p) X X' wmod wmod' G G' o o' deg pts ct test trial test' trial' relP rt rt' n P Gt Gs Ft Fs L1 L2 D D' A1 A2 H1 H2 H3 H4 H5 H6 H7 H8 H9)
    as (m & e & Em & Ee & Le & H).
  exists m, e. split; auto. split; auto. split; auto. intros k x y Hx Hy. destruct (H k x y Hx Hy) as (A & B). split; auto.
  eapply Rle_trans; [exact B|]. apply Rmult_le_compat_r; auto. now apply growth_digits.
Qed.
