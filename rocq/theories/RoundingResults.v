(** * Rounding errors *)
From Coq Require Import Reals Lra Ring_theory Ring.
From Verif Require Import Base BaseFacts Topology TopologyFacts DofMap SpecDof DofMapFacts Process Space SpecSpace
  Options Adjacency SpecAdjacency AdjacencyFacts AdjacencyResults Scalar Integrand CellPair Operators SpecLocal LocalResults
  Interleave Assembly SpecAssembly AssemblyFacts AssemblyRaces AssemblySingular AssemblyDense AssemblyExact AssemblyResults AlgebraFacts SpecOrder OrderResults SpecTransfer TransferResults
  SpecScalars ScalarsResults SpecRounding GradedResults.
Local Open Scope R_scope.

(** ** Growth *)
Section Growth.
Context (u : R) (Hu : 0 <= u < 1).

Lemma growth_step : 1 + u <= / (1 - u).
Proof. apply Rmult_le_reg_r with (1 - u); [lra|]. rewrite Rinv_l by lra. nra. Qed.
Lemma growth_one : 1 <= / (1 - u).
Proof. pose proof growth_step. lra. Qed.
Lemma growth_add n m : growth u (n + m) = growth u n * growth u m.
Proof. apply pow_add. Qed.
Lemma growth_1 : growth u 1 = / (1 - u).
Proof. apply pow_1. Qed.
Lemma growth_ge n : 1 <= growth u n.
Proof. apply pow_R1_Rle. exact growth_one. Qed.
Lemma growth_mono n m : (n <= m)%nat -> growth u n <= growth u m.
Proof. intros H. apply Rle_pow; [exact growth_one|exact H]. Qed.

(** Factors close to one. *)
Definition near (n : nat) (theta : R) : Prop := / growth u n <= theta /\ theta <= growth u n.

Lemma near_pos n t : near n t -> 0 < t.
Proof. intros (A & _). pose proof (growth_ge n). apply Rlt_le_trans with (/ growth u n); [apply Rinv_0_lt_compat; lra|assumption]. Qed.
Lemma near_mul n m s t : near n s -> near m t -> near (n + m) (s * t).
Proof.
  intros Hs Ht. pose proof (near_pos _ _ Hs) as Ps. pose proof (near_pos _ _ Ht) as Pt. destruct Hs as (A & B), Ht as (C & D).
  pose proof (growth_ge n) as Gn. pose proof (growth_ge m) as Gm. split; rewrite growth_add.
  - rewrite Rinv_mult. assert (0 < / growth u n) by (apply Rinv_0_lt_compat; lra). assert (0 < / growth u m) by (apply Rinv_0_lt_compat; lra).
    apply Rmult_le_compat; lra.
  - apply Rmult_le_compat; lra.
Qed.
Lemma near_inv n t : near n t -> near n (/ t).
Proof.
  intros Ht. pose proof (near_pos _ _ Ht) as Pt. destruct Ht as (A & B). pose proof (growth_ge n) as G. split.
  - apply Rinv_le_contravar; lra.
  - rewrite <- (Rinv_inv (growth u n)). apply Rinv_le_contravar; [apply Rinv_0_lt_compat; lra|assumption].
Qed.
Lemma near_dist n t : near n t -> Rabs (t - 1) <= growth u n - 1.
Proof.
  intros (A & B). pose proof (growth_ge n) as G.
  assert (2 - growth u n <= / growth u n).
  { apply Rmult_le_reg_r with (growth u n); [lra|]. rewrite Rinv_l by lra. nra. }
  apply Rabs_le. lra.
Qed.
Lemma near_rounding d : Rabs d <= u -> near 1 (1 + d).
Proof.
  intros H. unfold near. rewrite growth_1, Rinv_inv. pose proof growth_step. assert (- u <= d <= u) by (revert H; unfold Rabs; destruct (Rcase_abs d); lra). lra.
Qed.

Lemma real_close_mul n m r r' s s' v : real_close u n r r' -> real_close u m s s' -> Rabs (v - r * s) <= u * Rabs (r * s) ->
  real_close u (n + m + 1) v (r' * s').
Proof.
  intros (t & -> & T) (w & -> & W) V.
  destruct (Req_dec (r' * t * (s' * w)) 0) as [Z|Z].
  - rewrite Z, Rabs_R0, Rmult_0_r in V. assert (v = 0). { revert V. unfold Rabs. destruct (Rcase_abs (v - 0)); lra. }
    exists (t * w * (1 + 0)). split.
    + rewrite H. replace (r' * s' * (t * w * (1 + 0))) with (r' * t * (s' * w)) by ring. auto.
    + apply near_mul; [now apply near_mul|]. apply near_rounding. rewrite Rabs_R0. lra.
  - set (d := (v - r' * t * (s' * w)) / (r' * t * (s' * w))). exists (t * w * (1 + d)). split.
    + assert (Z' : r' * t * (s' * w) * d = v - r' * t * (s' * w)) by (unfold d, Rdiv; rewrite <- Rmult_assoc, (Rmult_comm _ (v - _)), Rmult_assoc, Rinv_r by assumption; ring).
      replace (r' * s' * (t * w * (1 + d))) with (r' * t * (s' * w) + r' * t * (s' * w) * d) by ring. rewrite Z'. ring.
    + apply near_mul; [now apply near_mul|]. apply near_rounding. unfold d, Rdiv. rewrite Rabs_mult, Rabs_inv.
      apply Rmult_le_reg_r with (Rabs (r' * t * (s' * w))); [now apply Rabs_pos_lt|]. rewrite Rmult_assoc, Rinv_l by now apply Rabs_no_R0. lra.
Qed.
End Growth.

(** ** The exact number and the bound together *)
Section Errors.
Context {T : Type} (u : R) (Hu : 0 <= u < 1) (norm : T -> R) (E S : scalar T R) (V : valued E norm) (Q : rounds u norm E S).

Definition paired : scalar (T * R) R :=
  mkScalar (T * R) R (s_zero E, 0) (fun x y => (s_add E (fst x) (fst y), snd x + snd y)) (fun x y => (s_mul E (fst x) (fst y), snd x * snd y))
    (fun x y => (s_sub E (fst x) (fst y), snd x + snd y)) (fun x => (s_neg E (fst x), snd x)) (fun x y => (s_div E (fst x) (fst y), snd x / snd y))
    (r_zero E) Rmult (r_neg E) (fun r => (s_cast E r, Rabs r)) (fun _ => true).

Definition error (n : nat) (x : T) (ya : T * R) : Prop :=
  norm (fst ya) <= snd ya /\ norm (s_sub E x (fst ya)) <= (growth u n - 1) * snd ya.

Lemma norm_pos x : 0 <= norm x.
Proof.
  destruct (va_exact _ _ V) as ((one & RT) & _). pose proof (va_add _ _ V x (s_neg E x)) as H. rewrite (Ropp_def RT), (va_zero _ _ V), (va_neg _ _ V) in H. lra.
Qed.

Lemma norm_sub x y : norm (s_sub E x y) <= norm x + norm y.
Proof.
  destruct (va_exact _ _ V) as ((one & RT) & _). rewrite (Rsub_def RT). eapply Rle_trans; [apply (va_add _ _ V)|]. rewrite (va_neg _ _ V). lra.
Qed.

Section Identities.
Context (one : T) (RT : ring_theory (s_zero E) one (s_add E) (s_mul E) (s_sub E) (s_neg E) eq).
Add Ring T_ring : RT.
Lemma id_via x y z : s_sub E z y = s_add E (s_sub E z x) (s_sub E x y). Proof. ring. Qed.
Lemma id_add x x' y y' : s_sub E (s_add E x y) (s_add E x' y') = s_add E (s_sub E x x') (s_sub E y y'). Proof. ring. Qed.
Lemma id_sub x x' y y' : s_sub E (s_sub E x y) (s_sub E x' y') = s_sub E (s_sub E x x') (s_sub E y y'). Proof. ring. Qed.
Lemma id_mul x x' y y' : s_sub E (s_mul E x y) (s_mul E x' y') = s_add E (s_mul E (s_sub E x x') y) (s_mul E x' (s_sub E y y')). Proof. ring. Qed.
Lemma id_neg x y : s_sub E (s_neg E x) (s_neg E y) = s_neg E (s_sub E x y). Proof. ring. Qed.
Lemma id_back x y : x = s_add E (s_sub E x y) y. Proof. ring. Qed.
Lemma id_zero x : s_sub E x x = s_zero E. Proof. ring. Qed.
End Identities.

Lemma error_norm n x ya : error n x ya -> norm x <= growth u n * snd ya.
Proof.
  intros (A & B). destruct (va_exact _ _ V) as ((one & RT) & _). rewrite (id_back one RT x (fst ya)).
  eapply Rle_trans; [apply (va_add _ _ V)|]. lra.
Qed.

(** One more rounding. *)
Lemma error_round n z x ya : error n x ya -> norm (s_sub E z x) <= u * norm x -> error (n + 1) z ya.
Proof.
  intros H B. pose proof (error_norm _ _ _ H) as N. destruct H as (A & C). split; [assumption|].
  destruct (va_exact _ _ V) as ((one & RT) & _). rewrite (id_via one RT x (fst ya) z).
  eapply Rle_trans; [apply (va_add _ _ V)|]. rewrite growth_add, growth_1.
  pose proof (growth_step u Hu) as G. pose proof (growth_ge u Hu n) as G'. pose proof (norm_pos (fst ya)) as P.
  assert (u * norm x <= u * (growth u n * snd ya)) by (apply Rmult_le_compat_l; lra).
  assert (growth u n * (1 + u) * snd ya <= growth u n * / (1 - u) * snd ya) by (apply Rmult_le_compat_r; [lra|]; apply Rmult_le_compat_l; lra). nra.
Qed.

Lemma error_mul n m x xa y ya : error n x xa -> error m y ya -> error (n + m) (s_mul E x y) (s_mul paired xa ya).
Proof.
  intros H K. pose proof (error_norm _ _ _ K) as N. destruct H as (A & B), K as (C & D).
  destruct (va_exact _ _ V) as ((one & RT) & _). pose proof (norm_pos (fst xa)) as P. pose proof (norm_pos (fst ya)) as P'. pose proof (norm_pos y) as Py.
  pose proof (norm_pos (s_sub E x (fst xa))) as P1. pose proof (norm_pos (s_sub E y (fst ya))) as P2.
  unfold error. cbn [paired s_mul fst snd]. split.
  - rewrite (va_mul _ _ V). apply Rmult_le_compat; lra.
  - rewrite (id_mul one RT). eapply Rle_trans; [apply (va_add _ _ V)|]. rewrite !(va_mul _ _ V), growth_add.
    pose proof (growth_ge u Hu n) as G. pose proof (growth_ge u Hu m) as G'.
    assert (norm (s_sub E x (fst xa)) * norm y <= (growth u n - 1) * snd xa * (growth u m * snd ya)) by (apply Rmult_le_compat; lra).
    assert (norm (fst xa) * norm (s_sub E y (fst ya)) <= snd xa * ((growth u m - 1) * snd ya)) by (apply Rmult_le_compat; lra).
    nra.
Qed.

Lemma error_cast n r r' : real_close u n r r' -> error n (s_cast E r) (s_cast paired r').
Proof.
  intros (t & -> & Ht). unfold error. cbn [paired s_cast fst snd]. rewrite (va_cast _ _ V). split; [lra|].
  rewrite <- (va_cast_sub _ _ V), (va_cast _ _ V). replace (r' * t - r') with ((t - 1) * r') by ring. rewrite Rabs_mult.
  apply Rmult_le_compat_r; [apply Rabs_pos|]. now apply near_dist.
Qed.

Lemma real_close_inv n r r' : nonzero_close u n r r' -> r <> 0 /\ real_close u n (/ r) (/ r').
Proof.
  intros ((t & -> & Ht) & Nz). pose proof (near_pos u Hu _ _ Ht) as P. split; [apply Rmult_integral_contrapositive; split; lra|].
  exists (/ t). split; [apply Rinv_mult|]. exact (near_inv u Hu _ _ Ht).
Qed.

Lemma error_mono n m x ya : (n <= m)%nat -> error n x ya -> error m x ya.
Proof.
  intros L (A & B). split; [assumption|]. pose proof (norm_pos (fst ya)). pose proof (growth_mono u Hu n m L).
  eapply Rle_trans; [exact B|]. apply Rmult_le_compat_r; lra.
Qed.

Lemma error_graded : graded error (real_close u) (nonzero_close u) (real_close u) S paired.
Proof.
  destruct (va_exact _ _ V) as ((one & RT) & _). constructor.
  - apply error_mono.
  - unfold error. cbn [paired s_zero fst snd]. rewrite (ru_zero _ _ _ _ Q), (id_zero one RT), (va_zero _ _ V). lra.
  - intros n x xa y ya (A & B) (C & D). apply error_round with (s_add E x y); [|apply (ru_add _ _ _ _ Q)].
    unfold error. cbn [paired s_add fst snd]. split.
    + eapply Rle_trans; [apply (va_add _ _ V)|]. lra.
    + rewrite (id_add one RT). eapply Rle_trans; [apply (va_add _ _ V)|]. lra.
  - intros n x xa y ya (A & B) (C & D). apply error_round with (s_sub E x y); [|apply (ru_sub _ _ _ _ Q)].
    unfold error. cbn [paired s_sub fst snd]. split.
    + eapply Rle_trans; [apply norm_sub|]. lra.
    + rewrite (id_sub one RT). eapply Rle_trans; [apply norm_sub|]. lra.
  - intros n m x xa y ya H K. apply error_round with (s_mul E x y); [|apply (ru_mul _ _ _ _ Q)]. now apply error_mul.
  - intros n x xa (A & B). unfold error. cbn [paired s_neg fst snd]. rewrite (ru_neg _ _ _ _ Q), (va_neg _ _ V), (id_neg one RT), (va_neg _ _ V). auto.
  - intros n m x xa r r' H K. destruct (real_close_inv _ _ _ K) as (Nz & Ri). destruct K as (K & Nz').
    apply error_round with (s_div E x (s_cast E r)); [|now apply (ru_div _ _ _ _ Q)].
    pose proof (error_mul n m x xa _ _ H (error_cast m _ _ Ri)) as M. cbn [paired s_mul s_cast s_div fst snd] in *.
    unfold error in *. cbn [fst snd] in *. rewrite !(va_div _ _ V) by assumption. rewrite Rabs_inv in M. exact M.
  - intros n r r' H. rewrite (ru_cast _ _ _ _ Q). now apply error_cast.
  - intros n r r' H. rewrite (ru_cast _ _ _ _ Q). now apply error_cast.
  - intros n m r r' s s' H K. cbn [paired r_mul]. apply (real_close_mul u Hu n m r r' s s'); auto. apply (ru_real_mul _ _ _ _ Q).
  - intros n r r' (K & _). exact K.
Qed.

(** ** Projections *)
Definition with_bound (y : T) : T * R := (y, norm y).

Definition paired_operator (O : operator T R) : operator (T * R) R :=
  mkOperator (map_integrand with_bound (op_integrand O)) (mkKernel (kn_type (op_kernel O)) (fun i x y => with_bound (kn_value (op_kernel O) i x y)))
    (op_deriv_size O) (op_table_derivs O).
Definition paired_space (fs : fspace T R) : fspace (T * R) R :=
  mkFspace (T * R) R (fs_grid fs) (fs_family fs) (fs_processes fs) (fs_space fs) (fs_components fs)
    (fun t points d p b j => with_bound (fs_basis fs t points d p b j)).

Lemma map_map_integrand {A B C : Type} (f : A -> B) (g : B -> C) i : map_integrand g (map_integrand f i) = map_integrand (fun x => g (f x)) i.
Proof. induction i; cbn; congruence. Qed.
Lemma map_id_integrand {A : Type} (i : integrand A) : map_integrand (fun x => x) i = i.
Proof. induction i; cbn; congruence. Qed.
Lemma kernel_used_map {A B : Type} (f : A -> B) i : kernel_used (map_integrand f i) = kernel_used i.
Proof. induction i; cbn; congruence. Qed.
Lemma derivs_used_map {A B : Type} (f : A -> B) i : derivs_used (map_integrand f i) = derivs_used i.
Proof. induction i; cbn; congruence. Qed.

Lemma fst_map : scalar_map paired E fst.
Proof. constructor; try reflexivity. intros a b. cbn. now rewrite (va_real_mul _ _ V). Qed.
Lemma snd_map : scalar_map paired absolute snd.
Proof. constructor; reflexivity. Qed.

Lemma fitting_map {B : Type} (O : operator T R) (O' : operator B R) : kernel_used (op_integrand O') = kernel_used (op_integrand O) ->
  derivs_used (op_integrand O') = derivs_used (op_integrand O) -> kn_type (op_kernel O') = kn_type (op_kernel O) ->
  op_deriv_size O' = op_deriv_size O -> op_table_derivs O' = op_table_derivs O -> fitting O -> fitting O'.
Proof. unfold fitting. intros -> -> -> -> ->. auto. Qed.

Lemma related_with_bound n f f' : related_form (close u norm E n) f f' -> related_form (error n) f (map_integrand with_bound f').
Proof.
  revert f'. induction f; intros f' H; destruct f'; cbn [related_form map_integrand] in *; try contradiction; auto.
  - destruct H. split; auto.
  - destruct H as (H & K). split; auto. split; [apply Rle_refl|exact H].
Qed.

Theorem rounding_error (X X' : externals R) wmod wmod' (O O' : operator T R) o o' deg pts ct (test trial test' trial' : fspace T R) relP rt rt' rt'' n P :
  legal_runtime (s_add S) rt -> legal_runtime (s_add E) rt' -> legal_runtime Rplus rt'' ->
  dense_setting X wmod O o deg pts ct test trial -> dense_setting X' wmod' O' o' deg pts ct test' trial' ->
  same_dofs test test' -> same_dofs trial trial' ->
  related_externals (real_close u n) (nonzero_close u n) (real_close u n) relP X X' ->
  related_kernel (close u norm E n) X X' O O' deg pts test trial ->
  related_basis (close u norm E n) relP O test test' -> related_basis (close u norm E n) relP O trial trial' ->
  related_form (close u norm E n) (op_integrand O) (op_integrand O') -> points_at_most X deg pts ct P ->
  exists m e a,
    assemble S X rt wmod O o trial test = Ok m /\ assemble E X' rt' wmod' O' o' trial' test' = Ok e /\
    assemble absolute X' rt'' wmod' (absolute_operator norm O') o' (absolute_space norm trial') (absolute_space norm test') = Ok a /\
    length m = (global_size (fs_space test) * global_size (fs_space trial))%nat /\ length e = length m /\ length a = length m /\
    forall i j, (i < global_size (fs_space test))%nat -> (j < global_size (fs_space trial))%nat ->
      exists ks x y z, NoDup ks /\ (forall k, In k ks <-> contributes test trial i j k) /\
        nth_error m (i + global_size (fs_space test) * j) = Some x /\ nth_error e (i + global_size (fs_space test) * j) = Some y /\
        nth_error a (i + global_size (fs_space test) * j) = Some z /\ norm y <= z /\
        norm (s_sub E x y) <= (growth u (roundings n (op_integrand O) + 4 * n + 4 + P + length ks) - 1) * z.
Proof.
  intros L L' L'' D D' Dt Ds HX HK Bt Bs HI (HP & HQ).
  assert (Fo := dn_fitting _ _ _ _ _ _ _ _ _ D').
  assert (FP : fitting (paired_operator O')) by (apply (fitting_map O'); cbn; auto using kernel_used_map, derivs_used_map).
  assert (FA : fitting (absolute_operator norm O')) by (apply (fitting_map O'); cbn; auto using kernel_used_map, derivs_used_map).
  assert (Mw : forall fs, mapped_space with_bound fs (paired_space fs)) by (intros fs; constructor; reflexivity).
  assert (DP : dense_setting X' wmod' (paired_operator O') o' deg pts ct (paired_space test') (paired_space trial'))
    by (exact (mapped_setting with_bound X' wmod' O' (paired_operator O') o' deg pts ct test' trial' _ _ (Mw test') (Mw trial') FP D')).
  destruct (change_of_scalars paired E fst X' wmod' (paired_operator O') O' o' deg pts ct (paired_space test') (paired_space trial') test' trial'
    (sequential (s_add paired)) rt') as (mp & E1 & E2); auto using fst_map, sequential_legal.
  { cbn [paired_operator op_integrand]. rewrite map_map_integrand. symmetry. apply map_id_integrand. }
  { intros i x y. reflexivity. }
  { constructor; reflexivity. } { constructor; reflexivity. }
  destruct (change_of_scalars paired absolute snd X' wmod' (paired_operator O') (absolute_operator norm O') o' deg pts ct (paired_space test') (paired_space trial')
    (absolute_space norm test') (absolute_space norm trial') (sequential (s_add paired)) rt'') as (mp' & E3 & E4); auto using snd_map, sequential_legal.
  { cbn [paired_operator absolute_operator op_integrand]. rewrite map_map_integrand. reflexivity. }
  { intros i x y. reflexivity. }
  { constructor; reflexivity. } { constructor; reflexivity. }
  assert (mp' = mp) by congruence. subst mp'.
  destruct (graded_matrix error (real_close u) (nonzero_close u) (real_close u) relP S paired error_graded) with (X := X) (X' := X') (wmod := wmod) (wmod' := wmod')
    (O := O) (O' := paired_operator O') (o := o) (o' := o') (deg := deg) (pts := pts) (ct := ct) (n := n) (P := P)
    (test := test) (trial := trial) (test' := paired_space test') (trial' := paired_space trial') (rt := rt) (rt' := sequential (s_add paired))
    as (m & mp' & F1 & F2 & F3 & F4 & F5); auto using sequential_legal.
  - destruct HK as [K1 K2]. constructor.
    + intros. cbn zeta. split; [apply Rle_refl|]. cbn [with_bound fst snd paired_operator op_kernel kn_value]. eapply K1; eauto.
    + intros. cbn zeta. split; [apply Rle_refl|]. cbn [with_bound fst snd paired_operator op_kernel kn_value]. eapply K2; eauto.
  - intros t points points' d p b Hr Hp Hd Hb. split; [apply Rle_refl|]. cbn [with_bound fst snd paired_space fs_basis]. now apply Bt.
  - intros t points points' d p b Hr Hp Hd Hb. split; [apply Rle_refl|]. cbn [with_bound fst snd paired_space fs_basis]. now apply Bs.
  - now apply related_with_bound.
  - assert (mp' = mp) by congruence. subst mp'. exists m, (map fst mp), (map snd mp).
    split; [exact F1|]. split; [exact E2|]. split; [exact E4|]. split; [exact F3|]. rewrite !map_length. split; [exact F4|]. split; [exact F4|].
    intros i j Hi Hj. destruct (F5 i j Hi Hj) as (ks & x & [y z] & N & I & A1 & A2 & (A3 & A4)).
    exists ks, x, y, z. split; [exact N|]. split; [exact I|]. split; [exact A1|].
    split; [now rewrite nth_error_map, A2|]. split; [now rewrite nth_error_map, A2|]. split; [exact A3|]. exact A4.
Qed.
End Errors.
