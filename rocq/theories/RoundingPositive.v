(** * Rounding errors without cancellation *)
From Coq Require Import Reals Lra.
From Verif Require Import Base BaseFacts Topology DofMap Process Space Options Adjacency SpecAdjacency Scalar Integrand CellPair Operators SpecLocal LocalResults
  Interleave Assembly SpecAssembly AssemblyResults SpecOrder OrderResults SpecTransfer TransferResults SpecScalars ScalarsResults SpecRounding GradedResults RoundingResults RoundingModels.
Local Open Scope R_scope.

Definition same_positive (x y : R) : Prop := x = y /\ 0 <= x.

Lemma same_arithmetic : related_arithmetic same_positive same_positive same_positive reals absolute.
Proof.
  constructor; cbn [reals absolute s_zero s_add s_mul s_cast r_mul]; unfold same_positive.
  - split; [reflexivity|apply Rle_refl].
  - intros x x' y y' (<- & A) (<- & B). split; [reflexivity|lra].
  - intros x x' y y' (<- & A) (<- & B). split; [reflexivity|now apply Rmult_le_pos].
  - intros r r' (<- & A). split; [symmetry; apply Rabs_right; lra|assumption].
  - intros x x' y y' (<- & A) (<- & B). split; [reflexivity|now apply Rmult_le_pos].
  - auto.
Qed.

Lemma same_positive_Rabs x : 0 <= x -> same_positive x (Rabs x).
Proof. intros H. split; [symmetry; apply Rabs_right; lra|assumption]. Qed.

(** Without negative data, the matrix of absolute values is the matrix. *)
Theorem positive_absolute (X : externals R) wmod (G : green) o deg pts ct (test trial : fspace R R) rt rt' :
  legal_runtime Rplus rt -> legal_runtime Rplus rt' -> dense_setting X wmod (laplace_single_layer G) o deg pts ct test trial ->
  positive_externals (Rle 0) X -> (forall x y, 0 <= G 0%nat x y) -> positive_basis (Rle 0) X test -> positive_basis (Rle 0) X trial ->
  exists e, assemble reals X rt wmod (laplace_single_layer G) o trial test = Ok e /\ Forall (Rle 0) e /\
    assemble absolute X rt' wmod (absolute_operator Rabs (laplace_single_layer G)) o (absolute_space Rabs trial) (absolute_space Rabs test) = Ok e.
Proof.
  intros L L' D HX HK Bt Bs.
  set (relP := fun p p' : list R => p = p' /\ rule_points X p).
  assert (FA : fitting (absolute_operator Rabs (laplace_single_layer G))) by (apply (fitting_map (laplace_single_layer G)); auto; apply (dn_fitting _ _ _ _ _ _ _ _ _ D)).
  assert (Mw : forall fs, mapped_space Rabs fs (absolute_space Rabs fs)) by (intros fs; constructor; reflexivity).
  pose proof (mapped_setting Rabs X wmod _ (absolute_operator Rabs (laplace_single_layer G)) o deg pts ct test trial _ _ (Mw test) (Mw trial) FA D) as DA.
  assert (B : forall fs, positive_basis (Rle 0) X fs -> related_basis same_positive relP (laplace_single_layer G) fs (absolute_space Rabs fs)).
  { intros fs P t points points' d p b (<- & Rp) Hp Hl Hb. change (d < 1)%nat in Hl. replace d with 0%nat by lia. apply same_positive_Rabs. now apply P. }
  destruct (transfer_matrix same_positive same_positive same_positive (fun _ _ => True) relP reals absolute same_arithmetic) with (X := X) (X' := X) (wmod := wmod) (wmod' := wmod)
    (O := laplace_single_layer G) (O' := absolute_operator Rabs (laplace_single_layer G)) (o := o) (o' := o)
    (deg := deg) (pts := pts) (ct := ct) (test := test) (trial := trial) (test' := absolute_space Rabs test) (trial' := absolute_space Rabs trial) (rt := rt) (rt' := rt')
    as (m & m' & E & E' & F); auto.
  - repeat split.
  - repeat split.
  - constructor.
    + intros t n q q' E1 E2. assert (q' = q) by congruence. subst q'. split; [split; [reflexivity|left; eauto 6]|].
      apply Forall2_same. eapply (px_simplex _ _ HX); eauto.
    + intros k d p n q q' E1 E2. assert (q' = q) by congruence. subst q'. split; [split; [reflexivity|right; eauto 10]|].
      split; [split; [reflexivity|right; eauto 10]|]. apply Forall2_same. eapply (px_duffy _ _ HX); eauto.
    + intros g t points points' c p (<- & Rp) Hp Hc. split; [auto|]. split; [auto|]. split; [reflexivity|now apply (px_geometry _ _ HX)].
  - constructor.
    + intros t s qt qt' qs qs' p q n tt st _ _ _ E1 E2 E3 E4 _ _ Hn. assert (qt' = qt) by congruence. assert (qs' = qs) by congruence. subst qt' qs'.
      change (n < 1)%nat in Hn. replace n with 0%nat by lia. apply same_positive_Rabs. apply HK.
    + intros t s pairs kind dim q q' p n g tt st _ _ _ _ _ _ E1 E2 _ Hn. assert (q' = q) by congruence. subst q'.
      change (n < 1)%nat in Hn. replace n with 0%nat by lia. apply same_positive_Rabs. apply HK.
  - intros k k' phi phi' psi psi' x x' p y y' q Hk0 Hp Hq _ _. cbn [integrand_value laplace_single_layer op_integrand absolute_operator map_integrand] in *.
    change (deriv_count (derivs_used SingleLayer)) with 1%nat in *. change (kernel_used SingleLayer) with 1%nat in *.
    apply (ra_mul _ _ _ _ _ same_arithmetic); [apply (ra_mul _ _ _ _ _ same_arithmetic)|]; auto.
  - exists m. split; [assumption|]. assert (m' = m /\ Forall (Rle 0) m) as (-> & Fm).
    { clear - F. induction F as [|x x' l l' (<- & Px) F IH]; [split; constructor|]. destruct IH as (-> & IH). split; [reflexivity|constructor; auto]. }
    split; assumption.
Qed.

Theorem single_layer_accuracy u (Hu : 0 <= u < 1) (S : scalar R R) (Q : rounds u Rabs reals S)
    (X X' : externals R) wmod wmod' (G G' : green) o o' deg pts ct (test trial test' trial' : fspace R R) relP rt rt' n P :
  legal_runtime (s_add S) rt -> legal_runtime Rplus rt' ->
  dense_setting X wmod (laplace_single_layer G) o deg pts ct test trial -> dense_setting X' wmod' (laplace_single_layer G') o' deg pts ct test' trial' ->
  same_dofs test test' -> same_dofs trial trial' ->
  related_externals (real_close u n) (nonzero_close u n) (real_close u n) relP X X' ->
  related_kernel (close u Rabs reals n) X X' (laplace_single_layer G) (laplace_single_layer G') deg pts test trial ->
  related_basis (close u Rabs reals n) relP (laplace_single_layer G) test test' -> related_basis (close u Rabs reals n) relP (laplace_single_layer G) trial trial' ->
  points_at_most X deg pts ct P ->
  positive_externals (Rle 0) X' -> (forall x y, 0 <= G' 0%nat x y) -> positive_basis (Rle 0) X' test' -> positive_basis (Rle 0) X' trial' ->
  exists m e,
    assemble S X rt wmod (laplace_single_layer G) o trial test = Ok m /\ assemble reals X' rt' wmod' (laplace_single_layer G') o' trial' test' = Ok e /\
    length m = (global_size (fs_space test) * global_size (fs_space trial))%nat /\ length e = length m /\
    forall i j, (i < global_size (fs_space test))%nat -> (j < global_size (fs_space trial))%nat ->
      exists ks x y, NoDup ks /\ (forall k, In k ks <-> contributes test trial i j k) /\
        nth_error m (i + global_size (fs_space test) * j) = Some x /\ nth_error e (i + global_size (fs_space test) * j) = Some y /\ 0 <= y /\
        Rabs (x - y) <= (growth u (7 * n + 6 + P + length ks) - 1) * y.
Proof.
  intros L L' D D' Dt Ds HX HK Bt Bs HP PX PK Pt Ps.
  destruct (positive_absolute X' wmod' G' o' deg pts ct test' trial' rt' (sequential Rplus)) as (e' & E1 & Pe & E2); auto using sequential_legal.
  destruct (rounding_error u Hu Rabs reals S reals_valued Q X X' wmod wmod' (laplace_single_layer G) (laplace_single_layer G') o o' deg pts ct test trial test' trial' relP
    rt rt' (sequential Rplus) n P) as (m & e & a & A1 & A2 & A3 & A4 & A5 & A6 & A7); auto.
  { exact (sequential_legal Rplus). } { exact I. }
  assert (e' = e) by congruence. subst e'. assert (a = e) by congruence. subst a.
  exists m, e. repeat (split; [assumption|]). intros i j Hi Hj. destruct (A7 i j Hi Hj) as (ks & x & y & z & N & I & B1 & B2 & B3 & B4 & B5).
  assert (z = y) by congruence. subst z. exists ks, x, y. split; [exact N|]. split; [exact I|]. split; [exact B1|]. split; [exact B2|]. split.
  - rewrite Forall_forall in Pe. apply Pe. eapply nth_error_In; eauto.
  - replace (7 * n + 6 + P + length ks)%nat with (roundings n (op_integrand (laplace_single_layer G)) + 4 * n + 4 + P + length ks)%nat; [exact B5|].
    cbn [laplace_single_layer op_integrand roundings]. lia.
Qed.
