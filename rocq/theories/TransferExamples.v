(** * Related arithmetics: examples *)
From Coq Require Import QArith Qcanon.
From Verif Require Import Base Topology DofMap Space Options Adjacency SpecAdjacency Scalar Integrand CellPair Operators SpecLocal LocalResults Interleave Assembly SpecAssembly
  LocalExamples AssemblyResults AssemblyExamples AlgebraExamples SpecOrder OrderResults SpecTransfer TransferResults.

Local Open Scope nat_scope.

Definition nonneg (x : Qc) : Prop := (0 <= x)%Qc.

Lemma nonneg_add x y : nonneg x -> nonneg y -> nonneg (x + y)%Qc.
Proof. unfold nonneg. intros Hx Hy. replace 0%Qc with (0 + 0)%Qc by reflexivity. now apply Qcplus_le_compat. Qed.
Lemma nonneg_mul x y : nonneg x -> nonneg y -> nonneg (x * y)%Qc.
Proof. unfold nonneg. intros Hx Hy. replace 0%Qc with (0 * y)%Qc by ring. now apply Qcmult_le_compat_r. Qed.
Lemma nonneg_square x : nonneg (x * x)%Qc.
Proof.
  destruct (Qclt_le_dec x 0) as [N|P]; [|now apply nonneg_mul].
  replace (x * x)%Qc with ((- x) * (- x))%Qc by ring.
  assert (Q : nonneg (- x)%Qc) by (unfold nonneg; replace 0%Qc with (- 0)%Qc by reflexivity; apply Qcopp_le_compat, Qclt_le_weak, N). now apply nonneg_mul.
Qed.
Lemma nonneg_z n : nonneg (qz (Z.of_nat n)).
Proof. unfold nonneg, qz, Qcle. cbn [this Q2Qc]. rewrite !Qred_correct. unfold Qle. cbn. lia. Qed.

Lemma nonneg_signs : closed_signs qc_scalar nonneg nonneg.
Proof.
  constructor; cbn; auto using nonneg_add, nonneg_mul. apply (nonneg_z 0).
Qed.

Lemma nonneg_externals : positive_externals nonneg demo_externals.
Proof.
  constructor.
  - intros t n q E. injection E as <-. cbn [qd_weights]. apply Forall_forall. intros x Hx. apply in_map_iff in Hx. destruct Hx as (k & <- & _). apply nonneg_z.
  - intros k d p n q E. injection E as <-. cbn [pq_weights]. apply Forall_forall. intros x Hx. apply in_map_iff in Hx. destruct Hx as (j & <- & _). apply nonneg_z.
  - intros g t points c p _ _ _. apply nonneg_z.
Qed.

Lemma nonneg_points points x : rule_points demo_externals points -> In x points -> nonneg x.
Proof.
  intros [(t & n & q & E & ->)|(k & d & p & n & q & E & [-> | ->])]; injection E as <-; cbn [qd_points pq_test pq_trial]; intros Hx;
    apply in_map_iff in Hx; destruct Hx as (j & <- & _); apply nonneg_z.
Qed.

Lemma nonneg_basis g fam : positive_basis nonneg demo_externals (make_space g fam).
Proof.
  intros t points p b Hr Hp _. cbn [make_space fs_basis]. apply nonneg_add; [apply nonneg_z|]. apply (nonneg_points _ _ Hr). now apply nth_In.
Qed.

Lemma nonneg_green x y : nonneg (demo_green 0 x y).
Proof. destruct x as [[a b] c], y as [[d e] f]. cbn [demo_green]. repeat apply nonneg_add; try apply nonneg_square. apply (nonneg_z 1). Qed.

Lemma single_dense : dense_setting demo_externals 256 (laplace_single_layer demo_green) demo_options (fun _ _ => 2) (fun _ => 2) Triangle screen2_p1 screen2_dp0.
Proof.
  destruct demo_dense as [A1 A2 A3 A4 A5 A6 A7 A8 A9 A10 A11 A12 A13 A14 A15 A16 A17]. constructor; auto. apply (shipped_fitting qc_scalar). constructor.
Qed.

Definition single_matrix : list Qc :=
  match assemble qc_scalar demo_externals demo_rt 256 (laplace_single_layer demo_green) demo_options screen2_dp0 screen2_p1 with Ok m => m | _ => [] end.

Lemma single_summary : (length single_matrix, forallb (fun x => Qle_bool (1 # 1) (this x)) single_matrix) = (72, true).
Proof. vm_compute. reflexivity. Qed.

(** Numbers that are not negative, and larger ones. *)
Definition below (x y : Qc) : Prop := nonneg x /\ (x <= y)%Qc.

Lemma below_refl x : nonneg x -> below x x.
Proof. intros H. split; [assumption|apply Qcle_refl]. Qed.

Lemma below_add x x' y y' : below x x' -> below y y' -> below (x + y)%Qc (x' + y')%Qc.
Proof. intros (A & B) (C & D). split; [now apply nonneg_add|now apply Qcplus_le_compat]. Qed.

Lemma below_mul x x' y y' : below x x' -> below y y' -> below (x * y)%Qc (x' * y')%Qc.
Proof.
  intros (A & B) (C & D). split; [now apply nonneg_mul|].
  apply Qcle_trans with (x' * y)%Qc; [now apply Qcmult_le_compat_r|]. rewrite (Qcmult_comm x' y), (Qcmult_comm x' y').
  apply Qcmult_le_compat_r; [assumption|exact (Qcle_trans _ _ _ A B)].
Qed.

Definition raised_green (i : nat) (x y : Qc * Qc * Qc) : Qc := (demo_green i x y + 1)%Qc.

Definition demo_points (p p' : list Qc) : Prop := p = p' /\ rule_points demo_externals p.

Definition raised_matrix : list Qc :=
  match assemble qc_scalar demo_externals demo_rt 256 (laplace_single_layer raised_green) demo_options screen2_dp0 screen2_p1 with Ok m => m | _ => [] end.

Lemma Forall2_refl {A : Type} (P : A -> A -> Prop) (l : list A) : (forall x, In x l -> P x x) -> Forall2 P l l.
Proof. induction l; intros H; constructor; [apply H; now left|apply IHl; intros; apply H; now right]. Qed.

Lemma transfer_example :
  related_arithmetic below below below qc_scalar qc_scalar /\
  related_externals below below (fun _ _ => True) demo_points demo_externals demo_externals /\
  related_kernel below demo_externals demo_externals (laplace_single_layer demo_green) (laplace_single_layer raised_green) (fun _ _ => 2) (fun _ => 2) screen2_p1 screen2_dp0 /\
  related_basis below demo_points (laplace_single_layer demo_green) screen2_p1 screen2_p1 /\
  related_basis below demo_points (laplace_single_layer demo_green) screen2_dp0 screen2_dp0 /\
  related_integrand below below (fun _ _ => True) qc_scalar qc_scalar SingleLayer SingleLayer /\
  dense_setting demo_externals 256 (laplace_single_layer demo_green) demo_options (fun _ _ => 2) (fun _ => 2) Triangle screen2_p1 screen2_dp0 /\
  dense_setting demo_externals 256 (laplace_single_layer raised_green) demo_options (fun _ _ => 2) (fun _ => 2) Triangle screen2_p1 screen2_dp0 /\
  (length single_matrix, length raised_matrix, forallb (fun xy => Qle_bool (this (fst xy) + 1) (this (snd xy))) (combine single_matrix raised_matrix)) = (72, 72, true).
Proof.
  assert (B : forall g fam, related_basis below demo_points (laplace_single_layer demo_green) (make_space g fam) (make_space g fam)).
  { intros g fam t points points' d p b (<- & Hr) Hp Hd Hb. change (d < 1) in Hd. replace d with 0 by lia. apply below_refl. now apply nonneg_basis. }
  assert (K : forall n x y, n < 1 -> below (demo_green n x y) (raised_green n x y)).
  { intros n x y Hn. replace n with 0 by lia. split; [apply nonneg_green|]. unfold raised_green.
    rewrite <- (Qcplus_0_r (demo_green 0 x y)) at 1. apply Qcplus_le_compat; [apply Qcle_refl|exact (nonneg_z 1)]. }
  split; [|split; [|split; [|split; [|split; [|split; [|split; [|split]]]]]]].
  - constructor; cbn; auto using below_add, below_mul. apply below_refl, (nonneg_z 0).
  - constructor.
    + intros t n q q' E E'. assert (q' = q) by congruence. subst q'. split; [split; [reflexivity|left; eauto 6]|].
      apply Forall2_refl. intros x Hx. apply below_refl. revert x Hx. apply Forall_forall. exact (px_simplex _ _ nonneg_externals _ _ _ E).
    + intros k d p n q q' E E'. assert (q' = q) by congruence. subst q'. split; [split; [reflexivity|right; eauto 10]|]. split; [split; [reflexivity|right; eauto 10]|].
      apply Forall2_refl. intros x Hx. apply below_refl. revert x Hx. apply Forall_forall. exact (px_duffy _ _ nonneg_externals _ _ _ _ _ E).
    + intros g t points points' c p (<- & Hr) Hp Hc. split; [auto|]. split; [auto|]. apply below_refl. now apply (px_geometry _ _ nonneg_externals).
  - constructor.
    + intros t s qt qt' qs qs' p q n tt st _ _ _ E1 E2 E3 E4 _ _ Hn. assert (qt' = qt) by congruence. assert (qs' = qs) by congruence. subst qt' qs'. now apply K.
    + intros t s pairs kind dim q q' p n g tt st _ _ _ _ _ _ E1 E2 _ Hn. assert (q' = q) by congruence. subst q'. now apply K.
  - apply B.
  - apply B.
  - intros k k' phi phi' psi psi' x x' p y y' q Hk Hp Hq _ _. cbn [integrand_value]. change (deriv_count (derivs_used SingleLayer)) with 1 in *. cbn [kernel_used] in *.
    apply below_mul; [apply below_mul|]; auto.
  - exact single_dense.
  - destruct single_dense as [A1 A2 A3 A4 A5 A6 A7 A8 A9 A10 A11 A12 A13 A14 A15 A16 A17]. constructor; auto.
  - vm_compute. reflexivity.
Qed.

Lemma signs_example :
  closed_signs qc_scalar nonneg nonneg /\ positive_externals nonneg demo_externals /\ (forall x y, nonneg (demo_green 0 x y)) /\
  positive_basis nonneg demo_externals screen2_p1 /\ positive_basis nonneg demo_externals screen2_dp0 /\
  dense_setting demo_externals 256 (laplace_single_layer demo_green) demo_options (fun _ _ => 2) (fun _ => 2) Triangle screen2_p1 screen2_dp0 /\
  (length single_matrix, forallb (fun x => Qle_bool (1 # 1) (this x)) single_matrix) = (72, true).
Proof.
  split; [exact nonneg_signs|]. split; [exact nonneg_externals|]. split; [exact nonneg_green|]. split; [apply nonneg_basis|].
  split; [apply nonneg_basis|]. split; [exact single_dense|exact single_summary].
Qed.
