(** * Rounding errors: examples *)
From Coq Require Import Reals Lra.
From Verif Require Import Base BaseFacts Topology DofMap SpecDof DofExamples Process Space Options Adjacency SpecAdjacency AdjacencyExamples Scalar Integrand CellPair Operators SpecLocal
  LocalResults LocalExamples Interleave Assembly SpecAssembly AssemblyResults AssemblyExamples SpecOrder SpecTransfer TransferResults TransferExamples
  SpecScalars ScalarsResults SpecRounding GradedResults RoundingResults RoundingModels RoundingPositive.
Local Open Scope R_scope.

(** The data of the examples of assembly, as real numbers. *)
Definition real_cell (c : nat) : cell_map R :=
  mkCellMap (fun p i => INR (c + p * (i + 1))) (fun p i => INR (1 + c * i + p)) (fun p i => INR (c + i * i + 2 * p)) (fun p => INR (1 + c + p)).
Definition real_externals : externals R := mkExternals R
  (fun t n => Some (mkQuadrature (map INR (seq (ref_count t 0) (2 * n))) (map INR (seq 1 n))))
  (fun k d p n => Some (mkPairQuadrature (map INR (seq (length p) (2 * n))) (map INR (seq (d + 5) (2 * n))) (map INR (seq 1 n))))
  (fun g t points c => real_cell c).
Definition real_green (i : nat) (s t : R * R * R) : R :=
  let '(a, b, c) := s in let '(x, y, z) := t in
  match i with
  | 0%nat => 1 + (a - x) * (a - x) + (b - y) * (b - y) + (c - z) * (c - z)
  | 1%nat => a - x | 2%nat => b - y | _ => c - z
  end.
Definition real_space (fs : fspace Qcanon.Qc Qcanon.Qc) : fspace R R :=
  mkFspace R R (fs_grid fs) (fs_family fs) (fs_processes fs) (fs_space fs) (fs_components fs)
    (fun t points d p b j => INR (1 + d + 2 * p + 3 * b + j) + nth (2 * p) points 0).
Definition real_p1 : fspace R R := real_space screen2_p1.
Definition real_dp0 : fspace R R := real_space screen2_dp0.

Lemma real_serial fs : serial_space fs -> serial_space (real_space fs).
Proof. intros [A1 A2 A3 A4 A5 A6 A7]. constructor; assumption. Qed.

Lemma real_proper : proper_rules real_externals.
Proof.
  split.
  - intros t n q H. injection H as <-. cbn [qd_points qd_weights]. rewrite !map_length, !seq_length. auto.
  - intros k d p n q H. injection H as <-. cbn [pq_test pq_trial pq_weights]. rewrite !map_length, !seq_length. auto.
Qed.

Lemma real_dense (O : operator R R) : fitting O -> dense_setting real_externals 256 O demo_options (fun _ _ => 2%nat) (fun _ => 2%nat) Triangle real_p1 real_dp0.
Proof.
  intros Fo. destruct demo_dense as [A1 A2 A3 A4 A5 A6 A7 A8 A9 A10 A11 A12 A13 A14 A15 A16 A17].
  constructor; try assumption; try (now apply real_serial); try exact real_proper.
  - intros t [<-|[]]. split; [reflexivity|]. eexists. reflexivity.
  - intros E. destruct (A17 E) as (H & _ & H'). split; [exact H|]. split; [|exact H'].
    intros t s p k _ _ _ _. eexists. reflexivity.
Qed.

Definition half53 : R := (/ 2) ^ 53.

Lemma half53_range : 0 <= half53 < 1.
Proof. unfold half53. split; [apply pow_le; lra|]. apply pow_lt_1_compat; [lra|lia]. Qed.

Section Same.
Context (u : R) (Hu : 0 <= u < 1) (n : nat).
Lemma close_refl x : close u Rabs reals n x x.
Proof.
  unfold close. cbn [reals s_sub]. rewrite Rminus_diag_eq, Rabs_R0 by reflexivity. pose proof (growth_ge u Hu n). pose proof (Rabs_pos x). nra.
Qed.
Lemma real_close_refl x : real_close u n x x.
Proof. exists 1. split; [ring|]. pose proof (growth_ge u Hu n) as G. split; [|lra]. rewrite <- Rinv_1. apply Rinv_le_contravar; lra. Qed.
Lemma real_externals_close : related_externals (real_close u n) (nonzero_close u n) (real_close u n) eq real_externals real_externals.
Proof.
  constructor.
  - intros t k q q' E E'. assert (q' = q) by congruence. subst q'. split; [reflexivity|]. apply Forall2_refl. intros. apply real_close_refl.
  - intros k d p m q q' E E'. assert (q' = q) by congruence. subst q'. split; [reflexivity|]. split; [reflexivity|]. apply Forall2_refl. intros. apply real_close_refl.
  - intros g t points points' c p <- Hp Hc. split; [intros; apply real_close_refl|]. split; [intros; apply real_close_refl|].
    split; [apply real_close_refl|]. cbn [real_externals x_geometry real_cell cm_jdet]. apply not_0_INR. lia.
Qed.
Lemma real_basis_close (O : operator R R) (fs : fspace R R) : related_basis (close u Rabs reals n) eq O fs fs.
Proof. intros t points points' d p b <- Hp Hd Hb. apply close_refl. Qed.
Lemma real_kernel_close (O O' : operator R R) : kn_value (op_kernel O) = kn_value (op_kernel O') ->
  related_kernel (close u Rabs reals n) real_externals real_externals O O' (fun _ _ => 2%nat) (fun _ => 2%nat) real_p1 real_dp0.
Proof.
  intros EO. constructor; intros; rewrite EO.
  - assert (qt' = qt) by congruence. assert (qs' = qs) by congruence. subst qt' qs'. apply close_refl.
  - assert (q' = q) by congruence. subst q'. apply close_refl.
Qed.
End Same.

Lemma real_points : points_at_most real_externals (fun _ _ => 2%nat) (fun _ => 2%nat) Triangle 4.
Proof. split; [cbn; lia|]. intros k d p q E. injection E as <-. cbn. lia. Qed.

(** The hypersingular operator of the Helmholtz equation with 53 bits. *)
Lemma rounding_example :
  0 <= half53 < 1 /\ valued reals Rabs /\ rounds half53 Rabs reals (floats 53) /\
  dense_setting real_externals 256 (helmholtz_hypersingular (floats 53) (fun _ => real_green) 3) demo_options (fun _ _ => 2%nat) (fun _ => 2%nat) Triangle real_p1 real_dp0 /\
  dense_setting real_externals 256 (helmholtz_hypersingular reals (fun _ => real_green) 3) demo_options (fun _ _ => 2%nat) (fun _ => 2%nat) Triangle real_p1 real_dp0 /\
  related_externals (real_close half53 1) (nonzero_close half53 1) (real_close half53 1) eq real_externals real_externals /\
  related_kernel (close half53 Rabs reals 1) real_externals real_externals (helmholtz_hypersingular (floats 53) (fun _ => real_green) 3)
    (helmholtz_hypersingular reals (fun _ => real_green) 3) (fun _ _ => 2%nat) (fun _ => 2%nat) real_p1 real_dp0 /\
  related_basis (close half53 Rabs reals 1) eq (helmholtz_hypersingular (floats 53) (fun _ => real_green) 3) real_p1 real_p1 /\
  related_basis (close half53 Rabs reals 1) eq (helmholtz_hypersingular (floats 53) (fun _ => real_green) 3) real_dp0 real_dp0 /\
  related_form (close half53 Rabs reals 1) (op_integrand (helmholtz_hypersingular (floats 53) (fun _ => real_green) 3))
    (op_integrand (helmholtz_hypersingular reals (fun _ => real_green) 3)) /\
  points_at_most real_externals (fun _ _ => 2%nat) (fun _ => 2%nat) Triangle 4 /\
  global_size (fs_space real_p1) = 9%nat /\ global_size (fs_space real_dp0) = 8%nat.
Proof.
  pose proof half53_range as Hu. split; [exact Hu|]. split; [exact reals_valued|]. split; [exact (floats_round 53)|].
  split; [apply real_dense; apply (shipped_fitting (floats 53)); constructor|].
  split; [apply real_dense; apply (shipped_fitting reals); constructor|].
  split; [now apply real_externals_close|]. split; [now apply real_kernel_close|]. split; [now apply real_basis_close|]. split; [now apply real_basis_close|].
  split.
  - split; [exact I|]. split; [|exact I]. unfold close. cbn [reals floats s_sub s_cast r_neg r_mul].
    replace (- fl 53 (3 * 3) - - (3 * 3)) with (- (fl 53 (3 * 3) - 3 * 3)) by ring. rewrite !Rabs_Ropp.
    eapply Rle_trans; [apply fl_error|]. apply Rmult_le_compat_r; [apply Rabs_pos|]. rewrite growth_1. fold half53.
    pose proof (growth_step half53 Hu). lra.
  - split; [exact real_points|]. split; vm_compute; reflexivity.
Qed.

Lemma real_green_positive x y : 0 <= real_green 0 x y.
Proof.
  destruct x as [[a b] c], y as [[d e] f]. cbn [real_green].
  pose proof (Rle_0_sqr (a - d)). pose proof (Rle_0_sqr (b - e)). pose proof (Rle_0_sqr (c - f)). unfold Rsqr in *. lra.
Qed.

Lemma real_points_positive points x : rule_points real_externals points -> In x points -> 0 <= x.
Proof.
  intros [(t & n & q & E & ->)|(k & d & p & n & q & E & [-> | ->])]; injection E as <-; cbn [qd_points pq_test pq_trial]; intros Hx;
    apply in_map_iff in Hx; destruct Hx as (j & <- & _); apply pos_INR.
Qed.

Lemma real_basis_positive fs : positive_basis (Rle 0) real_externals (real_space fs).
Proof.
  intros t points p b Hr Hp _. cbn [real_space fs_basis]. assert (0 <= nth (2 * p) points 0) by (apply (real_points_positive _ _ Hr); now apply nth_In).
  pose proof (pos_INR (1 + 0 + 2 * p + 3 * b + 0)). lra.
Qed.

Lemma real_externals_positive : positive_externals (Rle 0) real_externals.
Proof.
  constructor.
  - intros t n q E. injection E as <-. cbn [qd_weights]. apply Forall_forall. intros x Hx. apply in_map_iff in Hx. destruct Hx as (k & <- & _). apply pos_INR.
  - intros k d p n q E. injection E as <-. cbn [pq_weights]. apply Forall_forall. intros x Hx. apply in_map_iff in Hx. destruct Hx as (j & <- & _). apply pos_INR.
  - intros g t points c p _ _ _. apply pos_INR.
Qed.

Lemma accuracy_example :
  0 <= half53 < 1 /\ rounds half53 Rabs reals (floats 53) /\
  dense_setting real_externals 256 (laplace_single_layer real_green) demo_options (fun _ _ => 2%nat) (fun _ => 2%nat) Triangle real_p1 real_dp0 /\
  related_externals (real_close half53 0) (nonzero_close half53 0) (real_close half53 0) eq real_externals real_externals /\
  related_kernel (close half53 Rabs reals 0) real_externals real_externals (laplace_single_layer real_green) (laplace_single_layer real_green)
    (fun _ _ => 2%nat) (fun _ => 2%nat) real_p1 real_dp0 /\
  related_basis (close half53 Rabs reals 0) eq (laplace_single_layer real_green) real_p1 real_p1 /\
  related_basis (close half53 Rabs reals 0) eq (laplace_single_layer real_green) real_dp0 real_dp0 /\
  points_at_most real_externals (fun _ _ => 2%nat) (fun _ => 2%nat) Triangle 4 /\
  positive_externals (Rle 0) real_externals /\ (forall x y, 0 <= real_green 0 x y) /\
  positive_basis (Rle 0) real_externals real_p1 /\ positive_basis (Rle 0) real_externals real_dp0.
Proof.
  pose proof half53_range as Hu. split; [exact Hu|]. split; [exact (floats_round 53)|].
  split; [apply real_dense; apply (shipped_fitting reals); constructor|].
  split; [now apply real_externals_close|]. split; [now apply real_kernel_close|]. split; [now apply real_basis_close|]. split; [now apply real_basis_close|].
  split; [exact real_points|]. split; [exact real_externals_positive|]. split; [exact real_green_positive|]. split; apply real_basis_positive.
Qed.
