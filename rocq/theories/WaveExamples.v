(** * The wavenumber: examples *)
From Coq Require Import Reals Lra.
From Verif Require Import Base BaseFacts Topology DofMap Space Options Scalar Integrand CellPair Operators SpecLocal LocalResults Interleave Assembly SpecAssembly AssemblyResults AssemblyExamples
  SpecOrder SpecTransfer SpecScalars ScalarsResults SpecOperators SpecRounding RoundingModels RoundingExamples SpecWaves KernelResults WaveKernel WaveResults WaveLimits.
Local Open Scope R_scope.

Definition complex_space (fs : fspace R R) : fspace (R * R) R :=
  mkFspace (R * R) R (fs_grid fs) (fs_family fs) (fs_processes fs) (fs_space fs) (fs_components fs)
    (fun t points d p b j => embed_real (fs_basis fs t points d p b j)).
Definition complex_p1 : fspace (R * R) R := complex_space real_p1.
Definition complex_dp0 : fspace (R * R) R := complex_space real_dp0.

Lemma complex_dense (O : operator (R * R) R) : fitting O ->
  dense_setting real_externals 256 O demo_options (fun _ _ => 2%nat) (fun _ => 2%nat) Triangle complex_p1 complex_dp0.
Proof.
  intros F. apply (mapped_setting embed_real real_externals 256 (laplace_single_layer real_green) O demo_options (fun _ _ => 2%nat) (fun _ => 2%nat) Triangle real_p1 real_dp0).
  - constructor; reflexivity.
  - constructor; reflexivity.
  - exact F.
  - apply real_dense. apply (shipped_fitting reals). constructor.
Qed.

Lemma real_nonzero : nonzero_determinants real_externals.
Proof. intros g t points c p _ _ _. cbn [real_externals x_geometry real_cell cm_jdet]. apply not_0_INR. lia. Qed.

Lemma unit_distance : distance (0, 0, 0) (1, 0, 0) = 1.
Proof. unfold distance. cbn [offset]. replace ((0 - 1) * (0 - 1) + (0 - 0) * (0 - 0) + (0 - 0) * (0 - 0)) with 1 by ring. apply sqrt_1. Qed.

Theorem wave_example :
  legal_runtime (s_add complexes) (sequential (s_add complexes)) /\ nonzero_determinants real_externals /\ Rabs (-1) = 1 /\
  (forall kd k, dense_setting real_externals 256 (helmholtz_operator complexes kd (waves (-1)) k) demo_options (fun _ _ => 2%nat) (fun _ => 2%nat) Triangle complex_p1 complex_dp0) /\
  (forall kd, dense_setting real_externals 256 (laplace_operator kd (newton (-1))) demo_options (fun _ _ => 2%nat) (fun _ => 2%nat) Triangle real_p1 real_dp0) /\
  mapped_space embed_real real_p1 complex_p1 /\ mapped_space embed_real real_dp0 complex_dp0 /\
  positive_externals (Rle 0) real_externals /\ positive_basis (Rle 0) real_externals real_p1 /\ positive_basis (Rle 0) real_externals real_dp0 /\
  waves (-1) PI 0 (0, 0, 0) (1, 0, 0) = (- / (4 * PI), 0) /\ waves (-1) 0 0 (0, 0, 0) (1, 0, 0) = (/ (4 * PI), 0) /\
  cnorm (s_sub complexes (waves (-1) PI 0 (0, 0, 0) (1, 0, 0)) (waves (-1) 0 0 (0, 0, 0) (1, 0, 0))) = / (2 * PI) /\
  waves (-1) PI 1 (0, 0, 0) (1, 0, 0) = (/ (4 * PI), - / 4) /\ newton (-1) 1 (0, 0, 0) (1, 0, 0) = - / (4 * PI).
Proof.
  pose proof PI_RGT_0 as HP.
  assert (W : forall k, waves (-1) k 0 (0, 0, 0) (1, 0, 0) = (cos k * / (4 * PI), sin k * / (4 * PI))).
  { intros k. rewrite waves_formula, unit_distance, !Rmult_1_r. reflexivity. }
  assert (W1 : waves (-1) PI 0 (0, 0, 0) (1, 0, 0) = (- / (4 * PI), 0)) by (rewrite W, cos_PI, sin_PI; f_equal; ring).
  assert (W0 : waves (-1) 0 0 (0, 0, 0) (1, 0, 0) = (/ (4 * PI), 0)) by (rewrite W, cos_0, sin_0; f_equal; ring).
  split; [apply sequential_legal|]. split; [exact real_nonzero|]. split; [rewrite Rabs_left; lra|].
  split; [intros; apply complex_dense, helmholtz_fitting|]. split; [intros kd; apply real_dense, (shipped_fitting reals); destruct kd; constructor|].
  split; [constructor; reflexivity|]. split; [constructor; reflexivity|].
  split; [exact real_externals_positive|]. split; [apply real_basis_positive|]. split; [apply real_basis_positive|]. split; [exact W1|]. split; [exact W0|]. split.
  - rewrite W1, W0. cbn [complexes complex_of reals s_sub fst snd]. assert (0 < / (4 * PI)) by (apply Rinv_0_lt_compat; lra). assert (0 < / (2 * PI)) by (apply Rinv_0_lt_compat; lra).
    apply cnorm_eq; [lra|]. cbn [fst snd]. field. lra.
  - split.
    + rewrite waves_gradient_formula by (try lia; rewrite unit_distance; lra). rewrite unit_distance, !Rmult_1_r, cos_PI, sin_PI. cbn [offset].
      f_equal; field; lra.
    + unfold newton. rewrite unit_distance. destruct (Req_EM_T 1 0); [lra|]. cbn [offset]. field. lra.
Qed.
