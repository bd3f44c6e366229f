(** * The dense matrix and the singular part: examples *)
From Coq Require Import QArith Qcanon.
From Verif Require Import Base BaseFacts Topology TopologyFacts Shapes DofMap DofMapFacts SpecDof DofMapResults DofExamples
  Process Space SpecSpace SpaceScript SpaceResults SpaceExamples Options
  Scalar Integrand CellPair Operators SpecLocal LocalResults LocalExamples Interleave Assembly SpecAssembly
  AssemblyResults AssemblyExamples SpecAlgebra AlgebraExamples SpecBroken BrokenResults BrokenExamples SplitResults.

Local Open Scope nat_scope.

Local Notation op := (laplace_hypersingular demo_green).
Local Notation dense := (assemble qc_scalar demo_externals demo_rt 256 op demo_options screen2_dp1 screen2_dp1).
Local Notation near := (assemble_singular qc_scalar demo_externals demo_rt 256 op demo_options screen2_dp1 screen2_dp1).

Lemma split_summary : match dense, near with
  | Ok m, Ok (CsrFromAij _ _ _ data) => (length m, length data, existsb (fun x => negb (Qeq_bool (this x) 0)) data) | _, _ => (0, 0, false) end = (576, 450, true).
Proof. vm_compute. reflexivity. Qed.

Lemma split_examples :
  exact qc_scalar /\ legal_runtime (s_add qc_scalar) demo_rt /\ (forall x, s_add qc_scalar (s_zero qc_scalar) x = x) /\
  dense_setting demo_externals 256 op demo_options (fun _ _ => 2) (fun _ => 2) Triangle screen2_linear screen2_linear /\
  dense_setting demo_externals 256 op demo_options (fun _ _ => 2) (fun _ => 2) Triangle screen2_dp1 screen2_dp1 /\
  interior_family [Triangle] (fs_family screen2_dp1) /\
  exists m shape rows cols data v, dense = Ok m /\ near = Ok (CsrFromAij shape rows cols data) /\
    length m = 576 /\ length data = 450 /\ In v data /\ v <> s_zero qc_scalar.
Proof.
  split; [exact qc_exact|]. split; [apply sequential_legal; intros a b; apply Qcplus_comm|]. split; [exact Qcplus_0_l|].
  assert (D : dense_setting demo_externals 256 op demo_options (fun _ _ => 2) (fun _ => 2) Triangle screen2_linear screen2_linear)
    by (apply linear_dense, (shipped_fitting qc_scalar); constructor).
  split; [exact D|].
  split; [exact (broken_setting _ _ _ _ _ _ _ _ _ _ _ D screen2_dp1_serial screen2_dp1_serial screen2_broken screen2_broken)|].
  split; [exact (bk_interior _ _ screen2_broken)|].
  assert (H := split_summary). destruct dense as [m| | |]; [|discriminate H|discriminate H|discriminate H].
  destruct near as [[sh|sh rows cols data]| | |]; [discriminate H| |discriminate H|discriminate H|discriminate H].
  pose proof (f_equal (fun x => fst (fst x)) H) as H1. pose proof (f_equal (fun x => snd (fst x)) H) as H2. pose proof (f_equal snd H) as H3.
  cbn [fst snd] in H1, H2, H3. clear H. apply existsb_exists in H3. destruct H3 as (x & Hx & Hz). exists m, sh, rows, cols, data, x.
  do 2 (split; [reflexivity|]). do 3 (split; [assumption|]). intros E. rewrite E in Hz. discriminate Hz.
Qed.
