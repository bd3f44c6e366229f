(** * Continuous and discontinuous functions: examples *)
From Coq Require Import QArith Qcanon.
From Verif Require Import Base BaseFacts Topology TopologyFacts Shapes DofMap DofMapFacts SpecDof DofMapResults DofExamples
  Process Space SpecSpace SpaceScript SpaceResults SpaceExamples Options
  Scalar Integrand CellPair Operators SpecLocal LocalResults LocalExamples Interleave Assembly SpecAssembly
  AssemblyResults AssemblyExamples SpecAlgebra AlgebraExamples SpecBroken BrokenResults.

Local Open Scope nat_scope.

(** Linear functions on eight triangles, discontinuous: 24 DOFs instead of 9. *)
Definition screen2_dp1 : fspace Qc Qc :=
  mkFspace Qc Qc screen2 (interior_only (fun _ => 3)) 1 (final_space 1 (fun _ => serial_dofmap screen2 (interior_only (fun _ => 3))) 0) (fun _ => 1) p1_basis.

Lemma screen2_dp1_serial : serial_space screen2_dp1.
Proof.
  assert (H : serial_space (make_space screen2 (interior_only (fun _ => 3)))).
  { apply make_space_serial; [apply screen2_wf|apply interior_only_wf_family| |reflexivity]. intros t0 H. inversion H. cbn. lia. }
  destruct H as [A1 A2 A3 A4 A5 A6 A7]. constructor; assumption.
Qed.

Lemma screen2_broken : broken screen2_linear screen2_dp1.
Proof.
  constructor; try reflexivity.
  - intros t [<-|[]]. reflexivity.
  - intros t d i _ Hd. unfold el_ndofs. cbn [screen2_dp1 fs_family interior_only el_edofs].
    destruct d as [|[|d]]; [| |lia]; destruct (_ <? _); reflexivity.
Qed.

Local Notation run s := (assemble qc_scalar demo_externals demo_rt 256 (laplace_hypersingular demo_green) demo_options s s).

Lemma broken_summary : match run screen2_linear, run screen2_dp1 with
  | Ok m, Ok d => (length m, length d, existsb (fun x => negb (Qeq_bool (this x) 0)) m) | _, _ => (0, 0, false) end = (81, 576, true).
Proof. vm_compute. reflexivity. Qed.

Lemma broken_examples :
  exact qc_scalar /\ legal_runtime (s_add qc_scalar) demo_rt /\
  dense_setting demo_externals 256 (laplace_hypersingular demo_green) demo_options (fun _ _ => 2) (fun _ => 2) Triangle screen2_linear screen2_linear /\
  serial_space screen2_dp1 /\ broken screen2_linear screen2_dp1 /\
  dofs_at screen2_linear 1 <> dofs_at screen2_dp1 1 /\
  exists m d x, run screen2_linear = Ok m /\ run screen2_dp1 = Ok d /\ length m = 81 /\ length d = 576 /\ In x m /\ x <> s_zero qc_scalar.
Proof.
  split; [exact qc_exact|]. split; [apply sequential_legal; intros a b; apply Qcplus_comm|].
  split; [apply linear_dense, (shipped_fitting qc_scalar); constructor|].
  split; [exact screen2_dp1_serial|]. split; [exact screen2_broken|]. split; [vm_compute; discriminate|].
  assert (H := broken_summary). destruct (run screen2_linear) as [m| | |]; [|discriminate H|discriminate H|discriminate H]. destruct (run screen2_dp1) as [d| | |]; [|discriminate H|discriminate H|discriminate H].
  pose proof (f_equal (fun x => fst (fst x)) H) as H1. pose proof (f_equal (fun x => snd (fst x)) H) as H2. pose proof (f_equal snd H) as H3. cbn [fst snd] in H1, H2, H3. clear H. apply existsb_exists in H3. destruct H3 as (x & Hx & Hz). exists m, d, x. do 2 (split; [reflexivity|]). do 3 (split; [assumption|]).
  intros E. rewrite E in Hz. discriminate Hz.
Qed.
