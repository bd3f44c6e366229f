(** * Spaces contained in other spaces: examples *)
From Coq Require Import QArith Qcanon.
From Verif Require Import Base BaseFacts Topology TopologyFacts Shapes DofMap DofMapFacts SpecDof DofMapResults DofExamples
  Process Space SpecSpace SpaceScript SpaceResults SpaceExamples Options
  Scalar Integrand CellPair Operators SpecLocal LocalResults LocalExamples Interleave Assembly SpecAssembly
  AssemblyResults AssemblyExamples SpecAlgebra AlgebraExamples SpecBroken BrokenResults BrokenExamples SpecGalerkin GalerkinResults.

Local Open Scope nat_scope.

(** Constant functions on eight triangles. *)
Definition one_basis (t : cell_type) (points : list Qc) (d p b j : nat) : Qc := match d with 0 => 1%Qc | _ => 0%Qc end.
Definition screen2_constants : fspace Qc Qc :=
  mkFspace Qc Qc screen2 (interior_only (fun _ => 1)) 1 (final_space 1 (fun _ => serial_dofmap screen2 (interior_only (fun _ => 1))) 0) (fun _ => 1) one_basis.

Lemma screen2_constants_serial : serial_space screen2_constants.
Proof. destruct screen2_dp0_serial as [A1 A2 A3 A4 A5 A6 A7]. constructor; assumption. Qed.

Lemma constants_dense (O : operator Qc Qc) : fitting O ->
  dense_setting demo_externals 256 O demo_options (fun _ _ => 2) (fun _ => 2) Triangle screen2_constants screen2_constants.
Proof.
  intros FO. destruct (linear_dense O FO). constructor; auto using screen2_constants_serial.
Qed.

Lemma constants_ones : constants qc_scalar 1%Qc screen2_constants.
Proof. split; [|reflexivity|intros t points d p [->| ->]; reflexivity]. intros t [<-|[]]; reflexivity. Qed.

Lemma dp1_ones : adds_to_one qc_scalar 1%Qc screen2_dp1.
Proof. intros t points p [<-|[]]. split; [cbn; ring|]. intros d [->| ->]; cbn; ring. Qed.

Local Notation op := (laplace_adjoint_double_layer demo_green).
Local Notation run s := (assemble qc_scalar demo_externals demo_rt 256 op demo_options s s).

(** Entry (1, 2) for the constants is the sum of a block of nine entries. *)
Lemma blocks_summary : match run screen2_constants, run screen2_dp1 with
  | Ok m, Ok d => (length m, length d, dofs_at screen2_constants 1, dofs_at screen2_constants 2,
      Qeq_bool (this (nth (1 + 8 * 2) m 0%Qc)) (this (fold_right Qcplus 0%Qc (flat_map (fun k => map (fun l => nth (k + 24 * l) d 0%Qc) (dofs_at screen2_dp1 2)) (dofs_at screen2_dp1 1)))),
      Qeq_bool (this (nth (1 + 8 * 2) m 0%Qc)) 0)
  | _, _ => (0, 0, [], [], false, true) end = (64, 576, [1], [2], true, false).
Proof. vm_compute. reflexivity. Qed.

Lemma galerkin_examples :
  exact qc_scalar /\ (forall x, s_mul qc_scalar 1%Qc x = x) /\ legal_runtime (s_add qc_scalar) demo_rt /\
  dense_setting demo_externals 256 op demo_options (fun _ _ => 2) (fun _ => 2) Triangle screen2_constants screen2_constants /\
  dense_setting demo_externals 256 op demo_options (fun _ _ => 2) (fun _ => 2) Triangle screen2_linear screen2_linear /\
  dense_setting demo_externals 256 op demo_options (fun _ _ => 2) (fun _ => 2) Triangle screen2_dp1 screen2_dp1 /\
  constants qc_scalar 1%Qc screen2_constants /\ adds_to_one qc_scalar 1%Qc screen2_dp1 /\ broken screen2_linear screen2_dp1 /\
  interior_family [Triangle] (fs_family screen2_constants) /\ interior_family [Triangle] (fs_family screen2_dp1) /\
  (exists P, contained qc_scalar screen2_linear screen2_dp1 P) /\
  exists m, run screen2_constants = Ok m /\ nth 17 m 0%Qc <> 0%Qc.
Proof.
  assert (F : fitting op) by (apply (shipped_fitting qc_scalar); constructor).
  split; [exact qc_exact|]. split; [exact Qcmult_1_l|]. split; [apply sequential_legal; intros a b; apply Qcplus_comm|].
  split; [now apply constants_dense|]. split; [now apply linear_dense|].
  split; [exact (broken_setting _ _ _ _ _ _ _ _ _ _ _ (linear_dense op F) screen2_dp1_serial screen2_dp1_serial screen2_broken screen2_broken)|].
  split; [exact constants_ones|]. split; [exact dp1_ones|]. split; [exact screen2_broken|].
  split. { intros t d i _ Hd. unfold el_ndofs. cbn [screen2_constants fs_family interior_only el_edofs].
    destruct d as [|[|d]]; [| |lia]; destruct (_ <? _); reflexivity. }
  split; [exact (bk_interior _ _ screen2_broken)|]. split.
  - destruct (exact_instances _ _ _ qc_exact) as (u & _ & _ & _ & H & _).
    destruct (H _ _ screen2_linear_serial screen2_dp1_serial screen2_broken) as (p & _ & C & _). eexists. exact C.
  - assert (H := blocks_summary). destruct (run screen2_constants) as [m| | |]; [|discriminate H|discriminate H|discriminate H].
    destruct (run screen2_dp1) as [d| | |]; [|discriminate H|discriminate H|discriminate H]. exists m. split; [reflexivity|].
    intros E. pose proof (f_equal snd H) as H1. cbn [snd] in H1. change (1 + 8 * 2) with 17 in H1. rewrite E in H1. discriminate H1.
Qed.
