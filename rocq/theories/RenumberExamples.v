(** * An example of a renumbered grid *)
From Coq Require Import QArith Qcanon.
From Verif Require Import Base BaseFacts Topology TopologyFacts DofMap SpecDof DofMapResults DofExamples Process Space SpecSpace SpaceScript SpaceResults SpaceExamples
  Options Adjacency SpecAdjacency AdjacencyExamples Scalar Integrand CellPair Operators SpecLocal Interleave Assembly SpecAssembly LocalExamples AssemblyExamples
  SpecDistributed DistributedExamples SpecRenumber RenumberResults.
Open Scope nat_scope.

Definition check_renumbering (n : nat) (f : nat -> nat) : bool :=
  upto n (fun i => (f i <? n) && upto n (fun j => negb (f i =? f j) || (i =? j)) && existsb (fun j => f j =? i) (seq 0 n)).
Lemma check_renumbering_ok n f : check_renumbering n f = true -> renumbering n f.
Proof.
  intros H.
  assert (A : forall i, i < n -> f i < n /\ upto n (fun j => negb (f i =? f j) || (i =? j)) = true /\ existsb (fun j => f j =? i) (seq 0 n) = true).
  { intros i Hi. apply (upto_spec _ _ H) in Hi. apply andb_true_iff in Hi. destruct Hi as (Hi & E). apply andb_true_iff in Hi.
    destruct Hi as (Hi & U). apply Nat.ltb_lt in Hi. auto. }
  split; [intros i Hi; now apply A|]. split.
  - intros i j Hi Hj E. destruct (A i Hi) as (_ & U & _). apply (upto_spec _ _ U) in Hj. rewrite E, Nat.eqb_refl in Hj. now apply Nat.eqb_eq.
  - intros j Hj. destruct (A j Hj) as (_ & _ & U). apply existsb_exists in U. destruct U as (i & Hi & E). apply in_seq in Hi. apply Nat.eqb_eq in E.
    exists i. split; [lia|auto].
Qed.

Definition other_strip : grid := strip_part 1.
Definition other_map : nat -> nat -> nat := strip_map 1.

Lemma other_strip_wf : wf_grid other_strip.
Proof. apply grid_of_cells_wf, valid_cells_check; [now left|vm_compute; reflexivity]. Qed.

Lemma other_renumbered : renumbered_grid strip other_strip other_map.
Proof.
  constructor.
  - intros [|[|[|d]]] Hd; try lia; vm_compute; reflexivity.
  - intros [|[|[|d]]] Hd; try lia; apply check_renumbering_ok; vm_compute; reflexivity.
  - reflexivity.
  - reflexivity.
  - reflexivity.
  - intros c d Hc Hd. apply nats_eqb_eq.
    assert (A : upto 4 (fun c => upto 3 (fun d => nats_eqb (g_sub strip (other_map 2 c) d) (map (other_map d) (g_sub other_strip c d)))) = true) by (vm_compute; reflexivity).
    assert (Hc' : c < 4) by exact Hc. apply (upto_spec _ _ A) in Hc'. apply (upto_spec _ _ Hc'). lia.
Qed.

Definition other_p1 : fspace Qc Qc := make_space other_strip (lagrange 1).
Definition other_dp0 : fspace Qc Qc := make_space other_strip (interior_only (fun _ => 1)).

Lemma other_p1_serial : serial_space other_p1.
Proof. apply make_space_serial; [apply other_strip_wf|apply lagrange_wf_family| |reflexivity]. intros t0 H. inversion H. cbn. lia. Qed.
Lemma other_dp0_serial : serial_space other_dp0.
Proof. apply make_space_serial; [apply other_strip_wf|apply interior_only_wf_family| |reflexivity]. intros t0 H. inversion H. cbn. lia. Qed.

Lemma strip_dense : dense_setting strip_externals 256 demo_op demo_options (fun _ _ => 2) (fun _ => 2) Triangle whole_p1 whole_dp0.
Proof.
  pose proof (dd_whole _ _ _ _ _ _ _ _ _ _ _ strip_setting) as Sg. destruct Sg as [M1 M2 E C1 C2 C3 Fo Pr Dg Du Cf Hb Hw Pf].
  constructor; try assumption; try reflexivity.
  - exact (dd_wtest _ _ _ _ _ _ _ _ _ _ _ strip_setting).
  - exact (dd_wtrial _ _ _ _ _ _ _ _ _ _ _ strip_setting).
  - intros _. reflexivity.
  - intros t [<-|[]]. split; [reflexivity|]. eexists. reflexivity.
  - cbn. lia.
  - cbn. lia.
  - auto.
Qed.

Lemma other_geometry t points c : x_geometry strip_externals other_strip t points c = x_geometry strip_externals strip t points (other_map 2 c).
Proof. unfold strip_externals. cbn [x_geometry]. change (g_id other_strip) with 2. change (g_id strip) with 0. reflexivity. Qed.
Lemma other_space fam : renumbered_space strip_externals (make_space strip fam) (make_space other_strip fam) other_map.
Proof.
  constructor.
  - exact other_renumbered.
  - reflexivity.
  - reflexivity.
  - reflexivity.
  - intros c t points _. exact (other_geometry t points c).
Qed.

(** Entries of the two matrices. *)
Definition strip_matrix : list Qc :=
  match assemble qc_scalar strip_externals demo_rt 256 demo_op demo_options whole_dp0 whole_p1 with Ok m => m | _ => [] end.
Definition other_matrix : list Qc :=
  match assemble qc_scalar strip_externals demo_rt 256 demo_op demo_options other_dp0 other_p1 with Ok m => m | _ => [] end.
Definition differ (m m' : list Qc) : nat :=
  length (filter (fun p => negb (Qeq_bool (this (fst p)) (this (snd p)))) (combine m m')).

Lemma renumber_example :
  dense_setting strip_externals 256 demo_op demo_options (fun _ _ => 2) (fun _ => 2) Triangle whole_p1 whole_dp0 /\
  serial_space other_p1 /\ serial_space other_dp0 /\ same_object other_p1 other_dp0 /\
  renumbered_space strip_externals whole_p1 other_p1 other_map /\ renumbered_space strip_externals whole_dp0 other_dp0 other_map /\
  renumbered_alike whole_p1 whole_dp0 other_p1 other_dp0 other_map other_map /\
  map (dofs_at whole_p1) [0; 3] = [[0; 1; 2]; [3; 5; 4]] /\ map (dofs_at other_p1) [0; 3] = [[0; 1; 2]; [5; 4; 3]] /\
  length strip_matrix = 24 /\ length other_matrix = 24 /\ differ strip_matrix other_matrix = 24.
Proof.
  split; [exact strip_dense|]. split; [exact other_p1_serial|]. split; [exact other_dp0_serial|]. split; [intros _; reflexivity|].
  split; [apply other_space|]. split; [apply other_space|].
  split; [split; [split; intros _; reflexivity|intros _ c _; reflexivity]|]. split; [vm_compute; reflexivity|]. split; [vm_compute; reflexivity|].
  split; [vm_compute; reflexivity|]. split; vm_compute; reflexivity.
Qed.
