(** * Relations between matrices: examples *)
From Coq Require Import QArith Qcanon.
From Verif Require Import Base BaseFacts Topology TopologyFacts Shapes DofMap DofMapFacts SpecDof DofMapResults DofExamples
  Colouring SpecColour ColouringExamples Process ProcessFacts Space SpecSpace SpaceFacts SpaceScript SpaceResults SpaceExamples Options Batch SpecBatch
  Adjacency SpecAdjacency AdjacencyFacts AdjacencyResults AdjacencyExamples
  Scalar Integrand CellPair Operators SpecLocal LocalFacts LocalResults LocalExamples Interleave Assembly SpecAssembly InterleaveFacts AssemblyFacts
  AssemblyRaces AssemblyValues AssemblySingular AssemblyDense AssemblyExact AssemblyResults AssemblyExamples SpecAlgebra AlgebraFacts AlgebraResults.

Local Open Scope nat_scope.

Lemma qc_cast : exact_cast qc_scalar.
Proof. split; reflexivity. Qed.

Lemma demo_symmetric : forall d, symmetric_kernel (mkKernel d demo_green).
Proof. intros d [[a b] c] [[x y] z]. cbn. ring. Qed.

Lemma demo_antisymmetric : antisymmetric_gradient qc_scalar (mkKernel ValueDeriv demo_green).
Proof. intros i [[a b] c] [[x y] z] Hi. destruct i as [|[|[|[|i]]]]; try lia; cbn; ring. Qed.

(** The values and derivatives of the linear functions on a triangle. *)
Definition p1_basis (t : cell_type) (points : list Qc) (d p b j : nat) : Qc :=
  let x := nth (2 * p) points 0%Qc in let y := nth (2 * p + 1) points 0%Qc in
  match d, b with
  | 0, 0 => 1 - x - y | 0, 1 => x | 0, 2 => y
  | 1, 0 => - (1) | 1, 1 => 1
  | 2, 0 => - (1) | 2, 2 => 1
  | _, _ => 0
  end%Qc.
Definition linear_space (g : grid) : fspace Qc Qc :=
  mkFspace Qc Qc g (lagrange 1) 1 (final_space 1 (fun _ => serial_dofmap g (lagrange 1)) 0) (fun _ => 1) p1_basis.
Definition screen2_linear : fspace Qc Qc := linear_space screen2.

Lemma screen2_linear_serial : serial_space screen2_linear.
Proof. destruct screen2_p1_serial as [A1 A2 A3 A4 A5 A6 A7]. constructor; assumption. Qed.

Lemma screen2_linear_constant : sums_to_constant qc_scalar screen2_linear.
Proof. intros t points d p [<-|[]] [->| ->]; cbn; ring. Qed.

Lemma linear_dense (O : operator Qc Qc) : fitting O ->
  dense_setting demo_externals 256 O demo_options (fun _ _ => 2) (fun _ => 2) Triangle screen2_linear screen2_linear.
Proof.
  intros FO. destruct screen2_fits as (C & F & F').
  constructor; auto using screen2_linear_serial, demo_proper.
  - intros _. reflexivity.
  - reflexivity.
  - reflexivity.
  - intros t _. cbn. lia.
  - intros t _. cbn. lia.
  - intros t [<-|[]]. split; [reflexivity|]. eexists. reflexivity.
  - cbn. lia.
  - apply Nat.ltb_lt. vm_compute. reflexivity.
  - intros _. split; [intros t s [<-|[]] [<-|[]]; reflexivity|]. split; [|auto].
    intros t s p k _ _ _ _. eexists. reflexivity.
Qed.

Local Notation linear_run O := (assemble qc_scalar demo_externals demo_rt 256 O demo_options screen2_linear screen2_linear).

(** Row 1 of the hypersingular matrix is not zero, but its sum is; the double layer
    matrix is not symmetric. *)
Definition row1 (m : list Qc) : list Q := map (fun j => this (nth (1 + 9 * j) m 0%Qc)) (seq 0 9).
Lemma hypersingular_summary : match linear_run (laplace_hypersingular demo_green) with
  | Ok m => (length m, existsb (fun x => negb (Qeq_bool x 0)) (row1 m)) | _ => (0, false) end = (81, true).
Proof. vm_compute. reflexivity. Qed.
Lemma double_summary : match linear_run (laplace_double_layer demo_green) with
  | Ok m => Qeq_bool (this (nth (1 + 9 * 5) m 0%Qc)) (this (nth (5 + 9 * 1) m 0%Qc)) | _ => true end = false.
Proof. vm_compute. reflexivity. Qed.

Lemma nth_error_nth_eq {A} (m : list A) i j d : nth_error m i = nth_error m j -> nth i m d = nth j m d.
Proof. intros E. rewrite <- !nth_default_eq. unfold nth_default. now rewrite E. Qed.

Lemma algebra_examples :
  exact qc_scalar /\ exact_cast qc_scalar /\ legal_runtime (s_add qc_scalar) demo_rt /\
  dense_setting demo_externals 256 demo_op demo_options (fun _ _ => 2) (fun _ => 2) Triangle screen2_p1 screen2_dp0 /\
  symmetric_integrand (op_integrand demo_op) /\ symmetric_kernel (op_kernel demo_op) /\
  dense_setting demo_externals 256 (laplace_adjoint_double_layer demo_green) demo_options (fun _ _ => 2) (fun _ => 2) Triangle screen2_linear screen2_linear /\
  antisymmetric_gradient qc_scalar (mkKernel ValueDeriv demo_green) /\
  dense_setting demo_externals 256 (laplace_hypersingular demo_green) demo_options (fun _ _ => 2) (fun _ => 2) Triangle screen2_linear screen2_linear /\
  sums_to_constant qc_scalar screen2_linear /\
  (exists m, linear_run (laplace_hypersingular demo_green) = Ok m /\ exists j x, nth_error m (1 + 9 * j) = Some x /\ x <> s_zero qc_scalar) /\
  (exists m, linear_run (laplace_double_layer demo_green) = Ok m /\ nth_error m (1 + 9 * 5) <> nth_error m (5 + 9 * 1)).
Proof.
  split; [exact qc_exact|]. split; [exact qc_cast|]. split; [apply sequential_legal|]. split; [exact demo_dense|].
  split; [repeat constructor|]. split; [apply demo_symmetric|]. split; [apply linear_dense, (shipped_fitting qc_scalar); constructor|].
  split; [exact demo_antisymmetric|]. split; [apply linear_dense, (shipped_fitting qc_scalar); constructor|].
  split; [exact screen2_linear_constant|]. split.
  - pose proof hypersingular_summary as H. destruct (linear_run _) as [m| | |]; try discriminate H.
    exists m. split; [reflexivity|]. pose proof (f_equal fst H) as L. pose proof (f_equal snd H) as N. cbn [fst snd] in L, N. clear H.
    apply existsb_exists in N. destruct N as (x & Hx & N). apply in_map_iff in Hx. destruct Hx as (j & <- & Hj). apply in_seq in Hj.
    exists j, (nth (1 + 9 * j) m 0%Qc). split; [apply nth_error_nth'; lia|]. intros E. rewrite E in N. discriminate N.
  - pose proof double_summary as H. destruct (linear_run _) as [m| | |]; try discriminate H.
    exists m. split; [reflexivity|]. intros E. rewrite (nth_error_nth_eq m _ _ 0%Qc E) in H. rewrite (proj2 (Qeq_bool_iff _ _) (Qeq_refl _)) in H. discriminate H.
Qed.
