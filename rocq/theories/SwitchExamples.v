(** * The singular part as a matrix of its own: examples *)
From Coq Require Import QArith Qcanon Reals.
From Verif Require Import Base Topology DofMap Space Options Scalar Integrand CellPair Operators SpecLocal Interleave Assembly SpecAssembly AssemblyResults SpecAlgebra SpecRounding
  LocalExamples AssemblyExamples AlgebraExamples SpecDistributed DistributedExamples SpecRenumber RenumberExamples SpecSwitch SwitchResults.
Local Open Scope nat_scope.

Lemma qc_cast_zero : cast_zero qc_scalar. Proof. reflexivity. Qed.
Lemma real_cast_zero : cast_zero reals. Proof. reflexivity. Qed.
Lemma complex_cast_zero : cast_zero complexes. Proof. reflexivity. Qed.

(** The singular part on the strip of four triangles, on the strip with other numbers,
    and the dense matrix with the regular rules switched off. *)
Definition strip_near : list Qc := Eval vm_compute in
  match assemble_singular_part qc_scalar strip_externals demo_rt 256 demo_op demo_options (6, 4) whole_dp0 whole_p1 with
  | Ok m => filled qc_scalar 6 4 m | _ => [] end.
Definition other_near : list Qc := Eval vm_compute in
  match assemble_singular_part qc_scalar strip_externals demo_rt 256 demo_op demo_options (6, 4) other_dp0 other_p1 with
  | Ok m => filled qc_scalar 6 4 m | _ => [] end.
Definition strip_off : list Qc := Eval vm_compute in
  match assemble qc_scalar (regular_off qc_scalar strip_externals) demo_rt 256 demo_op demo_options whole_dp0 whole_p1 with
  | Ok m => m | _ => [] end.
Definition zeros (m : list Qc) : nat := length (filter (fun x => Qeq_bool (this x) 0) m).

Lemma switch_example :
  exact qc_scalar /\ exact_cast qc_scalar /\ cast_zero qc_scalar /\ legal_runtime (s_add qc_scalar) demo_rt /\
  dense_setting strip_externals 256 demo_op demo_options (fun _ _ => 2) (fun _ => 2) Triangle whole_p1 whole_dp0 /\
  length strip_near = 24 /\ length strip_off = 24 /\ differ strip_near strip_off = 0 /\
  zeros strip_near = 2 /\ zeros strip_matrix = 0 /\ differ strip_near strip_matrix = 6 /\ differ strip_near other_near = 23.
Proof.
  split; [apply qc_exact|]. split; [apply qc_cast|]. split; [exact qc_cast_zero|]. split; [apply sequential_legal|].
  split; [apply renumber_example|]. vm_compute. auto 20.
Qed.
