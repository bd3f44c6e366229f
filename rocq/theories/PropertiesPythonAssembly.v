(** * Properties C63-C66: assembly from Python *)
From Coq Require Import QArith Qcanon.
From Verif Require Import Base Topology DofMap Space Options Scalar Integrand CellPair Operators SpecLocal LocalResults Interleave Assembly SpecAssembly Python
  PythonAssembly PythonAssemblyResults LocalExamples AssemblyExamples AlgebraExamples.
Local Open Scope nat_scope.

(** C63: the array and its entries. *)
Theorem C63_array : forall (T R : Type) (S : scalar T R) (X : externals R) rt wmod (a : typed (operator T R * options)) (trial test : typed (fspace T R)) deg pts ct,
  exact S -> legal_runtime (s_add S) rt ->
  ty_dtype a = F32 \/ ty_dtype a = F64 -> ty_dtype trial = ty_dtype a -> ty_dtype test = ty_dtype a ->
  dense_setting X wmod (fst (ty_native a)) (snd (ty_native a)) deg pts ct (ty_native test) (ty_native trial) ->
  exists m val, py_assemble S X rt wmod a trial test = PyReturn m /\
    nd_rows m = global_size (fs_space (ty_native test)) /\ nd_cols m = global_size (fs_space (ty_native trial)) /\
    (forall t s x y, t < ent_count (fs_grid (ty_native test)) 2 -> s < ent_count (fs_grid (ty_native trial)) 2 ->
       pair_value S X (fst (ty_native a)) deg pts (ty_native test) (ty_native trial) t s x y (val t s x y)) /\
    forall i j, nd_get m i j =
      if (i <? global_size (fs_space (ty_native test))) && (j <? global_size (fs_space (ty_native trial)))
      then PyReturn (matrix_entry S val (ty_native test) (ty_native trial) i j) else PyRaise.
Proof. exact (@python_matrix). Qed.
Print Assumptions C63_array.

Theorem C63_types : forall (T R : Type) (S : scalar T R) (X : externals R) rt wmod (a : typed (operator T R * options)) (trial test : typed (fspace T R)),
  ~ (ty_dtype trial = ty_dtype a /\ ty_dtype test = ty_dtype a /\ (ty_dtype a = F32 \/ ty_dtype a = F64)) ->
  py_assemble S X rt wmod a trial test = PyRaise /\ py_assemble_singular S X rt wmod a trial test = PyRaise.
Proof. exact (@python_types). Qed.
Print Assumptions C63_types.

(** The singular part consists of the same triplets as that of the library (C27). *)
Theorem C63_singular : forall (T R : Type) (S : scalar T R) (X : externals R) rt wmod (a : typed (operator T R * options)) (trial test : typed (fspace T R)) m,
  ty_dtype a = F32 \/ ty_dtype a = F64 -> ty_dtype trial = ty_dtype a -> ty_dtype test = ty_dtype a ->
  assemble_singular_part S X rt wmod (fst (ty_native a)) (snd (ty_native a))
    (global_size (fs_space (ty_native test)), global_size (fs_space (ty_native trial))) (ty_native trial) (ty_native test) = Ok m ->
  ((exists v, In v (sm_data m) /\ s_large S v = true) ->
     py_assemble_singular S X rt wmod a trial test = PyReturn (CsrFromAij (sm_shape m) (sm_rows m) (sm_cols m) (sm_data m))) /\
  ((forall v, In v (sm_data m) -> s_large S v = false) ->
     py_assemble_singular S X rt wmod a trial test = PyReturn (CsrEmpty (sm_shape m))).
Proof. exact (@python_singular). Qed.
Print Assumptions C63_singular.

(** Undefined behaviour of the library stays undefined in Python, a panic ends the
    process. *)
Theorem C63_native_outcomes : forall (A : Type) (r : res A),
  (forall x, from_native r = PyReturn x <-> r = Ok x) /\ (from_native r = PyUndefined <-> r = UB) /\ from_native r <> PyRaise.
Proof. exact (@native_outcomes). Qed.
Print Assumptions C63_native_outcomes.

Example C63_example :
  let a := mkTyped F64 (laplace_double_layer demo_green, demo_options) in let s := mkTyped F64 screen2_linear in
  (exact qc_scalar /\ legal_runtime (s_add qc_scalar) demo_rt /\
   dense_setting demo_externals 256 (fst (ty_native a)) (snd (ty_native a)) (fun _ _ => 2) (fun _ => 2) Triangle (ty_native s) (ty_native s)) /\
  py_assemble qc_scalar demo_externals demo_rt 256 a s (mkTyped F32 screen2_linear) = PyRaise.
Proof. exact python_example. Qed.

(** C64 is false: the data type of a complex space cannot be read. *)
Theorem C64_refuted : exists s : typed (fspace Qc Qc),
  serial_space (ty_native s) /\ ty_dtype s = C64 /\ py_space_dtype s <> PyReturn (ty_dtype s) /\ py_space_dtype s = PyRaise.
Proof. exact complex_dtype. Qed.
Print Assumptions C64_refuted.

Theorem C64_real : forall (A : Type) (s : typed A), py_space_dtype s = PyReturn (ty_dtype s) <-> ty_dtype s = F32 \/ ty_dtype s = F64.
Proof. exact (@space_dtype_real). Qed.
Print Assumptions C64_real.

Theorem C64_complex : forall (A : Type) (s : typed A), ty_dtype s = C32 \/ ty_dtype s = C64 -> py_space_dtype s = PyRaise.
Proof. exact (@space_dtype_raises). Qed.
Print Assumptions C64_complex.

(** C65 is false: there is no such function in the library. *)
Theorem C65_refuted : forall native, exists (a : typed (operator Qc Qc * options)) trial test,
  dense_setting demo_externals 256 (fst (ty_native a)) (snd (ty_native a)) (fun _ _ => 2) (fun _ => 2) Triangle (ty_native test) (ty_native trial) /\
  ty_dtype a = F64 /\ ty_dtype trial = F64 /\ ty_dtype test = F64 /\
  forall m, py_assemble_singular_correction native a trial test <> PyReturn m.
Proof. exact correction_missing. Qed.
Print Assumptions C65_refuted.

Theorem C65_always : forall (T R : Type) native (a : typed (operator T R * options)) trial test,
  py_assemble_singular_correction native a trial test = PyRaise.
Proof. exact (@correction_raises). Qed.
Print Assumptions C65_always.

(** C66: the functions that do not exist are not called. *)
Theorem C66_ownership : forall (T R : Type) native (s : typed (fspace T R)) i,
  serial_space (ty_native s) -> i < global_size (fs_space (ty_native s)) -> py_ownership native s i = PyReturn Owned.
Proof. exact (@python_ownership). Qed.
Print Assumptions C66_ownership.

(** They would be for the degrees of freedom of other processes. *)
Theorem C66_other_process : forall (T R : Type) native (s : typed (fspace T R)) i p x,
  ownership_of (fs_space (ty_native s)) i = Ok (Ghost p x) -> py_ownership native s i = PyRaise.
Proof. exact (@python_ownership_ghost). Qed.
Print Assumptions C66_other_process.

Example C66_example : serial_space screen2_linear /\ 8 < global_size (fs_space screen2_linear).
Proof. split; [exact screen2_linear_serial|]. apply Nat.ltb_lt. vm_compute. reflexivity. Qed.
