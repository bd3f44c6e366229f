(** * Property C93: sparse matrices in Python *)
From Coq Require Import Qcanon.
From Verif Require Import Base Topology DofMap Space Options Scalar Integrand CellPair Operators SpecLocal Interleave Assembly SpecAssembly SpecAlgebra
  Python PythonAssembly PythonSparse SpecPythonSparse PythonSparseResults LocalExamples AssemblyExamples AlgebraExamples.
Local Open Scope nat_scope.

(** C93: the matrix returned has the shape of the spaces, its arrays fit together,
    and its entries are the sums of the contributions of singular pairs; it has no
    entries if no contribution is large. *)
Theorem C93_matrix : forall (T R : Type) (S : scalar T R) (X : externals R) rt wmod from_aij
    (a : typed (operator T R * options)) (trial test : typed (fspace T R)) deg,
  legal_runtime (s_add S) rt -> adds_up S from_aij ->
  ty_dtype a = F32 \/ ty_dtype a = F64 -> ty_dtype trial = ty_dtype a -> ty_dtype test = ty_dtype a ->
  singular_setting X wmod (fst (ty_native a)) (snd (ty_native a)) deg (ty_native test) (ty_native trial) ->
  let shape := (global_size (fs_space (ty_native test)), global_size (fs_space (ty_native trial))) in
  exists m, assemble_singular_part S X rt wmod (fst (ty_native a)) (snd (ty_native a)) shape (ty_native trial) (ty_native test) = Ok m /\
    ((forall v, In v (sm_data m) -> s_large S v = false) ->
       exists c, py_singular_matrix S X rt wmod from_aij a trial test = PyReturn c /\ cs_shape c = shape /\ compressed c /\
         cs_data c = [] /\ forall i j, csr_entry S c i j = s_zero S) /\
    ((exists v, In v (sm_data m) /\ s_large S v = true) ->
       match from_aij shape (sm_rows m) (sm_cols m) (sm_data m) with
       | Some c => py_singular_matrix S X rt wmod from_aij a trial test = PyReturn c /\ cs_shape c = shape /\ compressed c /\
           forall i j, i < fst shape -> csr_entry S c i j = sparse_entry S m i j
       | None => py_singular_matrix S X rt wmod from_aij a trial test = PyAbort
       end).
Proof. exact (@python_sparse). Qed.
Print Assumptions C93_matrix.

(** The conversion returns the arrays of the native matrix, or raises an exception;
    it never reads memory that has not been written. *)
Theorem C93_same_arrays : forall (T : Type) (m : csr_arrays T), compressed m -> convert_to_scipy m = PyReturn m.
Proof. exact (@convert_same). Qed.
Print Assumptions C93_same_arrays.

Theorem C93_defined : forall (T : Type) (m : csr_arrays T), convert_to_scipy m = PyReturn m \/ convert_to_scipy m = PyRaise.
Proof. exact (@convert_defined). Qed.
Print Assumptions C93_defined.

(** What is assumed of [from_aij] can be met. *)
Theorem C93_from_aij : forall (T R : Type) (S : scalar T R), exact S -> adds_up S (@by_rows T).
Proof. exact (@by_rows_adds_up). Qed.
Print Assumptions C93_from_aij.

Example C93_example :
  let a := mkTyped F64 (demo_op, demo_options) in let trial := mkTyped F64 screen2_dp0 in let test := mkTyped F64 screen2_p1 in
  (exact qc_scalar /\ legal_runtime (s_add qc_scalar) demo_rt /\ adds_up qc_scalar (@by_rows Qc) /\
   singular_setting demo_externals 256 (fst (ty_native a)) (snd (ty_native a)) (fun _ _ => 2) (ty_native test) (ty_native trial)) /\
  match py_singular_matrix qc_scalar demo_externals demo_rt 256 (@by_rows Qc) a trial test with
  | PyReturn c => (cs_shape c, length (cs_data c), length (cs_indptr c))
  | _ => ((0, 0), 0, 0)
  end = ((9, 8), 150, 10).
Proof. exact sparse_example. Qed.

Example C93_example_rows :
  by_rows (3, 2) [2; 0; 2; 2] [1; 0; 0; 1] [1; 2; 3; 4]%nat = Some (mkCsr (3, 2) [2; 1; 3; 4] [0; 1; 0; 1] [0; 1; 1; 4]).
Proof. exact by_rows_example. Qed.
