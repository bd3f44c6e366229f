(** * Python: sparse matrices

    Model of the arrays of a sparse matrix, src/boundary_assemblers.rs:129-154, of the
    functions that hand them to Python, src/bindings/matrices.rs:6-20 and 53-137, and
    of [_convert_to_scipy], python/bempp/assembly/boundary.py:22-32. *)
From Verif Require Import Base Topology DofMap Space Options Scalar Integrand CellPair Operators Interleave Assembly Python PythonAssembly.

(** [rlst::CsrMatrix], and [scipy.sparse.csr_matrix] with its attributes [shape],
    [data], [indices] and [indptr].
    python/bempp/assembly/boundary.py:22-32, src/boundary_assemblers.rs:139-154. *)
Record csr_arrays (T : Type) : Type := mkCsr {
  cs_shape : nat * nat;
  cs_data : list T;
  cs_indices : list nat;
  cs_indptr : list nat
}.
Arguments mkCsr {T}.
Arguments cs_shape {T}.
Arguments cs_data {T}.
Arguments cs_indices {T}.
Arguments cs_indptr {T}.

(** [CsrMatrix::from_aij] ([rlst]), which may fail. src/boundary_assemblers.rs:147-153. *)
Definition aij_function (T : Type) : Type := nat * nat -> list nat -> list nat -> list T -> option (csr_arrays T).

(** The native matrix, src/boundary_assemblers.rs:129-154. *)
Definition native_csr {T : Type} (from_aij : aij_function T) (m : csr T) : res (csr_arrays T) :=
  match m with
  | CsrEmpty shape => Ok (mkCsr shape [] [] (repeat 0 (fst shape + 1)))
  | CsrFromAij shape rows cols data => unwrap (from_aij shape rows cols data)
  end.

(** [matrix_shape0], [matrix_shape1], src/bindings/matrices.rs:10-20. *)
Definition matrix_shape0 {T : Type} (m : csr_arrays T) : nat := fst (cs_shape m).
(** src/bindings/matrices.rs:18-20. *)
Definition matrix_shape1 {T : Type} (m : csr_arrays T) : nat := snd (cs_shape m).
(** [matrix_csr_data_size], [matrix_csr_indices_size], [matrix_csr_indptr_size],
    src/bindings/matrices.rs:61-63, 89-91, 117-119. *)
Definition matrix_csr_data_size {T : Type} (m : csr_arrays T) : nat := length (cs_data m).
(** src/bindings/matrices.rs:89-91. *)
Definition matrix_csr_indices_size {T : Type} (m : csr_arrays T) : nat := length (cs_indices m).
(** src/bindings/matrices.rs:117-119. *)
Definition matrix_csr_indptr_size {T : Type} (m : csr_arrays T) : nat := length (cs_indptr m).

(** [np.empty(size)], then one of the functions [matrix_csr_data_copy],
    [matrix_csr_indices_copy], [matrix_csr_indptr_copy], src/bindings/matrices.rs:77-82,
    105-112, 133-137; reading an entry that has not been written is undefined. *)
Definition copied {A : Type} (size : nat) (l : list A) : res (list A) :=
  b <- copy_out l (repeat None size) ;; read_buffer b.

(** [scipy.sparse.csr_matrix((data, indices, indptr), shape)]: raises [ValueError] if
    the arrays do not fit together. python/bempp/assembly/boundary.py:32. *)
Definition scipy_csr {T : Type} (data : list T) (indices indptr : list nat) (shape : nat * nat) : py_result (csr_arrays T) :=
  if negb (length indptr =? fst shape + 1) then PyRaise
  else if negb (nth 0 indptr 1 =? 0) then PyRaise
  else if negb (length indices =? length data) then PyRaise
  else if length indices <? last indptr 0 then PyRaise
  else PyReturn (mkCsr shape data indices indptr).

(** [_convert_to_scipy], python/bempp/assembly/boundary.py:22-32 (when the memory is
    freed is C85). *)
Definition convert_to_scipy {T : Type} (m : csr_arrays T) : py_result (csr_arrays T) :=
  let shape := (matrix_shape0 m, matrix_shape1 m) in
  py_then (from_native (copied (matrix_csr_data_size m) (cs_data m))) (fun data =>
  py_then (from_native (copied (matrix_csr_indices_size m) (cs_indices m))) (fun indices =>
  py_then (from_native (copied (matrix_csr_indptr_size m) (cs_indptr m))) (fun indptr =>
  scipy_csr data indices indptr shape))).

(** [BoundaryAssembler.assemble_singular], python/bempp/assembly/boundary.py:143-155. *)
Definition py_singular_matrix {T R : Type} (S : scalar T R) (X : externals R) (rt : runtime T) (wmod : nat) (from_aij : aij_function T)
    (a : typed (operator T R * options)) (trial test : typed (fspace T R)) : py_result (csr_arrays T) :=
  py_then (py_assemble_singular S X rt wmod a trial test) (fun m =>
  py_then (from_native (native_csr from_aij m)) convert_to_scipy).
