(** * Python: assembly and queries of function spaces

    Model of python/bempp/assembly/boundary.py:127-174 and
    python/bempp/function_space.py:95-108 with the functions of src/bindings they
    call. *)
From Verif Require Import Base Topology DofMap Space Options Scalar Integrand CellPair Operators Interleave Assembly Python.

(** A Python expression: it has a value, raises an exception, or the process is
    aborted by a panic in a function called from C, or behaves in an undefined way.
    Vocabulary for python/bempp/assembly/boundary.py:127-174. *)
Inductive py_result (A : Type) : Type :=
| PyReturn (a : A)
| PyRaise
| PyAbort
| PyUndefined.
Arguments PyReturn {A}.
Arguments PyRaise {A}.
Arguments PyAbort {A}.
Arguments PyUndefined {A}.

(** One expression after another, python/bempp/assembly/boundary.py:127-174. *)
Definition py_then {A B : Type} (m : py_result A) (k : A -> py_result B) : py_result B :=
  match m with
  | PyReturn a => k a
  | PyRaise => PyRaise
  | PyAbort => PyAbort
  | PyUndefined => PyUndefined
  end.

(** A call of a function of the library; a computation that does not end is not
    told apart from an abort.
    python/bempp/assembly/boundary.py:135-140, 149-153, 163-167. *)
Definition from_native {A : Type} (r : res A) : py_result A :=
  match r with Ok a => PyReturn a | UB => PyUndefined | _ => PyAbort end.

(** The functions of the library that are called here.
    python/bempp/function_space.py:97-108, python/bempp/assembly/boundary.py:135, 149,
    163, 174. *)
Inductive lib_function : Set :=
| LibSpaceDtype | LibSpaceIsOwned | LibSpaceOwnershipProcess | LibSpaceOwnershipIndex
| LibAssemblerDtype | LibAssembleIntoMemory | LibAssembleSingular | LibAssembleSingularCorrection.

(** Those there are: src/bindings/space.rs:178-198,
    src/bindings/boundary_assemblers.rs:217-348; the others are defined nowhere. *)
Definition exported (f : lib_function) : bool :=
  match f with
  | LibSpaceOwnershipProcess | LibSpaceOwnershipIndex | LibAssembleSingularCorrection => false
  | _ => true
  end.

(** [_lib.f(...)]: [AttributeError] if there is no such function.
    python/bempp/function_space.py:97-108, python/bempp/assembly/boundary.py:135, 149,
    163, 174. *)
Definition lib {A : Type} (f : lib_function) (value : py_result A) : py_result A :=
  if exported f then value else PyRaise.

(** A [FunctionSpace] and a [BoundaryAssembler] as seen from Python: the native
    object with its type of scalars.
    python/bempp/function_space.py:45-50, 105-108,
    python/bempp/assembly/boundary.py:113-120, 171-174. *)
Record typed (A : Type) : Type := mkTyped { ty_dtype : dtype; ty_native : A }.
Arguments mkTyped {A}.
Arguments ty_dtype {A}.
Arguments ty_native {A}.

(** The comparisons of python/bempp/assembly/boundary.py:131, 147, 161. *)
Definition dtype_eqb (a b : dtype) : bool :=
  match a, b with
  | F32, F32 | F64, F64 | C32, C32 | C64, C64 | OtherDtype, OtherDtype => true
  | _, _ => false
  end.

Section PythonAssembly.
Context {T R : Type} (S : scalar T R) (X : externals R) (rt : runtime T) (wmod : nat).

(** [FunctionSpace.dtype], python/bempp/function_space.py:105-108, with [_dtypes],
    lines 12-15: [KeyError] for other types ([DType::F32] is 0 and [DType::F64] is
    1). *)
Definition py_space_dtype {A : Type} (s : typed A) : py_result dtype :=
  lib LibSpaceDtype
    match ty_dtype s with
    | F32 => PyReturn F32
    | F64 => PyReturn F64
    | _ => PyRaise
    end.

(** [BoundaryAssembler.dtype], python/bempp/assembly/boundary.py:171-174, with
    [_dtypes], lines 13-19. *)
Definition py_assembler_dtype {A : Type} (a : typed A) : py_result dtype :=
  lib LibAssemblerDtype
    match ty_dtype a with
    | OtherDtype => PyRaise
    | d => PyReturn d
    end.

(** [assert trial_space.dtype == test_space.dtype == self.dtype], lines 131, 147 and
    161 (not done with [python -O], which is not modelled). *)
Definition py_check {A B C : Type} (a : typed A) (trial : typed B) (test : typed C) : py_result unit :=
  py_then (py_space_dtype trial) (fun d =>
  py_then (py_space_dtype test) (fun d' =>
  if negb (dtype_eqb d d') then PyRaise else
  py_then (py_assembler_dtype a) (fun d'' =>
  if negb (dtype_eqb d' d'') then PyRaise else PyReturn tt))).

(** A two-dimensional numpy array with [order="F"].
    python/bempp/assembly/boundary.py:132-134. *)
Record ndarray : Type := mkNdarray { nd_rows : nat; nd_cols : nat; nd_data : list T }.
(** [np.zeros], python/bempp/assembly/boundary.py:132-134. *)
Definition nd_zeros (rows cols : nat) : ndarray := mkNdarray rows cols (repeat (s_zero S) (rows * cols)).
(** [a[i, j]]: [IndexError] outside (negative indices are not modelled).
    As used at python/test/test_boundary_assembler.py:45-67. *)
Definition nd_get (a : ndarray) (i j : nat) : py_result T :=
  if (i <? nd_rows a) && (j <? nd_cols a) then
    match nth_error (nd_data a) (i + nd_rows a * j) with Some x => PyReturn x | None => PyUndefined end
  else PyRaise.

(** [assemble], python/bempp/assembly/boundary.py:127-141, and
    [boundary_assembler_assemble_into_memory], src/bindings/boundary_assemblers.rs:330-348. *)
Definition py_assemble (a : typed (operator T R * options)) (trial test : typed (fspace T R)) : py_result ndarray :=
  py_then (py_check a trial test) (fun _ =>
  let output := nd_zeros (global_size (fs_space (ty_native test))) (global_size (fs_space (ty_native trial))) in
  lib LibAssembleIntoMemory
    match assemble_into_memory S X rt wmod (fst (ty_native a)) (snd (ty_native a)) (ty_native trial) (ty_native test) (nd_data output) with
    | Rejected _ => PyAbort
    | Ran r => py_then (from_native r) (fun data => PyReturn (mkNdarray (nd_rows output) (nd_cols output) data))
    end).

(** [assemble_singular], lines 143-155, up to the conversion of the matrix. *)
Definition py_assemble_singular (a : typed (operator T R * options)) (trial test : typed (fspace T R)) : py_result (csr T) :=
  py_then (py_check a trial test) (fun _ =>
  lib LibAssembleSingular
    (from_native (assemble_singular S X rt wmod (fst (ty_native a)) (snd (ty_native a)) (ty_native trial) (ty_native test)))).

(** [assemble_singular_correction], lines 157-169; [native] is what a function of
    the library would compute. *)
Definition py_assemble_singular_correction (native : operator T R * options -> fspace T R -> fspace T R -> res (csr T))
    (a : typed (operator T R * options)) (trial test : typed (fspace T R)) : py_result (csr T) :=
  py_then (py_check a trial test) (fun _ =>
  lib LibAssembleSingularCorrection (from_native (native (ty_native a) (ty_native trial) (ty_native test)))).

(** [FunctionSpace.ownership], python/bempp/function_space.py:95-103, and
    [space_is_owned], src/bindings/space.rs:185-187; [native] is what the two other
    functions would return. *)
Definition py_ownership (native : space -> nat -> res (nat * nat)) (s : typed (fspace T R)) (i : nat) : py_result ownership :=
  let sp := fs_space (ty_native s) in
  py_then (lib LibSpaceIsOwned (from_native (ownership_of sp i))) (fun w =>
  match w with
  | Owned => PyReturn Owned
  | _ =>
      py_then (lib LibSpaceOwnershipProcess (from_native (native sp i))) (fun p =>
      py_then (lib LibSpaceOwnershipIndex (from_native (native sp i))) (fun q =>
      PyReturn (Ghost (fst p) (snd q))))
  end).

End PythonAssembly.
