(** * Python: ownership of native objects and options in the Python layer

    Model of python/bempp/function_space.py and python/bempp/assembly/boundary.py
    together with the C functions of src/bindings they call.  At this commit the
    module [bindings] is commented out (src/lib.rs:5); the Python layer is
    modelled against the functions as they are written there.

    Python objects are numbered.  Reference counting of CPython itself is not
    modelled: [__del__] runs at most once per object and not before the last
    reference is gone. *)
From Verif Require Import Base Topology Options.
From Coq Require Import ZArith.

(** ** Native objects *)

(** Element families of [ndelement], python/bempp/function_space.py:147-150 and
    src/bindings/ndelement.rs:18-43. *)
Inductive family_kind : Type := LagrangeFamily | RaviartThomasFamily | NedelecFamily.

(** What is known about a family: its kind, degree and continuity.
    python/bempp/function_space.py:148-150. *)
Record family_info : Type := mkFamilyInfo {
  fi_kind : family_kind;
  fi_degree : nat;
  fi_continuous : bool
}.

(** The objects on the heap of the library: a borrowed grid made from the Python
    grid with a number (src/bindings/ndgrid.rs:18-56), an element family
    (src/bindings/ndelement.rs:18-25) and a function space, which keeps
    references to a grid and to a family (src/bindings/space.rs:30-42). *)
Inductive native : Type :=
| NGrid (g : nat)
| NFamily (i : family_info)
| NSpace (grid family : nat).

(** The kinds of objects the functions that free take, e.g.
    src/bindings/ndgrid.rs:7-14. *)
Definition is_grid (n : native) : bool := match n with NGrid _ => true | _ => false end.
(** src/bindings/ndelement.rs:8-16. *)
Definition is_family (n : native) : bool := match n with NFamily _ => true | _ => false end.
(** [space_t_free], called at python/bempp/function_space.py:55. *)
Definition is_space (n : native) : bool := match n with NSpace _ _ => true | _ => false end.

(** The attributes [_bempp_rs_grid] and [_bempp_rs_grid_refcount] of a Python
    grid, or [_bempp_rs_family] and [_bempp_rs_family_refcount] of a Python
    family; [None] if the attribute is not there.
    python/bempp/function_space.py:57-66, 133-140. *)
Record attributes : Type := mkAttributes {
  at_handle : option nat;
  at_refcount : option Z
}.

(** The attributes of a live [FunctionSpace], python/bempp/function_space.py:45-50.
    [_owned] is [True] for all spaces made by [function_space]. *)
Record py_space : Type := mkPySpace {
  ps_handle : nat;
  ps_owned : bool;
  ps_grid : nat;
  ps_family : nat
}.

(** The state python/bempp/function_space.py:52-66 and 131-150 work on. *)
Record world : Type := mkWorld {
  w_next : nat;                          (** the next address *)
  w_heap : list (nat * native);          (** native objects that are allocated *)
  w_grid : nat -> attributes;            (** attributes of the Python grids *)
  w_family : nat -> attributes;          (** attributes of the Python families *)
  w_made : nat;                          (** number of [FunctionSpace]s made *)
  w_spaces : list (nat * py_space)       (** those not deleted *)
}.

(** What is outside: whether a grid is a single element grid
    (python/bempp/function_space.py:154), the family objects and whether the keys
    of lines 149 are there, and whether the native [function_space] accepts grid
    and family (it panics, which aborts the process, if their types differ,
    src/bindings/space.rs:20-29). *)
Record outside : Type := mkOutside {
  grid_supported : nat -> bool;
  family_of : nat -> family_info;
  family_supported : nat -> bool;
  compatible : nat -> nat -> bool
}.

(** Outcome of a piece of Python code: it returns, it raises an exception (and
    leaves a world behind), the process is aborted, or native code uses memory
    that is not allocated or holds another object.
    Vocabulary for python/bempp/function_space.py:52-66 and 131-183. *)
Inductive outcome (A : Type) : Type :=
| Return (a : A) (w : world)
| Raise (w : world)
| Abort
| Undefined.
Arguments Return {A}.
Arguments Raise {A}.
Arguments Abort {A}.
Arguments Undefined {A}.

(** Code that acts on the world, python/bempp/function_space.py:52-66, 131-183. *)
Definition py (A : Type) : Type := world -> outcome A.
(** Vocabulary for python/bempp/function_space.py:52-66, 131-183. *)
Definition py_return {A : Type} (a : A) : py A := fun w => Return a w.
(** One statement after another, python/bempp/function_space.py:52-66, 131-183. *)
Definition py_bind {A B : Type} (m : py A) (k : A -> py B) : py B := fun w =>
  match m w with
  | Return a w' => k a w'
  | Raise w' => Raise w'
  | Abort => Abort
  | Undefined => Undefined
  end.

Declare Scope py_scope.
Delimit Scope py_scope with py.
Notation "x <== e ;; k" := (py_bind e (fun x => k)) (at level 100, e at next level, right associativity) : py_scope.
Notation "e ;; k" := (py_bind e (fun _ => k)) (at level 100, right associativity) : py_scope.
Open Scope py_scope.

(** E.g. python/bempp/function_space.py:183. *)
Definition py_raise {A : Type} : py A := fun w => Raise w.

(** [Box::into_raw(Box::new(n))].
    E.g. src/bindings/boundary_assemblers.rs:39; for grids, families and spaces the
    functions of [ndgrid], [ndelement] and [cfuncs] called at
    src/bindings/ndgrid.rs:38-55, ndelement.rs:24, space.rs:30-42. *)
Definition allocate (n : native) : py nat := fun w =>
  Return (w_next w) (mkWorld (S (w_next w)) (w_heap w ++ [(w_next w, n)]) (w_grid w) (w_family w) (w_made w) (w_spaces w)).

(** [drop(Box::from_raw(ptr))], src/bindings/ndgrid.rs:12, ndelement.rs:14. *)
Definition free (kind : native -> bool) (h : nat) : py unit := fun w =>
  match assoc Nat.eqb h (w_heap w) with
  | Some n => if kind n
      then Return tt (mkWorld (w_next w) (filter (fun x => negb (fst x =? h)) (w_heap w)) (w_grid w) (w_family w) (w_made w) (w_spaces w))
      else Undefined
  | None => Undefined
  end.

(** Dereference a pointer to an object of a kind. E.g. src/bindings/space.rs:20-42. *)
Definition deref (kind : native -> bool) (h : nat) : py native := fun w =>
  match assoc Nat.eqb h (w_heap w) with
  | Some n => if kind n then Return n w else Undefined
  | None => Undefined
  end.

(** Vocabulary for assignments to attributes, python/bempp/function_space.py:134-140.
    *)
Definition set_at {A : Type} (f : nat -> A) (i : nat) (x : A) : nat -> A := fun j => if j =? i then x else f j.

(** The attributes of grids and of families, read and written alike.
    python/bempp/function_space.py:57-66, 133-140. *)
Inductive object : Type := PyGrid (g : nat) | PyFamily (f : nat).

(** python/bempp/function_space.py:57-66, 133-140. *)
Definition attributes_of (w : world) (o : object) : attributes :=
  match o with PyGrid g => w_grid w g | PyFamily f => w_family w f end.

(** python/bempp/function_space.py:57-66, 134-140. *)
Definition set_attributes (o : object) (a : attributes) : py unit := fun w =>
  Return tt
    match o with
    | PyGrid g => mkWorld (w_next w) (w_heap w) (set_at (w_grid w) g a) (w_family w) (w_made w) (w_spaces w)
    | PyFamily f => mkWorld (w_next w) (w_heap w) (w_grid w) (set_at (w_family w) f a) (w_made w) (w_spaces w)
    end.

(** python/bempp/function_space.py:57-66, 133-140. *)
Definition get_attributes (o : object) : py attributes := fun w => Return (attributes_of w o) w.

(** Read an attribute: [AttributeError] if it is not there.
    python/bempp/function_space.py:59, 65, 143. *)
Definition read_handle (o : object) : py nat :=
  a <== get_attributes o ;;
  match at_handle a with Some h => py_return h | None => py_raise end.
(** python/bempp/function_space.py:57-58, 63-64, 136, 140. *)
Definition read_refcount (o : object) : py Z :=
  a <== get_attributes o ;;
  match at_refcount a with Some n => py_return n | None => py_raise end.

(** Assign and delete attributes. python/bempp/function_space.py:134, 138. *)
Definition write_handle (o : object) (h : nat) : py unit :=
  a <== get_attributes o ;; set_attributes o (mkAttributes (Some h) (at_refcount a)).
(** python/bempp/function_space.py:57, 63, 135-136, 139-140. *)
Definition write_refcount (o : object) (n : Z) : py unit :=
  a <== get_attributes o ;; set_attributes o (mkAttributes (at_handle a) (Some n)).
(** python/bempp/function_space.py:60, 66. *)
Definition del_handle (o : object) : py unit :=
  a <== get_attributes o ;; set_attributes o (mkAttributes None (at_refcount a)).
(** python/bempp/function_space.py:61. *)
Definition del_refcount (o : object) : py unit :=
  a <== get_attributes o ;; set_attributes o (mkAttributes (at_handle a) None).

Section FunctionSpaces.
Variable E : outside.

(** [recreate_grid], python/bempp/function_space.py:153-183.  The translation of
    the tables of the grid and the memory behind it are in PythonBorrow.v. *)
Definition recreate_grid (g : nat) : py nat :=
  if grid_supported E g then allocate (NGrid g) else py_raise.

(** [recreate_element_family], python/bempp/function_space.py:147-150: always a
    Lagrange family. *)
Definition recreate_element_family (f : nat) : py nat :=
  if family_supported E f
  then allocate (NFamily (mkFamilyInfo LagrangeFamily (fi_degree (family_of E f)) (fi_continuous (family_of E f))))
  else py_raise.

(** [if not hasattr(o, handle): o.handle = recreate(o); o.refcount = 0], lines
    133-135 and 137-139. *)
Definition ensure (o : object) (recreate : py nat) : py unit :=
  a <== get_attributes o ;;
  match at_handle a with
  | Some _ => py_return tt
  | None => h <== recreate ;; write_handle o h ;; write_refcount o 0
  end.

(** [_lib.function_space], src/bindings/space.rs:30-42. *)
Definition lib_function_space (g f gh fh : nat) : py nat :=
  deref is_grid gh ;; deref is_family fh ;;
  if compatible E g f then allocate (NSpace gh fh) else (fun _ => Abort).

(** [FunctionSpace.__init__], lines 45-50. *)
Definition new_space (g f h : nat) : py nat := fun w =>
  Return (w_made w)
    (mkWorld (w_next w) (w_heap w) (w_grid w) (w_family w) (S (w_made w)) ((w_made w, mkPySpace h true g f) :: w_spaces w)).

(** [function_space], lines 131-144. *)
Definition function_space (g f : nat) : py nat :=
  ensure (PyGrid g) (recreate_grid g) ;;
  n <== read_refcount (PyGrid g) ;;
  write_refcount (PyGrid g) (n + 1) ;;
  ensure (PyFamily f) (recreate_element_family f) ;;
  m <== read_refcount (PyFamily f) ;;
  write_refcount (PyFamily f) (m + 1) ;;
  gh <== read_handle (PyGrid g) ;;
  fh <== read_handle (PyFamily f) ;;
  h <== lib_function_space g f gh fh ;;
  new_space g f h.

(** The object is forgotten when [__del__] has run.
    python/bempp/function_space.py:52-66. *)
Definition forget (s : nat) : py unit := fun w =>
  Return tt (mkWorld (w_next w) (w_heap w) (w_grid w) (w_family w) (w_made w) (filter (fun x => negb (fst x =? s)) (w_spaces w))).

(** [FunctionSpace.__del__], lines 52-66. *)
Definition delete_space (s : nat) : py unit := fun w =>
  match assoc Nat.eqb s (w_spaces w) with
  | None => Raise w
  | Some p =>
      ((if ps_owned p then
          free is_space (ps_handle p) ;;
          m <== read_refcount (PyFamily (ps_family p)) ;;
          write_refcount (PyFamily (ps_family p)) (m - 1) ;;
          m <== read_refcount (PyFamily (ps_family p)) ;;
          (if (m =? 0)%Z then
             fh <== read_handle (PyFamily (ps_family p)) ;;
             free is_family fh ;;
             del_handle (PyFamily (ps_family p)) ;;
             del_refcount (PyFamily (ps_family p))
           else py_return tt) ;;
          n <== read_refcount (PyGrid (ps_grid p)) ;;
          write_refcount (PyGrid (ps_grid p)) (n - 1) ;;
          n <== read_refcount (PyGrid (ps_grid p)) ;;
          (if (n =? 0)%Z then
             gh <== read_handle (PyGrid (ps_grid p)) ;;
             free is_grid gh ;;
             del_handle (PyGrid (ps_grid p))
           else py_return tt)
        else py_return tt) ;;
       forget s) w
  end.

(** Any use of a space by native code (lines 72-123 and
    python/bempp/assembly/boundary.py:127-170): the space and the grid and the
    family it refers to. *)
Definition use_space (s : nat) : py (nat * native * native) := fun w =>
  match assoc Nat.eqb s (w_spaces w) with
  | None => Raise w
  | Some p =>
      (n <== deref is_space (ps_handle p) ;;
       match n with
       | NSpace gh fh =>
           ng <== deref is_grid gh ;; nf <== deref is_family fh ;; py_return (gh, ng, nf)
       | _ => (fun _ => Undefined)
       end) w
  end.
End FunctionSpaces.

(** The world before the first function space.
    [hasattr] is false, python/bempp/function_space.py:133, 137. *)
Definition no_attributes : attributes := mkAttributes None None.
(** As found by the first call of python/bempp/function_space.py:131-144. *)
Definition initial_world : world :=
  mkWorld 0 [] (fun _ => no_attributes) (fun _ => no_attributes) 0 [].

(** ** Options *)

(** A Python [BoundaryAssemblerOptions], python/bempp/assembly/boundary.py:46-51:
    the flag and the native object.  A Python [BoundaryAssembler], lines 113-120:
    the Python options and the options object the native assembler refers to
    (src/boundary_assemblers.rs:107: a reference, not a copy). *)
Record py_options : Type := mkPyOptions { po_read_only : bool; po_handle : nat }.
(** python/bempp/assembly/boundary.py:113-120. *)
Record py_assembler : Type := mkPyAssembler { pa_options : nat; pa_native : nat }.

(** The native options (never freed by the Python code), the Python options and
    the assemblers, in order of creation.
    python/bempp/assembly/boundary.py:46-51, 113-120. *)
Record session : Type := mkSession {
  se_native : list options;
  se_options : list py_options;
  se_assemblers : list py_assembler
}.

(** The operators of python/bempp/assembly/boundary.py:35-43. *)
Inductive operator_type : Type :=
| SingleLayerOp | DoubleLayerOp | AdjointDoubleLayerOp | HypersingularOp | ElectricFieldOp | MagneticFieldOp.

(** The types that have an entry in [_rtypes] (lines 13-18), and all others. *)
Inductive dtype : Type := F32 | F64 | C32 | C64 | OtherDtype.

(** Calls of the Python interface.
    python/bempp/assembly/boundary.py:49-63, 75-87, 99-103, 177-188. *)
Inductive call : Type :=
| NewOptions
| SetRegularDegree (i : nat) (t : cell_type) (degree : Z)
| SetSingularDegree (i : nat) (t0 t1 : cell_type) (degree : Z)
| SetBatchSize (i : nat) (n : Z)
| CreateLaplaceAssembler (options : option nat) (op : operator_type) (d : dtype).

(** Of a call of python/bempp/assembly/boundary.py:46-188. *)
Inductive result : Type :=
| Done (s : session)
| Raised (s : session)
| Aborted.

(** Conversion of a Python [int] to [usize] by the foreign function interface:
    [OverflowError] if it does not fit.
    At python/bempp/assembly/boundary.py:61-63, 83-87, 103. *)
Definition to_usize (z : Z) : option nat :=
  if ((0 <=? z) && (z <? 2 ^ 64))%Z then Some (Z.to_nat z) else None.

(** Python [BoundaryAssemblerOptions()], lines 49-51, and
    [boundary_assembler_options_new], src/bindings/boundary_assemblers.rs:35-40. *)
Definition new_options (s : session) : session :=
  mkSession (se_native s ++ [default_options]) (se_options s ++ [mkPyOptions false (length (se_native s))]) (se_assemblers s).

(** A setter of Python, lines 53-63, 75-87 and 99-103: raises on read only options,
    raises if [known] is false, else calls the setter of the library. *)
Definition py_setter (i : nat) (known : options -> bool) (value : Z) (set : nat -> options -> options) (s : session) : result :=
  match nth_error (se_options s) i with
  | None => Raised s
  | Some p =>
      if po_read_only p then Raised s
      else
        match nth_error (se_native s) (po_handle p) with
        | None => Aborted
        | Some o =>
            if negb (known o) then Raised s
            else
              match to_usize value with
              | None => Raised s
              | Some n => Done (mkSession (set_nth (se_native s) (po_handle p) (set n o)) (se_options s) (se_assemblers s))
              end
        end
  end.

(** [Option::is_some]: [.._has_regular_quadrature_degree],
    python/bempp/assembly/boundary.py:57-60, 79-82. *)
Definition is_some {A : Type} (o : option A) : bool := match o with Some _ => true | None => false end.

(** [laplace_boundary_assembler_new], src/bindings/boundary_assemblers.rs:127-166:
    panics (in a function called from C: aborts) on other operators and types. *)
Definition laplace_accepts (op : operator_type) (d : dtype) : bool :=
  match op with
  | SingleLayerOp | DoubleLayerOp | AdjointDoubleLayerOp | HypersingularOp =>
      match d with F32 | F64 => true | _ => false end
  | _ => false
  end.

(** [create_laplace_assembler], python/bempp/assembly/boundary.py:177-189, and
    [BoundaryAssembler.__init__], lines 113-120.  Without options the default
    argument is used, the object made when the module is loaded, number 0. *)
Definition create_laplace_assembler (options : option nat) (op : operator_type) (d : dtype) (s : session) : result :=
  let i := match options with Some i => i | None => 0 end in
  match nth_error (se_options s) i with
  | None => Raised s
  | Some p =>
      match d with
      | OtherDtype => Raised s
      | _ =>
          if laplace_accepts op d
          then Done (mkSession (se_native s)
                       (set_nth (se_options s) i (mkPyOptions true (po_handle p)))
                       (se_assemblers s ++ [mkPyAssembler i (po_handle p)]))
          else Aborted
      end
  end.

(** python/bempp/assembly/boundary.py:49-63, 75-87, 99-103, 177-188. *)
Definition execute (c : call) (s : session) : result :=
  match c with
  | NewOptions => Done (new_options s)
  | SetRegularDegree i t v =>
      py_setter i (fun o => is_some (get_regular_quadrature_degree t o)) v (fun n => set_regular_quadrature_degree t n) s
  | SetSingularDegree i t0 t1 v =>
      py_setter i (fun o => is_some (get_singular_quadrature_degree (t0, t1) o)) v (fun n => set_singular_quadrature_degree (t0, t1) n) s
  | SetBatchSize i v => py_setter i (fun _ => true) v set_batch_size s
  | CreateLaplaceAssembler o op d => create_laplace_assembler o op d s
  end.

(** The module has been loaded: the default argument of line 179 exists. *)
Definition loaded : session := new_options (mkSession [] [] []).

(** The getters, lines 65-73, 89-97 and 105-107; [None]: [ValueError]. *)
Definition py_regular_degree (s : session) (i : nat) (t : cell_type) : option nat :=
  match nth_error (se_options s) i with
  | Some p => match nth_error (se_native s) (po_handle p) with Some o => get_regular_quadrature_degree t o | None => None end
  | None => None
  end.
(** python/bempp/assembly/boundary.py:89-97. *)
Definition py_singular_degree (s : session) (i : nat) (t0 t1 : cell_type) : option nat :=
  match nth_error (se_options s) i with
  | Some p => match nth_error (se_native s) (po_handle p) with Some o => get_singular_quadrature_degree (t0, t1) o | None => None end
  | None => None
  end.
(** python/bempp/assembly/boundary.py:105-107. *)
Definition py_batch_size (s : session) (i : nat) : option nat :=
  match nth_error (se_options s) i with
  | Some p => match nth_error (se_native s) (po_handle p) with Some o => Some (get_batch_size o) | None => None end
  | None => None
  end.

(** ** Copies into buffers of Python

    [for (i, j) in l.iter().enumerate() { *data.add(i) = *j }]
    (src/bindings/matrices.rs:79-81, 108-110, 134-136, space.rs:97-106, 160-164)
    into a buffer made by [np.empty(n)], whose entries are undefined. *)
Definition poke {A : Type} (buffer : list (option A)) (i : nat) (x : A) : res (list (option A)) :=
  if i <? length buffer then Ok (set_nth buffer i (Some x)) else UB.
(** The loop itself, src/bindings/matrices.rs:79-81. *)
Definition copy_out {A : Type} (l : list A) (buffer : list (option A)) : res (list (option A)) :=
  foldM (fun b ix => poke b (fst ix) (snd ix)) (enumerate l) buffer.

(** [[int(i) for i in buffer]], python/bempp/function_space.py:81,90; reading an
    entry that has not been written is undefined. *)
Definition read_buffer {A : Type} (buffer : list (option A)) : res (list A) :=
  mapM (fun o => match o with Some x => Ok x | None => UB end) buffer.

(** [get_local_dof_numbers] and [cell_dofs], python/bempp/function_space.py:72-90;
    the size is asked for first. *)
Definition py_copy {A : Type} (l : list A) : res (list A) :=
  b <- copy_out l (repeat None (length l)) ;; read_buffer b.
(** python/bempp/function_space.py:83-89. *)
Definition py_cell_dofs (dofs : option (list nat)) : res (option (list nat)) :=
  match dofs with
  | None => Ok None
  | Some l => r <- py_copy l ;; Ok (Some r)
  end.
