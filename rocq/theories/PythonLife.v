(** * PythonLife: native options, assemblers and sparse matrices behind Python

    Model of the classes of python/bempp/assembly/boundary.py as far as they make,
    use and free objects of the library, with the C functions of
    src/bindings/boundary_assemblers.rs and src/bindings/matrices.rs they call.
    As in [Python], the bindings are modelled as they are written although the
    module is commented out at this commit (src/lib.rs:5). *)
From Verif Require Import Base Python.

(** ** Native objects *)

(** The objects on the heap: options (src/bindings/boundary_assemblers.rs:29-39),
    assemblers, which keep a reference to options
    (src/boundary_assemblers.rs:103-116), and sparse matrices. *)
Inductive thing : Type :=
| Options
| Assembler (options : nat)
| Matrix.

(** A Python [BoundaryAssembler] that has not been collected,
    python/bempp/assembly/boundary.py:113-120: the number of the Python options in
    [self.options], [_rs_assembler] and [_owned]. *)
Record held_assembler : Type := mkHeldAssembler {
  ha_options : nat;
  ha_handle : nat;
  ha_owned : bool
}.

(** The state of the interpreter and the library.  Python objects of each kind are
    numbered in the order of creation; the lists hold those not collected.  A Python
    [BoundaryAssemblerOptions] is represented by its [_rs_options] (line 51). *)
Record life : Type := mkLife {
  l_next : nat;
  l_heap : list (nat * thing);
  l_options_made : nat;
  l_options : list (nat * nat);
  l_assemblers_made : nat;
  l_assemblers : list (nat * held_assembler)
}.

(** What a piece of Python code does: it returns, it raises, the process is aborted
    by a panic, or native code uses memory that is not allocated or holds an object
    of another kind. Vocabulary for python/bempp/assembly/boundary.py:46-188. *)
Inductive after : Type :=
| Returned (s : life)
| Threw (s : life)
| Killed
| Wild.

(** [Box::into_raw(Box::new(..))]: a new address.
    src/bindings/boundary_assemblers.rs:39. *)
Definition make (t : thing) (s : life) : nat * life :=
  (l_next s, mkLife (S (l_next s)) ((l_next s, t) :: l_heap s)
               (l_options_made s) (l_options s) (l_assemblers_made s) (l_assemblers s)).

(** The object behind a pointer; [None]: nothing is allocated there.
    Every function that takes a pointer, e.g.
    src/bindings/boundary_assemblers.rs:53-125. *)
Definition behind (h : nat) (s : life) : option thing := assoc Nat.eqb h (l_heap s).

(** [drop(Box::from_raw(ptr))], and the [_t_free] functions made by [cfuncs].
    src/bindings/boundary_assemblers.rs:43-50, python/bempp/assembly/boundary.py:31,
    125. *)
Definition release (h : nat) (s : life) : life :=
  mkLife (l_next s) (filter (fun x => negb (fst x =? h)) (l_heap s))
    (l_options_made s) (l_options s) (l_assemblers_made s) (l_assemblers s).

(** ** Options *)

(** [BoundaryAssemblerOptions.__init__], lines 49-51, and
    [boundary_assembler_options_new], src/bindings/boundary_assemblers.rs:33-39. *)
Definition make_options (s : life) : after :=
  let '(h, s) := make Options s in
  Returned (mkLife (l_next s) (l_heap s) (S (l_options_made s)) ((l_options_made s, h) :: l_options s)
              (l_assemblers_made s) (l_assemblers s)).

(** Any getter or setter, lines 53-107: the native function goes through the
    pointer.  Whether it raises is not of interest here (see [Python]). *)
Definition use_options (i : nat) (s : life) : after :=
  match assoc Nat.eqb i (l_options s) with
  | None => Threw s
  | Some h => match behind h s with Some Options => Returned s | _ => Wild end
  end.

(** The interpreter collects an options object once nothing refers to it: no
    variable of the program (the event itself), no [self.options] of an assembler
    (line 117) and not the default argument of line 179, object 0.  The class has no
    [__del__] (lines 46-107): nothing native happens, and
    [boundary_assembler_options_t_free] is never called. *)
Definition options_referred (i : nat) (s : life) : bool :=
  (i =? 0) || existsb (fun x => ha_options (snd x) =? i) (l_assemblers s).
(** python/bempp/assembly/boundary.py:46-107, which has no [__del__]. *)
Definition collect_options (i : nat) (s : life) : after :=
  if options_referred i s then Returned s
  else Returned (mkLife (l_next s) (l_heap s) (l_options_made s) (filter (fun x => negb (fst x =? i)) (l_options s))
                   (l_assemblers_made s) (l_assemblers s)).

(** ** Assemblers *)

(** [create_laplace_assembler], lines 177-188: [_rtypes[dtype]] raises before the
    native call; [laplace_boundary_assembler_new]
    (src/bindings/boundary_assemblers.rs:127-166) borrows the options, makes the
    wrapper and stores an assembler that refers to the options.  The wrapper made
    before the panic of line 153 is lost with the process. *)
Definition make_assembler (options : option nat) (op : operator_type) (d : dtype) (s : life) : after :=
  let i := match options with Some i => i | None => 0 end in
  match assoc Nat.eqb i (l_options s) with
  | None => Threw s
  | Some h =>
      match d with
      | OtherDtype => Threw s
      | _ =>
          if laplace_accepts op d
          then
            match behind h s with
            | Some Options =>
                let '(a, s) := make (Assembler h) s in
                Returned (mkLife (l_next s) (l_heap s) (l_options_made s) (l_options s)
                            (S (l_assemblers_made s)) ((l_assemblers_made s, mkHeldAssembler i a true) :: l_assemblers s))
            | _ => Wild
            end
          else Killed
      end
  end.

(** [BoundaryAssembler.__del__], lines 122-125, run when the object is collected. *)
Definition collect_assembler (j : nat) (s : life) : after :=
  match assoc Nat.eqb j (l_assemblers s) with
  | None => Threw s
  | Some p =>
      let s' := mkLife (l_next s) (l_heap s) (l_options_made s) (l_options s) (l_assemblers_made s)
                  (filter (fun x => negb (fst x =? j)) (l_assemblers s)) in
      if ha_owned p
      then match behind (ha_handle p) s' with Some (Assembler _) => Returned (release (ha_handle p) s') | _ => Wild end
      else Returned s'
  end.

(** What the spaces and the library make of an assembly: the data types of the
    spaces differ (the [assert] of lines 131, 146), the native code panics, it
    returns, or it returns but there is no memory for the copies of lines 25-27. *)
Inductive answer : Type := Mismatch | Panics | Assembled | NoMemory.

(** The native assembler and its options are there when assembly starts:
    [self.dtype] (line 174) and the call go through [_rs_assembler], and the
    assembler through its reference to the options. *)
Definition assembler_usable (p : held_assembler) (s : life) : bool :=
  match behind (ha_handle p) s with
  | Some (Assembler o) => match behind o s with Some Options => true | _ => false end
  | _ => false
  end.

(** [assemble], lines 127-141: the matrix is memory of NumPy. *)
Definition run_assemble (j : nat) (r : answer) (s : life) : after :=
  match assoc Nat.eqb j (l_assemblers s) with
  | None => Threw s
  | Some p =>
      if assembler_usable p s
      then match r with Mismatch | NoMemory => Threw s | Panics => Killed | Assembled => Returned s end
      else Wild
  end.

(** [assemble_singular], lines 143-155, and [_convert_to_scipy], lines 22-32: the
    native matrix is read six times (lines 24-30) and then freed (line 31); if an
    allocation of lines 25-27 raises, line 31 is not reached. *)
Definition run_assemble_singular (j : nat) (r : answer) (s : life) : after :=
  match assoc Nat.eqb j (l_assemblers s) with
  | None => Threw s
  | Some p =>
      if assembler_usable p s
      then
        match r with
        | Mismatch => Threw s
        | Panics => Killed
        | Assembled =>
            let '(m, s) := make Matrix s in
            match behind m s with Some Matrix => Returned (release m s) | _ => Wild end
        | NoMemory =>
            let '(m, s) := make Matrix s in
            match behind m s with Some Matrix => Threw s | _ => Wild end
        end
      else Wild
  end.

(** ** Programs *)

(** The uses of python/bempp/assembly/boundary.py:46-188. *)
Inductive action : Type :=
| MakeOptions
| UseOptions (i : nat)
| CollectOptions (i : nat)
| MakeAssembler (options : option nat) (op : operator_type) (d : dtype)
| CollectAssembler (j : nat)
| RunAssemble (j : nat) (r : answer)
| RunAssembleSingular (j : nat) (r : answer).

(** python/bempp/assembly/boundary.py:46-188. *)
Definition act (a : action) (s : life) : after :=
  match a with
  | MakeOptions => make_options s
  | UseOptions i => use_options i s
  | CollectOptions i => collect_options i s
  | MakeAssembler o op d => make_assembler o op d s
  | CollectAssembler j => collect_assembler j s
  | RunAssemble j r => run_assemble j r s
  | RunAssembleSingular j r => run_assemble_singular j r s
  end.

(** A program goes on after an exception it catches.
    Of calls of python/bempp/assembly/boundary.py:46-188. *)
Fixpoint act_all (l : list action) (s : life) : after :=
  match l with
  | [] => Returned s
  | a :: l' =>
      match act a s with
      | Returned s' | Threw s' => act_all l' s'
      | x => x
      end
  end.

(** The module is loaded: the default argument of line 179 is made. *)
Definition module_loaded : after := make_options (mkLife 0 [] 0 [] 0 []).
