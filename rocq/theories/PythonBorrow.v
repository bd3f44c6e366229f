(** * PythonBorrow: what the native grid made for a Python grid refers to

    Model of [recreate_grid], python/bempp/function_space.py:153-183, and of the
    dictionaries it uses (lines 24-40): the translation of the numbers of cell
    types and scalar types, and the memory behind the pointers given to
    [single_element_grid_borrowed_create_bempp] (src/bindings/ndgrid.rs:18-56, which
    hands all of them to the function of [ndgrid] of the same name).  [ndgrid]
    itself is outside: where it puts the arrays of [cdata] is a parameter. *)
From Verif Require Import Base Topology Options Python.

(** ** Pointers *)

(** The pointers given to the native function, python/bempp/function_space.py:162-175. *)
Inductive pointer : Type :=
| IdSizes | IdPointers | EntityTypes | EntityCounts | DownwardConnectivity | DownwardShape | UpwardConnectivity | UpwardLens | Points | Cells.

(** python/bempp/function_space.py:162-175. *)
Definition all_pointers : list pointer :=
  [IdSizes; IdPointers; EntityTypes; EntityCounts; DownwardConnectivity; DownwardShape; UpwardConnectivity; UpwardLens; Points; Cells].

(** Pieces of memory: what belongs to the Python grid with a number, the container
    made by one call of [single_element_grid_cdata] (line 155), and the array made
    by [np.array] in one call of [recreate_grid] (lines 156-159). *)
Inductive area : Type :=
| GridMemory (g : nat)
| Container (n : nat)
| LocalArray (n : nat).

(** Where [ndgrid] puts what a field of [cdata] points to: into the grid, or into
    the container [cdata.internal_storage]. For python/bempp/function_space.py:155-181. *)
Inductive place : Type := InGrid | InStorage.

(** [cdata], lines 155-181. *)
Record cdata : Type := mkCdata {
  cd_tdim : nat;
  cd_entity_types : list nat;     (** the numbers behind [cdata.entity_types] *)
  cd_gdim : nat;
  cd_npoints : nat;
  cd_dtype : nat;
  cd_points_per_cell : nat;
  cd_ncells : nat;
  cd_degree : nat;
  cd_place : pointer -> place
}.

(** The numbers of the cell types and of the scalar types in the headers of the two
    libraries, and what [ndgrid] says about each Python grid.
    python/bempp/function_space.py:24-40, 155. *)
Record headers : Type := mkHeaders {
  hd_grid_cell : cell_type -> nat;
  hd_lib_cell : cell_type -> nat;
  hd_grid_dtype : dtype -> nat;
  hd_lib_dtype : dtype -> nat;
  hd_cdata : nat -> cdata
}.

(** The memory: containers and local arrays that are allocated, the number of calls
    of [recreate_grid] so far, the Python grids that are gone, and for each native
    grid what it was made of.
    python/bempp/function_space.py:161-179, src/bindings/ndgrid.rs:18-56. *)
Record borrowed : Type := mkBorrowed {
  bo_tdim : nat;
  bo_entity_types : list nat;
  bo_gdim : nat;
  bo_npoints : nat;
  bo_dtype : nat;
  bo_points_per_cell : nat;
  bo_ncells : nat;
  bo_degree : nat;
  bo_pointer : pointer -> area
}.

(** The state python/bempp/function_space.py:153-183 works on. *)
Record memory : Type := mkMemory {
  me_calls : nat;
  me_containers : list nat;
  me_locals : list nat;
  me_collected : list nat;
  me_grids : list (nat * borrowed)
}.

(** Before the first call of python/bempp/function_space.py:153. *)
Definition initial_memory : memory := mkMemory 0 [] [] [] [].

(** The memory of an area can be read.
    For python/bempp/function_space.py:155-181 and every later use of the native grid.
    *)
Definition readable (m : memory) (a : area) : bool :=
  match a with
  | GridMemory g => negb (existsb (Nat.eqb g) (me_collected m))
  | Container n => existsb (Nat.eqb n) (me_containers m)
  | LocalArray n => existsb (Nat.eqb n) (me_locals m)
  end.

(** ** Dictionaries *)

(** [{key(x): value(x) for x in names}]: a later entry replaces an earlier one with
    the same key. python/bempp/function_space.py:24-40. *)
Definition dictionary {A : Type} (key value : A -> nat) (names : list A) : list (nat * nat) :=
  rev (map (fun x => (key x, value x)) names).

Section Recreate.
Variable H : headers.

(** [_cells_ndgrid_to_bempp], python/bempp/function_space.py:24-36. *)
Definition cell_names : list cell_type := [Point; Interval; Triangle; Quadrilateral; Tetrahedron; Hexahedron; Prism; Pyramid].
(** python/bempp/function_space.py:24-36. *)
Definition cell_dictionary : list (nat * nat) := dictionary (hd_grid_cell H) (hd_lib_cell H) cell_names.

(** [_dtype_ndgrid_to_bempp], lines 37-40. *)
Definition dtype_names : list dtype := [F32; F64; C32; C64].
(** python/bempp/function_space.py:37-40. *)
Definition dtype_dictionary : list (nat * nat) := dictionary (hd_grid_dtype H) (hd_lib_dtype H) dtype_names.

(** Outcome of [recreate_grid] for the memory: a [KeyError], or memory is read that
    is not there. Of python/bempp/function_space.py:153-183. *)
Inductive recreated : Type :=
| Recreated (m : memory)
| KeyError (m : memory)
| BadRead.

(** [[_cells_ndgrid_to_bempp[cdata.entity_types[i]] for i in range(cdata.tdim + 1)]]
    as an array of bytes, lines 156-159.  [None] in the list: no such key. *)
Definition entity_numbers (c : cdata) : option (list (option nat)) :=
  let reads := map (fun i => nth_error (cd_entity_types c) i) (seq 0 (cd_tdim c + 1)) in
  if forallb (fun x => match x with Some _ => true | None => false end) reads
  then Some (map (fun x => match x with
       | Some k => match assoc Nat.eqb k cell_dictionary with Some v => Some (v mod 256) | None => None end
       | None => None end) reads)
  else None.

(** The list comprehension of python/bempp/function_space.py:156-159 raises if one
    look-up does. *)
Fixpoint all_some {A : Type} (l : list (option A)) : option (list A) :=
  match l with
  | [] => Some []
  | Some x :: l => match all_some l with Some r => Some (x :: r) | None => None end
  | None :: _ => None
  end.

(** Where the pointers given to the native function point, lines 162-175: all are
    fields of [cdata] except the entity types, which are in the local array. *)
Definition given_pointer (g n : nat) (c : cdata) (q : pointer) : area :=
  match q with
  | EntityTypes => LocalArray n
  | _ => match cd_place c q with InGrid => GridMemory g | InStorage => Container n end
  end.

(** [recreate_grid] for a single element grid with number [g] whose native grid gets
    address [a], lines 154-181. *)
Definition recreate_memory (g a : nat) (m : memory) : recreated :=
  let n := me_calls m in
  let c := hd_cdata H g in
  let m1 := mkMemory (S n) (n :: me_containers m) (me_locals m) (me_collected m) (me_grids m) in
  match entity_numbers c with
  | None => BadRead
  | Some numbers =>
      match all_some numbers with
      | None => KeyError m1
      | Some types =>
          let m2 := mkMemory (S n) (me_containers m1) (n :: me_locals m) (me_collected m) (me_grids m) in
          match assoc Nat.eqb (cd_dtype c) dtype_dictionary with
          | None => KeyError m1
          | Some d =>
              if forallb (fun q => readable m2 (given_pointer g n c q)) all_pointers
              then
                let b := mkBorrowed (cd_tdim c) types (cd_gdim c) (cd_npoints c) d (cd_points_per_cell c) (cd_ncells c) (cd_degree c)
                           (given_pointer g n c) in
                let m3 := mkMemory (S n) (me_containers m2) (me_locals m2) (me_collected m) ((a, b) :: me_grids m) in
                (* [internal_data_container_free], line 180 *)
                let m4 := mkMemory (S n) (filter (fun x => negb (x =? n)) (me_containers m3)) (me_locals m3) (me_collected m) (me_grids m3) in
                (* the local array is dropped on return, line 181 *)
                Recreated (mkMemory (S n) (me_containers m4) (filter (fun x => negb (x =? n)) (me_locals m4)) (me_collected m) (me_grids m4))
              else BadRead
          end
      end
  end.

(** What [function_space] does to the memory: [recreate_grid] runs if the grid has no
    native grid yet (python/bempp/function_space.py:133-134) and raises before
    anything is allocated if it is no single element grid (lines 154, 182-183). *)
Definition space_memory (E : outside) (g : nat) (w : world) (m : memory) : recreated :=
  match at_handle (w_grid w g) with
  | Some _ => Recreated m
  | None => if grid_supported E g then recreate_memory g (w_next w) m else Recreated m
  end.

(** A Python grid that nothing refers to is collected.
    Nothing in python/bempp/function_space.py:153-183 keeps it alive once the spaces
    (line 49) are gone. *)
Definition collect (g : nat) (m : memory) : memory :=
  mkMemory (me_calls m) (me_containers m) (me_locals m) (g :: me_collected m) (me_grids m).
End Recreate.
