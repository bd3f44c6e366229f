(** * Topology: the interface to grids and finite elements

    Grids ([ndgrid]) and finite elements ([ndelement]) are external crates.
    This file models the part of their interface that the repository uses, as
    plain data.  A [grid] is an arbitrary record of tables; what the code relies
    on is collected in [wf_grid], and [grid_of_cells] builds such tables from
    vertex lists the way a grid builder does. *)
From Verif Require Import Base.

(** [ndelement::types::ReferenceCellType] (used in src/function.rs:9,
    src/boundary_assemblers.rs:22). *)
Inductive cell_type : Set :=
| Point | Interval | Triangle | Quadrilateral | Tetrahedron | Hexahedron | Prism | Pyramid.

(** [PartialEq] of [ReferenceCellType], e.g. src/function.rs:337. *)
Definition ct_eqb (a b : cell_type) : bool :=
  match a, b with
  | Point, Point | Interval, Interval | Triangle, Triangle
  | Quadrilateral, Quadrilateral | Tetrahedron, Tetrahedron
  | Hexahedron, Hexahedron | Prism, Prism | Pyramid, Pyramid => true
  | _, _ => false
  end.

(** [ndgrid::types::Ownership] (src/function.rs:12).  [Undefined] is a
    placeholder that no finished grid contains. *)
Inductive ownership : Set :=
| Undefined
| Owned
| Ghost (process index : nat).

(** The test at src/function.rs:427-433. *)
Definition is_owned (o : ownership) : bool :=
  match o with Owned => true | _ => false end.

(** [ndelement::reference_cell::entity_counts(t)[d]], as called in
    src/boundary_assemblers.rs:269-270,284.  Data of the external crate. *)
Definition ref_count (t : cell_type) (d : nat) : nat :=
  match t, d with
  | Point, 0 => 1
  | Interval, 0 => 2 | Interval, 1 => 1
  | Triangle, 0 => 3 | Triangle, 1 => 3 | Triangle, 2 => 1
  | Quadrilateral, 0 => 4 | Quadrilateral, 1 => 4 | Quadrilateral, 2 => 1
  | Tetrahedron, 0 => 4 | Tetrahedron, 1 => 6 | Tetrahedron, 2 => 4 | Tetrahedron, 3 => 1
  | Hexahedron, 0 => 8 | Hexahedron, 1 => 12 | Hexahedron, 2 => 6 | Hexahedron, 3 => 1
  | Prism, 0 => 6 | Prism, 1 => 9 | Prism, 2 => 5 | Prism, 3 => 1
  | Pyramid, 0 => 5 | Pyramid, 1 => 8 | Pyramid, 2 => 5 | Pyramid, 3 => 1
  | _, _ => 0
  end.

(** [ndelement::reference_cell::edges(t)], as called in
    src/boundary_assemblers.rs:275-276.  Data of the external crate; only the
    cells with two-dimensional interiors are given (the others are never used). *)
Definition ref_edges (t : cell_type) : list (nat * nat) :=
  match t with
  | Interval => [(0, 1)]
  | Triangle => [(1, 2); (0, 2); (0, 1)]
  | Quadrilateral => [(0, 1); (0, 2); (1, 3); (2, 3)]
  | _ => []
  end.

(** The local grid as seen through the [ndgrid::traits::{Grid, Entity, Topology}]
    traits (src/function.rs:11-12, src/boundary_assemblers.rs:23). *)
Record grid : Type := mkGrid {
  g_id : nat;                          (** address of the grid object (helpers.rs:63) *)
  g_tdim : nat;                        (** [topology_dim()] *)
  g_gdim : nat;                        (** [geometry_dim()] *)
  g_types : nat -> list cell_type;     (** [entity_types(d)] *)
  g_count : cell_type -> nat;          (** [entity_count(t)] *)
  g_iter : nat -> list nat;            (** [entity_iter(d)], by [local_index()] *)
  g_ctype : nat -> cell_type;          (** [entity(tdim, c).entity_type()] *)
  g_sub : nat -> nat -> list nat;      (** [entity(tdim, c).topology().sub_entity_iter(d)] *)
  g_conn : nat -> list nat;            (** [entity(0, v).topology().connected_entity_iter(2)] *)
  g_own : nat -> nat -> ownership      (** [entity(d, e).ownership()] *)
}.

(** Number of entities of dimension [d], as computed in src/function.rs:389-396. *)
Definition ent_count (g : grid) (d : nat) : nat :=
  sum_list (map (g_count g) (g_types g d)).

(** [grid.entity(d, e)] is [Some] exactly for the existing entities.
    As called at src/function.rs:428 and src/boundary_assemblers.rs:577, 581. *)
Definition entity_exists (g : grid) (d e : nat) : bool := e <? ent_count g d.

(** Two-dimensional cells the assemblers support.
    The cases of src/boundary_assemblers.rs:541-559. *)
Definition surface_type (t : cell_type) : Prop := t = Triangle \/ t = Quadrilateral.

(** What a finished two-dimensional grid provides.  This is an assumption on
    [ndgrid], not code of the repository.
    The repository relies on it at src/function.rs:282-349, 380-442 and
    src/boundary_assemblers.rs:564-606, 775-821. *)
Record wf_grid (g : grid) : Prop := {
  wf_tdim : g_tdim g = 2;
  wf_types0 : g_types g 0 = [Point];
  wf_types1 : g_types g 1 = [Interval];
  wf_types2_nodup : NoDup (g_types g 2);
  wf_types2_ne : g_types g 2 <> [];
  wf_types2_surface : forall t, In t (g_types g 2) -> surface_type t;
  wf_iter_nodup : forall d, d <= 2 -> NoDup (g_iter g d);
  wf_iter_In : forall d i, d <= 2 -> (In i (g_iter g d) <-> i < ent_count g d);
  wf_ctype : forall c, c < ent_count g 2 -> In (g_ctype g c) (g_types g 2);
  wf_sub_length : forall c d, c < ent_count g 2 -> d <= 2 ->
    length (g_sub g c d) = ref_count (g_ctype g c) d;
  wf_sub_lt : forall c d e, c < ent_count g 2 -> d <= 2 -> In e (g_sub g c d) -> e < ent_count g d;
  wf_sub_nodup : forall c d, c < ent_count g 2 -> d <= 2 -> NoDup (g_sub g c d);
  wf_sub_cell : forall c, c < ent_count g 2 -> g_sub g c 2 = [c];
  (** an edge has the same two end points in every cell that contains it *)
  wf_edge : forall c c' i i' e a b a' b' va vb va' vb',
    c < ent_count g 2 -> c' < ent_count g 2 ->
    nth_error (g_sub g c 1) i = Some e -> nth_error (g_sub g c' 1) i' = Some e ->
    nth_error (ref_edges (g_ctype g c)) i = Some (a, b) ->
    nth_error (ref_edges (g_ctype g c')) i' = Some (a', b') ->
    nth_error (g_sub g c 0) a = Some va -> nth_error (g_sub g c 0) b = Some vb ->
    nth_error (g_sub g c' 0) a' = Some va' -> nth_error (g_sub g c' 0) b' = Some vb' ->
    (va = va' /\ vb = vb') \/ (va = vb' /\ vb = va');
  wf_conn_nodup : forall v, v < ent_count g 0 -> NoDup (g_conn g v);
  wf_conn_In : forall v c, v < ent_count g 0 ->
    (In c (g_conn g v) <-> c < ent_count g 2 /\ In v (g_sub g c 0))
}.

(** A finite element as seen through [ndelement::traits::FiniteElement]
    (src/function.rs:9): [dim()] and [entity_dofs(d, i)]. *)
Record element : Type := mkElement {
  el_dim : nat;
  el_edofs : nat -> nat -> option (list nat)
}.

(** An element family: [ElementFamily::element(cell_type)] (src/function.rs:124). *)
Definition family : Type := cell_type -> element.

(** All DOFs of an element, sub-entity by sub-entity.
    In the order of the loops at src/function.rs:420-425. *)
Definition el_all_dofs (t : cell_type) (el : element) : list nat :=
  flat_map (fun d => flat_map (fun i => match el_edofs el d i with Some l => l | None => [] end)
                              (seq 0 (ref_count t d)))
           (seq 0 3).

(** The DOFs of an element are distributed over its sub-entities, each exactly
    once, and nothing is attached to sub-entities that do not exist.  An
    assumption on [ndelement], met by [lagrange] below.
    The repository relies on it at src/function.rs:420-440. *)
Record wf_element (t : cell_type) (el : element) : Prop := {
  we_some : forall d i, d <= 2 -> i < ref_count t d -> exists l, el_edofs el d i = Some l;
  we_none : forall d i, ~ (d <= 2 /\ i < ref_count t d) -> el_edofs el d i = None;
  we_part : Permutation (el_all_dofs t el) (seq 0 (el_dim el))
}.

(** Number of DOFs on a sub-entity. [e_dofs.len()], src/function.rs:422-425. *)
Definition el_ndofs (el : element) (d i : nat) : nat :=
  match el_edofs el d i with Some l => length l | None => 0 end.

(** A family is conforming on a set of cell types when the number of DOFs on a
    vertex, and the number of DOFs on an edge, does not depend on the cell.
    The repository relies on it at src/function.rs:424-438. *)
Record wf_family (types : list cell_type) (fam : family) : Prop := {
  wff_el : forall t, In t types -> wf_element t (fam t);
  wff_uniform : forall t t' d i i', In t types -> In t' types -> d < 2 ->
    i < ref_count t d -> i' < ref_count t' d ->
    el_ndofs (fam t) d i = el_ndofs (fam t') d i'
}.

(** ** Lagrange families

    The DOF layout of [ndelement::ciarlet::LagrangeElementFamily]: one DOF per
    vertex, [p - 1] per edge, the rest in the interior; a discontinuous family
    puts all DOFs in the interior.  Data of the external crate, used for
    examples and for the dimension formulas.
    The repository uses it at tests/test_space.rs:72-135 and examples/assembly.rs. *)
Definition lagrange_interior (t : cell_type) (p : nat) : nat :=
  match t with
  | Triangle => (p - 1) * (p - 2) / 2
  | Quadrilateral => (p - 1) * (p - 1)
  | _ => 0
  end.

(** As made at tests/test_space.rs:143 and src/bindings/ndelement.rs:18-25. *)
Definition lagrange (p : nat) : family := fun t =>
  let nv := ref_count t 0 in
  let ne := ref_count t 1 in
  mkElement (nv + ne * (p - 1) + ref_count t 2 * lagrange_interior t p)
    (fun d i =>
       if i <? ref_count t d then
         match d with
         | 0 => Some [i]
         | 1 => Some (seq (nv + i * (p - 1)) (p - 1))
         | 2 => Some (seq (nv + ne * (p - 1) + i * lagrange_interior t p) (lagrange_interior t p))
         | _ => None
         end
       else None).

(** Elements with [n t] interior DOFs and nothing else (discontinuous families).
    As made at tests/test_space.rs:143. *)
Definition interior_only (n : cell_type -> nat) : family := fun t =>
  mkElement (ref_count t 2 * n t)
    (fun d i =>
       if i <? ref_count t d then
         match d with
         | 0 | 1 => Some []
         | 2 => Some (seq (i * n t) (n t))
         | _ => None
         end
       else None).

(** ** A grid builder

    Builds the tables of a grid with one cell type from vertex lists, all
    entities owned, edges numbered by first appearance.  It stands for
    [SingleElementGridBuilder] on one process (src/shapes.rs:10); the theorems
    about the repository do not depend on it, it shows that [wf_grid] can be
    met and connects the shapes with the assembly. *)
Definition norm_pair (p : nat * nat) : nat * nat :=
  let (a, b) := p in if a <=? b then (a, b) else (b, a).

(** The edges of a cell, for [create_parallel_grid_root], src/shapes.rs:109, 167, 218.
    *)
Definition cell_edges (t : cell_type) (vs : list nat) : list (nat * nat) :=
  map (fun ab => norm_pair (nth (fst ab) vs 0, nth (snd ab) vs 0)) (ref_edges t).

(** Equality of edges.  Used for src/shapes.rs:109, 167, 218 and for the keys at
    src/boundary_assemblers.rs:291-294. *)
Definition pair_eqb (p q : nat * nat) : bool := (fst p =? fst q) && (snd p =? snd q).

(** Insert in a duplicate-free list, at the end. For src/shapes.rs:109, 167, 218. *)
Definition add_new (l : list (nat * nat)) (x : nat * nat) : list (nat * nat) :=
  if existsb (pair_eqb x) l then l else l ++ [x].

(** For src/shapes.rs:109, 167, 218. *)
Definition dedup (l : list (nat * nat)) : list (nat * nat) := fold_left add_new l [].

(** For src/shapes.rs:109, 167, 218. *)
Fixpoint index_of (x : nat * nat) (l : list (nat * nat)) : nat :=
  match l with
  | [] => 0
  | y :: t => if pair_eqb x y then 0 else S (index_of x t)
  end.

(** For src/shapes.rs:109, 167, 218. *)
Definition grid_edges (t : cell_type) (cells : list (list nat)) : list (nat * nat) :=
  dedup (flat_map (cell_edges t) cells).

(** What [create_parallel_grid_root] gives on one process, src/shapes.rs:109, 167,
    218. *)
Definition grid_of_cells (id : nat) (t : cell_type) (npts : nat) (cells : list (list nat)) : grid :=
  let edges := grid_edges t cells in
  {| g_id := id;
     g_tdim := 2;
     g_gdim := 3;
     g_types := fun d => match d with 0 => [Point] | 1 => [Interval] | 2 => [t] | _ => [] end;
     g_count := fun u =>
       match u with
       | Point => npts
       | Interval => length edges
       | _ => if ct_eqb u t then length cells else 0
       end;
     g_iter := fun d =>
       match d with
       | 0 => seq 0 npts
       | 1 => seq 0 (length edges)
       | 2 => seq 0 (length cells)
       | _ => []
       end;
     g_ctype := fun _ => t;
     g_sub := fun c d =>
       match d with
       | 0 => nth c cells []
       | 1 => map (fun e => index_of e edges) (cell_edges t (nth c cells []))
       | 2 => [c]
       | _ => []
       end;
     g_conn := fun v => filter (fun c => memb v (nth c cells [])) (seq 0 (length cells));
     g_own := fun _ _ => Owned |}.

(** Vertex lists a builder accepts.
    Those added at src/shapes.rs:105-107, 146-165, 204-215 are. *)
Definition valid_cells (t : cell_type) (npts : nat) (cells : list (list nat)) : Prop :=
  surface_type t /\
  forall vs, In vs cells -> length vs = ref_count t 0 /\ NoDup vs /\ (forall v, In v vs -> v < npts).

(** Replace the ownership table of a grid (used to give examples of local grids
    of a distributed grid). The table is read at src/function.rs:428. *)
Definition with_ownership (g : grid) (own : nat -> nat -> ownership) : grid :=
  {| g_id := g_id g; g_tdim := g_tdim g; g_gdim := g_gdim g; g_types := g_types g;
     g_count := g_count g; g_iter := g_iter g; g_ctype := g_ctype g; g_sub := g_sub g;
     g_conn := g_conn g; g_own := own |}.
