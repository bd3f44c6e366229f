(** * Specification vocabulary for the memory behind native grids *)
From Verif Require Import Base Topology Options Python SpecPython PythonBorrow.

(** Histories with the memory: as [history], and Python grids no space refers to can
    be collected.  No space is made on a grid that is gone. *)
Inductive borrow_history (E : outside) (H : headers) : list event -> world -> memory -> Prop :=
| bh_start : borrow_history E H [] initial_world initial_memory
| bh_created : forall h w m g f s w' m', borrow_history E H h w m -> ~ In g (me_collected m) ->
    function_space E g f w = Return s w' -> space_memory H E g w m = Recreated m' -> borrow_history E H (h ++ [Created g f]) w' m'
| bh_failed : forall h w m g f w' m', borrow_history E H h w m -> ~ In g (me_collected m) ->
    function_space E g f w = Raise w' -> space_memory H E g w m = Recreated m' -> borrow_history E H (h ++ [Failed g f]) w' m'
| bh_deleted : forall h w m s w', borrow_history E H h w m -> In s (map fst (w_spaces w)) -> delete_space s w = Return tt w' ->
    borrow_history E H (h ++ [Deleted s]) w' m
| bh_collected : forall h w m g, borrow_history E H h w m -> (forall s p, In (s, p) (w_spaces w) -> ps_grid p <> g) ->
    borrow_history E H h w (collect g m).

(** The headers number the types without repetition, the numbers of the cell types
    of the library fit into a byte, and [cdata] is about types there are: the type of
    the entities of each dimension, and one of the four scalar types. *)
Definition proper_headers (H : headers) (types : nat -> list cell_type) (scalar_type : nat -> dtype) : Prop :=
  (forall s t, hd_grid_cell H s = hd_grid_cell H t -> s = t) /\
  (forall t, hd_lib_cell H t < 256) /\
  (forall s t, hd_grid_dtype H s = hd_grid_dtype H t -> s = t) /\
  forall g, length (types g) = S (cd_tdim (hd_cdata H g)) /\ cd_entity_types (hd_cdata H g) = map (hd_grid_cell H) (types g) /\
    scalar_type g <> OtherDtype /\ cd_dtype (hd_cdata H g) = hd_grid_dtype H (scalar_type g).

(** The native grid describes the Python grid in the numbers of the library. *)
Definition describes (H : headers) (types : list cell_type) (d : dtype) (g : nat) (b : borrowed) : Prop :=
  bo_entity_types b = map (hd_lib_cell H) types /\ bo_dtype b = hd_lib_dtype H d /\
  bo_tdim b = cd_tdim (hd_cdata H g) /\ bo_gdim b = cd_gdim (hd_cdata H g) /\ bo_npoints b = cd_npoints (hd_cdata H g) /\
  bo_points_per_cell b = cd_points_per_cell (hd_cdata H g) /\ bo_ncells b = cd_ncells (hd_cdata H g) /\ bo_degree b = cd_degree (hd_cdata H g).
