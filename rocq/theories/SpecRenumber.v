(** * Specification vocabulary: grids with other numbers *)
From Verif Require Import Base Topology DofMap Space Scalar Integrand CellPair Operators Assembly SpecAssembly SpecDistributed.

(** [g] is the grid [G] with other numbers for vertices, edges and cells: entity [e]
    of dimension [d] of [g] is entity [L d e] of [G].  The order of the vertices
    inside a cell is the same. *)
Record renumbered_grid (G g : grid) (L : nat -> nat -> nat) : Prop := {
  rg_count : forall d, d <= 2 -> ent_count g d = ent_count G d;
  rg_bijective : forall d, d <= 2 -> renumbering (ent_count G d) (L d);
  rg_types : g_types g 2 = g_types G 2;
  rg_gdim : g_gdim g = g_gdim G;
  rg_ctype : forall c, c < ent_count g 2 -> g_ctype G (L 2 c) = g_ctype g c;
  rg_sub : forall c d, c < ent_count g 2 -> d <= 2 -> g_sub G (L 2 c) d = map (L d) (g_sub g c d)
}.

(** The space [fs] is [whole] on the grid with other numbers: the same elements and
    the same geometry of every cell. *)
Record renumbered_space {T R : Type} (X : externals R) (whole fs : fspace T R) (L : nat -> nat -> nat) : Prop := {
  rs_grid : renumbered_grid (fs_grid whole) (fs_grid fs) L;
  rs_family : fs_family fs = fs_family whole;
  rs_components : fs_components fs = fs_components whole;
  rs_basis : fs_basis fs = fs_basis whole;
  rs_geometry : forall c t points, c < ent_count (fs_grid fs) 2 ->
    x_geometry X (fs_grid fs) t points c = x_geometry X (fs_grid whole) t points (L 2 c)
}.

(** The test and the trial space are on one grid object exactly if those with the
    old numbers are, and then the cells are numbered in the same way. *)
Definition renumbered_alike {T R : Type} (wtest wtrial test trial : fspace T R) (L M : nat -> nat -> nat) : Prop :=
  (g_id (fs_grid test) = g_id (fs_grid trial) <-> g_id (fs_grid wtest) = g_id (fs_grid wtrial)) /\
  (g_id (fs_grid test) = g_id (fs_grid trial) -> forall c, c < ent_count (fs_grid test) 2 -> M 2 c = L 2 c).
