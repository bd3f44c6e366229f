(** * Specification vocabulary: the parts of a grid on several processes *)
From Verif Require Import Base Topology DofMap SpecDof Space SpecSpace Options Adjacency SpecAdjacency
  Scalar Integrand CellPair Operators SpecLocal Interleave Assembly SpecAssembly.

(** [g 0], ..., [g (N - 1)] are contained in the grid [G]: entity [e] of dimension
    [d] of [g r] is entity [L r d e] of [G].  They may overlap in any way. *)
Record inside (N : nat) (G : grid) (g : nat -> grid) (L : nat -> nat -> nat -> nat) : Prop := {
  pt_lt : forall r d e, r < N -> d <= 2 -> e < ent_count (g r) d -> L r d e < ent_count G d;
  pt_inj : forall r d e e', r < N -> d <= 2 -> e < ent_count (g r) d -> e' < ent_count (g r) d ->
    L r d e = L r d e' -> e = e';
  pt_types : forall r, r < N -> incl (g_types (g r) 2) (g_types G 2);
  pt_gdim : forall r, r < N -> g_gdim (g r) = g_gdim G;
  pt_ctype : forall r c, r < N -> c < ent_count (g r) 2 -> g_ctype G (L r 2 c) = g_ctype (g r) c;
  pt_sub : forall r c d, r < N -> c < ent_count (g r) 2 -> d <= 2 ->
    g_sub G (L r 2 c) d = map (L r d) (g_sub (g r) c d)
}.

(** They are the parts of [G] on [N] processes: every entity is owned by one process,
    and a ghost names its owner and its number there.  An assumption on the grid
    distribution ([ndgrid]). *)
Record partition (N : nat) (G : grid) (g : nat -> grid) (L : nat -> nat -> nat -> nat) : Prop := {
  pt_inside :> inside N G g L;
  pt_own : forall r d e, r < N -> d <= 2 -> e < ent_count (g r) d ->
    g_own (g r) d e = Owned \/
    exists p x, p < N /\ x < ent_count (g p) d /\ g_own (g r) d e = Ghost p x /\
      g_own (g p) d x = Owned /\ L p d x = L r d e;
  pt_once : forall r r' d e e', r < N -> r' < N -> d <= 2 -> e < ent_count (g r) d -> e' < ent_count (g r') d ->
    g_own (g r) d e = Owned -> g_own (g r') d e' = Owned -> L r d e = L r' d e' -> r = r';
  pt_all : forall C, C < ent_count G 2 -> exists r c, r < N /\ c < ent_count (g r) 2 /\ L r 2 c = C
}.

(** Cell [C] of the whole grid is stored on process [r]. *)
Definition stored (g : nat -> grid) (L : nat -> nat -> nat -> nat) (r C : nat) : Prop :=
  exists c, c < ent_count (g r) 2 /\ L r 2 c = C.

(** ... and owned by it. *)
Definition owned_cell (g : nat -> grid) (L : nat -> nat -> nat -> nat) (r C : nat) : Prop :=
  exists c, c < ent_count (g r) 2 /\ L r 2 c = C /\ g_own (g r) 2 c = Owned.

(** Every process stores all the cells that touch a cell it owns. *)
Definition vertex_layer (N : nat) (G : grid) (g : nat -> grid) (L : nat -> nat -> nat -> nat) : Prop :=
  forall r C C', r < N -> owned_cell g L r C -> C' < ent_count G 2 -> touch G C C' -> stored g L r C'.

(** A renumbering of [0..n). *)
Definition renumbering (n : nat) (f : nat -> nat) : Prop :=
  (forall i, i < n -> f i < n) /\ (forall i j, i < n -> j < n -> f i = f j -> i = j) /\
  (forall j, j < n -> exists i, i < n /\ f i = j).

(** The spaces of the processes and the space on the whole grid have the same
    elements. *)
Record same_elements {T R : Type} (N : nat) (fs : nat -> fspace T R) (whole : fspace T R) : Prop := {
  se_family : forall r, r < N -> fs_family (fs r) = fs_family whole;
  se_components : forall r, r < N -> fs_components (fs r) = fs_components whole;
  se_basis : forall r, r < N -> fs_basis (fs r) = fs_basis whole
}.

(** The cells of the parts have the geometry of those of the whole grid. *)
Definition same_geometry {R : Type} (X : externals R) (N : nat) (G : grid) (g : nat -> grid) (L : nat -> nat -> nat -> nat) : Prop :=
  forall r c t points, r < N -> c < ent_count (g r) 2 -> x_geometry X (g r) t points c = x_geometry X G t points (L r 2 c).

(** The pair of cells in a label, as cells of the whole grid. *)
Definition whole_label (L : nat -> nat -> nat -> nat) (r : nat) (k : (nat * nat) * (nat * nat)) : (nat * nat) * (nat * nat) :=
  ((L r 2 (fst (fst k)), L r 2 (snd (fst k))), snd k).

(** Triplets with other numbers for the DOFs. *)
Definition renumber {T : Type} (f h : nat -> nat) (x : nat * nat * T) : nat * nat * T :=
  ((f (fst (fst x)), h (snd (fst x))), snd x).

(** Singular assembly on the processes, and on one process with the whole grid. *)
Record distributed_setting {T R : Type} (X : externals R) (wmod : nat) (O : operator T R) (o : options)
    (deg : cell_type -> cell_type -> nat) (N : nat) (L : nat -> nat -> nat -> nat)
    (test trial : nat -> fspace T R) (wtest wtrial : fspace T R) : Prop := {
  dd_test : distributed_space N test;
  dd_trial : distributed_space N trial;
  dd_same : forall r, r < N -> fs_grid (test r) = fs_grid (trial r);
  dd_wtest : serial_space wtest;
  dd_wtrial : serial_space wtrial;
  dd_partition : partition N (fs_grid wtest) (fun r => fs_grid (test r)) L;
  dd_test_elements : same_elements N test wtest;
  dd_trial_elements : same_elements N trial wtrial;
  dd_geometry : same_geometry X N (fs_grid wtest) (fun r => fs_grid (test r)) L;
  dd_whole : singular_setting X wmod O o deg wtest wtrial
}.
