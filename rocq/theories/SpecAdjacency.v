(** * Specification vocabulary for adjacency *)
From Coq Require Export Sorting.Sorted.
From Verif Require Import Base Topology Options Adjacency.

(** Two cells have a common vertex. *)
Definition touch (g : grid) (c c' : nat) : Prop :=
  exists v, In v (g_sub g c 0) /\ In v (g_sub g c' 0).

(** Local vertex [i] of [c] is local vertex [j] of [c']. *)
Definition coincide (g : grid) (c c' i j : nat) : Prop :=
  exists v, nth_error (g_sub g c 0) i = Some v /\ nth_error (g_sub g c' 0) j = Some v.

(** [pairs] lists the coinciding local vertices, ordered by the trial side. *)
Definition adjacency (g : grid) (c c' : nat) (pairs : vpairs) : Prop :=
  (forall i j, In (i, j) pairs <-> coincide g c c' i j) /\
  StronglySorted (fun p q => snd p < snd q) pairs.

(** [v] and [w] are the ends of an edge of cell [c]. *)
Definition edge_of (g : grid) (c v w : nat) : Prop :=
  exists a b, In (a, b) (ref_edges (g_ctype g c)) /\
    ((nth_error (g_sub g c 0) a = Some v /\ nth_error (g_sub g c 0) b = Some w) \/
     (nth_error (g_sub g c 0) a = Some w /\ nth_error (g_sub g c 0) b = Some v)).

(** Different cells share nothing, one vertex, or one edge of both. *)
Definition conforming (g : grid) : Prop :=
  forall c c' v w, c < ent_count g 2 -> c' < ent_count g 2 -> c <> c' -> v <> w ->
    In v (g_sub g c 0) -> In v (g_sub g c' 0) -> In w (g_sub g c 0) -> In w (g_sub g c' 0) ->
    edge_of g c v w /\ edge_of g c' v w /\
    forall u, In u (g_sub g c 0) -> In u (g_sub g c' 0) -> u = v \/ u = w.

(** The Duffy rule for the two cell types. *)
Definition duffy_for (test trial : cell_type) : option duffy :=
  match test, trial with
  | Triangle, Triangle => Some TriangleDuffy
  | Triangle, Quadrilateral => Some TriangleQuadrilateralDuffy
  | Quadrilateral, Triangle => Some QuadrilateralTriangleDuffy
  | Quadrilateral, Quadrilateral => Some QuadrilateralDuffy
  | _, _ => None
  end.

(** Dimension of what is shared: a vertex, an edge, or the whole cell. *)
Definition shared_dimension (g : grid) (c c' : nat) (d : nat) : Prop :=
  (c = c' /\ d = 2) \/
  (c <> c' /\ d = 1 /\ exists v w, v <> w /\ In v (g_sub g c 0) /\ In v (g_sub g c' 0) /\
      In w (g_sub g c 0) /\ In w (g_sub g c' 0)) \/
  (c <> c' /\ d = 0 /\ exists v, forall u, (In u (g_sub g c 0) /\ In u (g_sub g c' 0)) <-> u = v).

(** The options have a singular degree for every pair of types in [types]. *)
Definition has_degrees (o : options) (types : list cell_type) (deg : cell_type -> cell_type -> nat) : Prop :=
  forall t s, In t types -> In s types -> get_singular_quadrature_degree (t, s) o = Some (deg t s).

(** The list of touching pairs fits in memory. *)
Definition pairs_fit (wmod : nat) (g : grid) : Prop :=
  forall l : list (nat * nat), NoDup l ->
    (forall c c', In (c, c') l -> c < ent_count g 2 /\ c' < ent_count g 2 /\ touch g c c') -> 2 * length l <= wmod.

(** The pair is one of those there are rules for. *)
Definition has_rule (g : grid) (c c' : nat) : Prop :=
  forall pairs, adjacency g c c' pairs -> In pairs (possible_pairs (g_ctype g c) (g_ctype g c')).
