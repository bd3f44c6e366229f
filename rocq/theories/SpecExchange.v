(** * Specification vocabulary for matrices and their transposes *)
From Verif Require Import Base Topology DofMap Space Options Adjacency SpecAdjacency Scalar Integrand CellPair Operators SpecLocal Assembly SpecAssembly.

(** Point [p] of the list [l] of coordinates is point [p'] of [l']. *)
Definition same_point {R : Type} (l : list R) (p : nat) (l' : list R) (p' : nat) : Prop :=
  2 * p + 1 < length l /\ 2 * p' + 1 < length l' /\
  nth_error l (2 * p) = nth_error l' (2 * p') /\ nth_error l (2 * p + 1) = nth_error l' (2 * p' + 1).

(** The rule [q'] has the points and weights of [q], in any order, with the roles of
    the two cells exchanged. *)
Definition exchanged {R : Type} (q q' : pair_quadrature R) : Prop :=
  exists order, Permutation order (seq 0 (length (pq_weights q))) /\ length (pq_weights q') = length (pq_weights q) /\
    forall p k, nth_error order p = Some k ->
      same_point (pq_test q') p (pq_trial q) k /\ same_point (pq_trial q') p (pq_test q) k /\
      nth_error (pq_weights q') p = nth_error (pq_weights q) k.

(** The singular rule for two cells seen from the other side is the exchanged rule:
    [p'] lists the common vertices [p] with the two cells exchanged. *)
Definition symmetric_rules {R : Type} (X : externals R) (types : list cell_type) (deg : cell_type -> cell_type -> nat) : Prop :=
  forall t s kind kind' p p' q q', In t types -> In s types -> In p (possible_pairs t s) -> In p' (possible_pairs s t) ->
    Permutation p' (map (fun x => (snd x, fst x)) p) -> duffy_for t s = Some kind -> duffy_for s t = Some kind' ->
    x_duffy X kind (connectivity_dimension p) p (deg t s) = Some q ->
    x_duffy X kind' (connectivity_dimension p') p' (deg s t) = Some q' -> exchanged q q'.

(** The data of a cell map at a point depend on that point only. *)
Definition pointwise_geometry {R : Type} (X : externals R) (g : grid) : Prop :=
  forall t l l' c p p', same_point l p l' p' ->
    (forall i, cm_point (x_geometry X g t l c) p i = cm_point (x_geometry X g t l' c) p' i) /\
    (forall i, cm_normal (x_geometry X g t l c) p i = cm_normal (x_geometry X g t l' c) p' i) /\
    (forall i, cm_jacobian (x_geometry X g t l c) p i = cm_jacobian (x_geometry X g t l' c) p' i) /\
    cm_jdet (x_geometry X g t l c) p = cm_jdet (x_geometry X g t l' c) p'.

(** The same for the basis functions. *)
Definition pointwise_basis {T R : Type} (fs : fspace T R) : Prop :=
  forall t l l' d p p' b j, same_point l p l' p' -> fs_basis fs t l d p b j = fs_basis fs t l' d p' b j.

(** What the exchange of two spaces relies on. *)
Record exchange_setting {T R : Type} (X : externals R) (deg : cell_type -> cell_type -> nat) (test trial : fspace T R) : Prop := {
  ex_rules : symmetric_rules X (g_types (fs_grid test) 2) deg;
  ex_geometry : pointwise_geometry X (fs_grid test);
  ex_test : pointwise_basis test;
  ex_trial : pointwise_basis trial
}.

(** [m'] is the transpose of [m], which has [rows] rows and [cols] columns. *)
Definition transpose {T : Type} (rows cols : nat) (m m' : list T) : Prop :=
  length m = rows * cols /\ length m' = cols * rows /\
  forall i j, i < rows -> j < cols -> exists x, nth_error m (i + rows * j) = Some x /\ nth_error m' (j + cols * i) = Some x.
