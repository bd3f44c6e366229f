(** * Specification vocabulary: what the singular part of an assembly uses of the data *)
From Coq Require Import Reals.
From Verif Require Import Base Topology DofMap Space Options Adjacency SpecAdjacency Scalar Integrand CellPair Operators SpecLocal Assembly SpecAssembly SpecTransfer.

Section Near.
Context {T R T' R' : Type}.
Variables (relT : T -> T' -> Prop) (relR relD relN : R -> R' -> Prop) (relP : list R -> list R' -> Prop).

(** Related Duffy rules and related geometry of the cells; nothing is said of regular
    rules. *)
Record near_externals (X : externals R) (X' : externals R') : Prop := {
  ne_duffy : forall k d p n q q', x_duffy X k d p n = Some q -> x_duffy X' k d p n = Some q' ->
    relP (pq_test q) (pq_test q') /\ relP (pq_trial q) (pq_trial q') /\ Forall2 relR (pq_weights q) (pq_weights q');
  ne_geometry : forall g t points points' c p, relP points points' -> 2 * p < length points -> c < ent_count g 2 ->
    related_point relD relN (x_geometry X g t points c) (x_geometry X' g t points' c) p
}.

(** Related values of the kernel at the points of the Duffy rule for an owned test
    cell and a trial cell that touches it. *)
Definition near_kernel (X : externals R) (X' : externals R') (O : operator T R) (O' : operator T' R')
    (deg : cell_type -> cell_type -> nat) (g : grid) : Prop :=
  forall t s pairs kind dim q q' p n,
    let tt := g_ctype g t in let st := g_ctype g s in
    t < ent_count g 2 -> s < ent_count g 2 -> g_own g 2 t = Owned -> touch g t s ->
    adjacency g t s pairs -> duffy_for tt st = Some kind -> shared_dimension g t s dim ->
    x_duffy X kind dim pairs (deg tt st) = Some q -> x_duffy X' kind dim pairs (deg tt st) = Some q' ->
    p < length (pq_weights q) -> n < op_deriv_size O ->
    relT (kn_value (op_kernel O) n (position (x_geometry X g tt (pq_test q) t) p) (position (x_geometry X g st (pq_trial q) s) p))
         (kn_value (op_kernel O') n (position (x_geometry X' g tt (pq_test q') t) p) (position (x_geometry X' g st (pq_trial q') s) p)).
End Near.

(** Two sparse matrices with the same triplets, but for the values. *)
Definition related_parts {T T' : Type} (relT : T -> T' -> Prop) (m : sparse T) (m' : sparse T') : Prop :=
  sm_shape m' = sm_shape m /\ sm_rows m' = sm_rows m /\ sm_cols m' = sm_cols m /\ Forall2 relT (sm_data m) (sm_data m').

(** The Duffy rules for the types of the cells have at most [P] points. *)
Definition near_points_at_most {R : Type} (X : externals R) (deg : cell_type -> cell_type -> nat) (types : list cell_type) (P : nat) : Prop :=
  forall t s k d p q, In t types -> In s types -> x_duffy X k d p (deg t s) = Some q -> length (pq_weights q) <= P.
