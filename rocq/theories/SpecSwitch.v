(** * Specification vocabulary: the singular part as a matrix of its own *)
From Verif Require Import Base Topology DofMap Space Scalar Integrand CellPair Operators Assembly SpecAssembly SpecAlgebra.

(** The quadrature rules with all weights of the regular rules set to zero. *)
Definition regular_off {T R : Type} (S : scalar T R) (X : externals R) : externals R :=
  mkExternals R
    (fun t n => match x_simplex X t n with
       | Some q => Some (mkQuadrature (qd_points q) (map (fun _ => r_zero S) (qd_weights q)))
       | None => None end)
    (x_duffy X) (x_geometry X).

(** The entries of a sparse matrix, column by column. *)
Definition filled {T R : Type} (S : scalar T R) (rows columns : nat) (m : sparse T) : list T :=
  flat_map (fun j => map (fun i => sparse_entry S m i j) (seq 0 rows)) (seq 0 columns).

(** The real zero is zero. *)
Definition cast_zero {T R : Type} (S : scalar T R) : Prop := s_cast S (r_zero S) = s_zero S.

(** The basis functions on two cells have the same entry as the functions with the same
    local numbers on the images of the cells. *)
Definition same_sparse_on_images {T R : Type} (S : scalar T R) (test trial : fspace T R) (m : sparse T) (tau : nat -> nat) : Prop :=
  forall c c' a a' i j i' j', c < ent_count (fs_grid test) 2 -> c' < ent_count (fs_grid trial) 2 ->
    nth_error (dofs_at test c) a = Some i -> nth_error (dofs_at trial c') a' = Some j ->
    nth_error (dofs_at test (tau c)) a = Some i' -> nth_error (dofs_at trial (tau c')) a' = Some j' ->
    sparse_entry S m i' j' = sparse_entry S m i j.
