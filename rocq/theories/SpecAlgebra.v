(** * Specification vocabulary for relations between matrices *)
From Verif Require Import Base Topology DofMap Space Scalar Integrand CellPair Operators SpecLocal Assembly SpecAssembly.

(** The same kernel and sizes with another integrand. *)
Definition with_integrand {T R : Type} (O : operator T R) (f : integrand T) : operator T R :=
  mkOperator f (op_kernel O) (op_deriv_size O) (op_table_derivs O).

(** Every entry of [m] is [f] of the entries of [m0] and [m1] at the same position. *)
Definition entrywise {T : Type} (f : T -> T -> T) (m0 m1 m : list T) : Prop :=
  length m0 = length m /\ length m1 = length m /\
  forall k x y, nth_error m0 k = Some x -> nth_error m1 k = Some y -> nth_error m k = Some (f x y).

(** Entry [(i, j)] of a sparse matrix: triplets with the same indices are added. *)
Definition sparse_entry {T R : Type} (S : scalar T R) (m : sparse T) (i j : nat) : T :=
  total S (triplets m) (fun x => if (fst (fst x) =? i) && (snd (fst x) =? j) then snd x else s_zero S).

(** The cast from the real type respects products and signs. *)
Definition exact_cast {T R : Type} (S : scalar T R) : Prop :=
  (forall a b, s_cast S (r_mul S a b) = s_mul S (s_cast S a) (s_cast S b)) /\
  (forall a, s_cast S (r_neg S a) = s_neg S (s_cast S a)).

(** Integrands that are symmetric for a symmetric kernel. *)
Inductive symmetric_integrand {T : Type} : integrand T -> Prop :=
| sym_single : symmetric_integrand SingleLayer
| sym_curl : symmetric_integrand HypersingularCurlCurl
| sym_normal : symmetric_integrand HypersingularNormalNormal
| sym_sum : forall f g, symmetric_integrand f -> symmetric_integrand g -> symmetric_integrand (Sum f g)
| sym_times : forall c f, symmetric_integrand f -> symmetric_integrand (TimesScalar c f).

Definition symmetric_kernel {T R : Type} (K : kernel T R) : Prop := forall x y, kn_value K 0 x y = kn_value K 0 y x.

(** The gradient changes its sign if the points are swapped. *)
Definition antisymmetric_gradient {T R : Type} (S : scalar T R) (K : kernel T R) : Prop :=
  forall i x y, 1 <= i <= 3 -> kn_value K i x y = s_neg S (kn_value K i y x).

(** The basis functions of the elements add up to a constant: their derivatives in
    both directions add up to zero. *)
Definition sums_to_constant {T R : Type} (S : scalar T R) (fs : fspace T R) : Prop :=
  forall t points d p, In t (g_types (fs_grid fs) 2) -> d = 1 \/ d = 2 ->
    total S (seq 0 (el_dim (fs_family fs t))) (fun b => fs_basis fs t points d p b 0) = s_zero S.

(** Without their singular parts [s] and [s'], the matrix [m'] is the transpose of
    [m], which has [rows] rows and [cols] columns. *)
Definition transposed_beyond {T R : Type} (S : scalar T R) (rows cols : nat) (m : list T) (s : sparse T) (m' : list T) (s' : sparse T) : Prop :=
  length m = rows * cols /\ length m' = rows * cols /\
  forall i j x y, i < rows -> j < cols -> nth_error m (i + rows * j) = Some x -> nth_error m' (j + cols * i) = Some y ->
    s_sub S x (sparse_entry S s i j) = s_sub S y (sparse_entry S s' j i).

(** The sum of row [i] of a matrix with [rows] rows and [cols] columns is [v]; the
    same for column [j]. *)
Definition row_sum {T R : Type} (S : scalar T R) (rows cols : nat) (m : list T) (i : nat) (v : T) : Prop :=
  exists l, mapM (fun j => vget m (i + rows * j)) (seq 0 cols) = Ok l /\ total S l (fun x => x) = v.
Definition column_sum {T R : Type} (S : scalar T R) (rows : nat) (m : list T) (j : nat) (v : T) : Prop :=
  exists l, mapM (fun i => vget m (i + rows * j)) (seq 0 rows) = Ok l /\ total S l (fun x => x) = v.
