(** * Specification vocabulary: kernels that do not depend on the points *)
From Verif Require Import Base Topology DofMap Space Scalar Integrand Adjacency SpecAdjacency CellPair Operators SpecLocal Assembly SpecAssembly.

Section Measure.
Context {T R : Type} (S : scalar T R).

(** What an integrand is for constant kernel values [k], functions that are one, and
    normals [n] and [n'] of the test and the trial cell. *)
Fixpoint face_value (f : integrand T) (k n n' : nat -> T) : T :=
  match f with
  | SingleLayer => k 0
  | DoubleLayer => dot S (fun i => k (1 + i)) n'
  | AdjointDoubleLayer => s_neg S (dot S (fun i => k (1 + i)) n)
  | HypersingularCurlCurl => s_zero S
  | HypersingularNormalNormal => s_mul S (k 0) (dot S n n')
  | Sum f g => s_add S (face_value f k n n') (face_value g k n n')
  | TimesScalar c f => s_mul S c (face_value f k n n')
  end.

(** Cells with constant determinant and normal. *)
Definition flat_faces (X : externals R) (g : grid) (ct : cell_type) (det : nat -> T) (normals : nat -> nat -> T) : Prop :=
  forall points c p, c < ent_count g 2 -> 2 * (p + 1) <= length points ->
    s_cast S (cm_jdet (x_geometry X g ct points c) p) = det c /\
    forall i, i < 3 -> s_cast S (cm_normal (x_geometry X g ct points c) p i) = normals c i.

(** The weights of the rules add up to the size of the reference cell, those for pairs of
    cells to its square. *)
Definition full_weights (X : externals R) (ct : cell_type) (deg : cell_type -> cell_type -> nat) (pts : cell_type -> nat) (mu : T) : Prop :=
  (forall q, x_simplex X ct (pts ct) = Some q -> total S (qd_weights q) (s_cast S) = mu) /\
  (forall kind dim pairs q, duffy_for ct ct = Some kind -> x_duffy X kind dim pairs (deg ct ct) = Some q -> total S (pq_weights q) (s_cast S) = s_mul S mu mu).

(** The values of the kernel that the integrand uses are constant. *)
Definition constant_kernel (O : operator T R) (k : nat -> T) : Prop :=
  forall i x y, i < kernel_used (op_integrand O) -> kn_value (op_kernel O) i x y = k i.

(** What a pair of cells with the given areas and normals contributes. *)
Definition measure (O : operator T R) (k : nat -> T) (area area' : T) (n n' : nat -> T) : T :=
  s_mul S (s_mul S area area') (face_value (op_integrand O) k n n').

(** The function with coefficients [u] is equal to [U c] on cell [c], if the basis functions
    of the cell add up to one: all coefficients on the cell are [U c]. *)
Definition piecewise (fs : fspace T R) (u U : nat -> T) : Prop :=
  forall c i, c < ent_count (fs_grid fs) 2 -> In i (dofs_at fs c) -> u i = U c.

End Measure.
