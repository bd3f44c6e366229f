(** * Specification vocabulary: the factor that the kernel and the normals contribute *)
From Coq Require Import Reals.
From Verif Require Import Base Topology Scalar Integrand CellPair Operators SpecLocal Assembly SpecAssembly SpecTransfer SpecRounding.

(** The integrands that are products of a factor and of the values of the two basis
    functions. *)
Definition product_integrand {T : Type} (f : integrand T) : Prop :=
  f = SingleLayer \/ f = DoubleLayer \/ f = AdjointDoubleLayer \/ f = HypersingularNormalNormal.

(** The factor, for the values [k] of the kernel at point [p] of the test cell and point
    [q] of the trial cell. *)
Definition factor {T R : Type} (S : scalar T R) (f : integrand T) (k : nat -> T) (x : cell_map R) (p : nat) (y : cell_map R) (q : nat) : T :=
  match f with
  | DoubleLayer => dot S (fun i => k (1 + i)) (SpecLocal.normal S y q)
  | AdjointDoubleLayer => s_neg S (dot S (fun i => k (1 + i)) (SpecLocal.normal S x p))
  | HypersingularNormalNormal => s_mul S (k 0) (dot S (SpecLocal.normal S y q) (SpecLocal.normal S x p))
  | _ => k 0
  end.

(** The normal has length one. *)
Definition unit_length (n : nat -> R) : Prop := (n 0%nat * n 0%nat + n 1%nat * n 1%nat + n 2%nat * n 2%nat = 1)%R.

(** The bound of the derivatives of the Green's function of the Helmholtz equation at
    distances of at least [d]. *)
Definition steepest (k d : R) : R := (sqrt (1 + k * k * (d * d)) / (4 * PI * (d * d)))%R.
