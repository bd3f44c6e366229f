(** * Specification vocabulary: two types of scalars *)
From Verif Require Import Base Topology DofMap Space Scalar Integrand CellPair Operators SpecLocal Assembly SpecAssembly.

(** [f] respects the operations, and both have the same real numbers, as the
    embedding of the real into the complex numbers or the conjugation of complex
    numbers. *)
Record scalar_map {T T' R : Type} (S : scalar T R) (S' : scalar T' R) (f : T -> T') : Prop := {
  sc_zero : f (s_zero S) = s_zero S';
  sc_add : forall a b, f (s_add S a b) = s_add S' (f a) (f b);
  sc_mul : forall a b, f (s_mul S a b) = s_mul S' (f a) (f b);
  sc_sub : forall a b, f (s_sub S a b) = s_sub S' (f a) (f b);
  sc_neg : forall a, f (s_neg S a) = s_neg S' (f a);
  sc_div : forall a b, f (s_div S a b) = s_div S' (f a) (f b);
  sc_cast : forall r, f (s_cast S r) = s_cast S' r;
  sc_real_mul : forall a b, r_mul S a b = r_mul S' a b
}.

(** The same integrand with its factors mapped. *)
Fixpoint map_integrand {T T' : Type} (f : T -> T') (i : integrand T) : integrand T' :=
  match i with
  | SingleLayer => SingleLayer
  | DoubleLayer => DoubleLayer
  | AdjointDoubleLayer => AdjointDoubleLayer
  | HypersingularCurlCurl => HypersingularCurlCurl
  | HypersingularNormalNormal => HypersingularNormalNormal
  | Sum i0 i1 => Sum (map_integrand f i0) (map_integrand f i1)
  | TimesScalar c i0 => TimesScalar (f c) (map_integrand f i0)
  end.

(** The kernel of [O'] has the mapped values. *)
Definition mapped_kernel {T T' R : Type} (f : T -> T') (O : operator T R) (O' : operator T' R) : Prop :=
  forall i x y, kn_value (op_kernel O') i x y = f (kn_value (op_kernel O) i x y).

(** The same space, with the values of the basis functions mapped. *)
Record mapped_space {T T' R : Type} (f : T -> T') (fs : fspace T R) (fs' : fspace T' R) : Prop := {
  mp_processes : fs_processes fs' = fs_processes fs;
  mp_grid : fs_grid fs' = fs_grid fs;
  mp_family : fs_family fs' = fs_family fs;
  mp_components : fs_components fs' = fs_components fs;
  mp_space : fs_space fs' = fs_space fs;
  mp_basis : forall t points d p b j, fs_basis fs' t points d p b j = f (fs_basis fs t points d p b j)
}.

(** Terms with factor zero do not matter: so in exact arithmetic, and for finite
    floating point numbers up to the sign of zero. *)
Definition null_factor {T R : Type} (S : scalar T R) : Prop :=
  (forall a, s_mul S (s_zero S) a = s_zero S) /\ (forall a, s_add S a (s_zero S) = a).
