(** * Examples: complex linear functions on the sphere *)
From Coq Require Import Reals Lra Ring_theory.
From Verif Require Import Base BaseFacts Topology TopologyFacts DofMap SpecDof Process Space Options SpecOptions Scalar Integrand CellPair Operators SpecLocal SpecOperators Interleave Assembly SpecAssembly
  AssemblyFacts AssemblyExact AssemblyResults DistributedResults SpecBroken BrokenResults SphereResults ShapesResults SpecAlgebra SpecRounding SpecGalerkin GalerkinResults SpecShapeSpaces ShapeSpacesResults
  Shapes SpecShapes SpecSphere SpecWidth SpecSymmetry SpecTurns TurnResults TurnExamples GaussResults GaussExamples TestsResults SpecCurls CurlResults CurlSpaces.

Definition complex_hats (t : cell_type) (points : list R) (d p a j : nat) : R * R := (hat_basis t points d p a j, 0%R).

Lemma hat_derivative t points d p a points' p' : d = 1 \/ d = 2 -> complex_hats t points d p a 0 = complex_hats t points' d p' a 0.
Proof. intros [-> | ->]; unfold complex_hats, hat_basis; destruct a as [|[|a]]; reflexivity. Qed.

Theorem curls_example : forall level id, exists (b : builder vec) X (fs disc : fspace (R * R) R) C M,
  regular_sphere real_numbers level 1 = Ok b /\ flat_cells X (built_grid id Triangle b) b /\ proper_rules X /\ rules_exist X Triangle (after [SetBatch 3]) /\
  made_on (built_grid id Triangle b) (lagrange 1) fs /\ made_on (built_grid id Triangle b) (interior_only (fun _ => 3)) disc /\ broken fs disc /\
  exact complexes /\ legal_runtime (s_add complexes) (sequential (s_add complexes)) /\
  spanned complexes (surface_curl complexes X) fs disc C /\ spanned complexes (normal_times complexes X) fs disc M.
Proof.
  intros level id. assert (Ex : exists b : builder vec, regular_sphere real_numbers level 1 = Ok b) by exact (sphere_exists real_numbers level). destruct Ex as (b & E).
  pose proof (shape_sphere real_numbers level id b E) as Sh.
  assert (S1 : standard (interior_only (fun _ => 3))) by (constructor; intros; lia). assert (S2 : standard (lagrange 1)) by (constructor; lia).
  destruct (spaces_exist (R * R) R (built_grid id Triangle b) _ (fun _ => 1) complex_hats Sh S1) as (u & Mu & Cu & Bu); [intros; lia|].
  destruct (spaces_exist (R * R) R (built_grid id Triangle b) _ (fun _ => 1) complex_hats Sh S2) as (v & Mv & Cv & Bv); [intros; lia|].
  pose proof (mo_grid _ _ _ Mu) as Gu. pose proof (mo_grid _ _ _ Mv) as Gv.
  assert (Tu : g_types (fs_grid u) 2 = [Triangle]) by (rewrite Gu; reflexivity).
  pose proof (made_serial _ _ _ _ u Sh S1 Mu) as Su. pose proof (made_serial _ _ _ _ v Sh S2 Mv) as Sv.
  assert (Br : broken v u).
  { constructor; rewrite ?Gu, ?Gv, ?Bu, ?Bv, ?Cu, ?Cv, ?(mo_family _ _ _ Mu), ?(mo_family _ _ _ Mv); auto. all: idtac.
    - intros t [<-|[]]. reflexivity.
    - apply interior_only_interior. }
  destruct complexes_exact as (Ec & _).
  destruct (exact_spaces (R * R) R complexes (flat_externals b) Ec) as (one & H1 & HC & HM).
  assert (E1 : one = (1, 0)%R). { specialize (H1 (1, 0)%R). destruct one as [x y]. cbn in H1. injection H1 as A B. f_equal; lra. }
  destruct (HC v u (fun c n i => surface_curl complexes (flat_externals b) v c i [] n 0) Su) as (C & SC & _).
  - congruence.
  - rewrite (mo_family _ _ _ Mu). apply interior_only_interior.
  - intros t points p Ht. rewrite Tu in Ht. destruct Ht as [<-|[]]. rewrite (mo_family _ _ _ Mu), Bu, E1. cbn [interior_only el_dim ref_count Nat.mul Nat.add seq SpecAssembly.total fold_right].
    unfold complex_hats, hat_basis. split; [cbn; f_equal; ring|]. intros d [-> | ->]; cbn; f_equal; ring.
  - intros c i points n p _ _ _ _. unfold surface_curl.
    assert (K : forall d, d = 1 \/ d = 2 -> restricted complexes v c i points d p = restricted complexes v c i [] d 0).
    { intros d Hd. unfold restricted. apply total_ext. intros ai _. destruct (snd ai =? i); [|reflexivity]. rewrite Bv. now apply hat_derivative. }
    unfold curl. rewrite !K by auto. reflexivity.
  - destruct (HM v u (fun c n => SpecLocal.normal complexes (cell_of (flat_externals b) v c []) 0 n) Sv Su Br) as (M & SM & _).
    + intros c points n p _ _ _. reflexivity.
    + exists b, (flat_externals b), v, u, C, M. split; [exact E|]. split; [exact (flat_flat (built_grid id Triangle b) b)|]. split; [apply flat_proper|]. split; [apply flat_rules|].
      do 2 (split; [assumption|]). split; [exact Br|]. split; [exact Ec|]. split; [apply sequential_legal|]. split; assumption.
Qed.
