(** * Examples for matrices and turned functions *)
From Coq Require Import Reals Lra Ring_theory.
From Verif Require Import Base Topology DofMap Space Scalar Assembly SpecAssembly AssemblyExact SpecRounding SpecAutomorphism SpecOrbit MomentResults TurnExamples.
Local Open Scope R_scope.

(** A matrix with one solution for every right-hand side: 2 on the diagonal of a matrix
    of two rows, and 1 elsewhere. *)
Definition two_one : list R := [2; 1; 1; 2].

Lemma two_one_product (x y : nat -> R) : product reals 2 2 two_one x y <-> y 0%nat = 2 * x 0%nat + x 1%nat /\ y 1%nat = x 0%nat + 2 * x 1%nat.
Proof.
  split.
  - intros P. destruct (P 0%nat ltac:(lia)) as (e & He & E). destruct (P 1%nat ltac:(lia)) as (e' & He' & E').
    pose proof (He 0%nat ltac:(lia)) as A. pose proof (He 1%nat ltac:(lia)) as B. pose proof (He' 0%nat ltac:(lia)) as A'. pose proof (He' 1%nat ltac:(lia)) as B'.
    unfold entry_at, two_one in *. cbn in A, B, A', B'. injection A as A. injection B as B. injection A' as A'. injection B' as B'.
    unfold total in E, E'. cbn in E, E'. rewrite <- A, <- B in E. rewrite <- A', <- B' in E'. rewrite E, E'. split; lra.
  - intros (E & E') i Hi. destruct i as [|[|i]]; [| |lia].
    + exists (fun j => match j with O => 2 | _ => 1 end). split; [intros [|[|j]] Hj; [reflexivity|reflexivity|lia]|]. unfold total. cbn. lra.
    + exists (fun j => match j with O => 1 | _ => 2 end). split; [intros [|[|j]] Hj; [reflexivity|reflexivity|lia]|]. unfold total. cbn. lra.
Qed.

Lemma two_one_solution : (forall y, at_most_one reals 2 2 two_one y) /\ product reals 2 2 two_one (fun _ => 1) (fun _ => 3) /\
  ~ at_most_one reals 2 2 [1; 1; 1; 1] (fun _ => 0).
Proof.
  split; [|split].
  - intros y x x' P P' j Hj. apply two_one_product in P. apply two_one_product in P'. destruct j as [|[|j]]; [| |lia]; lra.
  - apply two_one_product. split; lra.
  - intros H.
    assert (Z : forall a, product reals 2 2 [1; 1; 1; 1] (fun j => match j with O => a | _ => - a end) (fun _ => 0)).
    { intros a i Hi. exists (fun _ => 1). split.
      - intros j Hj. destruct i as [|[|i]]; [| |lia]; destruct j as [|[|j]]; try lia; reflexivity.
      - unfold total. cbn. lra. }
    specialize (H _ _ (Z 1) (Z 2) 0%nat ltac:(lia)). cbn in H. lra.
Qed.
