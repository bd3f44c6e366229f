(** * Examples: a constant kernel on the sphere *)
From Coq Require Import Reals Lra.
From Verif Require Import Base Topology DofMap SpecDof Process Space Options SpecOptions Scalar Integrand CellPair Operators Adjacency SpecAdjacency SpecLocal SpecOperators Interleave Assembly SpecAssembly
  SphereResults ShapesResults AssemblyResults SpecAlgebra SpecRounding SpecShapeSpaces ShapeSpacesResults Shapes SpecShapes SpecSphere SpecWidth SpecTurns TurnResults TurnExamples
  SpecGalerkin SpecMeasure SpecGauss GaussResults.

Local Open Scope R_scope.

(** Rules for every positive number of points. *)
Definition level_externals (b : builder vec) : externals R := mkExternals R
  (fun t n => if (n =? 0)%nat then None else x_simplex (flat_externals b) t n)
  (fun k d p n => if (n =? 0)%nat then None else x_duffy (flat_externals b) k d p n)
  (x_geometry (flat_externals b)).

Lemma level_proper b : proper_rules (level_externals b).
Proof.
  destruct (flat_proper b) as [P1 P2]. split.
  - intros t n q H. cbn [level_externals x_simplex] in H. destruct (n =? 0)%nat; [discriminate|]. eapply P1; eauto.
  - intros k d p n q H. cbn [level_externals x_duffy] in H. destruct (n =? 0)%nat; [discriminate|]. eapply P2; eauto.
Qed.

Lemma sum_repeat x n : fold_right Rplus 0 (repeat x n) = INR n * x.
Proof. induction n as [|n IH]; [cbn; ring|]. cbn [repeat fold_right]. rewrite IH, S_INR. ring. Qed.

Lemma level_weights b : triangle_weights (level_externals b).
Proof.
  split.
  - intros n q H. cbn [level_externals x_simplex] in H. destruct (Nat.eqb_spec n 0) as [|N]; [discriminate|]. cbn [flat_externals x_simplex] in H. apply (f_equal (fun o => match o with Some q => fold_right Rplus 0 (qd_weights q) | None => 0 end)) in H. cbn [qd_weights] in H. rewrite <- H.
    rewrite sum_repeat, mult_INR. assert (INR n <> 0) by now apply not_0_INR. replace (INR 2) with 2 by (cbn; ring). field. auto.
  - intros dim pairs n q H. cbn [level_externals x_duffy] in H. destruct (Nat.eqb_spec n 0) as [|N]; [discriminate|]. cbn [flat_externals x_duffy] in H. apply (f_equal (fun o => match o with Some q => fold_right Rplus 0 (pq_weights q) | None => 0 end)) in H. cbn [pq_weights] in H. rewrite <- H.
    rewrite sum_repeat, mult_INR. assert (INR n <> 0) by now apply not_0_INR. replace (INR 4) with 4 by (cbn; ring). field. auto.
Qed.

Lemma level_rules b : rules_exist (level_externals b) Triangle (after [SetBatch 3]).
Proof.
  split.
  - intros n H. vm_compute in H. injection H as <-. eexists. reflexivity.
  - intros n p kind H _ _. vm_compute in H. injection H as <-. eexists. reflexivity.
Qed.

(** Constants, and the functions [1 - x - y], [x], [y]. *)
Definition unit_basis (t : cell_type) (points : list R) (d p a j : nat) : R := match d with 0%nat => 1 | _ => 0 end.
Definition hat_basis (t : cell_type) (points : list R) (d p a j : nat) : R :=
  let x := nth (2 * p) points 0 in let y := nth (2 * p + 1) points 0 in
  match d, a with
  | 0%nat, 0%nat => 1 - x - y | 0%nat, 1%nat => x | 0%nat, _ => y
  | 1%nat, 0%nat => -1 | 1%nat, 1%nat => 1 | 1%nat, _ => 0
  | _, 0%nat => -1 | _, 1%nat => 0 | _, _ => 1
  end.

(** Value 3, gradient [(1, 2, 3)]. *)
Definition steady_green : @green R R := fun i x y => match i with 0%nat => 3 | _ => INR i end.

Theorem gauss_example : forall level id, exists b X (test trial : fspace R R),
  regular_sphere real_numbers level 1 = Ok b /\ standard (interior_only (fun _ => 1%nat)) /\ standard (lagrange 1) /\
  made_on (built_grid id Triangle b) (interior_only (fun _ => 1%nat)) test /\ made_on (built_grid id Triangle b) (lagrange 1) trial /\
  adds_to_one reals 1 test /\ adds_to_one reals 1 trial /\ constants reals 1 test /\ interior_family [Triangle] (interior_only (fun _ => 1%nat)) /\
  flat_cells X (built_grid id Triangle b) b /\ triangle_weights X /\ proper_rules X /\
  rules_exist X Triangle (after [SetBatch 3]) /\ get_batch_size (after [SetBatch 3]) = 3%nat /\ legal_runtime (s_add reals) (sequential (s_add reals)) /\
  exact reals /\ exact_cast reals /\ real_cast reals /\
  forall kd, shipped reals (laplace_operator kd steady_green) /\ constant_kernel (laplace_operator kd steady_green) (fun i => match i with 0%nat => 3 | _ => INR i end).
Proof.
  intros level id. destruct (sphere_exists real_numbers level) as (b & E).
  pose proof (shape_sphere real_numbers level id b E) as Sh.
  assert (S1 : standard (interior_only (fun _ => 1%nat))) by (constructor; intros; lia). assert (S2 : standard (lagrange 1)) by (constructor; lia).
  destruct (spaces_exist R R (built_grid id Triangle b) _ (fun _ => 1%nat) unit_basis Sh S1) as (u & Mu & _ & Bu); [intros; lia|].
  destruct (spaces_exist R R (built_grid id Triangle b) _ (fun _ => 1%nat) hat_basis Sh S2) as (v & Mv & _ & Bv); [intros; lia|].
  assert (Tu : g_types (fs_grid u) 2 = [Triangle]) by (rewrite (mo_grid _ _ _ Mu); reflexivity).
  assert (Tv : g_types (fs_grid v) 2 = [Triangle]) by (rewrite (mo_grid _ _ _ Mv); reflexivity).
  exists b, (level_externals b), u, v. split; [exact E|]. do 4 (split; [assumption|]).
  split. { intros t points p Ht. rewrite Tu in Ht. destruct Ht as [<-|[]]. rewrite (mo_family _ _ _ Mu), Bu. split; [cbn; ring|]. intros d [-> | ->]; cbn; ring. }
  split. { intros t points p Ht. rewrite Tv in Ht. destruct Ht as [<-|[]]. rewrite (mo_family _ _ _ Mv), Bv. change (el_dim (lagrange 1 Triangle)) with 3%nat. cbn [seq SpecAssembly.total fold_right]. split; [cbn; ring|]. intros d [-> | ->]; cbn; ring. }
  split. { constructor; rewrite ?Bu; auto. - intros t Ht. rewrite Tu in Ht. destruct Ht as [<-|[]]. now rewrite (mo_family _ _ _ Mu). - intros t points d p [-> | ->]; reflexivity. }
  split. { intros t d i Ht Hd. destruct Ht as [<-|[]]. unfold el_ndofs, interior_only. cbn [el_edofs]. destruct (i <? _)%nat; [|reflexivity]. destruct d as [|[|d]]; try reflexivity; lia. }
  split; [exact (flat_flat (built_grid id Triangle b) b)|]. split; [apply level_weights|]. split; [apply level_proper|]. split; [apply level_rules|]. split; [reflexivity|].
  split; [apply sequential_legal|]. destruct reals_exact. split; auto. split; auto. split; [split; reflexivity|].
  intros kd. split; [apply laplace_shipped|]. intros i x y Hi. destruct kd; reflexivity.
Qed.
