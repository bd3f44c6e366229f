(** * Examples: a constant kernel on screens *)
From Coq Require Import Reals Lra.
From Verif Require Import Base Topology DofMap SpecDof Process Space Options SpecOptions Scalar Integrand CellPair Operators Adjacency SpecAdjacency SpecLocal SpecOperators Interleave Assembly SpecAssembly
  AssemblyResults SpecAlgebra SpecRounding SpecShapeSpaces ShapeSpacesResults Shapes SpecShapes SpecSphere SpecScreen SpecWidth SpecTurns TurnResults TurnExamples
  SpecBroken SpecGalerkin SpecMeasure SpecGauss GaussExamples SpecShift SpecToeplitz ToeplitzResults ToeplitzExamples SpecShare.

Local Open Scope R_scope.

(** The areas of the reference cells, split evenly among any positive number of points. *)
Definition kind_area (k : duffy) : R := match k with TriangleDuffy => 1 / 4 | _ => 1 end.
Definition even_externals (n : nat) (b : builder (nat * nat)) : externals R := mkExternals R
  (fun t k => if (k =? 0)%nat then None else Some (mkQuadrature (repeat (/ 3) (2 * k)) (repeat (reference_area t / INR k) k)))
  (fun ki d p k => if (k =? 0)%nat then None else Some (mkPairQuadrature (repeat (/ 4) (2 * k)) (repeat (/ 3) (2 * k)) (repeat (kind_area ki / INR k) k)))
  (x_geometry (flat_screen_externals n b)).

Lemma even_proper n b : proper_rules (even_externals n b).
Proof.
  split.
  - intros t k q H. cbn [even_externals x_simplex] in H. destruct (k =? 0)%nat; [discriminate|]. apply (f_equal (fun o => match o with Some q => (length (qd_points q), length (qd_weights q)) | None => (0, 0)%nat end)) in H.
    cbn [qd_points qd_weights] in H. rewrite !repeat_length in H. injection H as A B. lia.
  - intros ki d p k q H. cbn [even_externals x_duffy] in H. destruct (k =? 0)%nat; [discriminate|].
    apply (f_equal (fun o => match o with Some q => (length (pq_test q), length (pq_trial q), length (pq_weights q)) | None => (0, 0, 0)%nat end)) in H.
    cbn [pq_test pq_trial pq_weights] in H. rewrite !repeat_length in H. injection H as A B C. lia.
Qed.

Lemma even_weights n b t : t = Triangle \/ t = Quadrilateral -> area_weights (even_externals n b) t.
Proof.
  intros Ht. split.
  - intros k q H. cbn [even_externals x_simplex] in H. destruct (Nat.eqb_spec k 0) as [|N]; [discriminate|].
    apply (f_equal (fun o => match o with Some q => fold_right Rplus 0 (qd_weights q) | None => 0 end)) in H. cbn [qd_weights] in H. rewrite <- H, sum_repeat.
    field. now apply not_0_INR.
  - intros kind dim pairs k q Hk H. cbn [even_externals x_duffy] in H. destruct (Nat.eqb_spec k 0) as [|N]; [discriminate|].
    apply (f_equal (fun o => match o with Some q => fold_right Rplus 0 (pq_weights q) | None => 0 end)) in H. cbn [pq_weights] in H. rewrite <- H, sum_repeat.
    assert (INR k <> 0) by now apply not_0_INR. destruct Ht as [-> | ->]; cbn in Hk; injection Hk as <-; cbn [kind_area reference_area]; field; auto.
Qed.

Lemma even_rules n b t : t = Triangle \/ t = Quadrilateral -> rules_exist (even_externals n b) t (after [SetBatch 3]).
Proof.
  intros Ht. split.
  - intros k H. destruct Ht as [-> | ->]; vm_compute in H; injection H as <-; eexists; reflexivity.
  - intros k p kind H _ _. destruct Ht as [-> | ->]; vm_compute in H; injection H as <-; eexists; reflexivity.
Qed.

Theorem share_example : forall n t id, (0 < n)%nat -> t = Triangle \/ t = Quadrilateral -> exists b X (test trial : fspace R R),
  screen n t b /\ standard (interior_only (fun _ => 1%nat)) /\
  made_on (built_grid id t b) (interior_only (fun _ => 1%nat)) test /\ made_on (built_grid id t b) (interior_only (fun _ => 1%nat)) trial /\
  constants reals 1 test /\ constants reals 1 trial /\ adds_to_one reals 1 test /\ adds_to_one reals 1 trial /\
  interior_family (g_types (fs_grid test) 2) (fs_family test) /\ interior_family (g_types (fs_grid trial) 2) (fs_family trial) /\
  flat_screen n X (built_grid id t b) b /\ area_weights X t /\ proper_rules X /\
  rules_exist X t (after [SetBatch 3]) /\ get_batch_size (after [SetBatch 3]) = 3%nat /\ legal_runtime (s_add reals) (sequential (s_add reals)) /\
  exact reals /\ exact_cast reals /\ real_cast reals /\
  forall kd, shipped reals (laplace_operator kd steady_green) /\ constant_kernel (laplace_operator kd steady_green) (fun i => match i with 0%nat => 3 | _ => INR i end).
Proof.
  intros n t id Hn Ht. destruct (screen_exists n t Hn Ht) as (b & Sn). pose proof (screen_is_shape n id t b Sn) as Sh.
  assert (S1 : standard (interior_only (fun _ => 1%nat))) by (constructor; intros; lia).
  destruct (spaces_exist R R (built_grid id t b) _ (fun _ => 1%nat) unit_basis Sh S1) as (u & Mu & _ & Bu); [intros; lia|].
  assert (Tu : g_types (fs_grid u) 2 = [t]) by (rewrite (mo_grid _ _ _ Mu); reflexivity).
  assert (Cu : constants reals 1 u).
  { constructor; rewrite ?Bu; auto.
    - intros t' Ht'. rewrite Tu in Ht'. destruct Ht' as [<-|[]]. rewrite (mo_family _ _ _ Mu). destruct Ht as [-> | ->]; reflexivity.
    - intros t' points d p [-> | ->]; reflexivity. }
  assert (Au : adds_to_one reals 1 u).
  { intros t' points p Ht'. rewrite (co_dim _ _ _ Cu t' Ht'), Bu. split; [cbn; ring|]. intros d [-> | ->]; cbn; ring. }
  assert (Iu : interior_family (g_types (fs_grid u) 2) (fs_family u)).
  { intros t' d i Ht' Hd. rewrite Tu in Ht'. destruct Ht' as [<-|[]]. rewrite (mo_family _ _ _ Mu). unfold el_ndofs, interior_only. cbn [el_edofs]. destruct (i <? _)%nat; [|reflexivity]. destruct d as [|[|d]]; try reflexivity; lia. }
  exists b, (even_externals n b), u, u. do 10 (split; [assumption|]).
  split; [exact (flat_screen_flat n (built_grid id t b) b)|]. split; [now apply even_weights|]. split; [apply even_proper|]. split; [now apply even_rules|]. split; [reflexivity|].
  split; [apply sequential_legal|]. destruct reals_exact. split; auto. split; auto. split; [split; reflexivity|].
  intros kd. split; [apply laplace_shipped|]. intros i x y Hi. destruct kd; reflexivity.
Qed.
