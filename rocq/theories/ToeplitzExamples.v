(** * Examples: flat screens, functions that move *)
From Coq Require Import Reals ZArith Lra.
From Verif Require Import Base BaseFacts Topology TopologyFacts DofMap Space Options SpecOptions Scalar Integrand CellPair Operators SpecLocal SpecOperators Interleave Assembly SpecAssembly
  AssemblyResults AssemblyExamples SpecAlgebra SpecRounding SpecShapeSpaces ShapeSpacesResults Shapes SpecShapes SpecSphere SpecScreen ScreenFacts SpecWidth SpecSymmetry SpecTurns TurnResults TurnExamples
  DofExamples BrokenResults SpecShift SpecToeplitz ToeplitzResults.

Local Open Scope R_scope.

Definition flat_screen_externals (n : nat) (b : builder (nat * nat)) : externals R := mkExternals R
  (fun t k => Some (mkQuadrature (repeat (/ 3) (2 * k)) (repeat (/ INR (2 * k)) k)))
  (fun ki d p k => Some (mkPairQuadrature (repeat (/ 4) (2 * k)) (repeat (/ 3) (2 * k)) (repeat (/ INR (4 * k)) k)))
  (fun g t points c =>
    let corner i := screen_position n (nth (nth i (nth c (cells_of b) []) 0%nat) (points_of b) (0%nat, 0%nat)) in
    let p := corner 0%nat in let q := corner 1%nat in let r := corner 2%nat in
    let size := sqrt (inner (normal p q r) (normal p q r)) in
    mkCellMap
      (fun j i => coordinate i p + nth (2 * j) points 0 * coordinate i (vsub q p) + nth (2 * j + 1) points 0 * coordinate i (vsub r p))
      (fun j i => coordinate i (normal p q r) / size)
      (fun j i => if (i <? 3)%nat then coordinate i (vsub q p) else coordinate (i - 3) (vsub r p))
      (fun j => size)).

Lemma flat_screen_flat n g b : flat_screen n (flat_screen_externals n b) g b.
Proof.
  intros t points c p q r Cp Cq Cr.
  assert (E : forall k x, corner b c k x -> nth (nth k (nth c (cells_of b) []) 0%nat) (points_of b) (0%nat, 0%nat) = x).
  { intros k x (vs & v & A & B & C). now rewrite (nth_error_nth _ _ [] A), (nth_error_nth _ _ 0%nat B), (nth_error_nth _ _ _ C). }
  unfold flat_screen_externals. cbn [x_geometry]. rewrite (E 0%nat p Cp), (E 1%nat q Cq), (E 2%nat r Cr).
  constructor; intros; cbn [cm_point cm_normal cm_jacobian cm_jdet]; try reflexivity;
    destruct i as [|[|[|i]]]; try lia; reflexivity.
Qed.

Lemma flat_screen_proper n b : proper_rules (flat_screen_externals n b).
Proof.
  split.
  - intros t k q H. inversion H; subst. cbn [qd_points qd_weights]. rewrite !repeat_length. auto.
  - intros k d p m q H. inversion H; subst. cbn [pq_test pq_trial pq_weights]. rewrite !repeat_length. auto.
Qed.

Lemma screen_exists n t : (0 < n)%nat -> t = Triangle \/ t = Quadrilateral -> exists b, screen n t b.
Proof.
  intros Hn [-> | ->].
  - destruct (screen_triangles_spec n ltac:(lia)) as (b & E & _). exists b. now constructor.
  - destruct (screen_quadrilaterals_spec n ltac:(lia)) as (b & E & _). exists b. now constructor.
Qed.

(** On every screen there are flat cells, spaces and Green's functions; every interior
    vertex gives a function of the continuous spaces of degree one or more, and any two
    of them are moved into each other. *)
Theorem toeplitz_example : forall n t id tf sf (basis : cell_type -> list R -> nat -> nat -> nat -> nat -> R) (cbasis : cell_type -> list R -> nat -> nat -> nat -> nat -> R * R),
  (0 < n)%nat -> t = Triangle \/ t = Quadrilateral -> standard tf -> standard sf -> exists b X,
  screen n t b /\ flat_screen n X (built_grid id t b) b /\ proper_rules X /\
  rules_exist X t (after [SetBatch 3]) /\ get_batch_size (after [SetBatch 3]) = 3%nat /\
  (exists test trial : fspace R R, made_on (built_grid id t b) tf test /\ made_on (built_grid id t b) sf trial /\ fs_basis test = basis /\ fs_basis trial = basis) /\
  (exists test trial : fspace (R * R) R, made_on (built_grid id t b) tf test /\ made_on (built_grid id t b) sf trial /\ fs_basis test = cbasis /\ fs_basis trial = cbasis) /\
  exact reals /\ exact_cast reals /\ radial reals laplace_green /\ legal_runtime (s_add reals) (sequential (s_add reals)) /\
  exact complexes /\ exact_cast complexes /\ (forall k, radial complexes (helmholtz_green k)) /\ legal_runtime (s_add complexes) (sequential (s_add complexes)).
Proof.
  intros n t id tf sf basis cbasis Hn Ht Htf Hsf. destruct (screen_exists n t Hn Ht) as (b & Sn).
  pose proof (screen_is_shape n id t b Sn) as Sh.
  destruct (spaces_exist R R (built_grid id t b) tf (fun _ => 1%nat) basis Sh Htf) as (u & Mu & _ & Bu); [intros; lia|].
  destruct (spaces_exist R R (built_grid id t b) sf (fun _ => 1%nat) basis Sh Hsf) as (v & Mv & _ & Bv); [intros; lia|].
  destruct (spaces_exist (R * R) R (built_grid id t b) tf (fun _ => 1%nat) cbasis Sh Htf) as (u' & Mu' & _ & Bu'); [intros; lia|].
  destruct (spaces_exist (R * R) R (built_grid id t b) sf (fun _ => 1%nat) cbasis Sh Hsf) as (v' & Mv' & _ & Bv'); [intros; lia|].
  exists b, (flat_screen_externals n b). split; [exact Sn|]. split; [apply flat_screen_flat|]. split; [apply flat_screen_proper|].
  split; [split; intros; eexists; reflexivity|]. split; [reflexivity|].
  split; [exists u, v; auto|]. split; [exists u', v'; auto|].
  destruct reals_exact, complexes_exact. repeat (split; auto using laplace_radial, helmholtz_radial, sequential_legal).
Qed.

Local Close Scope R_scope.
Local Open Scope nat_scope.

(** The functions of two interior vertices of a continuous space. *)
Theorem interior_vertices_move : forall {T R : Type} n id t b p (fs : fspace T R) x y u v, screen n t b -> 1 <= p ->
  made_on (built_grid id t b) (lagrange p) fs -> 0 < x < n -> 0 < y < n -> 0 < u < n -> 0 < v < n ->
  exists c c' i i', corner b c 0 (x, y) /\ corner b c' 0 (u, v) /\ nth_error (dofs_at fs c) 0 = Some i /\ nth_error (dofs_at fs c') 0 = Some i' /\
    moved_function b fs (Z.of_nat u - Z.of_nat x) (Z.of_nat v - Z.of_nat y) i i'.
Proof.
  intros T R n id t b p fs x y u v Sn Hp Mo Hx Hy Hu Hv. pose proof (standard_continuous p Hp) as Hf.
  assert (H0 : 0 < per t) by (destruct Sn; cbn; lia).
  assert (Sp : serial_space fs) by (eapply made_serial; eauto; now apply (screen_is_shape n)).
  assert (Dof : forall x y, x < n -> y < n -> exists i, nth_error (dofs_at fs (number t n x y 0)) 0 = Some i).
  { intros x0 y0 Hx0 Hy0. destruct (nth_error (dofs_at fs (number t n x0 y0 0)) 0) as [i|] eqn:E; [now exists i|]. exfalso. apply nth_error_None in E.
    rewrite dofs_at_dim in E; auto; rewrite (mo_grid _ _ _ Mo) in *; [|rewrite (screen_cell_count n id t b Sn); now apply (number_lt n t b Sn)].
    rewrite (mo_family _ _ _ Mo) in E. destruct Sn; cbn in E; lia. }
  destruct (Dof x y) as (i & Hi); try lia. destruct (Dof u v) as (i' & Hi'); try lia.
  assert (E0 : nth_error (offsets t 0) 0 = Some (0, 0)) by (destruct t; reflexivity).
  assert (Cx : corner b (number t n x y 0) 0 (x, y)) by (apply (corner_at n t b Sn); try lia; exists (0, 0); split; auto; cbn; f_equal; lia).
  assert (Cu : corner b (number t n u v 0) 0 (u, v)) by (apply (corner_at n t b Sn); try lia; exists (0, 0); split; auto; cbn; f_equal; lia).
  exists (number t n x y 0), (number t n u v 0), i, i'. repeat (split; [assumption|]).
  assert (El : el_edofs (lagrange p t) 0 0 = Some [0]) by (destruct Sn; reflexivity).
  refine (moves_with_cell n id t b _ fs Sn Hf Mo _ _ _ _ 0 0 [0] 0 i i' _ El (or_introl eq_refl) _ Hi Hi').
  - apply (moved_at n t b Sn); try lia. exists u, v. repeat split; lia.
  - right. exists 0, (x, y). split; [reflexivity|]. split; [exact Cx|]. split; right; cbn [fst snd]; lia.
Qed.
