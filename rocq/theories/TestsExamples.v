(** * The tests as they are in the repository, and tests that fail *)
From Coq Require Import ZArith QArith Qcanon.
From Verif Require Import Base BaseFacts Topology TopologyFacts DofMap SpecDof DofExamples Process Space Colouring Shapes SpecShapes ShapesExamples Python PythonAssembly Options Scalar Integrand CellPair Operators
  SpecLocal LocalExamples Interleave Assembly SpecAssembly AssemblyExamples SpecAlgebra AlgebraExamples BrokenExamples SplitExamples SpecOptions SpecShapeSpaces ShapeSpacesExamples Tests SpecTests TestsResults.
Local Open Scope nat_scope.

(** The layout of the DOFs of the lowest order Raviart-Thomas element: one on each edge. *)
Definition on_edges : family := fun t =>
  mkElement (ref_count t 1) (fun d i => if i <? ref_count t d then match d with 0 | 2 => Some [] | 1 => Some [i] | _ => None end else None).

Lemma on_edges_wf t : surface_type t -> wf_family [t] on_edges.
Proof.
  intros Ht. constructor.
  - intros u [<-|[]]. destruct Ht as [-> | ->]; constructor.
    1,4: intros d i Hd Hi; unfold on_edges; cbn [el_edofs]; rewrite (proj2 (Nat.ltb_lt _ _) Hi); destruct d as [|[|[|d]]]; eauto; lia.
    1,3: intros d i H; unfold on_edges; cbn [el_edofs]; destruct (Nat.ltb_spec i (ref_count Triangle d)); destruct (Nat.ltb_spec i (ref_count Quadrilateral d)); auto;
         destruct d as [|[|[|d]]]; auto; exfalso; apply H; split; auto; lia.
    all: cbn; reflexivity.
  - intros u u' d i i' [<-|[]] [<-|[]] Hd Hi Hi'. unfold el_ndofs, on_edges. cbn [el_edofs].
    rewrite (proj2 (Nat.ltb_lt _ _) Hi), (proj2 (Nat.ltb_lt _ _) Hi'). destruct d as [|[|d]]; auto; lia.
Qed.

Lemma on_edges_dofs t : dofs_on t on_edges 1.
Proof. split; [lia|]. intros i Hi. unfold el_ndofs, on_edges. cbn [el_edofs]. rewrite (proj2 (Nat.ltb_lt _ _) Hi). cbn. lia. Qed.

Definition on_grid {A : Type} (b : res (builder A)) (t : cell_type) (f : grid -> list (res unit)) : list (res unit) :=
  match b with Ok b => f (built_grid 0 t b) | _ => [] end.

(** tests/test_space.rs as it is. *)
Lemma replayed_rust :
  on_grid (screen_triangles 8) Triangle (fun G => [run_test G (interior_only (fun _ => 1)); run_test G (interior_only (fun _ => 6));
    run_test G (lagrange 2); run_test G (lagrange 3); run_test G (interior_only (fun _ => 3))]) = repeat (Ok tt) 5 /\
  on_grid (regular_sphere no_numbers 2 1) Triangle (fun G => [test_lagrange0 G; test_lagrange1 G; test_lagrange2 G;
    test_colouring G Triangle (lagrange 1) 0; test_colouring_one G Triangle (interior_only (fun _ => 1)); test_colouring G Triangle (lagrange 1) 1]) = repeat (Ok tt) 6.
Proof. split; vm_compute; reflexivity. Qed.

(** Some of the cases of python/test/test_function_space.py. *)
Lemma replayed_python :
  on_grid (regular_sphere no_numbers 1 1) Triangle (fun G => [test_local_numbers G 1; test_local_numbers G 4; test_cell_dofs G 3; test_global G 2; test_ownership G 2])
    = repeat (Ok tt) 5 /\
  test_create_assembler SingleLayerOp 3 4 loaded = true.
Proof. split; vm_compute; reflexivity. Qed.

(** Grids with ghosts, and spaces of other kinds than the tests are for, do not pass:
    the assertions say something. *)
Lemma failing :
  run_test (with_ownership screen2 (fun d e => match d, e with 0, 3 => Ghost 1 7 | _, _ => Owned end)) (lagrange 1) = Panic /\
  test_dofmap screen2 (lagrange 2) (g_count screen2 Point) = Panic /\
  test_colouring screen2 Triangle (interior_only (fun _ => 1)) 0 = Panic /\
  test_colouring screen2 Triangle on_edges 0 = Panic /\
  test_colouring screen2 Triangle on_edges 1 = Ok tt /\
  test_colouring_one screen2 Triangle (lagrange 1) = Panic /\
  test_create_assembler SingleLayerOp 37 4 loaded = false /\ test_create_assembler SingleLayerOp 4 4 loaded = false.
Proof. repeat split; vm_compute; reflexivity. Qed.

(** Sparse and dense matrices of discontinuous linear functions on eight triangles; the
    test is for discontinuous spaces only. *)
Definition qc_close (x y : Qc) : bool := if Qc_eq_dec x y then true else false.

Lemma sparse_dense_example :
  let a := mkTyped F64 (laplace_hypersingular demo_green, demo_options) in let dp1 := mkTyped F64 screen2_dp1 in let p1 := mkTyped F64 screen2_linear in
  legal_runtime (s_add qc_scalar) demo_rt /\ (forall v, qc_close (s_add qc_scalar (s_zero qc_scalar) v) v = true) /\
  dense_setting demo_externals 256 (fst (ty_native a)) (snd (ty_native a)) (fun _ _ => 2) (fun _ => 2) Triangle (ty_native dp1) (ty_native dp1) /\
  interior_family [Triangle] (fs_family (ty_native dp1)) /\
  test_singular qc_scalar demo_externals demo_rt demo_rt 256 qc_close a dp1 dp1 = PyReturn tt /\
  test_singular qc_scalar demo_externals demo_rt demo_rt 256 qc_close a p1 p1 = PyRaise.
Proof.
  cbv zeta. destruct split_examples as (_ & L & Z & _ & D & I & _).
  assert (C : forall v, qc_close (s_add qc_scalar (s_zero qc_scalar) v) v = true).
  { intros v. rewrite Z. unfold qc_close. destruct (Qc_eq_dec v v); auto; congruence. }
  split; [exact L|]. split; [exact C|]. split; [exact D|]. split; [exact I|]. split.
  - eapply singular_passes; try exact D; auto.
  - vm_compute. reflexivity.
Qed.

(** examples/assembly.rs on the octahedron and on eight triangles: the number of entries
    in each row. *)
Definition printed_sizes {A : Type} (r : res (list (list A))) : list nat := match r with Ok rows => map (@length A) rows | _ => [] end.
Definition on_octahedron {A : Type} (f : grid -> res A) : res A := b <- regular_sphere no_numbers 0 1 ;; f (built_grid 0 Triangle b).

Lemma printed_example :
  printed_sizes (on_octahedron (fun G => example_assembly qc_scalar demo_externals demo_rt 256 (laplace_single_layer demo_green) G Triangle (lagrange 1) (fun _ => 1) p1_basis 2 2))
    = repeat 6 6 /\
  printed_sizes (example_assembly qc_scalar demo_externals demo_rt 256 (laplace_single_layer demo_green) screen2 Triangle (lagrange 1) (fun _ => 1) p1_basis 2 2) = repeat 9 9 /\
  shape_grid screen2 /\ standard (lagrange 1) /\ shipped qc_scalar (laplace_single_layer demo_green) /\ proper_rules demo_externals /\
  rules_exist demo_externals Triangle (after [SetRegular Triangle 2; SetSingular (Triangle, Triangle) 2]).
Proof.
  split; [vm_compute; reflexivity|]. split; [vm_compute; reflexivity|].
  destruct shapes_example as (H1 & _ & _ & _ & _ & _ & _ & H2 & _).
  split; [exact H1|]. split; [constructor; lia|]. split; [constructor|]. split; [exact H2|]. split; intros; eexists; reflexivity.
Qed.
