(** * Computed numbers of colours and of contributions *)
From Verif Require Import Base BaseFacts Topology TopologyFacts DofMap SpecDof DofExamples Process Space SpecSpace Colouring SpecColour Shapes SpecShapes ShapesExamples
  Options SpecOptions Adjacency SpecAdjacency Scalar Integrand CellPair Operators SpecLocal LocalExamples Interleave Assembly SpecAssembly AssemblyResults AssemblyExamples
  SpecShapeSpaces ShapeSpacesResults ShapeSpacesExamples SpecCounts CountsResults.

(** Numbers of classes for degrees 1 and 3, and for one function on each cell. *)
Definition colours {P : Type} (b : res (builder P)) (t : cell_type) : list nat :=
  match b with
  | Ok b => map (fun fam => match cell_colouring (built_grid 0 t b) fam with Ok ((_, classes) :: _) => length classes | _ => 0 end)
      [lagrange 1; lagrange 3; interior_only (fun _ => 1)]
  | _ => []
  end.

Lemma computed_colours : colours (regular_sphere no_numbers 0 1) Triangle = [4; 4; 1] /\ colours (regular_sphere no_numbers 2 1) Triangle = [9; 9; 1] /\
  colours (screen_triangles 1) Triangle = [2; 2; 1] /\ colours (screen_triangles 5) Triangle = [7; 7; 1] /\
  colours (screen_quadrilaterals 1) Quadrilateral = [1; 1; 1] /\ colours (screen_quadrilaterals 5) Quadrilateral = [4; 4; 1].
Proof. vm_compute. repeat split. Qed.

(** The triplets on the screen with eight triangles: 50 touching pairs. *)
Definition triplet_count : nat :=
  match assemble_singular_part qc_scalar demo_externals demo_rt 256 demo_op (after [SetRegular Triangle 2; SetSingular (Triangle, Triangle) 2; SetBatch 3])
    (25, 8) screen2_dp0 (make_space screen2 (lagrange 2)) with Ok m => length (sm_data m) | _ => 0 end.

Lemma computed_triplets : triplet_count = 50 * 6 * 1.
Proof. vm_compute. reflexivity. Qed.

Lemma counts_example : let calls := [SetRegular Triangle 2; SetSingular (Triangle, Triangle) 2; SetBatch 3] in
  shape_grid screen2 /\ standard (lagrange 2) /\ standard (interior_only (fun _ => 1)) /\
  made_on screen2 (lagrange 2) (make_space screen2 (lagrange 2)) /\ made_on screen2 (interior_only (fun _ => 1)) screen2_dp0 /\
  g_types screen2 2 = [Triangle] /\ shipped qc_scalar demo_op /\ proper_rules demo_externals /\ rules_exist demo_externals Triangle (after calls) /\
  0 < get_batch_size (after calls) < 256 /\ 26 * ent_count screen2 2 <= 256 /\ legal_runtime (s_add qc_scalar) demo_rt /\ exactly 50 (touching_pair screen2) /\
  triplet_count = 50 * 6 * 1.
Proof.
  cbv zeta. destruct shapes_example as (A1 & A2 & A3 & A4 & A5 & A6 & A7 & A8 & A9 & A10 & _ & A12 & _).
  repeat (split; [assumption|]). split; [apply Nat.leb_le; vm_compute; reflexivity|]. split; [assumption|]. split; [|exact computed_triplets].
  destruct shape_pairs as (_ & P & _). apply (P 2). vm_compute. reflexivity.
Qed.
