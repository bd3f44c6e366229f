(** * Examples: spaces on the built-in shapes *)
From Coq Require Import QArith Qcanon.
From Verif Require Import Base BaseFacts Topology TopologyFacts DofMap SpecDof DofMapResults DofExamples Process Space SpecSpace SpaceFacts SpaceScript SpaceResults
  Shapes SpecShapes ShapesResults ShapesExamples DimensionResults Options SpecOptions Adjacency SpecAdjacency Scalar Integrand CellPair Operators SpecLocal LocalExamples
  Interleave Assembly SpecAssembly AssemblyResults AssemblyExamples SpecDistributed SpecShapeSpaces ShapeSpacesResults.
Open Scope nat_scope.

(** All processes store the whole grid; each entity has one owner. *)
Definition replicate (G : grid) (owner : nat -> nat -> nat) (r : nat) : grid :=
  with_ownership G (fun d e => if owner d e =? r then Owned else Ghost (owner d e) e).

Lemma replicate_partition N G owner : (forall d e, owner d e < N) -> 0 < N -> partition N G (replicate G owner) (fun _ _ e => e).
Proof.
  intros O HN. constructor; [constructor|..]; auto.
  - intros r _ t Ht. exact Ht.
  - intros r c d _ _ _. symmetry. apply map_id.
  - intros r d e Hr Hd He. cbn [replicate with_ownership g_own]. destruct (Nat.eqb_spec (owner d e) r); [now left|right].
    exists (owner d e), e. rewrite Nat.eqb_refl. auto.
  - intros r r' d e e' Hr Hr' Hd He He' H H' ->. cbn [replicate with_ownership g_own] in H, H'.
    destruct (Nat.eqb_spec (owner d e') r); [|discriminate]. destruct (Nat.eqb_spec (owner d e') r'); [congruence|discriminate].
  - intros C HC. exists 0, C. auto.
Qed.

Lemma replicate_dist N G owner fam : (forall d e, owner d e < N) -> wf_grid G -> wf_family (g_types G 2) fam -> wf_dist N (replicate G owner) fam.
Proof.
  intros O W F. constructor.
  - intros r _. destruct W. constructor; auto.
  - intros r _. exact F.
  - intros r c d i e p x Hr Hs H. cbn [replicate with_ownership g_own] in *. destruct (Nat.eqb_spec (owner d e) r); [discriminate|]. injection H as <- <-.
    split; auto. split; auto. split; [rewrite Nat.eqb_refl; discriminate|]. exists c, i. split; auto.
Qed.

Lemma replicate_created N G owner fam : (forall d e, owner d e < N) -> wf_grid G -> wf_family (g_types G 2) fam ->
  exists dm sp, dofmaps N (replicate G owner) fam dm /\ creates N buffered dm sp.
Proof.
  intros O W F. pose proof (replicate_dist N G owner fam O W F) as D.
  assert (H : exists dm, dofmaps N (replicate G owner) fam dm).
  { assert (K : forall r, exists dm, assign_dofs r (replicate G owner r) fam = Ok dm).
    { intros r. apply assign_dofs_total; [destruct W; constructor; auto|exact F]. }
    exists (fun r => match assign_dofs r (replicate G owner r) fam with Ok dm => dm | _ => mkDofmap [] [] 0 [] end).
    intros r Hr. destruct (K r) as (dm & ->). reflexivity. }
  destruct H as (dm & H). destruct (buffered_creation N (replicate G owner) fam dm D H) as (sp & _ & C & _). exists dm, sp. auto.
Qed.

(** Every shape on every number of processes. *)
Lemma dimension_example : forall G N fam owner, shape_grid G -> standard fam -> 0 < N -> (forall d e, owner d e < N) ->
  partition N G (replicate G owner) (fun _ _ e => e) /\ wf_dist N (replicate G owner) fam /\
  exists dm sp, dofmaps N (replicate G owner) fam dm /\ creates N buffered dm sp.
Proof.
  intros G N fam owner Hg Hf HN O. destruct (shape_counted G Hg) as (t & V & E & F & Ht & [W _ _ _ _ _ _ _ _]).
  split; [now apply replicate_partition|]. split; [apply replicate_dist; auto using standard_wf|apply replicate_created; auto using standard_wf].
Qed.

(** Computed sizes. *)
Definition size_of_space (G : grid) (fam : family) : nat := match assign_dofs 0 G fam with Ok dm => dm_size dm | _ => 0 end.
Definition sizes {P : Type} (b : res (builder P)) (t : cell_type) : list nat :=
  match b with Ok b => map (fun p => size_of_space (built_grid 0 t b) (lagrange p)) [1; 2; 3; 4] | _ => [] end.
Lemma computed_sizes : sizes (regular_sphere no_numbers 0 1) Triangle = [6; 18; 38; 66] /\ sizes (regular_sphere no_numbers 1 1) Triangle = [18; 66; 146; 258] /\
  sizes (screen_triangles 2) Triangle = [9; 25; 49; 81] /\
  sizes (screen_quadrilaterals 2) Quadrilateral = [9; 25; 49; 81].
Proof. vm_compute. auto. Qed.

Lemma screen2_shape : shape_grid screen2.
Proof. apply (shape_triangles 2). vm_compute. reflexivity. Qed.

Lemma screen2_made fam : standard fam -> made_on screen2 fam (make_space screen2 fam).
Proof.
  intros Hf. destruct (shape_counted _ screen2_shape) as (t & V & E & F & Ht & [W _ _ O _ _ _ _ _]).
  assert (Fam : wf_family (g_types screen2 2) fam) by now apply standard_wf.
  constructor; auto. destruct (assign_dofs_total 0 screen2 fam W Fam) as (dm & A).
  assert (Ed : serial_dofmap screen2 fam = dm) by (unfold serial_dofmap; now rewrite A).
  exists dm, synchronous, (SpaceScript.final_space 1 (fun _ => dm)). split; auto. cbn [make_space fs_space]. rewrite Ed. split; auto.
  apply (eager_completes 1 (fun _ => screen2) fam).
  - now apply whole_dist.
  - intros r Hr. replace r with 0 by lia. exact A.
  - intros r q m key Hr Hin. replace r with 0 in Hin by lia. destruct Hin.
Qed.

Lemma shapes_example : let calls := [SetRegular Triangle 2; SetSingular (Triangle, Triangle) 2; SetBatch 3] in
  shape_grid screen2 /\ standard (lagrange 2) /\ standard (interior_only (fun _ => 1)) /\
  made_on screen2 (lagrange 2) (make_space screen2 (lagrange 2)) /\ made_on screen2 (interior_only (fun _ => 1)) screen2_dp0 /\
  g_types screen2 2 = [Triangle] /\ shipped qc_scalar demo_op /\ proper_rules demo_externals /\ rules_exist demo_externals Triangle (after calls) /\
  0 < get_batch_size (after calls) < 256 /\ 2 * ent_count screen2 2 * ent_count screen2 2 <= 256 /\ legal_runtime (s_add qc_scalar) demo_rt /\
  global_size (fs_space (make_space screen2 (lagrange 2))) = 25 /\ global_size (fs_space screen2_dp0) = 8.
Proof.
  cbv zeta. assert (S1 : standard (lagrange 2)) by (constructor; lia). assert (S2 : standard (interior_only (fun _ => 1))) by (constructor; intros; lia).
  split; [exact screen2_shape|]. split; auto. split; auto. split; [now apply screen2_made|]. split; [now apply screen2_made|].
  split; [reflexivity|]. split; [constructor|]. split; [exact demo_proper|]. split.
  { split; intros; eexists; reflexivity. }
  split; [vm_compute; lia|]. split; [apply Nat.leb_le; vm_compute; reflexivity|]. split; [apply sequential_legal|].
  split; vm_compute; reflexivity.
Qed.
