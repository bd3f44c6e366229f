(** * Spaces that meet the hypotheses of the bounds of the double layer entries *)
From Coq Require Import Reals Lra.
From Verif Require Import Base BaseFacts Topology DofMap SpecDof Process Space SpecSpace Options SpecOptions Adjacency SpecAdjacency Scalar Integrand CellPair Operators SpecLocal LocalResults SpecOperators
  Interleave Assembly SpecAssembly AssemblyResults SpecTransfer SpecScalars ScalarsResults SpecAlgebra SpecRounding SpecBroken SpecGalerkin SpecMeasure Shapes SpecShapes SpecSphere SpecWidth
  SpecTurns SpecGauss GaussResults WaveLimits SpecWaves SpecDecay DecayShapes DecayExamples SpecFar FarResults FarKernel FarShapes.

Local Open Scope R_scope.

Lemma laplace_fitting kd (G : @green R R) : fitting (laplace_operator kd G).
Proof. apply (shipped_fitting reals). destruct kd; constructor. Qed.

Lemma helmholtz_fitting kd (G : R -> @green (R * R) R) k : fitting (helmholtz_operator complexes kd G k).
Proof. apply (shipped_fitting complexes). destruct kd; constructor. Qed.

Lemma same_mapped {T : Type} (fs : fspace T R) : mapped_space (fun x => x) fs fs.
Proof. constructor; reflexivity. Qed.

Lemma complex_constants fs : constants reals 1 fs -> constants complexes (s_cast complexes 1) (complex_space fs).
Proof.
  intros [A B C]. pose proof (complex_mapped fs) as M. constructor.
  - exact A.
  - intros t points p. cbn [complex_space fs_basis]. rewrite B. reflexivity.
  - intros t points d p H. cbn [complex_space fs_basis]. rewrite C by exact H. reflexivity.
Qed.

Theorem sphere_far_example : forall level id e, exists b X (test : fspace R R) deg pts wmod,
  regular_sphere real_numbers level 1 = Ok b /\ fs_grid test = built_grid id Triangle b /\ fs_grid (complex_space test) = built_grid id Triangle b /\
  positive_externals (Rle 0) X /\ flat_cells X (built_grid id Triangle b) b /\ triangle_weights X /\ inside_rules X Triangle /\
  (forall kd, dense_setting X wmod (laplace_operator kd (newton e)) (after [SetBatch 3]) deg pts Triangle test test) /\
  (forall kd k, dense_setting X wmod (helmholtz_operator complexes kd (waves e) k) (after [SetBatch 3]) deg pts Triangle (complex_space test) (complex_space test)) /\
  constants reals 1 test /\ constants complexes (s_cast complexes 1) (complex_space test) /\ interior_family (g_types (fs_grid test) 2) (fs_family test) /\
  flat_faces reals X (fs_grid test) Triangle (long b) (unit_normal reals b) /\ full_weights reals X Triangle deg pts (1 / 2) /\
  (forall c, (c < ent_count (fs_grid test) 2)%nat -> unit_length (unit_normal reals b c)).
Proof.
  intros level id e. destruct (sphere_decay_example level id e) as (b & X & u & deg & pts & wmod & E & Gu & D & HX & _ & Cu & Iu & Fl & Tw & Ir & M & _ & _).
  exists b, X, u, deg, pts, wmod. split; [exact E|]. split; [exact Gu|]. split; [exact Gu|]. split; [exact HX|]. split; [exact Fl|]. split; [exact Tw|]. split; [exact Ir|].
  split. { intros kd. eapply mapped_setting; [apply same_mapped|apply same_mapped|apply laplace_fitting|exact D]. }
  split. { intros kd k. eapply mapped_setting; [exact M|exact M|apply helmholtz_fitting|exact D]. }
  split; [exact Cu|]. split; [now apply complex_constants|]. split; [exact Iu|].
  split. { rewrite Gu. exact (sphere_flat reals X level id b E Fl). }
  split. { exact (sphere_full reals 1 DecayResults.reals_ring real_cast_reals (proj2 TurnExamples.reals_exact) X Tw deg pts). }
  rewrite Gu. exact (sphere_unit_length level id b E).
Qed.
