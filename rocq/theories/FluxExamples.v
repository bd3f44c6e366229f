(** * Example: double layers and linear functions on the sphere *)
From Coq Require Import Reals Lra Psatz Permutation.
From Verif Require Import Base Topology DofMap SpecDof Process Space Options SpecOptions Scalar Integrand CellPair Operators Adjacency SpecAdjacency SpecLocal LocalResults SpecOperators Interleave Assembly SpecAssembly
  SphereResults ShapesResults AssemblyResults AssemblyTermination AlgebraResults SpecTransfer SpecScalars SpecAlgebra SpecRounding SpecShapeSpaces ShapeSpacesResults Shapes SpecShapes SpecSphere SpecScreen SpecWidth WidthResults SpecSymmetry SymmetryResults SpecTurns TurnResults TurnExamples
  SpecBroken SpecGalerkin BrokenResults SpecMeasure SpecGauss GaussResults GaussExamples SpecShift SpecToeplitz ToeplitzResults ToeplitzExamples SpecShare ShareScreen ShareExamples SpecFloatSphere SpecApart ApartSharp KernelResults WaveKernel WaveLimits SpecWaves SpecDecay DecayPoints DecayShapes DecayExamples
  SpecMoments MomentResults MomentShapes MomentExamples SpecDegree DegreeResults DegreeShapes DegreeExamples PatchResults SpecPieces PieceResults PieceShapes PieceExamples SpecFluxes.

Local Open Scope R_scope.
Local Notation dist := SpecWaves.distance.

Theorem sphere_flux_example : forall level id e, (2 <= level)%nat -> exists (b : builder vec) X (fs : fspace R R) P wmod deg pts,
  regular_sphere real_numbers level 1 = Ok b /\ fs_grid fs = built_grid id Triangle b /\
  (forall kd, kd = laplace_double_layer (newton e) \/ kd = laplace_adjoint_double_layer (newton e) ->
    dense_setting X wmod kd (after [SetBatch 3; SetRegular Triangle (few Triangle)]) deg pts Triangle fs fs) /\
  positive_externals (Rle 0) X /\ inside_rules X Triangle /\ exact_to X Triangle (pts Triangle) (0 + 1 + 1) /\ flat_cells X (built_grid id Triangle b) b /\
  fs_family fs = interior_only (fun _ => 3%nat) /\ interior_family (g_types (fs_grid fs) 2) (fs_family fs) /\
  element_functions fs Triangle 1 (fun a x y => match a with 0%nat => 1 - x - y | 1%nat => x | _ => y end) /\ (forall t p q r, corners_of b t p q r -> P t = (p, q, r)) /\
  exists t s i j p q r p' q' r' sigma, corners_of b t p q r /\ corners_of b s p' q' r' /\ In i (dofs_at fs t) /\ In j (dofs_at fs s) /\
    (forall x y, inside Triangle x y -> Rabs (piece fs (fun a x y => match a with 0%nat => 1 - x - y | 1%nat => x | _ => y end) i t x y) <= 1) /\
    (forall x y, inside Triangle x y -> Rabs (piece fs (fun a x y => match a with 0%nat => 1 - x - y | 1%nat => x | _ => y end) j s x y) <= 1) /\
    sqrt (32 / (3 * (4 ^ level + 2))) < dist (centre Triangle p q r) (centre Triangle p' q' r') /\
    sqrt (32 / (3 * (4 ^ level + 2))) / dist (centre Triangle p q r) (centre Triangle p' q' r') < sigma < 1.
Proof.
  intros level id e Hl. destruct (sphere_piece_example level id e Hl) as (b & X & fs & P & wmod & deg & pts & E & G & D & HX & Ins & Ex & Fl & Fa & Fi & Ef & Hp & t & s & i & j & p & q & r & p' & q' & r' & C & C' & Hi & Hj & B & B' & A).
  exists b, X, fs, P, wmod, deg, pts. split; [exact E|]. split; [exact G|].
  split; [intros kd Hk; eapply dense_operator; [|exact D]; destruct Hk as [-> | ->]; apply (shipped_fitting reals); [apply sh_laplace_double|apply sh_laplace_adjoint]|].
  split; [exact HX|]. split; [exact Ins|]. split; [exact Ex|]. split; [exact Fl|]. split; [exact Fa|]. split; [exact Fi|]. split; [exact Ef|]. split; [exact Hp|].
  set (reach := sqrt (32 / (3 * (4 ^ level + 2)))) in *. set (a := dist (centre Triangle p q r) (centre Triangle p' q' r')) in *.
  exists t, s, i, j, p, q, r, p', q', r', ((reach / a + 1) / 2). split; [exact C|]. split; [exact C'|]. split; [exact Hi|]. split; [exact Hj|]. split; [exact B|]. split; [exact B'|]. split; [exact A|].
  assert (Hr : 0 <= reach) by apply sqrt_pos. assert (L : reach / a < 1) by (apply (Rmult_lt_reg_r a); [lra|]; unfold Rdiv; rewrite Rmult_assoc, Rinv_l by lra; rewrite Rmult_1_l, Rmult_1_r; exact A). fold a. clearbody reach a. lra.
Qed.
