(** * Examples: continuous linear functions on the sphere and bilinear functions on screens *)
From Coq Require Import Reals Lra Psatz Permutation.
From Verif Require Import Base Topology DofMap SpecDof Process Space Options SpecOptions Scalar Integrand CellPair Operators Adjacency SpecAdjacency SpecLocal LocalResults SpecOperators Interleave Assembly SpecAssembly
  SphereResults ShapesResults AssemblyResults AssemblyTermination AlgebraResults SpecTransfer SpecScalars SpecAlgebra SpecRounding SpecShapeSpaces ShapeSpacesResults Shapes SpecShapes SpecSphere SpecScreen SpecWidth WidthResults SpecSymmetry SymmetryResults SpecTurns TurnResults TurnExamples
  SpecBroken SpecGalerkin BrokenResults SpecMeasure SpecGauss GaussResults GaussExamples SpecShift SpecToeplitz ToeplitzResults ToeplitzExamples SpecShare ShareScreen ShareExamples SpecFloatSphere SpecApart ApartSharp KernelResults WaveKernel WaveLimits SpecWaves SpecDecay DecayPoints DecayShapes DecayExamples
  SpecMoments MomentResults MomentShapes MomentExamples SpecDegree DegreeResults DegreeShapes DegreeExamples PatchResults SpecPieces PieceResults PieceShapes PieceExamples SpecSwirls SwirlShapes SwirlExamples EchoResults EchoShapes.

Local Open Scope R_scope.
Local Notation dist := SpecWaves.distance.


(** A number between the ratio and one. *)
Lemma ratio_between reach a : reach < a -> 0 <= reach -> exists sigma, 0 < sigma < 1 /\ reach / a <= sigma.
Proof.
  intros H Hr. exists ((reach / a + 1) / 2). assert (Pa : 0 < a) by lra. assert (0 <= reach / a < 1); [|lra]. split; [apply Rmult_le_pos; [lra|left; now apply Rinv_0_lt_compat]|].
  apply Rmult_lt_reg_r with a; [exact Pa|]. unfold Rdiv. rewrite Rmult_assoc, Rinv_l by lra. lra.
Qed.

(** The functions of an element of degree one. *)
Lemma cell_length (fs : fspace R R) t z : serial_space fs -> g_types (fs_grid fs) 2 = [t] -> (z < ent_count (fs_grid fs) 2)%nat -> length (dofs_at fs z) = el_dim (fs_family fs t).
Proof. intros Sp Tu L. rewrite (dofs_at_dim fs z Sp L). pose proof (wf_ctype _ (ss_grid _ Sp) z L) as H. rewrite Tu in H. now destruct H as [<-|[]]. Qed.

(** ** The sphere *)
Theorem sphere_echo_example : forall level id e, (3 <= level)%nat -> exists (b : builder vec) X (fs : fspace R R) (fs' : fspace (R * R) R) P wmod deg pts,
  regular_sphere real_numbers level 1 = Ok b /\ fs_grid fs = built_grid id Triangle b /\
  dense_setting X wmod (laplace_single_layer (newton e)) (after [SetBatch 3; SetRegular Triangle (few Triangle)]) deg pts Triangle fs fs /\ mapped_space embed_real fs fs' /\
  positive_externals (Rle 0) X /\ inside_rules X Triangle /\ exact_to X Triangle (pts Triangle) (1 + 1) /\ flat_cells X (built_grid id Triangle b) b /\
  fs_family fs = lagrange 1 /\
  let F := fun (a : nat) (x y : R) => match a with 0%nat => 1 - x - y | 1%nat => x | _ => y end in
  element_functions fs Triangle 1 F /\ (forall t p q r, corners_of b t p q r -> P t = (p, q, r)) /\
  exists t s i j p q r p' q' r' sigma, corners_of b t p q r /\ corners_of b s p' q' r' /\ In i (dofs_at fs t) /\ In j (dofs_at fs s) /\
    (forall z x y, In z (support fs i) -> inside Triangle x y -> Rabs (piece fs F i z x y) <= 1) /\
    (forall z x y, In z (support fs j) -> inside Triangle x y -> Rabs (piece fs F j z x y) <= 1) /\
    let reach := 3 * sqrt (32 / (3 * (4 ^ level + 2))) in let a := dist (centre Triangle p q r) (centre Triangle p' q' r') in reach < a /\ 0 < sigma < 1 /\ reach / a <= sigma.
Proof.
  intros level id e Hl. destruct (sphere_swirl_example level id e Hl) as (b & X & fs & P & wmod & deg & pts & E & G & D & HX & Ins & Ex & Fl & Fam & Sl & Hp & t & s & i & j & p & q & r & p' & q' & r' & M & M' & Co & Co' & Hi & Hj & _ & _ & _ & _ & Far).
  exists b, X, fs, (complex_space fs), P, wmod, deg, pts. split; [exact E|]. split; [exact G|]. split; [eapply dense_operator; [|exact D]; apply (shipped_fitting reals), sh_laplace_single|].
  split; [apply complex_mapped|]. split; [exact HX|]. split; [exact Ins|]. split; [exact Ex|]. split; [exact Fl|]. split; [exact Fam|]. intros F.
  split. { intros a Ha. split; [apply linear_polynomial|]. intros points n. now apply Sl. }
  split; [exact Hp|]. destruct (ratio_between _ _ Far ltac:(apply Rmult_le_pos; [lra|apply sqrt_pos])) as (sigma & Hs & Rs).
  assert (Bd : forall k z x y, In z (support fs k) -> inside Triangle x y -> Rabs (piece fs F k z x y) <= 1).
  { intros k z x y Iz I. apply in_support in Iz. destruct Iz as (Lz & _). assert (Sp : serial_space fs) by apply (dn_test _ _ _ _ _ _ _ _ _ D).
    apply piece_between; [intros [|[|a]]; unfold F; cbn in I |- *; lra|]. rewrite (cell_length fs Triangle z Sp ltac:(now rewrite G) Lz), Fam. unfold F. cbn in I |- *. lra. }
  exists t, s, i, j, p, q, r, p', q', r', sigma. do 6 (split; [eassumption || apply Bd|]). intros reach a. split; [exact Far|]. split; [exact Hs|exact Rs].
Qed.

(** ** Screens *)
Theorem screen_echo_example : forall n id e, (6 <= n)%nat -> exists (b : builder (nat * nat)) X (fs : fspace R R) (fs' : fspace (R * R) R) P wmod deg pts,
  screen n Quadrilateral b /\ fs_grid fs = built_grid id Quadrilateral b /\
  dense_setting X wmod (laplace_single_layer (newton e)) (after [SetBatch 3; SetRegular Quadrilateral (few Quadrilateral)]) deg pts Quadrilateral fs fs /\ mapped_space embed_real fs fs' /\
  positive_externals (Rle 0) X /\ inside_rules X Quadrilateral /\ exact_to X Quadrilateral (pts Quadrilateral) (0 + 2) /\ flat_screen n X (built_grid id Quadrilateral b) b /\
  fs_family fs = lagrange 1 /\
  let F := fun (a : nat) (x y : R) => match a with 0%nat => (1 - x) * (1 - y) | 1%nat => x * (1 - y) | 2%nat => (1 - x) * y | _ => x * y end in
  element_functions fs Quadrilateral 2 F /\
  (forall t p q r, corner b t 0 p -> corner b t 1 q -> corner b t 2 r -> P t = (screen_position n p, screen_position n q, screen_position n r)) /\
  exists t s i j p q r p' q' r' sigma, corner b t 0 p /\ corner b t 1 q /\ corner b t 2 r /\ corner b s 0 p' /\ corner b s 1 q' /\ corner b s 2 r' /\ In i (dofs_at fs t) /\ In j (dofs_at fs s) /\
    (forall z x y, In z (support fs i) -> inside Quadrilateral x y -> Rabs (piece fs F i z x y) <= 1) /\
    (forall z x y, In z (support fs j) -> inside Quadrilateral x y -> Rabs (piece fs F j z x y) <= 1) /\
    let a := dist (centre Quadrilateral (screen_position n p) (screen_position n q) (screen_position n r)) (centre Quadrilateral (screen_position n p') (screen_position n q') (screen_position n r')) in
    let reach := 3 * (sqrt (spread Quadrilateral / 2) / INR (n + 1)) in reach < a /\ 0 < sigma < 1 /\ reach / a <= sigma.
Proof.
  intros n id e Hn. destruct (screen_swirl_example n id e Hn) as (b & X & fs & P & wmod & deg & pts & Sn & G & D & HX & Ins & Ex & Fl & Fam & Sl & Hp & t & s & i & j & p & q & r & p' & q' & r' & M & M' & C0 & C1 & C2 & C0' & C1' & C2' & Hi & Hj & _ & _ & _ & _ & Far).
  exists b, X, fs, (complex_space fs), P, wmod, deg, pts. split; [exact Sn|]. split; [exact G|]. split; [eapply dense_operator; [|exact D]; apply (shipped_fitting reals), sh_laplace_single|].
  split; [apply complex_mapped|]. split; [exact HX|]. split; [exact Ins|]. split; [exact Ex|]. split; [exact Fl|]. split; [exact Fam|]. intros F.
  split. { intros a Ha. split; [apply bilinear_polynomial|]. intros points m. now apply Sl. }
  split; [exact Hp|]. destruct (ratio_between _ _ Far ltac:(apply Rmult_le_pos; [lra|]; apply Rmult_le_pos; [apply sqrt_pos|]; left; apply Rinv_0_lt_compat, lt_0_INR; lia)) as (sigma & Hs & Rs).
  assert (Bd : forall k z x y, In z (support fs k) -> inside Quadrilateral x y -> Rabs (piece fs F k z x y) <= 1).
  { intros k z x y Iz I. apply in_support in Iz. destruct Iz as (Lz & _). assert (Sp : serial_space fs) by apply (dn_test _ _ _ _ _ _ _ _ _ D).
    apply piece_between; [intros [|[|[|a]]]; unfold F; cbn in I |- *; nra|]. rewrite (cell_length fs Quadrilateral z Sp ltac:(now rewrite G) Lz), Fam. unfold F. cbn in I |- *. nra. }
  exists t, s, i, j, p, q, r, p', q', r', sigma. do 10 (split; [eassumption || apply Bd|]). intros a reach. split; [exact Far|]. split; [exact Hs|exact Rs].
Qed.
