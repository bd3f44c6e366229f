(** * Examples: rounded distant Helmholtz entries and the integrals *)
From Coq Require Import Reals Lra Psatz Permutation.
From Verif Require Import Base BaseFacts Topology DofMap SpecDof Process Space Options SpecOptions Scalar Integrand CellPair Operators Adjacency SpecAdjacency SpecLocal LocalResults SpecOperators Interleave Assembly SpecAssembly
  SphereResults ShapesResults AssemblyResults AssemblyTermination AlgebraResults SpecOrder SpecTransfer TransferExamples SpecScalars ScalarsResults SpecAlgebra SpecRounding RoundingResults RoundingModels RoundingExamples SpecShapeSpaces ShapeSpacesResults Shapes SpecShapes SpecSphere SpecScreen SpecWidth WidthResults SpecSymmetry SymmetryResults SpecTurns TurnResults TurnExamples
  SpecBroken SpecGalerkin BrokenResults SpecMeasure SpecGauss GaussResults GaussExamples SpecShift SpecToeplitz ToeplitzResults ToeplitzExamples SpecShare ShareScreen ShareExamples SpecFloatSphere SpecApart ApartSharp KernelResults WaveKernel WaveLimits SpecWaves SpecDecay DecayPoints DecayShapes DecayExamples
  SpecMoments MomentResults MomentShapes MomentExamples SpecDegree DegreeResults DegreeShapes DegreeExamples PatchResults SpecPieces PieceResults PieceShapes PieceExamples SpecSwirls SwirlShapes SwirlExamples EchoResults EchoShapes EchoExamples ContinuousExamples SurgeExamples DigitsResults BudgetExamples TollResults.

Local Open Scope R_scope.
Local Notation dist := SpecWaves.distance.

(** The same data on both sides, at another precision. *)
Lemma other_externals h u n X : 0 <= u < 1 -> related_externals (real_close h 0) (nonzero_close h 0) (real_close h 0) eq X X -> related_externals (real_close u n) (nonzero_close u n) (real_close u n) eq X X.
Proof.
  intros Hu [_ _ J]. constructor.
  - intros t k q q' E E'. assert (q' = q) by congruence. subst q'. split; [reflexivity|]. apply TransferExamples.Forall2_refl. intros. now apply real_close_refl.
  - intros k d p m q q' E E'. assert (q' = q) by congruence. subst q'. split; [reflexivity|]. split; [reflexivity|]. apply TransferExamples.Forall2_refl. intros. now apply real_close_refl.
  - intros g t points points' c p Ep Hp Hc. destruct (J g t points points' c p Ep Hp Hc) as (_ & _ & _ & N). subst points'.
    split; [intros; now apply real_close_refl|]. split; [intros; now apply real_close_refl|]. split; [now apply real_close_refl|exact N].
Qed.

Lemma complex_close_refl u n x : 0 <= u < 1 -> close u cnorm complexes n x x.
Proof.
  intros Hu. unfold close. replace (cnorm (s_sub complexes x x)) with 0.
  - pose proof (growth_ge u Hu n). assert (0 <= cnorm x) by apply sqrt_pos. nra.
  - unfold cnorm. cbn. rewrite <- sqrt_0. f_equal. ring.
Qed.

Lemma complex_kernel u n X (O O' : operator (R * R) R) deg pts test trial : 0 <= u < 1 -> kn_value (op_kernel O) = kn_value (op_kernel O') -> related_kernel (close u cnorm complexes n) X X O O' deg pts test trial.
Proof.
  intros Hu EO. constructor; intros; rewrite EO.
  - assert (qt' = qt) by congruence. assert (qs' = qs) by congruence. subst qt' qs'. now apply complex_close_refl.
  - assert (q' = q) by congruence. subst q'. now apply complex_close_refl.
Qed.

Lemma complex_basis u n (O : operator (R * R) R) fs : 0 <= u < 1 -> related_basis (close u cnorm complexes n) eq O fs fs.
Proof. intros Hu t points points' d p b <- Hp Hd Hb. now apply complex_close_refl. Qed.

(** The rounded square of the wavenumber. *)
Lemma squared_form p G kappa : (15 <= p)%nat -> related_form (close (growth ((/ 2) ^ p) 5 - 1) cnorm complexes 1)
  (op_integrand (helmholtz_hypersingular (complex_of (floats p)) G kappa)) (op_integrand (helmholtz_hypersingular complexes G kappa)).
Proof.
  intros Hp. destruct (complex_unit p Hp) as ((U0 & U1) & U2). set (u := growth ((/ 2) ^ p) 5 - 1) in *.
  assert (Hh : 0 <= (/ 2) ^ p < 1) by (split; [apply pow_le; lra|apply pow_lt_1_compat; [lra|lia]]).
  split; [exact I|]. split; [|exact I]. unfold close. pose proof (ru_real_mul _ _ _ _ (complex_rounds _ Hh _ (floats_round p)) kappa kappa) as M. fold u in M.
  cbn [complex_of floats r_mul] in M. unfold cnorm. cbn [complexes complex_of floats reals s_sub s_cast r_neg r_mul s_zero fst snd].
  replace ((- fl p (kappa * kappa) - - (kappa * kappa)) * (- fl p (kappa * kappa) - - (kappa * kappa)) + (0 - 0) * (0 - 0)) with (Rsqr (fl p (kappa * kappa) - kappa * kappa)) by (unfold Rsqr; ring).
  replace (- (kappa * kappa) * - (kappa * kappa) + 0 * 0) with (Rsqr (kappa * kappa)) by (unfold Rsqr; ring). rewrite !sqrt_Rsqr_abs. eapply Rle_trans; [exact M|].
  apply Rmult_le_compat_r; [apply Rabs_pos|]. unfold growth. rewrite pow_1. apply (Rmult_le_reg_r (1 - u)); [lra|]. rewrite Rmult_minus_distr_r, Rinv_l by lra. nra.
Qed.

Theorem sphere_toll_example : forall prec kappa level id e, (3 <= level)%nat -> (15 <= prec)%nat -> exists (b : builder vec) X (fs : fspace R R) (fs' : fspace (R * R) R) P wmod deg pts,
  regular_sphere real_numbers level 1 = Ok b /\ fs_grid fs = built_grid id Triangle b /\ standard (fs_family fs) /\ fs_family fs = lagrange 1 /\
  (forall O, O = laplace_single_layer (newton e) \/ O = laplace_double_layer (newton e) \/ O = laplace_adjoint_double_layer (newton e) \/ O = laplace_hypersingular (newton e) -> dense_setting X wmod O (after [SetBatch 3; SetRegular Triangle (few Triangle)]) deg pts Triangle fs fs) /\ mapped_space embed_real fs fs' /\
  let u := growth ((/ 2) ^ prec) 5 - 1 in
  (forall O O' : operator (R * R) R, (O = helmholtz_single_layer (waves e) kappa /\ O' = helmholtz_single_layer (waves e) kappa) \/ (O = helmholtz_double_layer (waves e) kappa /\ O' = helmholtz_double_layer (waves e) kappa) \/ (O = helmholtz_adjoint_double_layer (waves e) kappa /\ O' = helmholtz_adjoint_double_layer (waves e) kappa) \/ (O = helmholtz_hypersingular (complex_of (floats prec)) (waves e) kappa /\ O' = helmholtz_hypersingular complexes (waves e) kappa) ->
    dense_setting X wmod O (after [SetBatch 3; SetRegular Triangle (few Triangle)]) deg pts Triangle fs' fs' /\ related_kernel (close u cnorm complexes 1) X X O O' deg pts fs' fs' /\
    related_basis (close u cnorm complexes 1) eq O fs' fs' /\ related_form (close u cnorm complexes 1) (op_integrand O) (op_integrand O')) /\
  same_dofs fs' fs' /\ related_externals (real_close u 1) (nonzero_close u 1) (real_close u 1) eq X X /\
  points_at_most X deg pts Triangle 9 /\ (7 * 1 + 42 + 9 <= 2 ^ 11)%nat /\ (8 * 1 + 45 + 9 <= 2 ^ 11)%nat /\ (11 * 1 + 51 + 9 <= 2 ^ 11)%nat /\
  positive_externals (Rle 0) X /\
  inside_rules X Triangle /\ exact_to X Triangle (pts Triangle) (1 + 1) /\ flat_cells X (built_grid id Triangle b) b /\
  let F := fun (a : nat) (x y : R) => match a with 0%nat => 1 - x - y | 1%nat => x | _ => y end in
  let F1 := fun (a : nat) (x y : R) => match a with 0%nat => -1 | 1%nat => 1 | _ => 0 end in let F2 := fun (a : nat) (x y : R) => match a with 0%nat => -1 | 1%nat => 0 | _ => 1 end in
  element_functions fs Triangle 1 F /\ element_slopes fs Triangle 1 F F1 F2 /\ (forall t p q r, corners_of b t p q r -> P t = (p, q, r)) /\
  exists t s i j p q r p' q' r' sigma M M', corners_of b t p q r /\ corners_of b s p' q' r' /\ In i (dofs_at fs t) /\ In j (dofs_at fs s) /\
    (forall z x y, In z (support fs i) -> inside Triangle x y -> Rabs (piece fs F i z x y) <= 1) /\
    (forall z x y, In z (support fs j) -> inside Triangle x y -> Rabs (piece fs F j z x y) <= 1) /\
    0 <= M /\ (forall z x y, In z (support fs i) -> inside Triangle x y -> inner (piece_swirl fs F1 F2 P i z x y) (piece_swirl fs F1 F2 P i z x y) <= M * M) /\
    0 <= M' /\ (forall z x y, In z (support fs j) -> inside Triangle x y -> inner (piece_swirl fs F1 F2 P j z x y) (piece_swirl fs F1 F2 P j z x y) <= M' * M') /\
    let reach := 3 * sqrt (32 / (3 * (4 ^ level + 2))) in let a := dist (centre Triangle p q r) (centre Triangle p' q' r') in reach < a /\ 0 < sigma < 1 /\ reach / a <= sigma * sigma.
Proof.
  intros prec kappa level id e Hl Hp. destruct (sphere_budget_example level id e Hl) as (b & X & fs & P & wmod & deg & pts & E & G & S1 & Fam & HO1 & _ & HE & Pt & _ & _ & _ & HX & _ & Rest).
  destruct (complex_unit prec Hp) as ((U0 & U1) & U2). set (u := growth ((/ 2) ^ prec) 5 - 1). assert (Hu : 0 <= u < 1) by (unfold u; lra).
  exists b, X, fs, (complex_space fs), P, wmod, deg, pts. split; [exact E|]. split; [exact G|]. split; [exact S1|]. split; [exact Fam|]. split; [intros O HO; now apply HO1|]. split; [apply complex_mapped|].
  intros u'. fold u in u'. subst u'.
  split. { intros O O' HO. assert (D : dense_setting X wmod O (after [SetBatch 3; SetRegular Triangle (few Triangle)]) deg pts Triangle (complex_space fs) (complex_space fs)).
    { eapply mapped_setting; [apply complex_mapped|apply complex_mapped| |apply (HO1 (laplace_single_layer (newton e))); now left].
      destruct HO as [(-> & ->) | [(-> & ->) | [(-> & ->) | (-> & ->)]]]; [apply (shipped_fitting (complex_of (floats prec))), sh_helmholtz_single|apply (shipped_fitting (complex_of (floats prec))), sh_helmholtz_double|apply (shipped_fitting (complex_of (floats prec))), sh_helmholtz_adjoint|apply (shipped_fitting (complex_of (floats prec))), sh_helmholtz_hyper]. }
    split; [exact D|]. split; [apply complex_kernel; [exact Hu|]; now destruct HO as [(-> & ->) | [(-> & ->) | [(-> & ->) | (-> & ->)]]]|]. split; [now apply complex_basis|].
    destruct HO as [(-> & ->) | [(-> & ->) | [(-> & ->) | (-> & ->)]]]; [exact I|exact I|exact I|now apply squared_form]. }
  split; [repeat split|]. split; [now apply (other_externals half53)|]. split; [exact Pt|]. do 3 (split; [cbn; lia|]). split; [exact HX|].
  destruct Rest as (Ins & Ex & Fl & Rest). split; [exact Ins|]. split; [exact Ex|]. split; [exact Fl|]. intros F F1 F2.
  destruct Rest as (Ef & Es & HP & t & s & i & j & p & q & r & p' & q' & r' & sigma & M & M' & Co & Co' & Hi & Hj & Bd & Bd' & PM & HM & PM' & HM' & Far & Hs).
  split; [exact Ef|]. split. { intros a Ha. destruct (Es a Ha) as (P1 & P2 & Re). split; [now apply constant_linear|]. split; [now apply constant_linear|exact Re]. }
  split; [exact HP|]. assert (Q0 : 0 <= 3 * sqrt (32 / (3 * (4 ^ level + 2)))) by (apply Rmult_le_pos; [lra|apply sqrt_pos]).
  assert (Q : 0 <= 3 * sqrt (32 / (3 * (4 ^ level + 2))) / dist (centre Triangle p q r) (centre Triangle p' q' r')) by (apply Rmult_le_pos; [exact Q0|]; left; apply Rinv_0_lt_compat; lra).
  exists t, s, i, j, p, q, r, p', q', r', (sqrt sigma), M, M'. do 10 (split; [assumption|]). intros reach a. split; [exact Far|].
  rewrite sqrt_sqrt by lra. split; [|unfold reach, a; lra]. split; [apply sqrt_lt_R0; lra|]. rewrite <- sqrt_1. apply sqrt_lt_1_alt. lra.
Qed.

Theorem screen_toll_example : forall prec kappa n id e, (6 <= n)%nat -> (15 <= prec)%nat -> exists (b : builder (nat * nat)) X (fs : fspace R R) (fs' : fspace (R * R) R) P wmod deg pts,
  screen n Quadrilateral b /\ fs_grid fs = built_grid id Quadrilateral b /\ standard (fs_family fs) /\ fs_family fs = lagrange 1 /\
  (forall O, O = laplace_single_layer (newton e) \/ O = laplace_hypersingular (newton e) -> dense_setting X wmod O (after [SetBatch 3; SetRegular Quadrilateral (few Quadrilateral)]) deg pts Quadrilateral fs fs) /\ mapped_space embed_real fs fs' /\
  let u := growth ((/ 2) ^ prec) 5 - 1 in
  (forall O O' : operator (R * R) R, (O = helmholtz_single_layer (waves e) kappa /\ O' = helmholtz_single_layer (waves e) kappa) \/ (O = helmholtz_hypersingular (complex_of (floats prec)) (waves e) kappa /\ O' = helmholtz_hypersingular complexes (waves e) kappa) ->
    dense_setting X wmod O (after [SetBatch 3; SetRegular Quadrilateral (few Quadrilateral)]) deg pts Quadrilateral fs' fs' /\ related_kernel (close u cnorm complexes 1) X X O O' deg pts fs' fs' /\
    related_basis (close u cnorm complexes 1) eq O fs' fs' /\ related_form (close u cnorm complexes 1) (op_integrand O) (op_integrand O')) /\
  same_dofs fs' fs' /\ related_externals (real_close u 1) (nonzero_close u 1) (real_close u 1) eq X X /\
  points_at_most X deg pts Quadrilateral 25 /\ (7 * 1 + 42 + 25 <= 2 ^ 11)%nat /\ (11 * 1 + 51 + 25 <= 2 ^ 11)%nat /\
  positive_externals (Rle 0) X /\
  inside_rules X Quadrilateral /\ exact_to X Quadrilateral (pts Quadrilateral) (0 + 2) /\ flat_screen n X (built_grid id Quadrilateral b) b /\
  let F := fun (a : nat) (x y : R) => match a with 0%nat => (1 - x) * (1 - y) | 1%nat => x * (1 - y) | 2%nat => (1 - x) * y | _ => x * y end in
  let F1 := fun (a : nat) (x y : R) => match a with 0%nat => y - 1 | 1%nat => 1 - y | 2%nat => - y | _ => y end in let F2 := fun (a : nat) (x y : R) => match a with 0%nat => x - 1 | 1%nat => - x | 2%nat => 1 - x | _ => x end in
  element_functions fs Quadrilateral 2 F /\ element_slopes fs Quadrilateral 2 F F1 F2 /\
  (forall t p q r, corner b t 0 p -> corner b t 1 q -> corner b t 2 r -> P t = (screen_position n p, screen_position n q, screen_position n r)) /\
  exists t s i j p q r p' q' r' sigma M M', corner b t 0 p /\ corner b t 1 q /\ corner b t 2 r /\ corner b s 0 p' /\ corner b s 1 q' /\ corner b s 2 r' /\ In i (dofs_at fs t) /\ In j (dofs_at fs s) /\
    (forall z x y, In z (support fs i) -> inside Quadrilateral x y -> Rabs (piece fs F i z x y) <= 1) /\
    (forall z x y, In z (support fs j) -> inside Quadrilateral x y -> Rabs (piece fs F j z x y) <= 1) /\
    0 <= M /\ (forall z x y, In z (support fs i) -> inside Quadrilateral x y -> inner (piece_swirl fs F1 F2 P i z x y) (piece_swirl fs F1 F2 P i z x y) <= M * M) /\
    0 <= M' /\ (forall z x y, In z (support fs j) -> inside Quadrilateral x y -> inner (piece_swirl fs F1 F2 P j z x y) (piece_swirl fs F1 F2 P j z x y) <= M' * M') /\
    let a := dist (centre Quadrilateral (screen_position n p) (screen_position n q) (screen_position n r)) (centre Quadrilateral (screen_position n p') (screen_position n q') (screen_position n r')) in
    let reach := 3 * (sqrt (spread Quadrilateral / 2) / INR (n + 1)) in reach < a /\ 0 < sigma < 1 /\ reach / a <= sigma.
Proof.
  intros prec kappa n id e Hl Hp. destruct (screen_budget_example n id e Hl) as (b & X & fs & P & wmod & deg & pts & E & G & S1 & Fam & HO1 & _ & HE & Pt & _ & _ & HX & _ & Rest).
  destruct (complex_unit prec Hp) as ((U0 & U1) & U2). set (u := growth ((/ 2) ^ prec) 5 - 1). assert (Hu : 0 <= u < 1) by (unfold u; lra).
  exists b, X, fs, (complex_space fs), P, wmod, deg, pts. split; [exact E|]. split; [exact G|]. split; [exact S1|]. split; [exact Fam|]. split; [intros O HO; now apply HO1|]. split; [apply complex_mapped|].
  intros u'. fold u in u'. subst u'.
  split. { intros O O' HO. assert (D : dense_setting X wmod O (after [SetBatch 3; SetRegular Quadrilateral (few Quadrilateral)]) deg pts Quadrilateral (complex_space fs) (complex_space fs)).
    { eapply mapped_setting; [apply complex_mapped|apply complex_mapped| |apply (HO1 (laplace_single_layer (newton e))); now left].
      destruct HO as [(-> & ->) | (-> & ->)]; [apply (shipped_fitting (complex_of (floats prec))), sh_helmholtz_single|apply (shipped_fitting (complex_of (floats prec))), sh_helmholtz_hyper]. }
    split; [exact D|]. split; [apply complex_kernel; [exact Hu|]; now destruct HO as [(-> & ->) | (-> & ->)]|]. split; [now apply complex_basis|].
    destruct HO as [(-> & ->) | (-> & ->)]; [exact I|now apply squared_form]. }
  split; [repeat split|]. split; [now apply (other_externals half53)|]. split; [exact Pt|]. do 2 (split; [cbn; lia|]). split; [exact HX|].
  destruct Rest as (Ins & Ex & Fl & Rest). split; [exact Ins|]. split; [exact Ex|]. split; [exact Fl|]. intros F F1 F2.
  destruct Rest as (Ef & Es & HP & t & s & i & j & p & q & r & p' & q' & r' & M & M' & C0 & C1 & C2 & C0' & C1' & C2' & Hi & Hj & Bd & Bd' & PM & HM & PM' & HM' & Far).
  split; [exact Ef|]. split. { intros a Ha. destruct (Es a Ha) as (P1 & P2 & Re). split; [now apply linear_quadratic|]. split; [now apply linear_quadratic|exact Re]. }
  split; [exact HP|]. destruct (ratio_between _ _ Far ltac:(apply Rmult_le_pos; [lra|]; apply Rmult_le_pos; [apply sqrt_pos|]; left; apply Rinv_0_lt_compat, lt_0_INR; lia)) as (sigma & Hs & Rs).
  exists t, s, i, j, p, q, r, p', q', r', sigma, M, M'. do 14 (split; [assumption|]). intros a reach. split; [exact Far|]. split; [exact Hs|exact Rs].
Qed.
