(** * Examples: rounded distant entries and the integrals *)
From Coq Require Import Reals Lra Psatz Permutation.
From Verif Require Import Base BaseFacts Topology DofMap SpecDof Process Space Options SpecOptions Scalar Integrand CellPair Operators Adjacency SpecAdjacency SpecLocal LocalResults SpecOperators Interleave Assembly SpecAssembly
  SphereResults ShapesResults AssemblyResults AssemblyTermination AlgebraResults SpecOrder SpecTransfer TransferExamples SpecScalars SpecAlgebra SpecRounding RoundingResults RoundingModels RoundingExamples SpecShapeSpaces ShapeSpacesResults Shapes SpecShapes SpecSphere SpecScreen SpecWidth WidthResults SpecSymmetry SymmetryResults SpecTurns TurnResults TurnExamples
  SpecBroken SpecGalerkin BrokenResults SpecMeasure SpecGauss GaussResults GaussExamples SpecShift SpecToeplitz ToeplitzResults ToeplitzExamples SpecShare ShareScreen ShareExamples SpecFloatSphere SpecApart ApartSharp KernelResults WaveKernel WaveLimits SpecWaves SpecDecay DecayPoints DecayShapes DecayExamples
  SpecMoments MomentResults MomentShapes MomentExamples SpecDegree DegreeResults DegreeShapes DegreeExamples PatchResults SpecPieces PieceResults PieceShapes PieceExamples SpecSwirls SwirlShapes SwirlExamples EchoResults EchoShapes EchoExamples ContinuousExamples.

Local Open Scope R_scope.
Local Notation dist := SpecWaves.distance.

(** The same data on both sides. *)
Lemma same_externals u n X : 0 <= u < 1 -> (forall g t points c p, cm_jdet (x_geometry X g t points c) p <> 0) ->
  related_externals (real_close u n) (nonzero_close u n) (real_close u n) eq X X.
Proof.
  intros Hu J. constructor.
  - intros t k q q' E E'. assert (q' = q) by congruence. subst q'. split; [reflexivity|]. apply TransferExamples.Forall2_refl. intros. now apply real_close_refl.
  - intros k d p m q q' E E'. assert (q' = q) by congruence. subst q'. split; [reflexivity|]. split; [reflexivity|]. apply TransferExamples.Forall2_refl. intros. now apply real_close_refl.
  - intros g t points points' c p <- Hp Hc. split; [intros; now apply real_close_refl|]. split; [intros; now apply real_close_refl|].
    split; [now apply real_close_refl|]. apply J.
Qed.

Lemma same_kernel u n X (O : operator R R) deg pts test trial : 0 <= u < 1 -> related_kernel (close u Rabs reals n) X X O O deg pts test trial.
Proof.
  intros Hu. constructor; intros.
  - assert (qt' = qt) by congruence. assert (qs' = qs) by congruence. subst qt' qs'. now apply close_refl.
  - assert (q' = q) by congruence. subst q'. now apply close_refl.
Qed.

Lemma cell_type_eq_dec (s t : cell_type) : {s = t} + {s <> t}.
Proof. decide equality. Defined.

(** Regular rules for one cell type only. *)
Definition one_type (t : cell_type) (X : externals R) : externals R := mkExternals R
  (fun t' n => if cell_type_eq_dec t t' then x_simplex X t' n else None) (x_duffy X) (x_geometry X).

Lemma one_proper t X : proper_rules X -> proper_rules (one_type t X).
Proof. intros [A B]. split; [|exact B]. intros t' n q H. cbn [one_type x_simplex] in H. destruct (cell_type_eq_dec t t'); [now apply (A t' n)|discriminate]. Qed.

Lemma one_rules t X o : rules_exist X t o -> rules_exist (one_type t X) t o.
Proof. intros [A B]. split; [|exact B]. intros n H. cbn [one_type x_simplex]. destruct (cell_type_eq_dec t t) as [|N]; [now apply A|now elim N]. Qed.

Lemma one_simplex t X n q t' : x_simplex (one_type t X) t' n = Some q -> t' = t /\ x_simplex X t n = Some q.
Proof. cbn [one_type x_simplex]. destruct (cell_type_eq_dec t t') as [<-|]; [auto|discriminate]. Qed.

(** The points of the rules are in the cell. *)
Definition points_in (t : cell_type) (X : externals R) : Prop :=
  forall points p, rule_points X points -> (2 * p < length points)%nat -> inside t (nth (2 * p) points 0) (nth (2 * p + 1) points 0).

Theorem sphere_budget_example : forall level id e, (3 <= level)%nat -> exists (b : builder vec) X (fs : fspace R R) P wmod deg pts,
  regular_sphere real_numbers level 1 = Ok b /\ fs_grid fs = built_grid id Triangle b /\ standard (fs_family fs) /\ fs_family fs = lagrange 1 /\
  (forall O, O = laplace_single_layer (newton e) \/ O = laplace_double_layer (newton e) \/ O = laplace_adjoint_double_layer (newton e) \/ O = laplace_hypersingular (newton e) ->
    dense_setting X wmod O (after [SetBatch 3; SetRegular Triangle (few Triangle)]) deg pts Triangle fs fs /\
    related_kernel (close half53 Rabs reals 0) X X O O deg pts fs fs /\ related_basis (close half53 Rabs reals 0) eq O fs fs) /\
  same_dofs fs fs /\ related_externals (real_close half53 0) (nonzero_close half53 0) (real_close half53 0) eq X X /\
  points_at_most X deg pts Triangle 9 /\ (7 * 0 + 42 + 9 <= 2 ^ 11)%nat /\ (8 * 0 + 45 + 9 <= 2 ^ 11)%nat /\ (11 * 0 + 50 + 9 <= 2 ^ 11)%nat /\
  positive_externals (Rle 0) X /\ positive_basis (Rle 0) X fs /\
  inside_rules X Triangle /\ exact_to X Triangle (pts Triangle) (1 + 1) /\ flat_cells X (built_grid id Triangle b) b /\
  let F := fun (a : nat) (x y : R) => match a with 0%nat => 1 - x - y | 1%nat => x | _ => y end in
  let F1 := fun (a : nat) (x y : R) => match a with 0%nat => -1 | 1%nat => 1 | _ => 0 end in let F2 := fun (a : nat) (x y : R) => match a with 0%nat => -1 | 1%nat => 0 | _ => 1 end in
  element_functions fs Triangle 1 F /\ element_slopes fs Triangle 0 F F1 F2 /\ (forall t p q r, corners_of b t p q r -> P t = (p, q, r)) /\
  exists t s i j p q r p' q' r' sigma M M', corners_of b t p q r /\ corners_of b s p' q' r' /\ In i (dofs_at fs t) /\ In j (dofs_at fs s) /\
    (forall z x y, In z (support fs i) -> inside Triangle x y -> Rabs (piece fs F i z x y) <= 1) /\
    (forall z x y, In z (support fs j) -> inside Triangle x y -> Rabs (piece fs F j z x y) <= 1) /\
    0 <= M /\ (forall z x y, In z (support fs i) -> inside Triangle x y -> inner (piece_swirl fs F1 F2 P i z x y) (piece_swirl fs F1 F2 P i z x y) <= M * M) /\
    0 <= M' /\ (forall z x y, In z (support fs j) -> inside Triangle x y -> inner (piece_swirl fs F1 F2 P j z x y) (piece_swirl fs F1 F2 P j z x y) <= M' * M') /\
    let reach := 3 * sqrt (32 / (3 * (4 ^ level + 2))) in let a := dist (centre Triangle p q r) (centre Triangle p' q' r') in reach < a /\ reach / a < sigma < 1.
Proof.
  intros level id e Hl. assert (Ex : exists b : builder vec, regular_sphere real_numbers level 1 = Ok b) by exact (sphere_exists real_numbers level). destruct Ex as (b & E).
  pose proof (shape_sphere real_numbers level id b E) as Sh. assert (S1 : standard (lagrange 1)) by (constructor; lia).
  destruct (spaces_exist R R (built_grid id Triangle b) _ (fun _ => 1%nat) hat_basis Sh S1) as (u & Mu & _ & Bu); [intros; lia|].
  assert (Gu : fs_grid u = built_grid id Triangle b) by apply Mu. assert (Fu : fs_family u = lagrange 1) by apply Mu.
  assert (Tu : g_types (fs_grid u) 2 = [Triangle]) by (rewrite Gu; reflexivity).
  set (X := safe (one_type Triangle (quadratic (level_externals b)))).
  assert (Pr : proper_rules X) by apply safe_proper, one_proper, quadratic_proper, level_proper.
  set (wmod := (4 + 2 * ent_count (built_grid id Triangle b) 2 * ent_count (built_grid id Triangle b) 2)%nat).
  destruct (made_dense R R reals X wmod (laplace_single_layer (newton e)) [SetBatch 3; SetRegular Triangle (few Triangle)] (built_grid id Triangle b) _ _ u u Triangle Sh S1 S1 Mu Mu eq_refl (sh_laplace_single reals (newton e)) Pr
    (safe_rules _ _ _ (one_rules _ _ _ (quadratic_rules _ _ _ (or_introl eq_refl) (level_rules b) (or_introl eq_refl))))) as (deg & pts & D).
  { split; [apply Nat.lt_0_succ|]. change (get_batch_size (after [SetBatch 3; SetRegular Triangle (few Triangle)])) with 3%nat. unfold wmod. lia. }
  { unfold wmod. lia. }
  assert (Sp : serial_space u) by apply (dn_test _ _ _ _ _ _ _ _ _ D). pose proof half53_range as Hu.
  assert (Du : forall k d p n q, x_duffy X k d p n = Some q -> pq_test q = repeat (/ 4) (2 * n) /\ pq_trial q = repeat (/ 3) (2 * n) /\ n <> 0%nat /\ exists w, 0 <= w /\ pq_weights q = repeat w n).
  { intros k d p n q H. cbn [X safe one_type quadratic level_externals x_duffy flat_externals] in H. destruct (Nat.eqb_spec n 0) as [|N]; [discriminate|].
    split; [apply (f_equal (fun o => match o with Some q => pq_test q | None => [] end)) in H; now rewrite <- H|].
    split; [apply (f_equal (fun o => match o with Some q => pq_trial q | None => [] end)) in H; now rewrite <- H|]. split; [exact N|].
    apply (f_equal (fun o => match o with Some q => pq_weights q | None => [] end)) in H. cbn [pq_weights] in H. eexists. split; [|now rewrite <- H]. left. apply Rinv_0_lt_compat, lt_0_INR. lia. }
  assert (Si : forall t n q, x_simplex X t n = Some q -> t = Triangle /\ x_simplex (quadratic (level_externals b)) Triangle n = Some q) by (intros t n q H; exact (one_simplex Triangle _ n q t H)).
  assert (Pin : points_in Triangle X).
  { intros points p [(t & n & q & H & ->)|(k & d & pr & n & q & H & Hq)] Hp.
    - destruct (Si t n q H) as (-> & H'). apply (quadratic_inside _ _ n q H'). destruct (pr_simplex _ Pr _ _ _ H) as (L1 & L2). lia.
    - destruct (Du k d pr n q H) as (E1 & E2 & _). assert (Ep : exists z, (z = / 4 \/ z = / 3) /\ points = repeat z (2 * n)) by (destruct Hq as [-> | ->]; eauto).
      destruct Ep as (z & Hz & ->). rewrite repeat_length in Hp. rewrite !nth_repeat_lt by lia. destruct Hz as [-> | ->]; cbn; lra. }
  exists b, X, u, (fun t => match nth_error (cells_of b) t with Some [u; v; w] => (SpecSphere.position (points_of b) u, SpecSphere.position (points_of b) v, SpecSphere.position (points_of b) w) | _ => ((0, 0, 0), (0, 0, 0), (0, 0, 0)) end), wmod, deg, pts.
  split; [exact E|]. split; [exact Gu|]. split; [rewrite Fu; exact S1|]. split; [exact Fu|].
  split. { intros O HO. split; [|split; [now apply same_kernel|now apply real_basis_close]]. eapply dense_operator; [|exact D]. destruct HO as [-> | [-> | [-> | ->]]]; apply (shipped_fitting reals); [apply sh_laplace_single|apply sh_laplace_double|apply sh_laplace_adjoint|apply sh_laplace_hyper]. }
  split; [repeat split|]. split; [apply same_externals; [exact Hu|]; intros; cbn; destruct (Req_EM_T _ 0); lra|].
  split. { destruct (dn_simplex _ _ _ _ _ _ _ _ _ D Triangle (or_introl eq_refl)) as (Ep & _). vm_compute in Ep. injection Ep as Ep.
    destruct (dn_singular _ _ _ _ _ _ _ _ _ D eq_refl) as (Hd & _). specialize (Hd Triangle Triangle (or_introl eq_refl) (or_introl eq_refl)). vm_compute in Hd. injection Hd as Hd.
    split; [rewrite <- Ep; lia|]. intros k d p q H. destruct (Du _ _ _ _ _ H) as (_ & _ & _ & w & _ & ->). rewrite repeat_length, <- Hd. lia. }
  split; [cbn; lia|]. split; [cbn; lia|]. split; [cbn; lia|].
  split. { constructor.
    - intros t n q H. destruct (Si t n q H) as (-> & H'). now apply (quadratic_inside _ _ n q H').
    - intros k d p n q H. destruct (Du k d p n q H) as (_ & _ & _ & w & W & ->). now apply Forall_repeat.
    - intros. cbn. destruct (Req_EM_T _ 0); [lra|apply sqrt_pos]. }
  split. { intros t points p a Hr Hp _. rewrite Bu. pose proof (Pin points p Hr Hp) as I. unfold hat_basis. cbn in I |- *. destruct a as [|[|a]]; lra. }
  split. { split.
    - intros n q p H Hp. apply (Pin (qd_points q)); [left; now exists Triangle, n, q|]. destruct (pr_simplex _ Pr _ _ _ H) as (L1 & L2). lia.
    - intros k d pr n q p _ H Hp. destruct (Du k d pr n q H) as (-> & -> & _ & w & _ & Ew). rewrite Ew, repeat_length in Hp. rewrite !nth_repeat_lt by lia. cbn. lra. }
  split. { intros q H. destruct (Si _ _ _ H) as (_ & H'). exact (quadratic_exact (level_externals b) Triangle (pts Triangle) q H'). }
  split. { intros t points k p q r Co. apply safe_flat; [|now apply (flat_flat (built_grid id Triangle b) b)]. pose proof (area_positive level b E k p q r Co) as A. unfold triangle_area in A. lra. }
  intros F F1 F2. split. { intros a _. split; [apply linear_polynomial|]. intros points p. rewrite Bu. unfold hat_basis. now destruct a as [|[|a]]. }
  split. { intros a _. split; [destruct a as [|[|a]]; apply constant_polynomial|]. split; [destruct a as [|[|a]]; apply constant_polynomial|].
    split; [intros x y; destruct a as [|[|a]]; [replace (F1 0%nat x y) with (0 - 1 - 0) by (cbn; ring); repeat apply derivable_pt_lim_minus|..]; try apply derivable_pt_lim_const; apply derivable_pt_lim_id|].
    split; [intros x y; destruct a as [|[|a]]; [replace (F2 0%nat x y) with (0 - 0 - 1) by (cbn; ring); repeat apply derivable_pt_lim_minus|..]; try apply derivable_pt_lim_const; apply derivable_pt_lim_id|].
    intros points p. rewrite Bu. unfold hat_basis. destruct a as [|[|a]]; repeat split; reflexivity. }
  split. { intros t p q r (a & a' & a2 & Ec & Ep & Eq & Er). rewrite Ec. unfold SpecSphere.position. now rewrite (nth_error_nth _ _ _ Ep), (nth_error_nth _ _ _ Eq), (nth_error_nth _ _ _ Er). }
  assert (Hc : (0 < length (cells_of b))%nat).
  { destruct (sphere_surface real_numbers level) as (b' & E' & _ & _ & _ & Nc & _). rewrite E in E'. injection E' as <-. assert (Nc' : length (@cells_of vec b) = _) by exact Nc. clear -Nc'. pose proof (Nat.pow_nonzero 4 level ltac:(discriminate)). lia. }
  destruct (proj2 (sphere_cells level id b E) 0%nat Hc) as (p & q & r & Co & _).
  destruct (far_cells level b 0 p q r E Co Hl) as (s & p' & q' & r' & Co' & Far).
  assert (Three : forall c x y z, corners_of b c x y z -> length (dofs_at u c) = 3%nat).
  { intros c x y z Cc. pose proof (corners_lt level id b E c x y z Cc) as Lc. rewrite <- Gu in Lc. rewrite (dofs_at_dim u c Sp Lc), Fu.
    pose proof (wf_ctype _ (ss_grid _ Sp) c Lc) as H. rewrite Tu in H. destruct H as [<-|[]]. reflexivity. }
  pose proof (Three 0%nat p q r Co) as N0. pose proof (Three s p' q' r' Co') as Ns.
  assert (I0 : exists i, In i (dofs_at u 0)) by (destruct (dofs_at u 0) as [|i l]; [discriminate N0|exists i; now left]).
  assert (Is : exists j, In j (dofs_at u s)) by (destruct (dofs_at u s) as [|j l]; [discriminate Ns|exists j; now left]).
  destruct I0 as (i & Hi), Is as (j & Hj).
  assert (Bd : forall k z x y, In z (support u k) -> inside Triangle x y -> Rabs (piece u F k z x y) <= 1).
  { intros k z x y Iz I. apply in_support in Iz. destruct Iz as (Lz & _).
    apply piece_between; [intros [|[|a]]; unfold F; cbn in I |- *; lra|]. rewrite (cell_length u Triangle z Sp Tu Lz), Fu. unfold F. cbn in I |- *. lra. }
  destruct (strictly_between _ _ Far ltac:(apply Rmult_le_pos; [lra|apply sqrt_pos])) as (sigma & Hs).
  assert (B1 : forall a x y, inside Triangle x y -> Rabs (F1 a x y) <= 1) by (intros [|[|a]] x y _; cbn; apply Rabs_le; lra).
  assert (B2 : forall a x y, inside Triangle x y -> Rabs (F2 a x y) <= 1) by (intros [|[|a]] x y _; cbn; apply Rabs_le; lra).
  match goal with |- exists t s i j p q r p' q' r' sigma M M', _ /\ _ /\ _ /\ _ /\ _ /\ _ /\ _ /\ (forall z x y, _ -> _ -> inner (piece_swirl _ _ _ ?PP _ _ _ _) _ <= _) /\ _ => destruct (swirls_bounded u Triangle F1 F2 PP i B1 B2) as (M & PM & HM), (swirls_bounded u Triangle F1 F2 PP j B1 B2) as (M' & PM' & HM') end.
  exists 0%nat, s, i, j, p, q, r, p', q', r', sigma, M, M'. do 6 (split; [eassumption || apply Bd|]). split; [exact PM|]. split; [exact HM|]. split; [exact PM'|]. split; [exact HM'|]. intros reach a. split; [exact Far|exact Hs].
Qed.

Theorem screen_budget_example : forall n id e, (6 <= n)%nat -> exists (b : builder (nat * nat)) X (fs : fspace R R) P wmod deg pts,
  screen n Quadrilateral b /\ fs_grid fs = built_grid id Quadrilateral b /\ standard (fs_family fs) /\ fs_family fs = lagrange 1 /\
  (forall O, O = laplace_single_layer (newton e) \/ O = laplace_hypersingular (newton e) ->
    dense_setting X wmod O (after [SetBatch 3; SetRegular Quadrilateral (few Quadrilateral)]) deg pts Quadrilateral fs fs /\
    related_kernel (close half53 Rabs reals 0) X X O O deg pts fs fs /\ related_basis (close half53 Rabs reals 0) eq O fs fs) /\
  same_dofs fs fs /\ related_externals (real_close half53 0) (nonzero_close half53 0) (real_close half53 0) eq X X /\
  points_at_most X deg pts Quadrilateral 25 /\ (7 * 0 + 42 + 25 <= 2 ^ 11)%nat /\ (11 * 0 + 50 + 25 <= 2 ^ 11)%nat /\
  positive_externals (Rle 0) X /\ positive_basis (Rle 0) X fs /\
  inside_rules X Quadrilateral /\ exact_to X Quadrilateral (pts Quadrilateral) (0 + 2) /\ flat_screen n X (built_grid id Quadrilateral b) b /\
  let F := fun (a : nat) (x y : R) => match a with 0%nat => (1 - x) * (1 - y) | 1%nat => x * (1 - y) | 2%nat => (1 - x) * y | _ => x * y end in
  let F1 := fun (a : nat) (x y : R) => match a with 0%nat => y - 1 | 1%nat => 1 - y | 2%nat => - y | _ => y end in let F2 := fun (a : nat) (x y : R) => match a with 0%nat => x - 1 | 1%nat => - x | 2%nat => 1 - x | _ => x end in
  element_functions fs Quadrilateral 2 F /\ element_slopes fs Quadrilateral 1 F F1 F2 /\
  (forall t p q r, corner b t 0 p -> corner b t 1 q -> corner b t 2 r -> P t = (screen_position n p, screen_position n q, screen_position n r)) /\
  exists t s i j p q r p' q' r' M M', corner b t 0 p /\ corner b t 1 q /\ corner b t 2 r /\ corner b s 0 p' /\ corner b s 1 q' /\ corner b s 2 r' /\ In i (dofs_at fs t) /\ In j (dofs_at fs s) /\
    (forall z x y, In z (support fs i) -> inside Quadrilateral x y -> Rabs (piece fs F i z x y) <= 1) /\
    (forall z x y, In z (support fs j) -> inside Quadrilateral x y -> Rabs (piece fs F j z x y) <= 1) /\
    0 <= M /\ (forall z x y, In z (support fs i) -> inside Quadrilateral x y -> inner (piece_swirl fs F1 F2 P i z x y) (piece_swirl fs F1 F2 P i z x y) <= M * M) /\
    0 <= M' /\ (forall z x y, In z (support fs j) -> inside Quadrilateral x y -> inner (piece_swirl fs F1 F2 P j z x y) (piece_swirl fs F1 F2 P j z x y) <= M' * M') /\
    let a := dist (centre Quadrilateral (screen_position n p) (screen_position n q) (screen_position n r)) (centre Quadrilateral (screen_position n p') (screen_position n q') (screen_position n r')) in
    let reach := 3 * (sqrt (spread Quadrilateral / 2) / INR (n + 1)) in reach < a.
Proof.
  intros n id e Hn. set (t := Quadrilateral). assert (Ht : t = Triangle \/ t = Quadrilateral) by now right. destruct (screen_exists n t ltac:(lia) Ht) as (b & Sn). pose proof (screen_is_shape n id t b Sn) as Sh.
  assert (S1 : standard (lagrange 1)) by (constructor; lia).
  destruct (spaces_exist R R (built_grid id t b) _ (fun _ => 1%nat) bilinear_basis Sh S1) as (u & Mu & _ & Bu); [intros; lia|].
  assert (Gu : fs_grid u = built_grid id t b) by apply Mu. assert (Fu : fs_family u = lagrange 1) by apply Mu.
  assert (Tu : g_types (fs_grid u) 2 = [t]) by (rewrite Gu; reflexivity).
  set (X := safe (one_type t (quadratic (even_externals n b)))).
  assert (Pr : proper_rules X) by apply safe_proper, one_proper, quadratic_proper, even_proper.
  set (wmod := (4 + 2 * ent_count (built_grid id t b) 2 * ent_count (built_grid id t b) 2)%nat).
  destruct (made_dense R R reals X wmod (laplace_single_layer (newton e)) [SetBatch 3; SetRegular t (few t)] (built_grid id t b) _ _ u u t Sh S1 S1 Mu Mu eq_refl (sh_laplace_single reals (newton e)) Pr
    (safe_rules _ _ _ (one_rules _ _ _ (quadratic_rules _ _ _ (or_introl eq_refl) (even_rules n b t Ht) Ht)))) as (deg & pts & D).
  { split; [apply Nat.lt_0_succ|]. change (get_batch_size (after [SetBatch 3; SetRegular t (few t)])) with 3%nat. unfold wmod. lia. }
  { unfold wmod. lia. }
  assert (Sp : serial_space u) by apply (dn_test _ _ _ _ _ _ _ _ _ D). pose proof half53_range as Hu.
  assert (Du : forall ki d p k q, x_duffy X ki d p k = Some q -> pq_test q = repeat (/ 4) (2 * k) /\ pq_trial q = repeat (/ 3) (2 * k) /\ k <> 0%nat /\ exists w, 0 <= w /\ pq_weights q = repeat w k).
  { intros ki d p k q H. cbn [X safe one_type quadratic even_externals x_duffy] in H. destruct (Nat.eqb_spec k 0) as [|N]; [discriminate|].
    split; [apply (f_equal (fun o => match o with Some q => pq_test q | None => [] end)) in H; now rewrite <- H|].
    split; [apply (f_equal (fun o => match o with Some q => pq_trial q | None => [] end)) in H; now rewrite <- H|]. split; [exact N|].
    apply (f_equal (fun o => match o with Some q => pq_weights q | None => [] end)) in H. cbn [pq_weights] in H. eexists. split; [|now rewrite <- H]. left. apply Rdiv_lt_0_compat; [destruct ki; cbn; lra|apply lt_0_INR; lia]. }
  assert (Si : forall t' k q, x_simplex X t' k = Some q -> t' = t /\ x_simplex (quadratic (even_externals n b)) t k = Some q) by (intros t' k q H; exact (one_simplex t _ k q t' H)).
  assert (Pin : points_in t X).
  { intros points p [(t' & k & q & H & ->)|(ki & d & pr & k & q & H & Hq)] Hp.
    - destruct (Si t' k q H) as (-> & H'). apply (quadratic_inside _ _ k q H'). destruct (pr_simplex _ Pr _ _ _ H) as (L1 & L2). lia.
    - destruct (Du ki d pr k q H) as (E1 & E2 & _). assert (Ep : exists z, (z = / 4 \/ z = / 3) /\ points = repeat z (2 * k)) by (destruct Hq as [-> | ->]; eauto).
      destruct Ep as (z & Hz & ->). rewrite repeat_length in Hp. rewrite !nth_repeat_lt by lia. destruct Hz as [-> | ->]; cbn; lra. }
  exists b, X, u, (fun c => match nth_error (cells_of b) c with Some (u :: v :: w :: _) => (screen_position n (nth u (points_of b) (0%nat, 0%nat)), screen_position n (nth v (points_of b) (0%nat, 0%nat)), screen_position n (nth w (points_of b) (0%nat, 0%nat))) | _ => ((0, 0, 0), (0, 0, 0), (0, 0, 0)) end), wmod, deg, pts.
  split; [exact Sn|]. split; [exact Gu|]. split; [rewrite Fu; exact S1|]. split; [exact Fu|].
  split. { intros O HO. split; [|split; [now apply same_kernel|now apply real_basis_close]]. eapply dense_operator; [|exact D]. destruct HO as [-> | ->]; apply (shipped_fitting reals); [apply sh_laplace_single|apply sh_laplace_hyper]. }
  split; [repeat split|]. split; [apply same_externals; [exact Hu|]; intros; cbn; destruct (Req_EM_T _ 0); lra|].
  split. { destruct (dn_simplex _ _ _ _ _ _ _ _ _ D t (or_introl eq_refl)) as (Ep & _). vm_compute in Ep. injection Ep as Ep.
    destruct (dn_singular _ _ _ _ _ _ _ _ _ D eq_refl) as (Hd & _). specialize (Hd t t (or_introl eq_refl) (or_introl eq_refl)). vm_compute in Hd. injection Hd as Hd.
    split; [unfold t in *; rewrite <- Ep; lia|]. intros k d p q H. destruct (Du _ _ _ _ _ H) as (_ & _ & _ & w & _ & ->). unfold t in *. rewrite repeat_length, <- Hd. lia. }
  split; [cbn; lia|]. split; [cbn; lia|].
  split. { constructor.
    - intros t' k q H. destruct (Si t' k q H) as (-> & H'). now apply (quadratic_inside _ _ k q H').
    - intros ki d p k q H. destruct (Du ki d p k q H) as (_ & _ & _ & w & W & ->). now apply Forall_repeat.
    - intros. cbn. destruct (Req_EM_T _ 0); [lra|apply sqrt_pos]. }
  split. { intros t' points p a Hr Hp _. rewrite Bu. pose proof (Pin points p Hr Hp) as I. unfold bilinear_basis. cbn in I |- *. destruct a as [|[|[|a]]]; cbn; nra. }
  split. { split.
    - intros k q p H Hp. apply (Pin (qd_points q)); [left; now exists t, k, q|]. destruct (pr_simplex _ Pr _ _ _ H) as (L1 & L2). lia.
    - intros ki d pr k q p _ H Hp. destruct (Du ki d pr k q H) as (-> & -> & _ & w & _ & Ew). rewrite Ew, repeat_length in Hp. rewrite !nth_repeat_lt by lia. cbn; lra. }
  split. { intros q H. destruct (Si _ _ _ H) as (_ & H'). exact (quadratic_exact (even_externals n b) t (pts t) q H'). }
  split. { intros t' points c p q r C1 C2 C3. apply safe_flat; [|now apply (flat_screen_flat n (built_grid id t b) b)].
    assert (Hc : (c < length (cells_of b))%nat) by (destruct C1 as (vs & v & Ec & _); apply nth_error_Some; congruence).
    destruct (screen_area_ratio n t b c p q r Sn C1 C2 C3 Hc) as (-> & _). exact (side2_pos n). }
  intros F F1 F2. split. { intros a _. split; [apply bilinear_polynomial|]. intros points p. rewrite Bu. unfold bilinear_basis. reflexivity. }
  split. { intros a _.
    assert (Pol : forall k k1 k2, polynomial 1 (fun x y => k + k1 * x + k2 * y)). { intros k k1 k2. exists (fun i j => match i, j with 0%nat, 0%nat => k | 1%nat, _ => k1 | _, _ => k2 end). intros. cbn. ring. }
    assert (Ext : forall f g, (forall x y, f x y = g x y) -> polynomial 1 g -> polynomial 1 f). { intros f g H (cs & Hg). exists cs. intros. now rewrite H. }
    assert (Der : forall (f : R -> R) k k1 l, (forall z, f z = k + k1 * z) -> l = k1 -> forall z, derivable_pt_lim f z l).
    { intros f k k1 l Hf -> z. replace k1 with (0 + k1 * 1) by ring. apply derivable_pt_lim_ext with (fun z => k + k1 * z); [intros; now rewrite Hf|]. apply (derivable_pt_lim_plus (fun _ => k) (fun z => k1 * z)); [apply derivable_pt_lim_const|]. apply (derivable_pt_lim_scal Ranalysis1.id). apply derivable_pt_lim_id. }
    split; [destruct a as [|[|[|a]]]; [eapply Ext; [|apply (Pol (-1) 0 1)]|eapply Ext; [|apply (Pol 1 0 (-1))]|eapply Ext; [|apply (Pol 0 0 (-1))]|eapply Ext; [|apply (Pol 0 0 1)]]; intros; cbn; ring|].
    split; [destruct a as [|[|[|a]]]; [eapply Ext; [|apply (Pol (-1) 1 0)]|eapply Ext; [|apply (Pol 0 (-1) 0)]|eapply Ext; [|apply (Pol 1 (-1) 0)]|eapply Ext; [|apply (Pol 0 1 0)]]; intros; cbn; ring|].
    split; [intros x y; destruct a as [|[|[|a]]]; [apply (Der _ (1 - y) (y - 1))|apply (Der _ 0 (1 - y))|apply (Der _ y (- y))|apply (Der _ 0 y)]; intros; cbn; ring|].
    split; [intros x y; destruct a as [|[|[|a]]]; [apply (Der _ (1 - x) (x - 1))|apply (Der _ x (- x))|apply (Der _ 0 (1 - x))|apply (Der _ 0 x)]; intros; cbn; ring|].
    intros points p. rewrite Bu. unfold bilinear_basis. destruct a as [|[|[|a]]]; repeat split; reflexivity. }
  split. { intros c p q r (vs & v0 & Ec & E0 & P0) (vs1 & v1 & Ec1 & E1 & P1) (vs2 & v2 & Ec2 & E2 & P2).
    rewrite Ec in Ec1, Ec2. injection Ec1 as <-. injection Ec2 as <-. rewrite Ec. destruct vs as [|w0 [|w1 [|w2 l]]]; try discriminate. cbn in E0, E1, E2. injection E0 as ->. injection E1 as ->. injection E2 as ->.
    now rewrite (nth_error_nth _ _ _ P0), (nth_error_nth _ _ _ P1), (nth_error_nth _ _ _ P2). }
  assert (C : forall x k q, (x < n)%nat -> nth_error (offsets t 0) k = Some q -> corner b (number t n x x 0) k ((x + fst q)%nat, (x + snd q)%nat)).
  { intros x k q Hx Eq. apply (corner_at n t b Sn x x 0 k _ Hx Hx Nat.lt_0_1). exists q. auto. }
  assert (Four : forall x, (x < n)%nat -> length (dofs_at u (number t n x x 0)) = 4%nat).
  { intros x Hx. assert (Lc : (number t n x x 0 < ent_count (fs_grid u) 2)%nat). { rewrite Gu, (screen_cell_count n id t b Sn). destruct (C x 0%nat (0%nat, 0%nat) Hx eq_refl) as (vs & v & Ec & _). apply nth_error_Some. congruence. }
    rewrite (dofs_at_dim u _ Sp Lc), Fu. pose proof (wf_ctype _ (ss_grid _ Sp) _ Lc) as H. rewrite Tu in H. destruct H as [<-|[]]. reflexivity. }
  pose proof (Four 0%nat ltac:(lia)) as N0. pose proof (Four (n - 1)%nat ltac:(lia)) as Ns.
  assert (I0 : exists i, In i (dofs_at u (number t n 0 0 0))) by (destruct (dofs_at u (number t n 0 0 0)) as [|i l]; [discriminate N0|exists i; now left]).
  assert (Is : exists j, In j (dofs_at u (number t n (n - 1) (n - 1) 0))) by (destruct (dofs_at u (number t n (n - 1) (n - 1) 0)) as [|j l]; [discriminate Ns|exists j; now left]).
  destruct I0 as (i & Hi), Is as (j & Hj).
  assert (Bd : forall k z x y, In z (support u k) -> inside t x y -> Rabs (piece u F k z x y) <= 1).
  { intros k z x y Iz I. apply in_support in Iz. destruct Iz as (Lz & _).
    apply piece_between; [intros [|[|[|a]]]; unfold F; cbn in I |- *; nra|]. rewrite (cell_length u t z Sp Tu Lz), Fu. unfold F. cbn in I |- *. nra. }
  assert (B1 : forall a x y, inside t x y -> Rabs (F1 a x y) <= 1) by (intros [|[|[|a]]] x y I; cbn in I |- *; apply Rabs_le; lra).
  assert (B2 : forall a x y, inside t x y -> Rabs (F2 a x y) <= 1) by (intros [|[|[|a]]] x y I; cbn in I |- *; apply Rabs_le; lra).
  match goal with |- exists t s i j p q r p' q' r' M M', _ /\ _ /\ _ /\ _ /\ _ /\ _ /\ _ /\ _ /\ _ /\ _ /\ _ /\ (forall z x y, _ -> _ -> inner (piece_swirl _ _ _ ?PP _ _ _ _) _ <= _) /\ _ => destruct (swirls_bounded u t F1 F2 PP i B1 B2) as (M & PM & HM), (swirls_bounded u t F1 F2 PP j B1 B2) as (M' & PM' & HM') end.
  exists (number t n 0 0 0), (number t n (n - 1) (n - 1) 0), i, j, ((0 + 0)%nat, (0 + 0)%nat), ((0 + 1)%nat, (0 + 0)%nat), ((0 + 0)%nat, (0 + 1)%nat),
    ((n - 1 + 0)%nat, (n - 1 + 0)%nat), ((n - 1 + 1)%nat, (n - 1 + 0)%nat), ((n - 1 + 0)%nat, (n - 1 + 1)%nat), M, M'.
  split; [apply (C 0%nat 0%nat (0%nat, 0%nat)); [lia|reflexivity]|]. split; [apply (C 0%nat 1%nat (1%nat, 0%nat)); [lia|reflexivity]|]. split; [apply (C 0%nat 2%nat (0%nat, 1%nat)); [lia|reflexivity]|].
  split; [apply (C (n - 1)%nat 0%nat (0%nat, 0%nat)); [lia|reflexivity]|]. split; [apply (C (n - 1)%nat 1%nat (1%nat, 0%nat)); [lia|reflexivity]|]. split; [apply (C (n - 1)%nat 2%nat (0%nat, 1%nat)); [lia|reflexivity]|].
  split; [exact Hi|]. split; [exact Hj|]. split; [apply Bd|]. split; [apply Bd|]. split; [exact PM|]. split; [exact HM|]. split; [exact PM'|]. split; [exact HM'|]. cbv zeta.
  assert (PN : 0 < INR (n + 1)) by (apply lt_0_INR; lia). unfold t in *. cbn [spread].
  rewrite distance_chord.
  match goal with |- _ < sqrt (chord2 ?x ?y) => replace (chord2 x y) with (2 * ((INR (n - 1) / INR (n + 1)) * (INR (n - 1) / INR (n + 1)))) end.
  - assert (P4 : 5 <= INR (n - 1)) by (replace 5 with (INR 5) by (cbn; ring); apply le_INR; lia). rewrite sqrt_mult_alt by lra. assert (Q : 0 <= INR (n - 1) / INR (n + 1)) by (apply Rmult_le_pos; [lra|left; now apply Rinv_0_lt_compat]). rewrite sqrt_square by exact Q.
    replace (4 / 2) with 2 by field. assert (S2 : 0 < sqrt 2) by (apply sqrt_lt_R0; lra). unfold Rdiv. assert (0 < / INR (n + 1)) by now apply Rinv_0_lt_compat.
    replace (3 * (sqrt 2 * / INR (n + 1))) with (sqrt 2 * (3 * / INR (n + 1))) by ring. apply Rmult_lt_compat_l; [exact S2|]. apply Rmult_lt_compat_r; lra.
  - unfold chord2, screen_position, screen_denominator. cbn [fst snd]. rewrite !(plus_INR (n - 1)), !(plus_INR 0). change (INR 0) with 0. change (INR 1) with 1.
    cbn [centre vadd vsub vscale inner]; field; lra.
Qed.
