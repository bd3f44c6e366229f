(** * Examples: discontinuous linear functions on the sphere and bilinear functions on screens *)
From Coq Require Import Reals Lra Psatz Permutation.
From Verif Require Import Base Topology DofMap SpecDof Process Space Options SpecOptions Scalar Integrand CellPair Operators Adjacency SpecAdjacency SpecLocal LocalResults SpecOperators Interleave Assembly SpecAssembly
  SphereResults ShapesResults AssemblyResults AssemblyTermination SpecTransfer SpecScalars SpecAlgebra SpecRounding SpecShapeSpaces ShapeSpacesResults Shapes SpecShapes SpecSphere SpecScreen SpecWidth WidthResults SpecSymmetry SymmetryResults SpecTurns TurnResults TurnExamples
  SpecBroken SpecGalerkin BrokenResults SpecMeasure SpecGauss GaussResults GaussExamples SpecShift SpecToeplitz ToeplitzResults ToeplitzExamples SpecShare ShareScreen ShareExamples SpecFloatSphere SpecApart ApartSharp KernelResults WaveKernel WaveLimits SpecWaves SpecDecay DecayPoints DecayShapes DecayExamples
  SpecMoments MomentResults MomentShapes MomentExamples SpecDegree DegreeResults DegreeShapes DegreeExamples PatchResults SpecPieces PieceResults PieceShapes.

Local Open Scope R_scope.
Local Notation dist := SpecWaves.distance.

Definition linear_function (a : nat) (x y : R) : R := match a with 0%nat => 1 - x - y | 1%nat => x | _ => y end.
Definition bilinear_function (a : nat) (x y : R) : R := match a with 0%nat => (1 - x) * (1 - y) | 1%nat => x * (1 - y) | 2%nat => (1 - x) * y | _ => x * y end.
(** Values, and derivatives in both directions. *)
Definition bilinear_basis (t : cell_type) (points : list R) (d p a j : nat) : R :=
  let x := nth (2 * p) points 0 in let y := nth (2 * p + 1) points 0 in
  match d, a with
  | 0%nat, _ => bilinear_function a x y
  | 1%nat, 0%nat => y - 1 | 1%nat, 1%nat => 1 - y | 1%nat, 2%nat => - y | 1%nat, _ => y
  | _, 0%nat => x - 1 | _, 1%nat => - x | _, 2%nat => 1 - x | _, _ => x
  end.

Lemma linear_polynomial a : polynomial 1 (linear_function a).
Proof.
  destruct a as [|[|a]].
  - exists (fun i j => match i, j with 0%nat, 0%nat => 1 | _, _ => -1 end). intros. cbn. ring.
  - exists (fun i j => match i with 0%nat => 0 | _ => 1 end). intros. cbn. ring.
  - exists (fun i j => match j with 0%nat => 0 | _ => 1 end). intros. cbn. ring.
Qed.

Lemma bilinear_polynomial a : polynomial 2 (bilinear_function a).
Proof.
  destruct a as [|[|[|a]]].
  - exists (fun i j => match i, j with 0%nat, 0%nat => 1 | 1%nat, 0%nat => -1 | 0%nat, 1%nat => -1 | 1%nat, 1%nat => 1 | _, _ => 0 end). intros. cbn. ring.
  - exists (fun i j => match i, j with 1%nat, 0%nat => 1 | 1%nat, 1%nat => -1 | _, _ => 0 end). intros. cbn. ring.
  - exists (fun i j => match i, j with 0%nat, 1%nat => 1 | 1%nat, 1%nat => -1 | _, _ => 0 end). intros. cbn. ring.
  - exists (fun i j => match i, j with 1%nat, 1%nat => 1 | _, _ => 0 end). intros. cbn. ring.
Qed.

Lemma piece_between (fs : fspace R R) G i t x y : (forall a, 0 <= G a x y) -> fold_right Rplus 0 (map (fun a => G a x y) (seq 0 (length (dofs_at fs t)))) <= 1 -> Rabs (piece fs G i t x y) <= 1.
Proof.
  intros P L. unfold piece. assert (H : forall l k, 0 <= fold_right Rplus 0 (map (fun ak : nat * nat => if (snd ak =? i)%nat then G (fst ak) x y else 0) (combine (seq k (length l)) l)) <=
    fold_right Rplus 0 (map (fun a => G a x y) (seq k (length l)))).
  { induction l as [|d l IH]; intros k; cbn; [lra|]. specialize (IH (Datatypes.S k)). specialize (P k). destruct (d =? i)%nat; lra. }
  specialize (H (dofs_at fs t) 0%nat). apply Rabs_le. unfold enumerate. lra.
Qed.

Lemma interior_kind n t : interior_family [t] (interior_only n).
Proof. intros t' d i Ht Hd. destruct Ht as [<-|[]]. unfold el_ndofs, interior_only. cbn [el_edofs]. destruct (i <? _)%nat; [|reflexivity]. destruct d as [|[|d]]; try reflexivity; lia. Qed.

(** ** The sphere *)
Theorem sphere_piece_example : forall level id e, (2 <= level)%nat -> exists (b : builder vec) X (fs : fspace R R) P wmod deg pts,
  regular_sphere real_numbers level 1 = Ok b /\ fs_grid fs = built_grid id Triangle b /\
  dense_setting X wmod (laplace_single_layer (newton e)) (after [SetBatch 3; SetRegular Triangle (few Triangle)]) deg pts Triangle fs fs /\
  positive_externals (Rle 0) X /\ inside_rules X Triangle /\ exact_to X Triangle (pts Triangle) (1 + 1) /\ flat_cells X (built_grid id Triangle b) b /\
  fs_family fs = interior_only (fun _ => 3%nat) /\ interior_family (g_types (fs_grid fs) 2) (fs_family fs) /\
  element_functions fs Triangle 1 (fun a x y => match a with 0%nat => 1 - x - y | 1%nat => x | _ => y end) /\ (forall t p q r, corners_of b t p q r -> P t = (p, q, r)) /\
  exists t s i j p q r p' q' r', corners_of b t p q r /\ corners_of b s p' q' r' /\ In i (dofs_at fs t) /\ In j (dofs_at fs s) /\
    (forall x y, inside Triangle x y -> Rabs (piece fs (fun a x y => match a with 0%nat => 1 - x - y | 1%nat => x | _ => y end) i t x y) <= 1) /\
    (forall x y, inside Triangle x y -> Rabs (piece fs (fun a x y => match a with 0%nat => 1 - x - y | 1%nat => x | _ => y end) j s x y) <= 1) /\
    sqrt (32 / (3 * (4 ^ level + 2))) < dist (centre Triangle p q r) (centre Triangle p' q' r').
Proof.
  intros level id e Hl. assert (Ex : exists b : builder vec, regular_sphere real_numbers level 1 = Ok b) by exact (sphere_exists real_numbers level). destruct Ex as (b & E).
  pose proof (shape_sphere real_numbers level id b E) as Sh. assert (S1 : standard (interior_only (fun _ => 3%nat))) by (constructor; intros; lia).
  destruct (spaces_exist R R (built_grid id Triangle b) _ (fun _ => 1%nat) hat_basis Sh S1) as (u & Mu & _ & Bu); [intros; lia|].
  assert (Gu : fs_grid u = built_grid id Triangle b) by apply Mu. assert (Fu : fs_family u = interior_only (fun _ => 3%nat)) by apply Mu.
  assert (Tu : g_types (fs_grid u) 2 = [Triangle]) by (rewrite Gu; reflexivity).
  set (X := quadratic (level_externals b)).
  assert (Pr : proper_rules X) by apply quadratic_proper, level_proper.
  set (wmod := (4 + 2 * ent_count (built_grid id Triangle b) 2 * ent_count (built_grid id Triangle b) 2)%nat).
  destruct (made_dense R R reals X wmod (laplace_single_layer (newton e)) [SetBatch 3; SetRegular Triangle (few Triangle)] (built_grid id Triangle b) _ _ u u Triangle Sh S1 S1 Mu Mu eq_refl (sh_laplace_single reals (newton e)) Pr (quadratic_rules _ _ _ (or_introl eq_refl) (level_rules b) (or_introl eq_refl))) as (deg & pts & D).
  { split; [apply Nat.lt_0_succ|]. change (get_batch_size (after [SetBatch 3; SetRegular Triangle (few Triangle)])) with 3%nat. unfold wmod. lia. }
  { unfold wmod. lia. }
  assert (Sp : serial_space u) by apply (dn_test _ _ _ _ _ _ _ _ _ D).
  exists b, X, u, (fun t => match nth_error (cells_of b) t with Some [u; v; w] => (SpecSphere.position (points_of b) u, SpecSphere.position (points_of b) v, SpecSphere.position (points_of b) w) | _ => ((0, 0, 0), (0, 0, 0), (0, 0, 0)) end), wmod, deg, pts.
  split; [exact E|]. split; [exact Gu|]. split; [exact D|].
  assert (Du : forall k d p n q, x_duffy (level_externals b) k d p n = Some q -> pq_test q = repeat (/ 4) (2 * n) /\ pq_trial q = repeat (/ 3) (2 * n) /\ n <> 0%nat /\ exists w, 0 <= w /\ pq_weights q = repeat w n).
  { intros k d p n q H. cbn [level_externals x_duffy flat_externals] in H. destruct (Nat.eqb_spec n 0) as [|N]; [discriminate|].
    split; [apply (f_equal (fun o => match o with Some q => pq_test q | None => [] end)) in H; now rewrite <- H|].
    split; [apply (f_equal (fun o => match o with Some q => pq_trial q | None => [] end)) in H; now rewrite <- H|]. split; [exact N|].
    apply (f_equal (fun o => match o with Some q => pq_weights q | None => [] end)) in H. cbn [pq_weights] in H. eexists. split; [|now rewrite <- H]. left. apply Rinv_0_lt_compat, lt_0_INR. lia. }
  split. { constructor.
    - intros t n q H. now apply (quadratic_inside _ t n q H).
    - intros k d p n q H. destruct (Du k d p n q H) as (_ & _ & _ & w & W & ->). now apply Forall_repeat.
    - intros. cbn [X quadratic level_externals x_geometry flat_externals]. unfold flat_map_of. cbn [cm_jdet]. apply sqrt_pos. }
  split. { split.
    - intros n q p H Hp. now apply (quadratic_inside _ _ n q H).
    - intros k d pr n q p _ H Hp. destruct (Du k d pr n q H) as (-> & -> & _ & w & _ & Ew). rewrite Ew, repeat_length in Hp. rewrite !nth_repeat_lt by lia. cbn. lra. }
  split; [apply quadratic_exact|]. split; [exact (flat_flat (built_grid id Triangle b) b)|]. split; [exact Fu|]. split; [rewrite Tu, Fu; apply interior_kind|].
  split. { intros a _. split; [apply linear_polynomial|]. intros points p. rewrite Bu. unfold hat_basis. destruct a as [|[|a]]; reflexivity. }
  split. { intros t p q r (a & a' & a2 & Ec & Ep & Eq & Er). rewrite Ec. unfold SpecSphere.position. now rewrite (nth_error_nth _ _ _ Ep), (nth_error_nth _ _ _ Eq), (nth_error_nth _ _ _ Er). }
  assert (Hc : (0 < length (cells_of b))%nat).
  { destruct (sphere_surface real_numbers level) as (b' & E' & _ & _ & _ & Nc & _). rewrite E in E'. injection E' as <-. assert (Nc' : length (@cells_of vec b) = _) by exact Nc. clear -Nc'. pose proof (Nat.pow_nonzero 4 level ltac:(discriminate)). lia. }
  destruct (proj2 (sphere_cells level id b E) 0%nat Hc) as (p & q & r & Co & _).
  destruct (opposite_cells level b 0 p q r E Co Hl) as (s & p' & q' & r' & Co' & F).
  assert (Three : forall c x y z, corners_of b c x y z -> length (dofs_at u c) = 3%nat).
  { intros c x y z Cc. pose proof (corners_lt level id b E c x y z Cc) as Lc. rewrite <- Gu in Lc. rewrite (dofs_at_dim u c Sp Lc), Fu.
    pose proof (wf_ctype _ (ss_grid _ Sp) c Lc) as H. rewrite Tu in H. destruct H as [<-|[]]. reflexivity. }
  pose proof (Three 0%nat p q r Co) as N0. pose proof (Three s p' q' r' Co') as Ns.
  assert (I0 : exists i, In i (dofs_at u 0)) by (destruct (dofs_at u 0) as [|i l]; [discriminate N0|exists i; now left]).
  assert (Is : exists j, In j (dofs_at u s)) by (destruct (dofs_at u s) as [|j l]; [discriminate Ns|exists j; now left]).
  destruct I0 as (i & Hi), Is as (j & Hj). exists 0%nat, s, i, j, p, q, r, p', q', r'. split; [exact Co|]. split; [exact Co'|]. split; [exact Hi|]. split; [exact Hj|].
  split. { intros x y (H1 & H2 & H3). apply piece_between; [intros [|[|a]]; lra|]. rewrite N0. cbn. lra. }
  split. { intros x y (H1 & H2 & H3). apply piece_between; [intros [|[|a]]; lra|]. rewrite Ns. cbn. lra. }
  assert (P4 : 0 < 4 ^ level) by (apply pow_lt; lra). apply far_root; [apply dist_nonneg|apply Rdiv_lt_0_compat; lra|]. eapply Rle_trans; [|exact F]. right. field. lra.
Qed.

(** ** Screens *)
Theorem screen_piece_example : forall n id e, (4 <= n)%nat -> exists (b : builder (nat * nat)) X (fs : fspace R R) P wmod deg pts,
  screen n Quadrilateral b /\ fs_grid fs = built_grid id Quadrilateral b /\
  dense_setting X wmod (laplace_single_layer (newton e)) (after [SetBatch 3; SetRegular Quadrilateral (few Quadrilateral)]) deg pts Quadrilateral fs fs /\
  positive_externals (Rle 0) X /\ inside_rules X Quadrilateral /\ exact_to X Quadrilateral (pts Quadrilateral) (0 + 2) /\ flat_screen n X (built_grid id Quadrilateral b) b /\
  fs_family fs = interior_only (fun _ => 4%nat) /\ interior_family (g_types (fs_grid fs) 2) (fs_family fs) /\
  element_functions fs Quadrilateral 2 (fun a x y => match a with 0%nat => (1 - x) * (1 - y) | 1%nat => x * (1 - y) | 2%nat => (1 - x) * y | _ => x * y end) /\
  (forall t p q r, corner b t 0 p -> corner b t 1 q -> corner b t 2 r -> P t = (screen_position n p, screen_position n q, screen_position n r)) /\
  exists t s i j p q r p' q' r', corner b t 0 p /\ corner b t 1 q /\ corner b t 2 r /\ corner b s 0 p' /\ corner b s 1 q' /\ corner b s 2 r' /\ In i (dofs_at fs t) /\ In j (dofs_at fs s) /\
    (forall x y, inside Quadrilateral x y -> Rabs (piece fs (fun a x y => match a with 0%nat => (1 - x) * (1 - y) | 1%nat => x * (1 - y) | 2%nat => (1 - x) * y | _ => x * y end) i t x y) <= 1) /\
    (forall x y, inside Quadrilateral x y -> Rabs (piece fs (fun a x y => match a with 0%nat => (1 - x) * (1 - y) | 1%nat => x * (1 - y) | 2%nat => (1 - x) * y | _ => x * y end) j s x y) <= 1) /\
    sqrt (spread Quadrilateral / 2) / INR (n + 1) < dist (centre Quadrilateral (screen_position n p) (screen_position n q) (screen_position n r)) (centre Quadrilateral (screen_position n p') (screen_position n q') (screen_position n r')).
Proof.
  intros n id e Hn. set (t := Quadrilateral). assert (Ht : t = Triangle \/ t = Quadrilateral) by now right. destruct (screen_exists n t ltac:(lia) Ht) as (b & Sn). pose proof (screen_is_shape n id t b Sn) as Sh.
  assert (S1 : standard (interior_only (fun _ => 4%nat))) by (constructor; intros; lia).
  destruct (spaces_exist R R (built_grid id t b) _ (fun _ => 1%nat) bilinear_basis Sh S1) as (u & Mu & _ & Bu); [intros; lia|].
  assert (Gu : fs_grid u = built_grid id t b) by apply Mu. assert (Fu : fs_family u = interior_only (fun _ => 4%nat)) by apply Mu.
  assert (Tu : g_types (fs_grid u) 2 = [t]) by (rewrite Gu; reflexivity).
  set (X := quadratic (even_externals n b)).
  assert (Pr : proper_rules X) by apply quadratic_proper, even_proper.
  set (wmod := (4 + 2 * ent_count (built_grid id t b) 2 * ent_count (built_grid id t b) 2)%nat).
  destruct (made_dense R R reals X wmod (laplace_single_layer (newton e)) [SetBatch 3; SetRegular t (few t)] (built_grid id t b) _ _ u u t Sh S1 S1 Mu Mu eq_refl (sh_laplace_single reals (newton e)) Pr (quadratic_rules _ _ _ (or_introl eq_refl) (even_rules n b t Ht) Ht)) as (deg & pts & D).
  { split; [apply Nat.lt_0_succ|]. change (get_batch_size (after [SetBatch 3; SetRegular t (few t)])) with 3%nat. unfold wmod. lia. }
  { unfold wmod. lia. }
  assert (Sp : serial_space u) by apply (dn_test _ _ _ _ _ _ _ _ _ D).
  assert (Du : forall ki d p k q, x_duffy (even_externals n b) ki d p k = Some q -> pq_test q = repeat (/ 4) (2 * k) /\ pq_trial q = repeat (/ 3) (2 * k) /\ k <> 0%nat /\ exists w, 0 <= w /\ pq_weights q = repeat w k).
  { intros ki d p k q H. cbn [even_externals x_duffy] in H. destruct (Nat.eqb_spec k 0) as [|N]; [discriminate|].
    split; [apply (f_equal (fun o => match o with Some q => pq_test q | None => [] end)) in H; now rewrite <- H|].
    split; [apply (f_equal (fun o => match o with Some q => pq_trial q | None => [] end)) in H; now rewrite <- H|]. split; [exact N|].
    apply (f_equal (fun o => match o with Some q => pq_weights q | None => [] end)) in H. cbn [pq_weights] in H. eexists. split; [|now rewrite <- H]. left. apply Rdiv_lt_0_compat; [destruct ki; cbn; lra|apply lt_0_INR; lia]. }
  exists b, X, u, (fun c => match nth_error (cells_of b) c with Some (u :: v :: w :: _) => (screen_position n (nth u (points_of b) (0%nat, 0%nat)), screen_position n (nth v (points_of b) (0%nat, 0%nat)), screen_position n (nth w (points_of b) (0%nat, 0%nat))) | _ => ((0, 0, 0), (0, 0, 0), (0, 0, 0)) end), wmod, deg, pts.
  split; [exact Sn|]. split; [exact Gu|]. split; [exact D|]. split.
  { constructor.
    - intros t' k q H. now apply (quadratic_inside _ t' k q H).
    - intros ki d p k q H. destruct (Du ki d p k q H) as (_ & _ & _ & w & W & ->). now apply Forall_repeat.
    - intros. cbn [X quadratic even_externals x_geometry flat_screen_externals]. cbv zeta. cbn [cm_jdet]. apply sqrt_pos. }
  split.
  { split.
    - intros k q p H Hp. now apply (quadratic_inside _ _ k q H).
    - intros ki d pr k q p _ H Hp. destruct (Du ki d pr k q H) as (-> & -> & _ & w & _ & Ew). rewrite Ew, repeat_length in Hp. rewrite !nth_repeat_lt by lia. cbn; lra. }
  split; [apply quadratic_exact|]. split; [exact (flat_screen_flat n (built_grid id t b) b)|]. split; [exact Fu|]. split; [rewrite Tu, Fu; apply interior_kind|].
  split. { intros a _. split; [apply bilinear_polynomial|]. intros points p. rewrite Bu. unfold bilinear_basis. reflexivity. }
  split. { intros c p q r (vs & v0 & Ec & E0 & P0) (vs1 & v1 & Ec1 & E1 & P1) (vs2 & v2 & Ec2 & E2 & P2).
    rewrite Ec in Ec1, Ec2. injection Ec1 as <-. injection Ec2 as <-. rewrite Ec. destruct vs as [|w0 [|w1 [|w2 l]]]; try discriminate. cbn in E0, E1, E2. injection E0 as ->. injection E1 as ->. injection E2 as ->.
    now rewrite (nth_error_nth _ _ _ P0), (nth_error_nth _ _ _ P1), (nth_error_nth _ _ _ P2). }
  assert (C : forall x k q, (x < n)%nat -> nth_error (offsets t 0) k = Some q -> corner b (number t n x x 0) k ((x + fst q)%nat, (x + snd q)%nat)).
  { intros x k q Hx Eq. apply (corner_at n t b Sn x x 0 k _ Hx Hx Nat.lt_0_1). exists q. auto. }
  assert (Four : forall x, (x < n)%nat -> length (dofs_at u (number t n x x 0)) = 4%nat).
  { intros x Hx. assert (Lc : (number t n x x 0 < ent_count (fs_grid u) 2)%nat). { rewrite Gu, (screen_cell_count n id t b Sn). destruct (C x 0%nat (0%nat, 0%nat) Hx eq_refl) as (vs & v & Ec & _). apply nth_error_Some. congruence. }
    rewrite (dofs_at_dim u _ Sp Lc), Fu. pose proof (wf_ctype _ (ss_grid _ Sp) _ Lc) as H. rewrite Tu in H. destruct H as [<-|[]]. reflexivity. }
  pose proof (Four 0%nat ltac:(lia)) as N0. pose proof (Four (n - 1)%nat ltac:(lia)) as Ns.
  assert (I0 : exists i, In i (dofs_at u (number t n 0 0 0))) by (destruct (dofs_at u (number t n 0 0 0)) as [|i l]; [discriminate N0|exists i; now left]).
  assert (Is : exists j, In j (dofs_at u (number t n (n - 1) (n - 1) 0))) by (destruct (dofs_at u (number t n (n - 1) (n - 1) 0)) as [|j l]; [discriminate Ns|exists j; now left]).
  destruct I0 as (i & Hi), Is as (j & Hj).
  exists (number t n 0 0 0), (number t n (n - 1) (n - 1) 0), i, j, ((0 + 0)%nat, (0 + 0)%nat), ((0 + 1)%nat, (0 + 0)%nat), ((0 + 0)%nat, (0 + 1)%nat),
    ((n - 1 + 0)%nat, (n - 1 + 0)%nat), ((n - 1 + 1)%nat, (n - 1 + 0)%nat), ((n - 1 + 0)%nat, (n - 1 + 1)%nat).
  split; [apply (C 0%nat 0%nat (0%nat, 0%nat)); [lia|reflexivity]|]. split; [apply (C 0%nat 1%nat (1%nat, 0%nat)); [lia|reflexivity]|]. split; [apply (C 0%nat 2%nat (0%nat, 1%nat)); [lia|reflexivity]|].
  split; [apply (C (n - 1)%nat 0%nat (0%nat, 0%nat)); [lia|reflexivity]|]. split; [apply (C (n - 1)%nat 1%nat (1%nat, 0%nat)); [lia|reflexivity]|]. split; [apply (C (n - 1)%nat 2%nat (0%nat, 1%nat)); [lia|reflexivity]|].
  split; [exact Hi|]. split; [exact Hj|].
  split. { intros x y H. cbn in H. apply piece_between; [intros [|[|[|a]]]; nra|]. rewrite N0. cbn. lra. }
  split. { intros x y H. cbn in H. apply piece_between; [intros [|[|[|a]]]; nra|]. rewrite Ns. cbn. lra. }
  assert (PN : 0 < INR (n + 1)) by (apply lt_0_INR; lia). unfold t in *. cbn [spread].
  replace (sqrt (4 / 2) / INR (n + 1)) with (sqrt (4 / 2 / (INR (n + 1) * INR (n + 1)))) by (rewrite sqrt_div by nra; now rewrite sqrt_square by lra).
  apply far_root; [apply dist_nonneg|apply Rdiv_lt_0_compat; nra|].
  rewrite distance_chord, sqrt_sqrt by apply chord2_nonneg.
  assert (P4 : 3 <= INR (n - 1)) by (replace 3 with (INR 3) by (cbn; ring); apply le_INR; lia).
  match goal with |- _ <= chord2 ?x ?y => replace (chord2 x y) with (2 * (INR (n - 1) * INR (n - 1)) / (INR (n + 1) * INR (n + 1))) end.
  - replace (4 * (4 / 2 / (INR (n + 1) * INR (n + 1)))) with (8 / (INR (n + 1) * INR (n + 1))) by (field; lra). unfold Rdiv. apply Rmult_le_compat_r; [left; apply Rinv_0_lt_compat; nra|]. nra.
  - unfold chord2, screen_position, screen_denominator. cbn [fst snd]. rewrite !(plus_INR (n - 1)), !(plus_INR 0). change (INR 0) with 0. change (INR 1) with 1.
    cbn [centre vadd vsub vscale inner]; field; lra.
Qed.
