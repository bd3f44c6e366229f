(** * Constant kernels on the sphere *)
From Coq Require Import Reals Lra Ring_theory Ring.
From Verif Require Import Base BaseFacts Topology TopologyFacts DofMap Process Space SpecSpace Options SpecOptions Scalar Integrand CellPair Operators SpecAdjacency
  SpecLocal SpecOperators Interleave Assembly SpecAssembly AssemblyExact SpecAlgebra AlgebraResults SpecShapeSpaces ShapeSpacesResults SpecGalerkin SpecMeasure MeasureResults
  Shapes SpecShapes SphereSurface ShapesResults DimensionResults SpecSphere SpecWidth SpecSymmetry SpecTurns TurnResults SpecVolume VolumeResults SpecSolid SolidResults SpecGauss SpecRounding TurnExamples BrokenResults SpecBroken SpecDof.

Local Open Scope R_scope.
Local Notation sum := (@SpecAssembly.total _ R _).

(** Twice the area of cell [c], and its normal. *)
Definition cell_at (b : builder vec) (c : nat) : list nat := nth c (cells_of b) [].
Definition long_normal (b : builder vec) (c : nat) : vec := cell_normal (position (points_of b)) (cell_at b c).
Definition long (b : builder vec) (c : nat) : R := sqrt (inner (long_normal b c) (long_normal b c)).

Lemma sphere_cells level id (b : builder vec) : regular_sphere real_numbers level 1 = Ok b ->
  ent_count (built_grid id Triangle b) 2 = length (cells_of b) /\
  forall c, (c < length (cells_of b))%nat -> exists p q r, corners_of b c p q r /\ long_normal b c = normal p q r.
Proof.
  intros E. destruct (sphere_surface real_numbers level) as (b' & E' & _ & _ & _ & N & SU). rewrite E in E'. injection E' as <-.
  assert (SU' : surface (length (@points_of vec b)) (@cells_of vec b)) by exact SU. clear SU.
  split.
  - etransitivity; [|symmetry; exact N]. destruct entity_counts as (H & _). apply (H real_numbers level b id E).
  - intros c Hc. destruct (nth_error (cells_of b) c) as [l|] eqn:El; [|apply nth_error_None in El; lia].
    destruct (su_cell _ _ SU' l (nth_error_In _ _ El)) as (u & v & w & -> & (Hu & Hv & Hw) & _).
    destruct (nth_error (points_of b) u) as [p|] eqn:Eu; [|apply nth_error_None in Eu; lia].
    destruct (nth_error (points_of b) v) as [q|] eqn:Ev; [|apply nth_error_None in Ev; lia].
    destruct (nth_error (points_of b) w) as [r|] eqn:Ew; [|apply nth_error_None in Ew; lia].
    exists p, q, r. split; [exists u, v, w; auto|]. unfold long_normal, cell_at, position. rewrite (nth_error_nth _ _ [] El). cbn [cell_normal].
    now rewrite (nth_error_nth _ _ origin Eu), (nth_error_nth _ _ origin Ev), (nth_error_nth _ _ origin Ew).
Qed.

Section Sphere.
Context {T : Type} (S : scalar T R) (one : T) (RT : ring_theory (s_zero S) one (s_add S) (s_mul S) (s_sub S) (s_neg S) eq).
Context (Rc : real_cast S) (Ec : exact_cast S).
Add Ring scalar_ring : RT.
Local Notation "a +! b" := (s_add S a b) (at level 50, left associativity).
Local Notation "a *! b" := (s_mul S a b) (at level 40, left associativity).
Local Notation cast := (s_cast S).

Lemma cast_zero : cast 0 = s_zero S.
Proof.
  pose proof (proj2 Rc 0 0) as H. rewrite Rplus_0_r in H.
  transitivity (s_sub S (cast 0 +! cast 0) (cast 0)); [ring|]. rewrite <- H. ring.
Qed.

Lemma cast_mul a c : cast (a * c) = cast a *! cast c.
Proof. rewrite <- (proj1 Ec). now rewrite (proj1 Rc). Qed.

Lemma cast_total {A : Type} (f : A -> R) l : SpecAssembly.total S l (fun a => cast (f a)) = cast (SpecVolume.total f l).
Proof. induction l as [|a l IH]; [symmetry; apply cast_zero|]. rewrite AssemblyExact.total_cons, IH. cbn [SpecVolume.total fold_right]. symmetry. apply Rc. Qed.

Lemma cast_weights w x : fold_right Rplus 0 w = x -> SpecAssembly.total S w cast = cast x.
Proof. intros <-. induction w as [|y w IH]; [symmetry; apply cast_zero|]. rewrite AssemblyExact.total_cons, IH. symmetry. apply Rc. Qed.

Lemma total_nth {A : Type} (f : A -> R) d (l : list A) : SpecVolume.total (fun c => f (nth c l d)) (seq 0 (length l)) = SpecVolume.total f l.
Proof.
  assert (M : forall (h : nat -> A) m, SpecVolume.total (fun c => f (h c)) m = SpecVolume.total f (map h m)).
  { intros h m. induction m as [|k m IH]; [reflexivity|]. cbn [map]. now rewrite !VolumeResults.total_cons, IH. }
  rewrite M. f_equal. clear. induction l as [|a l IH]; [reflexivity|]. cbn [length seq map nth]. now rewrite <- seq_shift, map_map, IH.
Qed.

Context (X : externals R) (level id : nat) (b : builder vec) (E : regular_sphere real_numbers level 1 = Ok b).
Context (Fl : flat_cells X (built_grid id Triangle b) b) (Tw : triangle_weights X).

Definition unit_normal (c i : nat) : T := cast (coordinate i (long_normal b c) / long b c).

Lemma sphere_flat : flat_faces S X (built_grid id Triangle b) Triangle (fun c => cast (long b c)) unit_normal.
Proof.
  destruct (sphere_cells level id b E) as (Ec' & H). intros points c p Hc _. rewrite Ec' in Hc. destruct (H c Hc) as (x & y & z & Co & En).
  destruct (Fl Triangle points c x y z Co) as [_ Fn _ _ Fa]. unfold unit_normal, long. rewrite En. split.
  - now rewrite Fa.
  - intros i Hi. now rewrite Fn.
Qed.

Lemma sphere_full deg pts : full_weights S X Triangle deg pts (cast (1 / 2)).
Proof.
  destruct Tw as (W1 & W2). split.
  - intros q Hq. apply cast_weights. eapply W1; eauto.
  - intros kind dim pairs q Hk Hq. cbn in Hk. injection Hk as <-. rewrite <- cast_mul. apply cast_weights. rewrite (W2 _ _ _ _ Hq). field.
Qed.

Lemma half_long c : cast (1 / 2) *! cast (long b c) = cast (cell_area (position (points_of b)) (cell_at b c)).
Proof. rewrite <- cast_mul. f_equal. unfold cell_area. change (cell_normal (position (points_of b)) (cell_at b c)) with (long_normal b c). fold (long b c). field. Qed.

Lemma area_total : SpecAssembly.total S (seq 0 (length (cells_of b))) (fun c => cast (1 / 2) *! cast (long b c)) = cast (area b).
Proof.
  rewrite (AssemblyExact.total_ext S _ _ (fun c => cast (cell_area (position (points_of b)) (cell_at b c)))) by (intros; apply half_long).
  rewrite cast_total. f_equal. apply (total_nth (cell_area (position (points_of b))) []).
Qed.

Lemma long_unit c i : (i < 3)%nat -> cast (1 / 2) *! cast (long b c) *! unit_normal c i = cast (coordinate i (long_normal b c) / 2).
Proof.
  intros Hi. unfold unit_normal. rewrite <- !cast_mul. f_equal. unfold long. destruct (long_normal b c) as [[x y] z] eqn:En.
  destruct (Req_dec (sqrt (inner (x, y, z) (x, y, z))) 0) as [Z|Z].
  - rewrite Z. assert (Q : inner (x, y, z) (x, y, z) = 0).
    { apply sqrt_eq_0; auto. cbn. nra. }
    cbn in Q. assert (x = 0) by nra. assert (y = 0) by nra. assert (z = 0) by nra. subst. destruct i as [|[|[|i]]]; try lia; cbn; lra.
  - field. exact Z.
Qed.

Lemma normals_total i : (i < 3)%nat -> SpecAssembly.total S (seq 0 (length (cells_of b))) (fun c => cast (1 / 2) *! cast (long b c) *! unit_normal c i) = s_zero S.
Proof.
  intros Hi. rewrite (AssemblyExact.total_ext S _ _ (fun c => cast (coordinate i (long_normal b c) / 2))) by (intros; now apply long_unit).
  rewrite cast_total. rewrite <- cast_zero. f_equal.
  etransitivity; [exact (total_nth (fun l => coordinate i (cell_normal (position (points_of b)) l) / 2) [] (cells_of b))|].
  transitivity (coordinate i (vtotal (cell_normal (position (points_of b))) (cells_of b)) / 2).
  - induction (cells_of b) as [|c l IH]; cbn [SpecVolume.total vtotal fold_right].
    + destruct i as [|[|[|i]]]; cbn; lra.
    + unfold SpecVolume.total in IH. rewrite IH. unfold vtotal. destruct (fold_right _ origin l) as [[? ?] ?], (cell_normal _ c) as [[? ?] ?]. destruct i as [|[|[|i]]]; try lia; cbn; lra.
  - rewrite (sphere_normals _ _ _ _ E). destruct i as [|[|[|i]]]; try lia; cbn; lra.
Qed.

Lemma dot_normals (g : nat -> T) a : SpecAssembly.total S (seq 0 (length (cells_of b))) (fun c => a *! (cast (1 / 2) *! cast (long b c)) *! dot S g (unit_normal c)) = s_zero S.
Proof.
  unfold dot. rewrite (AssemblyExact.total_ext S _ _ (fun c => a *! g 0%nat *! (cast (1 / 2) *! cast (long b c) *! unit_normal c 0%nat) +! a *! g 1%nat *! (cast (1 / 2) *! cast (long b c) *! unit_normal c 1%nat)
    +! a *! g 2%nat *! (cast (1 / 2) *! cast (long b c) *! unit_normal c 2%nat))) by (intros; ring).
  rewrite !(total_add S one RT), !(total_mul S one RT), !normals_total by lia. ring.
Qed.

Lemma zero_mul a : s_zero S *! a = s_zero S.
Proof. ring. Qed.

(** Sums over the sphere. *)
Local Notation part O k t s := (measure S O k (cast (1 / 2) *! cast (long b t)) (cast (1 / 2) *! cast (long b s)) (unit_normal t) (unit_normal s)).

Lemma single_total (O : operator T R) k : op_integrand O = SingleLayer ->
  SpecAssembly.total S (seq 0 (length (cells_of b))) (fun t => SpecAssembly.total S (seq 0 (length (cells_of b))) (fun s => one *! part O k t s *! one)) =
  k 0%nat *! (cast (area b) *! cast (area b)).
Proof.
  intros Hf. unfold measure. rewrite Hf. cbn [face_value].
  rewrite (AssemblyExact.total_ext S _ _ (fun t => (cast (1 / 2) *! cast (long b t)) *! (k 0%nat *! cast (area b)))).
  - rewrite (total_mul_r S one RT), area_total. ring.
  - intros t _. rewrite <- area_total. rewrite <- (total_mul S one RT (seq 0 (length (cells_of b))) (k 0%nat)). rewrite <- (total_mul S one RT (seq 0 (length (cells_of b)))).
    apply AssemblyExact.total_ext. intros. ring.
Qed.

Lemma double_total (O : operator T R) k (U : nat -> T) : op_integrand O = DoubleLayer ->
  SpecAssembly.total S (seq 0 (length (cells_of b))) (fun t => SpecAssembly.total S (seq 0 (length (cells_of b))) (fun s => U t *! part O k t s *! one)) = s_zero S.
Proof.
  intros Hf. unfold measure. rewrite Hf. cbn [face_value]. apply (total_zero S one RT). intros t _.
  rewrite <- (dot_normals (fun i => k (1 + i)%nat) (U t *! (cast (1 / 2) *! cast (long b t)))). apply AssemblyExact.total_ext. intros. ring.
Qed.

Lemma adjoint_total (O : operator T R) k (W : nat -> T) : op_integrand O = AdjointDoubleLayer ->
  SpecAssembly.total S (seq 0 (length (cells_of b))) (fun t => SpecAssembly.total S (seq 0 (length (cells_of b))) (fun s => one *! part O k t s *! W s)) = s_zero S.
Proof.
  intros Hf. unfold measure. rewrite Hf. cbn [face_value]. rewrite (total_swap S one RT). apply (total_zero S one RT). intros s _.
  rewrite <- (dot_normals (fun i => k (1 + i)%nat) (s_neg S (W s *! (cast (1 / 2) *! cast (long b s))))). apply AssemblyExact.total_ext. intros. ring.
Qed.

End Sphere.

(** The form of piecewise constant functions on the sphere. *)
Lemma sphere_form : forall (T : Type) (S : scalar T R) (X : externals R) level id wmod (b : builder vec) calls tf sf (test trial : fspace T R) rt one (O : operator T R) k,
  exact S -> exact_cast S -> real_cast S -> (forall x, s_mul S one x = x) -> regular_sphere real_numbers level 1 = Ok b -> standard tf -> standard sf ->
  made_on (built_grid id Triangle b) tf test -> made_on (built_grid id Triangle b) sf trial -> adds_to_one S one test -> adds_to_one S one trial ->
  flat_cells X (built_grid id Triangle b) b -> triangle_weights X -> proper_rules X -> rules_exist X Triangle (after calls) ->
  (0 < get_batch_size (after calls) < wmod)%nat ->
  (2 * ent_count (built_grid id Triangle b) 2 * ent_count (built_grid id Triangle b) 2 <= wmod)%nat -> legal_runtime (s_add S) rt ->
  shipped S O -> constant_kernel O k -> exists m e,
    assemble S X rt wmod O (after calls) trial test = Ok m /\
    (forall i j, (i < global_size (fs_space test))%nat -> (j < global_size (fs_space trial))%nat ->
      nth_error m (i + global_size (fs_space test) * j) = Some (e i j)) /\
    forall u w U W, piecewise test u U -> piecewise trial w W ->
      SpecAssembly.total S (seq 0 (global_size (fs_space test))) (fun i => SpecAssembly.total S (seq 0 (global_size (fs_space trial))) (fun j => s_mul S (s_mul S (u i) (e i j)) (w j))) =
      SpecAssembly.total S (seq 0 (length (cells_of b))) (fun t => SpecAssembly.total S (seq 0 (length (cells_of b))) (fun s =>
        s_mul S (s_mul S (U t) (measure S O k (s_mul S (s_cast S (1 / 2)) (s_cast S (long b t))) (s_mul S (s_cast S (1 / 2)) (s_cast S (long b s))) (unit_normal S b t) (unit_normal S b s))) (W s))).
Proof.
  intros T S X level id wmod b calls tf sf test trial rt one O k Ex Ec Rc One E Htf Hsf Mt Ms At As Fl Tw Pr Re Ba Sz L Sh K.
  destruct (made_dense T R S X wmod O calls (built_grid id Triangle b) tf sf test trial Triangle) as (deg & pts & D); auto.
  { exact (shape_sphere real_numbers level id b E). }
  assert (Gt : fs_grid test = built_grid id Triangle b) by apply Mt. assert (Gs : fs_grid trial = built_grid id Triangle b) by apply Ms.
  assert (Ex' := Ex). destruct Ex' as ((x & RT) & _). pose proof (unit_unique S one x RT One) as ->.
  pose proof (sphere_flat S X level id b E Fl) as F. pose proof (sphere_full S x RT Rc Ec X Tw deg pts) as W.
  destruct (exact_measured T R S X rt wmod O (after calls) deg pts Triangle test trial x (s_cast S (1 / 2)) k
    (fun c => s_cast S (long b c)) (fun c => s_cast S (long b c)) (unit_normal S b) (unit_normal S b)) as (m & e & Em & He & H); auto.
  { now rewrite Gt. } { now rewrite Gs. }
  exists m, e. split; [exact Em|]. split; [exact He|]. intros u w U V Pu Pw. rewrite (H u w U V Pu Pw).
  rewrite Gt, Gs, (proj1 (sphere_cells level id b E)). reflexivity.
Qed.

Lemma ones_piecewise {T : Type} (fs : fspace T R) (one : T) : piecewise fs (fun _ => one) (fun _ => one).
Proof. intros c i _ _. reflexivity. Qed.

Lemma total_total_ext {T : Type} (S : scalar T R) n m (f g : nat -> nat -> T) : (forall i j, f i j = g i j) ->
  SpecAssembly.total S (seq 0 n) (fun i => SpecAssembly.total S (seq 0 m) (fun j => f i j)) = SpecAssembly.total S (seq 0 n) (fun i => SpecAssembly.total S (seq 0 m) (fun j => g i j)).
Proof. intros H. apply AssemblyExact.total_ext. intros i _. apply AssemblyExact.total_ext. intros j _. apply H. Qed.

Theorem sphere_single : forall (T : Type) (S : scalar T R) (X : externals R) level id wmod (b : builder vec) calls tf sf (test trial : fspace T R) rt one (O : operator T R) k,
  exact S -> exact_cast S -> real_cast S -> (forall x, s_mul S one x = x) -> regular_sphere real_numbers level 1 = Ok b -> standard tf -> standard sf ->
  made_on (built_grid id Triangle b) tf test -> made_on (built_grid id Triangle b) sf trial -> adds_to_one S one test -> adds_to_one S one trial ->
  flat_cells X (built_grid id Triangle b) b -> triangle_weights X -> proper_rules X -> rules_exist X Triangle (after calls) ->
  (0 < get_batch_size (after calls) < wmod)%nat ->
  (2 * ent_count (built_grid id Triangle b) 2 * ent_count (built_grid id Triangle b) 2 <= wmod)%nat -> legal_runtime (s_add S) rt ->
  shipped S O -> constant_kernel O k -> op_integrand O = SingleLayer -> exists m e,
    assemble S X rt wmod O (after calls) trial test = Ok m /\
    (forall i j, (i < global_size (fs_space test))%nat -> (j < global_size (fs_space trial))%nat ->
      nth_error m (i + global_size (fs_space test) * j) = Some (e i j)) /\
    SpecAssembly.total S (seq 0 (global_size (fs_space test))) (fun i => SpecAssembly.total S (seq 0 (global_size (fs_space trial))) (fun j => e i j)) =
      s_mul S (k 0%nat) (s_mul S (s_cast S (area b)) (s_cast S (area b))).
Proof.
  intros T S X level id wmod b calls tf sf test trial rt one O k Ex Ec Rc One E Htf Hsf Mt Ms At As Fl Tw Pr Re Ba Sz L Sh K Hf.
  destruct (sphere_form T S X level id wmod b calls tf sf test trial rt one O k Ex Ec Rc One E Htf Hsf Mt Ms At As Fl Tw Pr Re Ba Sz L Sh K) as (m & e & Em & He & H).
  exists m, e. split; [exact Em|]. split; [exact He|]. destruct Ex as ((x & RT) & _). pose proof (unit_unique S one x RT One) as ->.
  rewrite <- (single_total S x RT Rc Ec b O k Hf). rewrite <- (H _ _ _ _ (ones_piecewise test x) (ones_piecewise trial x)).
  apply total_total_ext. intros i j. rewrite (Rmul_1_l RT), (Rmul_comm RT). symmetry. apply (Rmul_1_l RT).
Qed.

Theorem sphere_double : forall (T : Type) (S : scalar T R) (X : externals R) level id wmod (b : builder vec) calls tf sf (test trial : fspace T R) rt one (O : operator T R) k,
  exact S -> exact_cast S -> real_cast S -> (forall x, s_mul S one x = x) -> regular_sphere real_numbers level 1 = Ok b -> standard tf -> standard sf ->
  made_on (built_grid id Triangle b) tf test -> made_on (built_grid id Triangle b) sf trial -> adds_to_one S one test -> adds_to_one S one trial ->
  flat_cells X (built_grid id Triangle b) b -> triangle_weights X -> proper_rules X -> rules_exist X Triangle (after calls) ->
  (0 < get_batch_size (after calls) < wmod)%nat ->
  (2 * ent_count (built_grid id Triangle b) 2 * ent_count (built_grid id Triangle b) 2 <= wmod)%nat -> legal_runtime (s_add S) rt ->
  shipped S O -> constant_kernel O k -> op_integrand O = DoubleLayer -> exists m e,
    assemble S X rt wmod O (after calls) trial test = Ok m /\
    (forall i j, (i < global_size (fs_space test))%nat -> (j < global_size (fs_space trial))%nat ->
      nth_error m (i + global_size (fs_space test) * j) = Some (e i j)) /\
    forall u U, piecewise test u U ->
      SpecAssembly.total S (seq 0 (global_size (fs_space test))) (fun i => SpecAssembly.total S (seq 0 (global_size (fs_space trial))) (fun j => s_mul S (u i) (e i j))) = s_zero S.
Proof.
  intros T S X level id wmod b calls tf sf test trial rt one O k Ex Ec Rc One E Htf Hsf Mt Ms At As Fl Tw Pr Re Ba Sz L Sh K Hf.
  destruct (sphere_form T S X level id wmod b calls tf sf test trial rt one O k Ex Ec Rc One E Htf Hsf Mt Ms At As Fl Tw Pr Re Ba Sz L Sh K) as (m & e & Em & He & H).
  exists m, e. split; [exact Em|]. split; [exact He|]. destruct Ex as ((x & RT) & _). pose proof (unit_unique S one x RT One) as ->.
  intros u U Pu. rewrite <- (double_total S x RT Rc Ec level b E O k U Hf). rewrite <- (H _ _ _ _ Pu (ones_piecewise trial x)).
  apply total_total_ext. intros i j. rewrite (Rmul_comm RT _ x). symmetry. apply (Rmul_1_l RT).
Qed.

Theorem sphere_adjoint : forall (T : Type) (S : scalar T R) (X : externals R) level id wmod (b : builder vec) calls tf sf (test trial : fspace T R) rt one (O : operator T R) k,
  exact S -> exact_cast S -> real_cast S -> (forall x, s_mul S one x = x) -> regular_sphere real_numbers level 1 = Ok b -> standard tf -> standard sf ->
  made_on (built_grid id Triangle b) tf test -> made_on (built_grid id Triangle b) sf trial -> adds_to_one S one test -> adds_to_one S one trial ->
  flat_cells X (built_grid id Triangle b) b -> triangle_weights X -> proper_rules X -> rules_exist X Triangle (after calls) ->
  (0 < get_batch_size (after calls) < wmod)%nat ->
  (2 * ent_count (built_grid id Triangle b) 2 * ent_count (built_grid id Triangle b) 2 <= wmod)%nat -> legal_runtime (s_add S) rt ->
  shipped S O -> constant_kernel O k -> op_integrand O = AdjointDoubleLayer -> exists m e,
    assemble S X rt wmod O (after calls) trial test = Ok m /\
    (forall i j, (i < global_size (fs_space test))%nat -> (j < global_size (fs_space trial))%nat ->
      nth_error m (i + global_size (fs_space test) * j) = Some (e i j)) /\
    forall w W, piecewise trial w W ->
      SpecAssembly.total S (seq 0 (global_size (fs_space test))) (fun i => SpecAssembly.total S (seq 0 (global_size (fs_space trial))) (fun j => s_mul S (e i j) (w j))) = s_zero S.
Proof.
  intros T S X level id wmod b calls tf sf test trial rt one O k Ex Ec Rc One E Htf Hsf Mt Ms At As Fl Tw Pr Re Ba Sz L Sh K Hf.
  destruct (sphere_form T S X level id wmod b calls tf sf test trial rt one O k Ex Ec Rc One E Htf Hsf Mt Ms At As Fl Tw Pr Re Ba Sz L Sh K) as (m & e & Em & He & H).
  exists m, e. split; [exact Em|]. split; [exact He|]. destruct Ex as ((x & RT) & _). pose proof (unit_unique S one x RT One) as ->.
  intros w W Pw. rewrite <- (adjoint_total S x RT Rc Ec level b E O k W Hf). rewrite <- (H _ _ _ _ (ones_piecewise test x) Pw).
  apply total_total_ext. intros i j. now rewrite (Rmul_1_l RT).
Qed.

(** Rows for the constants on the cells. *)
Theorem sphere_double_rows : forall (T : Type) (S : scalar T R) (X : externals R) level id wmod (b : builder vec) calls tf sf (test trial : fspace T R) rt one (O : operator T R) k,
  exact S -> exact_cast S -> real_cast S -> (forall x, s_mul S one x = x) -> regular_sphere real_numbers level 1 = Ok b -> standard tf -> standard sf ->
  made_on (built_grid id Triangle b) tf test -> made_on (built_grid id Triangle b) sf trial -> adds_to_one S one test -> adds_to_one S one trial ->
  flat_cells X (built_grid id Triangle b) b -> triangle_weights X -> proper_rules X -> rules_exist X Triangle (after calls) ->
  (0 < get_batch_size (after calls) < wmod)%nat ->
  (2 * ent_count (built_grid id Triangle b) 2 * ent_count (built_grid id Triangle b) 2 <= wmod)%nat -> legal_runtime (s_add S) rt ->
  shipped S O -> constant_kernel O k -> op_integrand O = DoubleLayer ->
  constants S one test -> interior_family [Triangle] tf ->
  exists m e,
    assemble S X rt wmod O (after calls) trial test = Ok m /\
    (forall i j, (i < global_size (fs_space test))%nat -> (j < global_size (fs_space trial))%nat ->
      nth_error m (i + global_size (fs_space test) * j) = Some (e i j)) /\
    forall t i, (t < ent_count (built_grid id Triangle b) 2)%nat -> In i (dofs_at test t) ->
      SpecAssembly.total S (seq 0 (global_size (fs_space trial))) (fun j => e i j) = s_zero S.
Proof.
  intros T S X level id wmod b calls tf sf test trial rt one O k Ex Ec Rc One E Htf Hsf Mt Ms At As Fl Tw Pr Re Ba Sz L Sh K Hf Co If.
  destruct (sphere_double T S X level id wmod b calls tf sf test trial rt one O k Ex Ec Rc One E Htf Hsf Mt Ms At As Fl Tw Pr Re Ba Sz L Sh K Hf) as (m & e & Em & He & H).
  exists m, e. split; [exact Em|]. split; [exact He|]. destruct Ex as ((x & RT) & _). pose proof (unit_unique S one x RT One) as ->.
  intros t i Ht Hi. assert (Gt : fs_grid test = built_grid id Triangle b) by apply Mt.
  assert (St : serial_space test). { exact (made_serial T R (built_grid id Triangle b) tf test (shape_sphere real_numbers level id b E) Htf Mt). }
  rewrite <- (H _ _ (indicator_piecewise S x test t i St ltac:(rewrite Gt, (mo_family _ _ _ Mt); exact If) Co ltac:(rewrite Gt; exact Ht) Hi)).
  rewrite <- (total_pick S x RT (global_size (fs_space test)) i (SpecAssembly.total S (seq 0 (global_size (fs_space trial))) (fun j => e i j))).
  - apply AssemblyExact.total_ext. intros a _. destruct (Nat.eqb_spec i a) as [<-|].
    + apply AssemblyExact.total_ext. intros j _. symmetry. apply (Rmul_1_l RT).
    + symmetry. apply (total_zero S x RT). intros j _. apply (zero_mul S x RT).
  - apply (serial_lt test St t); auto. now rewrite Gt.
Qed.

(** The square of the area of the unit sphere. *)
Theorem single_limit : forall eps k0, 0 < eps -> exists N, forall level, (N <= level)%nat ->
  forall (X : externals R) id wmod (b : builder vec) calls tf sf (test trial : fspace R R) rt (O : operator R R) k,
  regular_sphere real_numbers level 1 = Ok b -> standard tf -> standard sf ->
  made_on (built_grid id Triangle b) tf test -> made_on (built_grid id Triangle b) sf trial -> adds_to_one reals 1 test -> adds_to_one reals 1 trial ->
  flat_cells X (built_grid id Triangle b) b -> triangle_weights X -> proper_rules X -> rules_exist X Triangle (after calls) ->
  (0 < get_batch_size (after calls) < wmod)%nat ->
  (2 * ent_count (built_grid id Triangle b) 2 * ent_count (built_grid id Triangle b) 2 <= wmod)%nat -> legal_runtime (s_add reals) rt ->
  shipped reals O -> constant_kernel O k -> op_integrand O = SingleLayer -> k 0%nat = k0 -> exists m e,
    assemble reals X rt wmod O (after calls) trial test = Ok m /\
    (forall i j, (i < global_size (fs_space test))%nat -> (j < global_size (fs_space trial))%nat ->
      nth_error m (i + global_size (fs_space test) * j) = Some (e i j)) /\
    Rabs (SpecAssembly.total reals (seq 0 (global_size (fs_space test))) (fun i => SpecAssembly.total reals (seq 0 (global_size (fs_space trial))) (fun j => e i j)) - k0 * (4 * PI * (4 * PI))) < eps.
Proof.
  intros eps k0 Heps. destruct (volume_limit sphere_level sphere_level_ok) as (_ & A).
  assert (C : Un_cv (fun L => k0 * (area (sphere_level L) * area (sphere_level L))) (k0 * (4 * PI * (4 * PI)))).
  { apply CV_mult; [|now apply CV_mult]. intros d Hd. exists 0%nat. intros. rewrite R_dist_eq. lra. }
  destruct (C eps Heps) as (N & HN). exists N. intros level Hl X id wmod b calls tf sf test trial rt O k E Htf Hsf Mt Ms At As Fl Tw Pr Re Ba Sz L Sh K Hf Hk.
  destruct (sphere_single R reals X level id wmod b calls tf sf test trial rt 1 O k) as (m & e & Em & He & H); auto; try apply reals_exact.
  { split; reflexivity. } { intros x. cbn. ring. }
  exists m, e. split; [exact Em|]. split; [exact He|]. rewrite H, Hk. specialize (HN level Hl). unfold R_dist in HN.
  pose proof (sphere_level_ok level) as E'. rewrite E in E'. injection E' as E'. rewrite <- E' in HN. exact HN.
Qed.
