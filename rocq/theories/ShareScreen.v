(** * Constant kernels on screens *)
From Coq Require Import Reals Lra Ring_theory Ring.
From Verif Require Import Base BaseFacts Topology TopologyFacts DofMap SpecDof Process Space SpecSpace Options SpecOptions
  Adjacency SpecAdjacency Scalar Integrand CellPair Operators SpecLocal SpecOperators Interleave Assembly SpecAssembly
  AssemblyExact AssemblyResults SpecAlgebra SpecGalerkin SpecMeasure MeasureResults SpecShapeSpaces ShapeSpacesResults
  Shapes SpecShapes SpecSphere SpecScreen SpecWidth SpecTurns SpecRounding SpecGauss GaussResults SpecCounts CountsResults SpecShift SpecToeplitz ToeplitzResults SpecShare ShareResults.

Local Open Scope R_scope.

(** The squares of the screen have sides [1 / (n + 1)]. *)
Lemma screen_area_ratio n t b c p q r : screen n t b -> corner b c 0 p -> corner b c 1 q -> corner b c 2 r -> (c < length (cells_of b))%nat ->
  sqrt (inner (normal (screen_position n p) (screen_position n q) (screen_position n r)) (normal (screen_position n p) (screen_position n q) (screen_position n r))) = / (INR (n + 1) * INR (n + 1)) /\
  normal (screen_position n p) (screen_position n q) (screen_position n r) = (0, 0, / (INR (n + 1) * INR (n + 1))).
Proof.
  intros Sn Cp Cq Cr L. destruct (screen_number n t b Sn c L) as (x & y & h & Hx & Hy & Hh & ->).
  apply (corner_at n t b Sn x y h) in Cp; auto. apply (corner_at n t b Sn x y h) in Cq; auto. apply (corner_at n t b Sn x y h) in Cr; auto.
  destruct Cp as (op & Ep & ->), Cq as (oq & Eq & ->), Cr as (or & Er & ->). cbn [fst snd].
  assert (P : 0 < INR (n + 1)) by (apply lt_0_INR; lia).
  assert (E : normal (screen_position n ((x + fst op)%nat, (y + snd op)%nat)) (screen_position n ((x + fst oq)%nat, (y + snd oq)%nat)) (screen_position n ((x + fst or)%nat, (y + snd or)%nat)) = (0, 0, / (INR (n + 1) * INR (n + 1)))).
  { assert (O : ((op = (0, 0) /\ oq = (1, 0) /\ or = (1, 1)) \/ (op = (0, 0) /\ oq = (1, 1) /\ or = (0, 1)) \/ (op = (0, 0) /\ oq = (1, 0) /\ or = (0, 1)))%nat).
    { assert (Ht : t = Triangle \/ t = Quadrilateral) by (destruct Sn; auto). destruct Ht as [-> | ->]; cbn [per] in Hh; [destruct h as [|[|h]]; [| |lia]|destruct h; [|lia]]; cbn in Ep, Eq, Er; injection Ep as <-; injection Eq as <-; injection Er as <-; auto. }
    unfold screen_position, screen_denominator. destruct O as [(-> & -> & ->)|[(-> & -> & ->)|(-> & -> & ->)]]; cbn [fst snd]; rewrite !plus_INR in *; cbn [INR] in *;
      unfold normal, cross, vsub; cbn; (apply f_equal2; [apply f_equal2|]); field; lra. }
  rewrite E. split; [|reflexivity]. cbn [inner]. replace (_ + _) with ((/ (INR (n + 1) * INR (n + 1))) * (/ (INR (n + 1) * INR (n + 1)))) by ring.
  apply sqrt_square. left. apply Rinv_0_lt_compat. nra.
Qed.

Section Screen.
Context {T : Type} (S : scalar T R) (one : T) (RT : ring_theory (s_zero S) one (s_add S) (s_mul S) (s_sub S) (s_neg S) eq).
Context (Rc : real_cast S) (Ec : exact_cast S).
Add Ring scalar_ring : RT.
Local Notation "a +! b" := (s_add S a b) (at level 50, left associativity).
Local Notation "a *! b" := (s_mul S a b) (at level 40, left associativity).
Local Notation cast := (s_cast S).
Context (X : externals R) (n id : nat) (t : cell_type) (b : builder (nat * nat)) (Sn : screen n t b).
Context (Fl : flat_screen n X (built_grid id t b) b) (Aw : area_weights X t).

Definition side2 : R := / (INR (n + 1) * INR (n + 1)).
Definition upwards (i : nat) : T := cast (match i with 2%nat => 1 | _ => 0 end).

Lemma side2_pos : 0 < side2.
Proof. apply Rinv_0_lt_compat. assert (0 < INR (n + 1)) by (apply lt_0_INR; lia). nra. Qed.

Lemma screen_faces : flat_faces S X (built_grid id t b) t (fun _ => cast side2) (fun _ => upwards).
Proof.
  intros points c p Hc _. rewrite (screen_cell_count n id t b Sn) in Hc.
  assert (Ge : (3 <= ref_count t 0)%nat) by (destruct Sn; cbn; lia).
  destruct (corner_exists n t b Sn c 0 Hc ltac:(lia)) as (x & Cx), (corner_exists n t b Sn c 1 Hc ltac:(lia)) as (y & Cy), (corner_exists n t b Sn c 2 Hc ltac:(lia)) as (z & Cz).
  destruct (Fl t points c x y z Cx Cy Cz) as [_ Fn _ _ Fa]. destruct (screen_area_ratio n t b c x y z Sn Cx Cy Cz Hc) as (A & N). split.
  - rewrite Fa, A. reflexivity.
  - intros i Hi. rewrite Fn, A, N by auto. unfold upwards. f_equal. pose proof side2_pos as P. unfold side2 in P.
    destruct i as [|[|[|i]]]; try lia; cbn [coordinate]; field; intros Q; rewrite Q in P; rewrite ?Rinv_0 in P; try lra.
    all: rewrite Rmult_0_l, Rinv_0 in P; lra.
Qed.

Lemma screen_full deg pts : full_weights S X t deg pts (cast (reference_area t)).
Proof.
  destruct Aw as (W1 & W2). split.
  - intros q Hq. apply (cast_weights S one RT Rc). eapply W1; eauto.
  - intros kind dim pairs q Hk Hq. rewrite <- (cast_mul S Rc Ec). apply (cast_weights S one RT Rc). exact (W2 _ _ _ _ _ Hk Hq).
Qed.

Lemma total_const {A : Type} (l : list A) x : SpecAssembly.total S l (fun _ => cast x) = cast (INR (length l) * x).
Proof.
  induction l as [|a l IH]; [cbn [length INR]; rewrite Rmult_0_l; symmetry; apply (cast_zero S one RT Rc)|].
  rewrite AssemblyExact.total_cons, IH, <- (proj2 Rc). f_equal. cbn [length]. rewrite S_INR. ring.
Qed.
End Screen.

Lemma screen_pairs {T : Type} n id t b (test trial : fspace T R) : screen n t b -> fs_grid test = built_grid id t b -> fs_grid trial = built_grid id t b ->
  exists l, touching_pairs test trial l /\ length l = touching_count t n.
Proof.
  intros Sn Gt Gs. assert (E : exactly (touching_count t n) (touching_pair (built_grid id t b))) by (destruct Sn; cbn [touching_count]; now apply shape_pairs).
  destruct E as (l & Nd & Hl & L). exists l. split; [|exact L]. split; [exact Nd|]. intros x y. rewrite Hl. unfold touching_pair, touching. rewrite Gt, Gs. cbn [fst snd]. intuition.
Qed.

Theorem screen_totals : forall (T : Type) (S : scalar T R) (X : externals R) n id wmod t (b : builder (nat * nat)) calls tf sf (test trial : fspace T R) rt one (O : operator T R) k,
  exact S -> exact_cast S -> real_cast S -> (forall x, s_mul S one x = x) -> screen n t b -> standard tf -> standard sf ->
  made_on (built_grid id t b) tf test -> made_on (built_grid id t b) sf trial -> adds_to_one S one test -> adds_to_one S one trial ->
  flat_screen n X (built_grid id t b) b -> area_weights X t -> proper_rules X -> rules_exist X t (after calls) ->
  (0 < get_batch_size (after calls) < wmod)%nat ->
  (2 * ent_count (built_grid id t b) 2 * ent_count (built_grid id t b) 2 <= wmod)%nat -> legal_runtime (s_add S) rt ->
  shipped S O -> constant_kernel O k -> op_integrand O = SingleLayer -> exists m e sm,
    assemble S X rt wmod O (after calls) trial test = Ok m /\
    (forall i j, (i < global_size (fs_space test))%nat -> (j < global_size (fs_space trial))%nat ->
      nth_error m (i + global_size (fs_space test) * j) = Some (e i j)) /\
    assemble_singular_part S X rt wmod O (after calls) (global_size (fs_space test), global_size (fs_space trial)) trial test = Ok sm /\
    SpecAssembly.total S (seq 0 (global_size (fs_space test))) (fun i => SpecAssembly.total S (seq 0 (global_size (fs_space trial))) (fun j => e i j)) =
      s_mul S (k 0%nat) (s_cast S ((INR n / INR (n + 1)) ^ 4)) /\
    SpecAssembly.total S (seq 0 (global_size (fs_space test))) (fun i => SpecAssembly.total S (seq 0 (global_size (fs_space trial))) (fun j => sparse_entry S sm i j)) =
      s_mul S (k 0%nat) (s_cast S (INR (touching_count t n) * (reference_area t / INR (n + 1) ^ 2) ^ 2)).
Proof.
  intros T S X n id wmod t b calls tf sf test trial rt one O k Ex Ec Rc One Sn Htf Hsf Mt Ms At As Fl Aw Pr Re Ba Sz L Sh K Hf.
  destruct (screen_dense S X n id wmod t b calls tf sf test trial Sn Htf Hsf Mt Ms Pr Re Ba Sz O Sh) as (deg & pts & D).
  assert (Gt : fs_grid test = built_grid id t b) by apply Mt. assert (Gs : fs_grid trial = built_grid id t b) by apply Ms.
  assert (Ex' := Ex). destruct Ex' as ((x & RT) & _). pose proof (unit_unique S one x RT One) as ->.
  pose proof (screen_faces S X n id t b Sn Fl Aw) as F. pose proof (screen_full S x RT Rc Ec X t Aw deg pts) as W.
  destruct (exact_measured T R S X rt wmod O (after calls) deg pts t test trial x (s_cast S (reference_area t)) k
    (fun _ => s_cast S (side2 n)) (fun _ => s_cast S (side2 n)) (fun _ => upwards S) (fun _ => upwards S)) as (m & e & Em & He & H); auto.
  { now rewrite Gt. } { now rewrite Gs. }
  destruct (exact_near_measured T R S X rt wmod O (after calls) deg pts t test trial x (s_cast S (reference_area t)) k
    (fun _ => s_cast S (side2 n)) (fun _ => s_cast S (side2 n)) (fun _ => upwards S) (fun _ => upwards S)) as (sm & Es & H'); auto.
  { now rewrite Gt. } { now rewrite Gs. }
  destruct (screen_pairs n id t b test trial Sn Gt Gs) as (l & Pl & Ln).
  exists m, e, sm. split; [exact Em|]. split; [exact He|]. split; [exact Es|].
  specialize (H _ _ _ _ (ones_piecewise test x) (ones_piecewise trial x)). specialize (H' _ _ _ _ l (ones_piecewise test x) (ones_piecewise trial x) Pl). cbv beta in H, H'.
  assert (U : forall y, s_mul S (s_mul S x y) x = y) by (intros y; rewrite (Rmul_1_l RT), (Rmul_comm RT); apply (Rmul_1_l RT)).
  assert (C : forall y, s_mul S y (s_cast S 0) = s_zero S).
  { intros y. rewrite (cast_zero S x RT Rc). rewrite (Rmul_comm RT). apply (zero_mul S x RT). }
  assert (M : s_mul S (s_mul S x (measure S O k (s_mul S (s_cast S (reference_area t)) (s_cast S (side2 n))) (s_mul S (s_cast S (reference_area t)) (s_cast S (side2 n))) (upwards S) (upwards S))) x =
    s_mul S (k 0%nat) (s_cast S ((reference_area t * side2 n) ^ 2))).
  { rewrite U. unfold measure. rewrite Hf. cbn [face_value]. rewrite (Rmul_comm RT). f_equal. rewrite <- !(cast_mul S Rc Ec). f_equal. ring. }
  assert (Q : forall (A : Type) (m : list A), SpecAssembly.total S m (fun _ => s_mul S (k 0%nat) (s_cast S ((reference_area t * side2 n) ^ 2))) =
    s_mul S (k 0%nat) (s_cast S (INR (length m) * (reference_area t * side2 n) ^ 2))).
  { intros A m'. rewrite (total_mul S x RT). f_equal. apply (total_const S x RT Rc). }
  assert (P : INR (n + 1) <> 0) by (apply not_0_INR; lia).
  split.
  - etransitivity; [|etransitivity; [exact H|]].
    + apply total_total_ext. intros i j. now rewrite U.
    + rewrite (AssemblyExact.total_ext S _ _ (fun _ => s_mul S (k 0%nat) (s_cast S (INR (ent_count (fs_grid trial) 2) * (reference_area t * side2 n) ^ 2)))).
      * rewrite (total_mul S x RT). f_equal. rewrite (total_const S x RT Rc). f_equal.
        rewrite seq_length, Gt, Gs, (screen_cell_count n id t b Sn). destruct (screen_facts n t b Sn) as (_ & _ & _ & -> & _). unfold side2.
        rewrite !mult_INR. assert (Ht : INR (per t) * reference_area t = 1) by (destruct Sn; cbn; field).
        transitivity ((INR n * INR n * (INR (per t) * reference_area t) / (INR (n + 1) * INR (n + 1))) ^ 2); [field; auto|]. rewrite Ht. field. auto.
      * intros a _. rewrite <- (seq_length (ent_count (fs_grid trial) 2) 0), <- Q. rewrite !seq_length. apply AssemblyExact.total_ext. intros c _. exact M.
  - etransitivity; [|etransitivity; [exact H'|]].
    + apply total_total_ext. intros i j. now rewrite U.
    + rewrite (AssemblyExact.total_ext S _ _ (fun _ => s_mul S (k 0%nat) (s_cast S ((reference_area t * side2 n) ^ 2)))) by (intros; exact M).
      rewrite Q, Ln. f_equal. f_equal. unfold side2. field. auto.
Qed.

(** The part of the sum that is in the singular part. *)
Theorem near_share : forall t n, (0 < n)%nat -> t = Triangle \/ t = Quadrilateral ->
  INR (touching_count t n) * (reference_area t / INR (n + 1) ^ 2) ^ 2 <= 13 / (INR (n * n) / reference_area t) * (INR n / INR (n + 1)) ^ 4.
Proof.
  intros t n Hn Ht. assert (P : 0 < INR n) by now apply lt_0_INR. assert (P1 : 0 < INR (n + 1)) by (apply lt_0_INR; lia).
  assert (C : INR (touching_count t n) * reference_area t <= 13 * (INR n * INR n)).
  { destruct Ht as [-> | ->]; cbn [touching_count reference_area].
    - assert (Hc : (26 * n * n + 10 - 32 * n <= 26 * (n * n))%nat) by nia. apply le_INR in Hc. rewrite (mult_INR 26 (n * n)), (mult_INR n n) in Hc.
      replace (INR 26) with 26 in Hc by (cbn; ring). lra.
    - assert (Hc : ((3 * n - 2) * (3 * n - 2) <= 9 * (n * n))%nat) by nia. apply le_INR in Hc. rewrite (mult_INR 9 (n * n)), (mult_INR n n) in Hc. replace (INR 9) with 9 in Hc by (cbn; ring).
      assert (0 <= INR n * INR n) by nra. lra. }
  assert (A : 0 < reference_area t) by (destruct Ht as [-> | ->]; cbn; lra).
  rewrite mult_INR. replace (13 / (INR n * INR n / reference_area t) * (INR n / INR (n + 1)) ^ 4) with (13 * (INR n * INR n) * (reference_area t / INR (n + 1) ^ 4)) by (field; lra).
  replace (INR (touching_count t n) * (reference_area t / INR (n + 1) ^ 2) ^ 2) with (INR (touching_count t n) * reference_area t * (reference_area t / INR (n + 1) ^ 4)) by (field; lra).
  apply Rmult_le_compat_r; auto. apply Rmult_le_pos; [lra|]. left. apply Rinv_0_lt_compat. now apply pow_lt.
Qed.
