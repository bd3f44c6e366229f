(** * Entries of vertices that are far from each other and the integrals *)
From Coq Require Import Ring_theory Reals Lra Psatz.
From Verif Require Import Base BaseFacts Topology TopologyFacts DofMap DofMapFacts SpecDof DofMapResults DofExamples Process Space SpecSpace Options
  Adjacency SpecAdjacency Scalar Integrand CellPair Operators SpecLocal LocalFacts LocalResults Interleave Assembly SpecAssembly
  AssemblyFacts AssemblySingular AssemblyDense AssemblyExact AssemblyResults SpecAlgebra AlgebraFacts AlgebraResults
  SpecBroken BrokenResults SpecTransfer SpecRounding RoundingModels SpecGalerkin GalerkinResults DistributedResults SpecMeasure MeasureResults Shapes SpecShapes SpecSphere SpecWidth SpecTurns TurnExamples SpecShare
  SphereGeometry SpecFloatSphere FloatSphere FloatSphereNear FloatSphereError SpecWaves SpecDecay DecayResults DecayPoints SpecMoments MomentResults MomentShapes SpecDefinite DefiniteResults
  SpecDegree LegendreSeries DegreeIntegrals DegreeResults DegreeExact SpecRims RimKernel RimResults SpecPatches PatchKernel.

Local Open Scope R_scope.
Local Notation dist := SpecWaves.distance.
Local Notation RR := DecayResults.reals_ring.

(** ** Sums over lists *)

Lemma finite_choice {A B} (dec : forall x y : A, {x = y} + {x <> y}) (b0 : B) (l : list A) (P : A -> B -> Prop) : (forall a, In a l -> exists b, P a b) -> exists f, forall a, In a l -> P a (f a).
Proof.
  induction l as [|a l IH]; intros H; [exists (fun _ => b0); intros ? []|]. destruct IH as (f & Hf); [intros; apply H; now right|]. destruct (H a (or_introl eq_refl)) as (b & Hb).
  exists (fun x => if dec x a then b else f x). intros x Hx. destruct (dec x a) as [->|N]; [exact Hb|]. destruct Hx as [->|Hx]; [congruence|now apply Hf].
Qed.

Lemma pair_choice {A} (dec : forall x y : A, {x = y} + {x <> y}) (l l' : list A) (P : A -> A -> R -> Prop) : (forall a a', In a l -> In a' l' -> exists b, P a a' b) ->
  exists f, forall a a', In a l -> In a' l' -> P a a' (f a a').
Proof.
  intros H. destruct (finite_choice dec (fun _ => 0) l (fun a f => forall a', In a' l' -> P a a' (f a'))) as (f & Hf); [|exists f; auto].
  intros a Ha. apply (finite_choice dec 0 l'). auto.
Qed.

Lemma sum_filter {A} (b : A -> bool) (f : A -> R) l : fold_right Rplus 0 (map f (filter b l)) = fold_right Rplus 0 (map (fun a => if b a then f a else 0) l).
Proof. induction l as [|a l IH]; [reflexivity|]. cbn. destruct (b a); cbn; rewrite IH; [reflexivity|ring]. Qed.

Lemma sum_total {A} (f : A -> R) l : total reals l f = fold_right Rplus 0 (map f l).
Proof. induction l as [|a l IH]; [reflexivity|]. rewrite AssemblyExact.total_cons, IH. reflexivity. Qed.

(** The cells around a vertex as indices. *)
Lemma patch_total g z z' f : patch_sum g z z' f = total reals (seq 0 (ent_count g 2)) (fun t => total reals (seq 0 (ent_count g 2)) (fun s =>
  if memb z (g_sub g t 0) then if memb z' (g_sub g s 0) then f (g_sub g t 0) (g_sub g s 0) else 0 else 0)).
Proof.
  unfold patch_sum, around. rewrite sum_filter. unfold vertex_lists. rewrite map_map, sum_total. f_equal. apply map_ext. intros t.
  destruct (memb z (g_sub g t 0)).
  - rewrite sum_filter, map_map, sum_total. reflexivity.
  - symmetry. apply (total_zero reals 1 RR). intros; reflexivity.
Qed.

Lemma area_total g V z : patch_area g V z = total reals (seq 0 (ent_count g 2)) (fun t => if memb z (g_sub g t 0) then density V (g_sub g t 0) / 2 else 0).
Proof. unfold patch_area, around. rewrite sum_filter. unfold vertex_lists. rewrite map_map, sum_total. reflexivity. Qed.

Lemma around_cell g z t : (t < ent_count g 2)%nat -> List.In z (g_sub g t 0) -> List.In (g_sub g t 0) (around g z).
Proof. intros Ht I. apply filter_In. split; [|now apply existsb_exists; exists z; rewrite Nat.eqb_refl]. unfold vertex_lists. apply in_map_iff. exists t. split; [reflexivity|]. apply in_seq. lia. Qed.

Lemma memb_in z c : memb z c = true <-> List.In z c.
Proof. unfold memb. rewrite existsb_exists. split; [intros (x & I & E); apply Nat.eqb_eq in E; now subst|]. intros I. exists z. now rewrite Nat.eqb_refl. Qed.

Lemma cell_around g z c : List.In c (around g z) -> List.In z c /\ exists t, (t < ent_count g 2)%nat /\ g_sub g t 0 = c.
Proof.
  intros H. apply filter_In in H as (H & M). split; [now apply memb_in|]. unfold vertex_lists in H. apply in_map_iff in H as (t & E & I). exists t. apply in_seq in I. split; [lia|exact E].
Qed.

(** ** Uniqueness *)

Lemma list_dec (x y : list nat) : {x = y} + {x <> y}.
Proof. apply list_eq_dec, Nat.eq_dec. Qed.

Lemma patch_same g z z' f f' : (forall c c', List.In c (around g z) -> List.In c' (around g z') -> f c c' = f' c c') -> patch_sum g z z' f = patch_sum g z z' f'.
Proof. intros H. unfold patch_sum. f_equal. apply map_ext_in. intros c Hc. f_equal. apply map_ext_in. intros c' Hc'. now apply H. Qed.

Theorem patch_unique g V K z z' v w : (hats_integral g V K z z' v -> hats_integral g V K z z' w -> v = w) /\ (curls_integral g V K z z' v -> curls_integral g V K z z' w -> v = w).
Proof.
  split; intros (f & F & ->) (f' & F' & ->); apply patch_same; intros c c' Hc Hc'; f_equal; [|f_equal]; refine (pair_integral_unique Triangle _ _ _ (or_introl eq_refl) (F c c' Hc Hc') (F' c c' Hc Hc')).
Qed.

(** ** The functions of a vertex are linear *)

Lemma hat_affine z c : exists c0 c1 c2, (forall x y, hat z c x y = affine c0 c1 c2 x y) /\ (forall x y, inside Triangle x y -> 0 <= affine c0 c1 c2 x y) /\
  (forall u v w, c = [u; v; w] -> List.In z c -> mass c0 c1 c2 = 1 / 6).
Proof.
  unfold hat, affine, mass. destruct c as [|u [|v [|w [|? ?]]]];
    try (exists 0, 0, 0; split; [intros; ring|split; [intros; lra|discriminate]]).
  destruct (Nat.eqb_spec z u) as [->|N1]; [exists 1, (-1), (-1); split; [intros; ring|split; [intros x y (A & B & C); lra|intros; field]]|].
  destruct (Nat.eqb_spec z v) as [->|N2]; [exists 0, 1, 0; split; [intros; ring|split; [intros x y (A & B & C); lra|intros; field]]|].
  destruct (Nat.eqb_spec z w) as [->|N3]; [exists 0, 0, 1; split; [intros; ring|split; [intros x y (A & B & C); lra|intros; field]]|].
  exists 0, 0, 0. split; [intros; ring|split; [intros; lra|]]. intros ? ? ? _ [?|[?|[?|[]]]]; congruence.
Qed.

Lemma place_point (test : fspace R R) V t x y : place test V t x y = point_of V (g_sub (fs_grid test) t 0) x y.
Proof. reflexivity. Qed.

Lemma weighted_rule qd f : weighted qd f = rule_sum qd f.
Proof. unfold weighted, rule_sum. apply total_ext. intros pw _. apply total_ext. intros qw _. ring. Qed.

Lemma density_nonneg V c : 0 <= density V c.
Proof. unfold density. destruct c as [|? [|? [|? [|? ?]]]]; try lra. apply sqrt_pos. Qed.

Definition corner_function (a : nat) (x y : R) : R := nth a [1 - x - y; x; y] 0.

Lemma hat_corner z u v w a x y : NoDup [u; v; w] -> nth_error [u; v; w] a = Some z -> hat z [u; v; w] x y = corner_function a x y.
Proof.
  intros N E. unfold hat, corner_function. assert (D : u <> v /\ u <> w /\ v <> w). { inversion N as [|? ? A B]; subst. inversion B as [|? ? C _]; subst. cbn in A, C. repeat split; intros ->; tauto. }
  destruct D as (D1 & D2 & D3). destruct a as [|[|[|a]]]; cbn in E; try (destruct a; discriminate); injection E as <-; rewrite ?Nat.eqb_refl; [reflexivity| |].
  - destruct (Nat.eqb_spec v u); [congruence|reflexivity].
  - destruct (Nat.eqb_spec w u); [congruence|]. destruct (Nat.eqb_spec w v); [congruence|reflexivity].
Qed.

Lemma hat_off z c x y : ~ List.In z c -> hat z c x y = 0.
Proof.
  unfold hat. destruct c as [|u [|v [|w [|? ?]]]]; auto. cbn [List.In]. intros N.
  destruct (Nat.eqb_spec z u) as [->|]; [tauto|]. destruct (Nat.eqb_spec z v) as [->|]; [tauto|]. destruct (Nat.eqb_spec z w) as [->|]; [tauto|]. reflexivity.
Qed.

(** A sum over the DOFs of a cell of which only that of [y] counts. *)
Lemma vertex_sum (fs : fspace R R) t y k u v w (f : nat -> R) : serial_space fs -> g_types (fs_grid fs) 2 = [Triangle] -> fs_family fs = lagrange 1 -> listed (sp_dofmap (fs_space fs)) 0 y 0 k ->
  (t < ent_count (fs_grid fs) 2)%nat -> g_sub (fs_grid fs) t 0 = [u; v; w] ->
  total reals (enumerate (dofs_at fs t)) (fun ak => if snd ak =? k then f (fst ak) else 0) =
  if y =? u then f 0%nat else if y =? v then f 1%nat else if y =? w then f 2%nat else 0.
Proof.
  intros Sp T Fam L Ht Gt.
  pose proof (three_dofs fs Sp T ltac:(rewrite Fam; reflexivity) t Ht) as L3.
  pose proof (fun a => corner_dof fs t a y k Sp T Fam Ht L) as C. destruct (dofs_at fs t) as [|i0 [|i1 [|i2 [|? ?]]]]; try discriminate L3. rewrite Gt in C.
  apply pick_three; [|apply (C 0%nat u i0); reflexivity|apply (C 1%nat v i1); reflexivity|apply (C 2%nat w i2); reflexivity].
  rewrite <- Gt. apply (wf_sub_nodup _ (ss_grid _ Sp)); [exact Ht|lia].
Qed.

Section Hats.
Context (X : externals R) (wmod : nat) (e : R) (o : options) (deg : cell_type -> cell_type -> nat) (pts : cell_type -> nat) (test trial : fspace R R) (V : nat -> vec).
Context (D : dense_setting X wmod (laplace_single_layer (newton e)) o deg pts Triangle test trial) (HX : positive_externals (Rle 0) X) (In : inside_rules X Triangle)
  (Eg : fs_grid trial = fs_grid test) (Fa : fs_family test = lagrange 1) (Fa' : fs_family trial = lagrange 1)
  (Li : linear_functions test) (Li' : linear_functions trial) (Fl : flat_triangles X (fs_grid test) V).
Notation g := (fs_grid test).
Notation ncells := (ent_count g 2).

Lemma Sp : serial_space test. Proof. apply (dn_test _ _ _ _ _ _ _ _ _ D). Qed.
Lemma Sp' : serial_space trial. Proof. apply (dn_trial _ _ _ _ _ _ _ _ _ D). Qed.
Lemma Tp : g_types g 2 = [Triangle]. Proof. apply (dn_test_type _ _ _ _ _ _ _ _ _ D). Qed.
Lemma Tp' : g_types (fs_grid trial) 2 = [Triangle]. Proof. apply (dn_trial_type _ _ _ _ _ _ _ _ _ D). Qed.

Lemma hats_value t s a b v u1 v1 w1 u2 v2 w2 : (t < ncells)%nat -> (s < ncells)%nat -> (a < 3)%nat -> (b < 3)%nat ->
  g_sub g t 0 = [u1; v1; w1] -> g_sub g s 0 = [u2; v2; w2] -> ~ touching test trial t s ->
  pair_value reals X (laplace_single_layer (newton e)) deg pts test trial t s a b v -> exists qd, x_simplex X Triangle (pts Triangle) = Some qd /\
  v = density V [u1; v1; w1] * density V [u2; v2; w2] * rule_sum qd (fun x y x' y' => newton e 0 (point_of V [u1; v1; w1] x y) (point_of V [u2; v2; w2] x' y') * (corner_function a x y * corner_function b x' y')).
Proof.
  intros Ht Hs La Lb Gt Gs Nt [(C & _)|(_ & qt & qs & A1 & A2 & ->)]; [contradiction|].
  assert (Hs' : (s < ent_count (fs_grid trial) 2)%nat) by now rewrite Eg.
  rewrite (triangle_type test Sp Tp t Ht) in A1. rewrite (triangle_type trial Sp' Tp' s Hs') in A2.
  assert (qs = qt) by congruence. subst qs. exists qt. split; [exact A1|].
  destruct (Fl t Ht) as (u & v & w & Gt' & Ft). assert (Q := eq_trans (eq_sym Gt) Gt'). injection Q as <- <- <-. clear Gt'.
  destruct (Fl s Hs) as (u & v & w & Gs' & Fs). assert (Q := eq_trans (eq_sym Gs) Gs'). injection Q as <- <- <-. clear Gs'.
  rewrite (tensor_total reals 1 RR). unfold rule_sum. rewrite <- real_total_mul. apply total_ext. intros pw _. rewrite <- real_total_mul. apply total_ext. intros qw _.
  unfold tensor_term. rewrite (triangle_type test Sp Tp t Ht), (triangle_type trial Sp' Tp' s Hs'), Eg.
  cbn [laplace_single_layer op_integrand op_kernel kn_value integrand_value s_mul s_div s_cast r_mul reals].
  rewrite (flat_position _ (V u1) (V v1) (V w1) _ (fst pw) (Ft _)), (flat_position _ (V u2) (V v2) (V w2) _ (fst qw) (Fs _)).
  unfold jdet. cbn [s_cast reals]. rewrite (fc_area _ _ _ _ _ (Ft _)), (fc_area _ _ _ _ _ (Fs _)).
  destruct (Li (qd_points qt) (fst pw) a La) as (-> & _). destruct (Li' (qd_points qt) (fst qw) b Lb) as (-> & _).
  unfold density, point_of, corner_function.
  match goal with |- context [newton e 0 ?x ?y] => generalize (newton e 0 x y) end. intros K. ring.
Qed.

Context (z z' i j : nat) (h h' : R) (Lz : listed (sp_dofmap (fs_space test)) 0 z 0 i) (Lz' : listed (sp_dofmap (fs_space trial)) 0 z' 0 j)
  (Rz : reach g V z h) (Rz' : reach g V z' h') (Far : h + h' < dist (V z) (V z')).

Lemma hats_entry val qd : x_simplex X Triangle (pts Triangle) = Some qd ->
  (forall t s a b, (t < ncells)%nat -> (s < ncells)%nat -> pair_value reals X (laplace_single_layer (newton e)) deg pts test trial t s a b (val t s a b)) ->
  matrix_entry reals val test trial i j = patch_sum g z z' (fun c c' => density V c * density V c' * rule_sum qd (fun x y x' y' => newton e 0 (point_of V c x y) (point_of V c' x' y') * (hat z c x y * hat z' c' x' y'))).
Proof.
  intros Q H. rewrite patch_total. unfold matrix_entry. rewrite Eg. apply total_ext. intros t Ht. apply total_ext. intros s Hs. apply in_seq in Ht, Hs.
  assert (Ht' : (t < ncells)%nat) by lia. assert (Hs' : (s < ncells)%nat) by lia. clear Ht Hs.
  destruct (Fl t Ht') as (u1 & v1 & w1 & Gt & _), (Fl s Hs') as (u2 & v2 & w2 & Gs & _).
  rewrite (total_ext reals _ _ (fun ak => if snd ak =? i then (fun a => total reals (enumerate (dofs_at trial s)) (fun bj => if snd bj =? j then val t s a (fst bj) else 0)) (fst ak) else 0)).
  2:{ intros [a k] _. cbn [fst snd]. destruct (k =? i); cbn [andb]; [reflexivity|]. apply (total_zero reals 1 RR). intros; reflexivity. }
  rewrite (vertex_sum test t z i u1 v1 w1 (fun a => total reals (enumerate (dofs_at trial s)) (fun bj => if snd bj =? j then val t s a (fst bj) else 0))) by (auto using Sp, Tp).
  assert (Gs' : g_sub (fs_grid trial) s 0 = [u2; v2; w2]) by now rewrite Eg. assert (Hs2 : (s < ent_count (fs_grid trial) 2)%nat) by now rewrite Eg.
  rewrite !(vertex_sum trial s z' j u2 v2 w2 (val t s _)) by (auto using Sp', Tp').
  assert (N1 : NoDup [u1; v1; w1]) by (rewrite <- Gt; apply (wf_sub_nodup _ (ss_grid _ Sp)); [exact Ht'|lia]).
  assert (N2 : NoDup [u2; v2; w2]) by (rewrite <- Gs; apply (wf_sub_nodup _ (ss_grid _ Sp)); [exact Hs'|lia]).
  assert (Z : forall a b, nth_error [u1; v1; w1] a = Some z -> nth_error [u2; v2; w2] b = Some z' ->
    val t s a b = density V [u1; v1; w1] * density V [u2; v2; w2] * rule_sum qd (fun x y x' y' => newton e 0 (point_of V [u1; v1; w1] x y) (point_of V [u2; v2; w2] x' y') * (hat z [u1; v1; w1] x y * hat z' [u2; v2; w2] x' y'))).
  { intros a b Ha Hb. assert (La : (a < 3)%nat) by (apply (nth_error_Some [u1; v1; w1]); congruence). assert (Lb : (b < 3)%nat) by (apply (nth_error_Some [u2; v2; w2]); congruence).
    assert (I1 : List.In z (g_sub g t 0)) by (rewrite Gt; eapply nth_error_In; exact Ha). assert (I2 : List.In z' (g_sub g s 0)) by (rewrite Gs; eapply nth_error_In; exact Hb).
    destruct (hats_value t s a b (val t s a b) u1 v1 w1 u2 v2 w2 Ht' Hs' La Lb Gt Gs (apart test trial V z z' h h' Rz Rz' Far t s Ht' Hs' I1 I2) (H t s a b Ht' Hs')) as (q' & Q' & ->).
    assert (q' = qd) by congruence. subst q'. f_equal. apply rule_same. intros. now rewrite (hat_corner z u1 v1 w1 a), (hat_corner z' u2 v2 w2 b). }
  rewrite Gt, Gs. unfold memb. cbn [existsb].
  destruct (Nat.eqb_spec z u1) as [->|]; [|destruct (Nat.eqb_spec z v1) as [->|]; [|destruct (Nat.eqb_spec z w1) as [->|]]]; cbn [orb];
  (destruct (Nat.eqb_spec z' u2) as [->|]; [|destruct (Nat.eqb_spec z' v2) as [->|]; [|destruct (Nat.eqb_spec z' w2) as [->|]]]); cbn [orb]; try reflexivity; apply Z; reflexivity.
Qed.
End Hats.

(** ** Two cells *)

Lemma pair_same t f f' v : (forall x y x' y', f' x y x' y' = f x y x' y') -> pair_integral t f v -> pair_integral t f' v.
Proof.
  intros E H eps He. destruct (H eps He) as (k & w & I & N & B). exists k, w. split; [exact I|]. split; [exact N|]. intros. rewrite E. now apply B.
Qed.

Section Cells.
Context (X : externals R) (test : fspace R R) (V : nat -> vec) (e : R) (Fl : flat_triangles X (fs_grid test) V).
Notation g := (fs_grid test).
Context (z z' : nat) (h h' : R) (Rz : reach g V z h) (Rz' : reach g V z' h') (Far : h + h' < dist (V z) (V z')).
Notation a := (dist (V z) (V z')).
Notation ratio := ((h + h') / a).
Notation good k qd := (forall i j, (i + j <= k)%nat -> monomial_sum qd i j = monomial_integral Triangle i j).
Notation proper qd := (forall pw, List.In pw (enumerate (qd_weights qd)) -> 0 <= snd pw /\ inside Triangle (nth (2 * fst pw) (qd_points qd) 0) (nth (2 * fst pw + 1) (qd_points qd) 0)).

Lemma cell_corners y c k : reach g V y k -> List.In c (around g y) -> List.In y c /\ exists u v w, c = [u; v; w] /\ forall x1 x2, inside Triangle x1 x2 -> vlen (vsub (mapped (V u) (V v) (V w) x1 x2) (V y)) <= k.
Proof.
  intros Rk H. destruct (cell_around g y c H) as (I & t & Ht & E). split; [exact I|]. destruct (Fl t Ht) as (u & v & w & Gt & _). exists u, v, w. split; [congruence|].
  intros x1 x2 Ix. pose proof (place_near X test V Fl y t x1 x2 k Ht ltac:(congruence) Rk Ix) as N. unfold place in N. now rewrite Gt in N.
Qed.

Lemma hats_cell c c' : List.In c (around g z) -> List.In c' (around g z') ->
  exists v, pair_integral Triangle (fun x y x' y' => newton e 0 (point_of V c x y) (point_of V c' x' y') * (hat z c x y * hat z' c' x' y')) v /\
  forall k qd, good (k + 1)%nat qd -> proper qd ->
    Rabs (rule_sum qd (fun x y x' y' => newton e 0 (point_of V c x y) (point_of V c' x' y') * (hat z c x y * hat z' c' x' y')) - v) <= 2 * (1 / (4 * PI * a) * (ratio ^ S k / (1 - ratio)) * (1 / 6 * (1 / 6))).
Proof.
  intros Hc Hc'. destruct (cell_corners z c h Rz Hc) as (I & u & v & w & -> & N). destruct (cell_corners z' c' h' Rz' Hc') as (I' & u' & v' & w' & -> & N').
  destruct (hat_affine z [u; v; w]) as (a0 & a1 & a2 & Ea & Pa & Ma). destruct (hat_affine z' [u'; v'; w']) as (b0 & b1 & b2 & Eb & Pb & Mb).
  destruct (patch_integral (V u) (V v) (V w) (V u') (V v') (V w') (V z) (V z') h h' e a0 a1 a2 b0 b1 b2 N N' Pa Pb Far 1 (or_introl (le_n 1))) as (s & Is & B).
  rewrite (Ma u v w eq_refl I), (Mb u' v' w' eq_refl I') in B.
  exists s. split.
  - eapply pair_same; [|exact Is]. intros. now rewrite Ea, Eb.
  - intros k qd G P. eapply Rle_trans; [|exact (B k qd G P)]. right. f_equal. f_equal. apply rule_same. intros. now rewrite Ea, Eb.
Qed.

Lemma curls_cell c c' : List.In c (around g z) -> List.In c' (around g z') ->
  exists v, pair_integral Triangle (fun x y x' y' => newton e 0 (point_of V c x y) (point_of V c' x' y')) v /\
  forall k qd, good k qd -> proper qd ->
    Rabs (rule_sum qd (fun x y x' y' => newton e 0 (point_of V c x y) (point_of V c' x' y')) - v) <= 2 * (1 / (4 * PI * a) * (ratio ^ S k / (1 - ratio)) * (1 / 2 * (1 / 2))).
Proof.
  intros Hc Hc'. destruct (cell_corners z c h Rz Hc) as (I & u & v & w & -> & N). destruct (cell_corners z' c' h' Rz' Hc') as (I' & u' & v' & w' & -> & N').
  assert (P1 : forall x y, inside Triangle x y -> 0 <= affine 1 0 0 x y) by (intros; unfold affine; lra).
  destruct (patch_integral (V u) (V v) (V w) (V u') (V v') (V w') (V z) (V z') h h' e 1 0 0 1 0 0 N N' P1 P1 Far 0 (or_intror (conj eq_refl (conj eq_refl (conj eq_refl eq_refl))))) as (s & Is & B).
  replace (mass 1 0 0) with (1 / 2) in B by (unfold mass; field).
  exists s. split.
  - eapply pair_same; [|exact Is]. intros x y x' y'. unfold affine. change (point_of V [u; v; w] x y) with (mapped (V u) (V v) (V w) x y). change (point_of V [u'; v'; w'] x' y') with (mapped (V u') (V v') (V w') x' y'). ring.
  - intros k qd G P. specialize (B k qd). rewrite Nat.add_0_r in B. eapply Rle_trans; [|exact (B G P)]. right. f_equal. f_equal. apply rule_same. intros x y x' y'. unfold affine. change (point_of V [u; v; w] x y) with (mapped (V u) (V v) (V w) x y). change (point_of V [u'; v'; w'] x' y') with (mapped (V u') (V v') (V w') x' y'). ring.
Qed.

Lemma patch_bound f f' B : (forall c c', List.In c (around g z) -> List.In c' (around g z') -> Rabs (f c c' - f' c c') <= B) ->
  Rabs (patch_sum g z z' (fun c c' => density V c * density V c' * f c c') - patch_sum g z z' (fun c c' => density V c * density V c' * f' c c')) <= 4 * B * (patch_area g V z * patch_area g V z').
Proof.
  intros H. rewrite !patch_total, total_minus.
  set (A := fun z t => if memb z (g_sub g t 0) then density V (g_sub g t 0) / 2 else 0). set (l := seq 0 (ent_count g 2)).
  replace (patch_area g V z) with (total reals l (A z)) by (symmetry; apply area_total). replace (patch_area g V z') with (total reals l (A z')) by (symmetry; apply area_total).
  replace (4 * B * _) with (total reals l (fun t => total reals l (fun s => 4 * B * (A z t * A z' s)))).
  - apply real_total_abs. intros t Ht. rewrite total_minus. apply real_total_abs. intros s Hs. apply in_seq in Ht, Hs. unfold A.
    destruct (memb z (g_sub g t 0)) eqn:M; [|rewrite Rminus_0_r, Rabs_R0; lra]. destruct (memb z' (g_sub g s 0)) eqn:M'; [|rewrite Rminus_0_r, Rabs_R0; lra].
    apply memb_in in M, M'. specialize (H _ _ (around_cell g z t ltac:(lia) M) (around_cell g z' s ltac:(lia) M')).
    pose proof (density_nonneg V (g_sub g t 0)) as P1. pose proof (density_nonneg V (g_sub g s 0)) as P2. rewrite <- Rmult_minus_distr_l, Rabs_mult, Rabs_pos_eq by (now apply Rmult_le_pos).
    replace (4 * B * (density V (g_sub g t 0) / 2 * (density V (g_sub g s 0) / 2))) with (density V (g_sub g t 0) * density V (g_sub g s 0) * B) by field. apply Rmult_le_compat_l; [now apply Rmult_le_pos|exact H].
  - rewrite (total_ext reals _ _ (fun t => 4 * B * total reals l (A z') * A z t)); [rewrite real_total_mul; ring|].
    intros t _. rewrite (total_ext reals _ _ (fun s => 4 * B * A z t * A z' s)) by (intros; ring). rewrite real_total_mul. ring.
Qed.

Lemma curl_bound f f' B : proper_triangles g V -> (forall c c', List.In c (around g z) -> List.In c' (around g z') -> Rabs (f c c' - f' c c') <= B) ->
  Rabs (patch_sum g z z' (fun c c' => inner (hat_curl V z c) (hat_curl V z' c') * (density V c * density V c' * f c c')) - patch_sum g z z' (fun c c' => inner (hat_curl V z c) (hat_curl V z' c') * (density V c * density V c' * f' c c'))) <= 4 * B * (half_rim g V z * half_rim g V z').
Proof.
  intros Pr H. rewrite !patch_total, total_minus. eapply Rle_trans; [|apply (sum_bound test V z z' (fun t s => if memb z (g_sub g t 0) then if memb z' (g_sub g s 0) then f (g_sub g t 0) (g_sub g s 0) - f' (g_sub g t 0) (g_sub g s 0) else 0 else 0) (4 * B))].
  - right. f_equal. apply total_ext. intros t Ht. rewrite total_minus. apply total_ext. intros s Hs. apply in_seq in Ht, Hs.
    destruct (memb z (g_sub g t 0)); [|ring]. destruct (memb z' (g_sub g s 0)); [|ring].
    assert (P : forall t, (t < ent_count g 2)%nat -> 0 < density V (g_sub g t 0)).
    { intros c Lc. destruct (Fl c Lc) as (u & v & w & G & _). rewrite G. unfold density. apply sqrt_lt_R0.
      pose proof (inner_square (normal (V u) (V v) (V w))) as P. destruct P as [P|P]; [exact P|]. exfalso. apply (Pr c u v w Lc G). apply inner_null. now symmetry. }
    pose proof (P t ltac:(lia)) as P1. pose proof (P s ltac:(lia)) as P2. unfold hat_curl. set (d1 := density V _) in *. set (d2 := density V _) in *.
    destruct (edge_opposite V z (g_sub g t 0)) as [[? ?] ?], (edge_opposite V z' (g_sub g s 0)) as [[? ?] ?]. cbn. field. lra.
  - intros t s Ht Hs I I'. rewrite (proj2 (memb_in z _) I), (proj2 (memb_in z' _) I'). eapply Rle_trans; [apply (H _ _ (around_cell g z t Ht I) (around_cell g z' s Hs I'))|]. lra.
Qed.
End Cells.

(** ** The matrices *)

Lemma vertex_in_range (fs : fspace R R) y k : serial_space fs -> listed (sp_dofmap (fs_space fs)) 0 y 0 k -> (k < global_size (fs_space fs))%nat.
Proof. intros Hs Ly. rewrite (serial_size fs Hs). apply (listed_lt_iff 0 _ _ _ (ss_grid _ Hs) (ss_family _ Hs) (ss_dofs _ Hs)). eauto. Qed.

Theorem hats_entries : forall (X : externals R) wmod e o deg pts (test trial : fspace R R) V k,
  dense_setting X wmod (laplace_single_layer (newton e)) o deg pts Triangle test trial -> positive_externals (Rle 0) X -> inside_rules X Triangle -> exact_to X Triangle (pts Triangle) (k + 1) ->
  fs_grid trial = fs_grid test -> fs_family test = lagrange 1 -> fs_family trial = lagrange 1 -> linear_functions test -> linear_functions trial ->
  flat_triangles X (fs_grid test) V -> forall rt, legal_runtime Rplus rt ->
  exists m, assemble reals X rt wmod (laplace_single_layer (newton e)) o trial test = Ok m /\
  forall z z' i j h h', listed (sp_dofmap (fs_space test)) 0 z 0 i -> listed (sp_dofmap (fs_space trial)) 0 z' 0 j ->
    reach (fs_grid test) V z h -> reach (fs_grid test) V z' h' ->
    let a := dist (V z) (V z') in let ratio := (h + h') / a in h + h' < a ->
    exists v w, nth_error m (i + global_size (fs_space test) * j) = Some v /\ hats_integral (fs_grid test) V (newton e 0) z z' w /\
      Rabs (v - w) <= 2 * (ratio ^ (k + 1) / (1 - ratio)) * (patch_area (fs_grid test) V z / 3 * (patch_area (fs_grid test) V z' / 3) / (4 * PI * a)).
Proof.
  intros X wmod e o deg pts test trial V k D HX Ins Ex Eg Fa Fa' Li Li' Fl rt L.
  destruct (assembled reals 1 RR X rt wmod (laplace_single_layer (newton e)) o deg pts Triangle test trial L D) as (m & val & Em & _ & Vm & H).
  exists m. split; [exact Em|]. intros z z' i j h h' Lz Lz' Rz Rz' a ratio Far.
  destruct (dn_simplex _ _ _ _ _ _ _ _ _ D Triangle (or_introl eq_refl)) as (_ & qd & Q).
  destruct (pair_choice list_dec (around (fs_grid test) z) (around (fs_grid test) z') _ (hats_cell X test V e Fl z z' h h' Rz Rz' Far)) as (f & Hf).
  eexists. eexists. split; [apply H; [apply (vertex_in_range test z); [apply (dn_test _ _ _ _ _ _ _ _ _ D)|exact Lz]|apply (vertex_in_range trial z'); [apply (dn_trial _ _ _ _ _ _ _ _ _ D)|exact Lz']]|].
  split; [exists f; split; [intros c c' Hc Hc'; now apply (Hf c c' Hc Hc')|reflexivity]|].
  rewrite (hats_entry X wmod e o deg pts test trial V D Eg Fa Fa' Li Li' Fl z z' i j h h' Lz Lz' Rz Rz' Far val qd Q) by (intros t s b b' Ht Hs; apply Vm; [exact Ht|now rewrite Eg]).
  eapply Rle_trans; [apply (patch_bound test V z z' _ f)|].
  - intros c c' Hc Hc'. destruct (Hf c c' Hc Hc') as (_ & B). exact (B k qd (Ex _ Q) (fun pw => positive_weight X Triangle HX Ins _ _ pw Q)).
  - right. fold a ratio. replace (k + 1)%nat with (S k) by lia. set (T := ratio ^ S k / (1 - ratio)). unfold Rdiv. set (U := / (4 * PI * a)). clearbody U T. field.
Qed.

Theorem curls_entries : forall (X : externals R) wmod e o deg pts (test trial : fspace R R) V k,
  dense_setting X wmod (laplace_hypersingular (newton e)) o deg pts Triangle test trial -> positive_externals (Rle 0) X -> inside_rules X Triangle -> exact_to X Triangle (pts Triangle) k ->
  fs_grid trial = fs_grid test -> fs_family test = lagrange 1 -> fs_family trial = lagrange 1 -> linear_functions test -> linear_functions trial ->
  flat_triangles X (fs_grid test) V -> proper_triangles (fs_grid test) V -> forall rt, legal_runtime Rplus rt ->
  exists m, assemble reals X rt wmod (laplace_hypersingular (newton e)) o trial test = Ok m /\
  forall z z' i j h h', listed (sp_dofmap (fs_space test)) 0 z 0 i -> listed (sp_dofmap (fs_space trial)) 0 z' 0 j ->
    reach (fs_grid test) V z h -> reach (fs_grid test) V z' h' ->
    let a := dist (V z) (V z') in let ratio := (h + h') / a in h + h' < a ->
    exists v w, nth_error m (i + global_size (fs_space test) * j) = Some v /\ curls_integral (fs_grid test) V (newton e 0) z z' w /\
      Rabs (v - w) <= 2 * (ratio ^ (k + 1) / (1 - ratio)) * (half_rim (fs_grid test) V z * half_rim (fs_grid test) V z' / (4 * PI * a)).
Proof.
  intros X wmod e o deg pts test trial V k D HX Ins Ex Eg Fa Fa' Li Li' Fl Pr rt L.
  destruct (assembled reals 1 RR X rt wmod (laplace_hypersingular (newton e)) o deg pts Triangle test trial L D) as (m & val & Em & _ & Vm & H).
  exists m. split; [exact Em|]. intros z z' i j h h' Lz Lz' Rz Rz' a ratio Far.
  destruct (dn_simplex _ _ _ _ _ _ _ _ _ D Triangle (or_introl eq_refl)) as (_ & qd & Q).
  destruct (pair_choice list_dec (around (fs_grid test) z) (around (fs_grid test) z') _ (curls_cell X test V e Fl z z' h h' Rz Rz' Far)) as (f & Hf).
  eexists. eexists. split; [apply H; [apply (vertex_in_range test z); [apply (dn_test _ _ _ _ _ _ _ _ _ D)|exact Lz]|apply (vertex_in_range trial z'); [apply (dn_trial _ _ _ _ _ _ _ _ _ D)|exact Lz']]|].
  split; [exists f; split; [intros c c' Hc Hc'; now apply (Hf c c' Hc Hc')|reflexivity]|].
  rewrite (entry_far X wmod e o deg pts test trial V D Eg Fa Fa' Li Li' Fl Pr z z' i j h h' Lz Lz' Rz Rz' Far val qd Q) by (intros t s b b' Ht Hs; apply Vm; [exact Ht|now rewrite Eg]).
  assert (P : forall t, (t < ent_count (fs_grid test) 2)%nat -> 0 < density V (g_sub (fs_grid test) t 0)).
  { intros c Lc. destruct (Fl c Lc) as (u & v & w & G & _). rewrite G. unfold density. apply sqrt_lt_R0.
    pose proof (inner_square (normal (V u) (V v) (V w))) as P. destruct P as [P|P]; [exact P|]. exfalso. apply (Pr c u v w Lc G). apply inner_null. now symmetry. }
  match goal with |- Rabs (?s - _) <= _ => replace s with (patch_sum (fs_grid test) z z' (fun c c' => inner (hat_curl V z c) (hat_curl V z' c') * (density V c * density V c' * rule_sum qd (fun x y x' y' => newton e 0 (point_of V c x y) (point_of V c' x' y'))))) end.
  - eapply Rle_trans; [apply (curl_bound X test V Fl z z' _ f); [exact Pr|]|].
    + intros c c' Hc Hc'. destruct (Hf c c' Hc Hc') as (_ & B). exact (B k qd (Ex _ Q) (fun pw => positive_weight X Triangle HX Ins _ _ pw Q)).
    + right. fold a ratio. replace (k + 1)%nat with (S k) by lia. set (T := ratio ^ S k / (1 - ratio)). unfold Rdiv. set (U := / (4 * PI * a)). clearbody U T. field.
  - rewrite patch_total. apply total_ext. intros t Ht. apply total_ext. intros s Hs. apply in_seq in Ht, Hs. rewrite weighted_rule.
    destruct (memb z (g_sub (fs_grid test) t 0)) eqn:M.
    2:{ rewrite edge_off by (intros I; apply memb_in in I; congruence). rewrite (proj1 (inner_origin _)). ring. }
    destruct (memb z' (g_sub (fs_grid test) s 0)) eqn:M'.
    2:{ rewrite (edge_off test V z' s) by (intros I; apply memb_in in I; congruence). rewrite (proj2 (inner_origin _)). ring. }
    pose proof (P t ltac:(lia)) as P1. pose proof (P s ltac:(lia)) as P2. unfold hat_curl. set (d1 := density V _) in *. set (d2 := density V _) in *.
    match goal with |- _ = _ * ?r => change r with (rule_sum qd (fun x y x' y' => newton e 0 (point_of V (g_sub (fs_grid test) t 0) x y) (point_of V (g_sub (fs_grid test) s 0) x' y'))) end. set (W := rule_sum _ _).
    destruct (edge_opposite V z (g_sub (fs_grid test) t 0)) as [[? ?] ?], (edge_opposite V z' (g_sub (fs_grid test) s 0)) as [[? ?] ?]. cbn. field. lra.
Qed.
