(** * Entries of the hypersingular matrix for vertices that are far from each other *)
From Coq Require Import Ring_theory Reals Lra Psatz.
From Verif Require Import Base BaseFacts Topology TopologyFacts DofMap DofMapFacts SpecDof DofMapResults DofExamples Process Space SpecSpace Options
  Adjacency SpecAdjacency Scalar Integrand CellPair Operators SpecLocal LocalFacts LocalResults Interleave Assembly SpecAssembly
  AssemblyFacts AssemblySingular AssemblyDense AssemblyExact AssemblyResults SpecAlgebra AlgebraFacts AlgebraResults
  SpecBroken BrokenResults SpecTransfer SpecRounding RoundingModels SpecGalerkin GalerkinResults DistributedResults SpecMeasure MeasureResults Shapes SpecShapes SpecSphere SpecWidth SpecTurns TurnExamples SpecShare
  SphereGeometry SpecFloatSphere FloatSphere FloatSphereNear FloatSphereError SpecWaves SpecDecay DecayResults DecayPoints SpecMoments MomentResults MomentShapes SpecDefinite DefiniteResults SpecRims RimKernel.

Local Open Scope R_scope.
Local Notation dist := SpecWaves.distance.
Local Notation coordinate := SpecTurns.coordinate.
Local Notation RR := DecayResults.reals_ring.

(** ** The DOF of a vertex *)

Lemma vertex_row {T R} (fs : fspace T R) c a z : serial_space fs -> g_types (fs_grid fs) 2 = [Triangle] -> fs_family fs = lagrange 1 ->
  (c < ent_count (fs_grid fs) 2)%nat -> nth_error (g_sub (fs_grid fs) c 0) a = Some z ->
  exists n, nth_error (dofs_at fs c) a = Some n /\ listed (sp_dofmap (fs_space fs)) 0 z 0 n.
Proof.
  intros Sp Ty Fa Hc Ha. assert (W := ss_grid _ Sp). assert (WF := ss_family _ Sp). assert (HA := ss_dofs _ Sp).
  assert (Ct : g_ctype (fs_grid fs) c = Triangle). { pose proof (wf_ctype _ W c Hc) as H. rewrite Ty in H. now destruct H as [H|[]]. }
  assert (L2 : length (g_sub (fs_grid fs) c 0) = 3%nat) by (rewrite (wf_sub_length _ W) by (auto; lia); now rewrite Ct).
  assert (La : (a < 3)%nat) by (rewrite <- L2; apply nth_error_Some; congruence).
  assert (Hs : sub_at (fs_grid fs) c 0 a z) by (repeat split; auto; lia).
  destruct (cell_row_entity 0 _ _ _ W WF HA c 0 a z [a] 0 a Hs) as (n & H1 & H2); [|reflexivity|].
  - rewrite Fa, Ct. destruct a as [|[|[|a]]]; [reflexivity|reflexivity|reflexivity|lia].
  - exists n. rewrite dofs_at_row by auto. split; [exact H1|]. apply (listed_edof 0 _ _ _ W WF HA). exact H2.
Qed.

Lemma corner_dof {T R} (fs : fspace T R) c a z i : serial_space fs -> g_types (fs_grid fs) 2 = [Triangle] -> fs_family fs = lagrange 1 ->
  (c < ent_count (fs_grid fs) 2)%nat -> listed (sp_dofmap (fs_space fs)) 0 z 0 i ->
  forall y k, nth_error (g_sub (fs_grid fs) c 0) a = Some y -> nth_error (dofs_at fs c) a = Some k -> (k =? i) = (z =? y).
Proof.
  intros Sp Ty Fa Hc Hz y k Hy Hk. destruct (vertex_row fs c a y Sp Ty Fa Hc Hy) as (n & Hn & Ln). assert (n = k) by congruence. subst n.
  assert (W := ss_grid _ Sp). assert (WF := ss_family _ Sp). assert (HA := ss_dofs _ Sp).
  destruct (Nat.eqb_spec z y) as [->|N].
  - apply Nat.eqb_eq. destruct Hz as (l & E1 & E2), Ln as (l' & E3 & E4). congruence.
  - apply Nat.eqb_neq. intros ->. apply N. destruct (listed_unique 0 _ _ _ W WF HA i 0 z 0 0 y 0 Hz Ln) as (_ & E & _). exact E.
Qed.

(** ** Sums over the DOFs of a cell *)

Lemma pick_three (f : nat -> R) i i0 i1 i2 z u v w : NoDup [u; v; w] -> (i0 =? i) = (z =? u) -> (i1 =? i) = (z =? v) -> (i2 =? i) = (z =? w) ->
  total reals (enumerate [i0; i1; i2]) (fun ak => if snd ak =? i then f (fst ak) else 0) =
  if z =? u then f 0%nat else if z =? v then f 1%nat else if z =? w then f 2%nat else 0.
Proof.
  intros N E0 E1 E2. unfold enumerate. cbn [seq combine length]. rewrite !AssemblyExact.total_cons. cbn [fst snd s_add reals]. rewrite E0, E1, E2. clear E0 E1 E2.
  assert (D : u <> v /\ u <> w /\ v <> w). { inversion N as [|? ? A B]; subst. inversion B as [|? ? C _]; subst. cbn in A, C. repeat split; intros ->; tauto. }
  destruct D as (D1 & D2 & D3). unfold total. cbn [fold_right s_zero reals].
  destruct (Nat.eqb_spec z u) as [->|]; destruct (Nat.eqb_spec u v); destruct (Nat.eqb_spec u w); try congruence; try (destruct (Nat.eqb_spec z v) as [->|]); try (destruct (Nat.eqb_spec v w)); try congruence;
    try (destruct (Nat.eqb_spec z w)); cbn [fold_right map]; try congruence; try ring.
Qed.

Section Rims.
Context (X : externals R) (wmod : nat) (e : R) (o : options) (deg : cell_type -> cell_type -> nat) (pts : cell_type -> nat) (test trial : fspace R R) (V : nat -> vec).
Context (D : dense_setting X wmod (laplace_hypersingular (newton e)) o deg pts Triangle test trial) (HX : positive_externals (Rle 0) X) (In : inside_rules X Triangle)
  (Ex : exact_constants X Triangle) (Eg : fs_grid trial = fs_grid test) (Fa : fs_family test = lagrange 1) (Fa' : fs_family trial = lagrange 1)
  (Li : linear_functions test) (Li' : linear_functions trial) (Fl : flat_triangles X (fs_grid test) V) (Pr : proper_triangles (fs_grid test) V).
Notation g := (fs_grid test).
Notation ncells := (ent_count g 2).

Lemma St : serial_space test. Proof. apply (dn_test _ _ _ _ _ _ _ _ _ D). Qed.
Lemma Ss : serial_space trial. Proof. apply (dn_trial _ _ _ _ _ _ _ _ _ D). Qed.
Lemma Ty : g_types g 2 = [Triangle]. Proof. apply (dn_test_type _ _ _ _ _ _ _ _ _ D). Qed.
Lemma Ty' : g_types (fs_grid trial) 2 = [Triangle]. Proof. apply (dn_trial_type _ _ _ _ _ _ _ _ _ D). Qed.

(** The point of cell [c] with coordinates [x], [y]. *)
Definition place (c : nat) (x y : R) : vec :=
  match g_sub g c 0 with [u; v; w] => mapped (V u) (V v) (V w) x y | _ => origin end.

(** The sum over the pairs of points of two cells. *)
Definition weighted (qd : quadrature R) (f : R -> R -> R -> R -> R) : R :=
  total reals (enumerate (qd_weights qd)) (fun pw => total reals (enumerate (qd_weights qd)) (fun qw =>
    snd pw * snd qw * f (nth (2 * fst pw) (qd_points qd) 0) (nth (2 * fst pw + 1) (qd_points qd) 0) (nth (2 * fst qw) (qd_points qd) 0) (nth (2 * fst qw + 1) (qd_points qd) 0))).

Lemma value_far t s a b v u1 v1 w1 u2 v2 w2 : (t < ncells)%nat -> (s < ncells)%nat -> (a < 3)%nat -> (b < 3)%nat ->
  g_sub g t 0 = [u1; v1; w1] -> g_sub g s 0 = [u2; v2; w2] -> ~ touching test trial t s ->
  pair_value reals X (laplace_hypersingular (newton e)) deg pts test trial t s a b v -> exists qd, x_simplex X Triangle (pts Triangle) = Some qd /\
  v = inner (opposite a (V u1) (V v1) (V w1)) (opposite b (V u2) (V v2) (V w2)) * weighted qd (fun x y x' y' => newton e 0 (place t x y) (place s x' y')).
Proof.
  intros Ht Hs La Lb Gt Gs Nt [(C & _)|(_ & qt & qs & A1 & A2 & ->)]; [contradiction|].
  assert (Hs' : (s < ent_count (fs_grid trial) 2)%nat) by now rewrite Eg.
  rewrite (triangle_type test St Ty t Ht) in A1. rewrite (triangle_type trial Ss Ty' s Hs') in A2.
  assert (qs = qt) by congruence. subst qs. exists qt. split; [exact A1|].
  destruct (Fl t Ht) as (u & v & w & Gt' & Ft). assert (Q := eq_trans (eq_sym Gt) Gt'). injection Q as <- <- <-. clear Gt'.
  destruct (Fl s Hs) as (u & v & w & Gs' & Fs). assert (Q := eq_trans (eq_sym Gs) Gs'). injection Q as <- <- <-. clear Gs'.
  assert (N1 : 0 < sqrt (inner (normal (V u1) (V v1) (V w1)) (normal (V u1) (V v1) (V w1)))).
  { apply sqrt_lt_R0. pose proof (inner_square (normal (V u1) (V v1) (V w1))) as P. destruct P as [P|P]; [exact P|]. exfalso. apply (Pr t u1 v1 w1 Ht Gt). apply inner_null. now symmetry. }
  assert (N2 : 0 < sqrt (inner (normal (V u2) (V v2) (V w2)) (normal (V u2) (V v2) (V w2)))).
  { apply sqrt_lt_R0. pose proof (inner_square (normal (V u2) (V v2) (V w2))) as P. destruct P as [P|P]; [exact P|]. exfalso. apply (Pr s u2 v2 w2 Hs Gs). apply inner_null. now symmetry. }
  rewrite (tensor_total reals 1 RR). unfold weighted. rewrite <- real_total_mul. apply total_ext. intros pw _. rewrite <- real_total_mul. apply total_ext. intros qw _.
  unfold tensor_term. rewrite (triangle_type test St Ty t Ht), (triangle_type trial Ss Ty' s Hs'), Eg.
  cbn [laplace_hypersingular op_integrand op_kernel kn_value integrand_value s_mul s_div s_cast r_mul reals].
  rewrite (flat_position _ (V u1) (V v1) (V w1) _ (fst pw) (Ft _)), (flat_position _ (V u2) (V v2) (V w2) _ (fst qw) (Fs _)).
  unfold place. rewrite Gt, Gs. unfold mapped.
  unfold jdet. cbn [s_cast reals]. rewrite (fc_area _ _ _ _ _ (Ft _)), (fc_area _ _ _ _ _ (Fs _)).
  set (d1 := sqrt (inner (normal (V u1) (V v1) (V w1)) (normal (V u1) (V v1) (V w1)))) in *. set (d2 := sqrt (inner (normal (V u2) (V v2) (V w2)) (normal (V u2) (V v2) (V w2)))) in *.
  unfold dot, curl. cbn [s_add s_sub s_mul s_cast reals].
  rewrite !(fc_second _ _ _ _ _ (Ft _)), !(fc_second _ _ _ _ _ (Fs _)), !(fc_first _ _ _ _ _ (Ft _)), !(fc_first _ _ _ _ _ (Fs _)) by lia.
  destruct (Li (qd_points qt) (fst pw) a La) as (_ & -> & ->). destruct (Li' (qd_points qt) (fst qw) b Lb) as (_ & -> & ->).
  match goal with |- context [newton e 0 ?x ?y] => generalize (newton e 0 x y) end. intros K.
  destruct (V u1) as [[? ?] ?], (V v1) as [[? ?] ?], (V w1) as [[? ?] ?], (V u2) as [[? ?] ?], (V v2) as [[? ?] ?], (V w2) as [[? ?] ?]. clearbody d1 d2.
  destruct a as [|[|[|a]]]; [| | |lia]; destruct b as [|[|[|b]]]; try lia; cbn; field; lra.
Qed.

Context (z z' i j : nat) (h h' : R) (Lz : listed (sp_dofmap (fs_space test)) 0 z 0 i) (Lz' : listed (sp_dofmap (fs_space trial)) 0 z' 0 j)
  (Rz : reach g V z h) (Rz' : reach g V z' h') (Far : h + h' < dist (V z) (V z')).

Lemma cell_list t : (t < ncells)%nat -> List.In (g_sub g t 0) (vertex_lists g).
Proof. intros Ht. unfold vertex_lists. apply in_map_iff. exists t. split; [reflexivity|]. apply in_seq. lia. Qed.

Lemma apart t s : (t < ncells)%nat -> (s < ncells)%nat -> List.In z (g_sub g t 0) -> List.In z' (g_sub g s 0) -> ~ touching test trial t s.
Proof.
  intros Ht Hs It Is (_ & x & A & B). pose proof (Rz _ x (cell_list t Ht) It A) as P. pose proof (Rz' _ x (cell_list s Hs) Is B) as Q.
  pose proof (common_point (V x) (V z) (V z') h h' P Q). lra.
Qed.

(** A sum over the DOFs of a cell of which only that of [z] counts. *)
Lemma corner_sum (fs : fspace R R) t y k u v w (f : nat -> R) : fs_grid fs = g -> serial_space fs -> fs_family fs = lagrange 1 -> listed (sp_dofmap (fs_space fs)) 0 y 0 k ->
  (t < ncells)%nat -> g_sub g t 0 = [u; v; w] ->
  total reals (enumerate (dofs_at fs t)) (fun ak => if snd ak =? k then f (fst ak) else 0) =
  if y =? u then f 0%nat else if y =? v then f 1%nat else if y =? w then f 2%nat else 0.
Proof.
  intros G Sp Fam L Ht Gt. assert (Ht' : (t < ent_count (fs_grid fs) 2)%nat) by now rewrite G. assert (T : g_types (fs_grid fs) 2 = [Triangle]) by (rewrite G; exact Ty).
  assert (Gt' : g_sub (fs_grid fs) t 0 = [u; v; w]) by now rewrite G.
  pose proof (three_dofs fs Sp T ltac:(rewrite Fam; reflexivity) t Ht') as L3.
  pose proof (fun a => corner_dof fs t a y k Sp T Fam Ht' L) as C. destruct (dofs_at fs t) as [|i0 [|i1 [|i2 [|? ?]]]]; try discriminate L3. rewrite Gt' in C.
  apply pick_three; [|apply (C 0%nat u i0); reflexivity|apply (C 1%nat v i1); reflexivity|apply (C 2%nat w i2); reflexivity].
  rewrite <- Gt. apply (wf_sub_nodup _ (ss_grid _ St)); [exact Ht|lia].
Qed.

Notation E := (fun t => edge_opposite V z (g_sub g t 0)).
Notation F := (fun s => edge_opposite V z' (g_sub g s 0)).

Lemma edge_off y t : ~ List.In y (g_sub g t 0) -> edge_opposite V y (g_sub g t 0) = origin.
Proof.
  unfold edge_opposite. destruct (g_sub g t 0) as [|u [|v [|w [|? ?]]]]; auto. cbn [List.In]. intros N.
  destruct (Nat.eqb_spec y u) as [->|]; [tauto|]. destruct (Nat.eqb_spec y v) as [->|]; [tauto|]. destruct (Nat.eqb_spec y w) as [->|]; [tauto|]. reflexivity.
Qed.

Lemma inner_origin p : inner origin p = 0 /\ inner p origin = 0.
Proof. destruct p as [[? ?] ?]. unfold origin. cbn. split; ring. Qed.

Lemma entry_far val qd : x_simplex X Triangle (pts Triangle) = Some qd ->
  (forall t s a b, (t < ncells)%nat -> (s < ncells)%nat -> pair_value reals X (laplace_hypersingular (newton e)) deg pts test trial t s a b (val t s a b)) ->
  matrix_entry reals val test trial i j =
  total reals (seq 0 ncells) (fun t => total reals (seq 0 ncells) (fun s => inner (E t) (F s) * weighted qd (fun x y x' y' => newton e 0 (place t x y) (place s x' y')))).
Proof.
  intros Q H. unfold matrix_entry. rewrite Eg. apply total_ext. intros t Ht. apply total_ext. intros s Hs. apply in_seq in Ht, Hs.
  assert (Ht' : (t < ncells)%nat) by lia. assert (Hs' : (s < ncells)%nat) by lia. clear Ht Hs.
  destruct (Fl t Ht') as (u1 & v1 & w1 & Gt & _), (Fl s Hs') as (u2 & v2 & w2 & Gs & _).
  rewrite (total_ext reals _ _ (fun ak => if snd ak =? i then (fun a => total reals (enumerate (dofs_at trial s)) (fun bj => if snd bj =? j then val t s a (fst bj) else 0)) (fst ak) else 0)).
  2:{ intros [a k] _. cbn [fst snd]. destruct (k =? i); cbn [andb]; [reflexivity|]. apply (total_zero reals 1 RR). intros; reflexivity. }
  rewrite (corner_sum test t z i u1 v1 w1 (fun a => total reals (enumerate (dofs_at trial s)) (fun bj => if snd bj =? j then val t s a (fst bj) else 0))) by (auto using St).
  rewrite !(corner_sum trial s z' j u2 v2 w2 (val t s _)) by (auto using Ss).
  set (S := weighted _ _).
  assert (Z : forall x y, List.In z [u1; v1; w1] -> List.In z' [u2; v2; w2] -> (x < 3)%nat -> (y < 3)%nat ->
    val t s x y = inner (opposite x (V u1) (V v1) (V w1)) (opposite y (V u2) (V v2) (V w2)) * S).
  { intros x y I1 I2 Lx Ly. destruct (value_far t s x y (val t s x y) u1 v1 w1 u2 v2 w2 Ht' Hs' Lx Ly Gt Gs) as (q' & Q' & ->); [apply apart; congruence|now apply H|].
    assert (q' = qd) by congruence. subst q'. reflexivity. }
  rewrite Gt, Gs. unfold edge_opposite. cbn [List.In] in Z.
  destruct (Nat.eqb_spec z u1) as [->|]; [|destruct (Nat.eqb_spec z v1) as [->|]; [|destruct (Nat.eqb_spec z w1) as [->|]]];
  (destruct (Nat.eqb_spec z' u2) as [->|]; [|destruct (Nat.eqb_spec z' v2) as [->|]; [|destruct (Nat.eqb_spec z' w2) as [->|]]]);
  try (rewrite ?(proj1 (inner_origin _)), ?(proj2 (inner_origin _)); ring); rewrite Z by (auto; lia); reflexivity.
Qed.

(** ** Terms that cancel *)

Lemma rim_component y n : closed_rim g V y -> total reals (seq 0 ncells) (fun t => coordinate n (edge_opposite V y (g_sub g t 0))) = 0.
Proof.
  intros C. transitivity (coordinate n (fold_right vadd origin (map (edge_opposite V y) (vertex_lists g)))).
  - unfold vertex_lists. rewrite map_map. generalize (seq 0 ncells) as l. induction l as [|t l IH].
    + unfold total, origin. cbn. destruct n as [|[|[|n]]]; reflexivity.
    + rewrite AssemblyExact.total_cons, IH. cbn [map fold_right s_add reals]. destruct (edge_opposite V y (g_sub g t 0)) as [[? ?] ?], (fold_right vadd origin _) as [[? ?] ?].
      destruct n as [|[|[|n]]]; reflexivity.
  - rewrite C. destruct n as [|[|[|n]]]; reflexivity.
Qed.

Lemma inner_coordinates p q : inner p q = coordinate 0 p * coordinate 0 q + coordinate 1 p * coordinate 1 q + coordinate 2 p * coordinate 2 q.
Proof. destruct p as [[? ?] ?], q as [[? ?] ?]. reflexivity. Qed.

Lemma rim_inner y q : closed_rim g V y -> total reals (seq 0 ncells) (fun t => inner (edge_opposite V y (g_sub g t 0)) q) = 0.
Proof.
  intros C. rewrite (total_ext reals _ _ (fun t => coordinate 0 q * coordinate 0 (edge_opposite V y (g_sub g t 0)) + (coordinate 1 q * coordinate 1 (edge_opposite V y (g_sub g t 0)) + coordinate 2 q * coordinate 2 (edge_opposite V y (g_sub g t 0))))).
  - rewrite !real_total_add, !real_total_mul, !(rim_component y) by exact C. ring.
  - intros t _. rewrite inner_coordinates. ring.
Qed.

Lemma inner_comm p q : inner p q = inner q p.
Proof. destruct p as [[? ?] ?], q as [[? ?] ?]. cbn. ring. Qed.

Lemma cancel_test (B : nat -> R) : closed_rim g V z -> total reals (seq 0 ncells) (fun t => total reals (seq 0 ncells) (fun s => inner (E t) (F s) * B s)) = 0.
Proof.
  intros C. rewrite (total_swap reals 1 RR). apply (total_zero reals 1 RR). intros s _.
  rewrite (total_ext reals _ _ (fun t => B s * inner (E t) (F s))) by (intros; ring). rewrite real_total_mul, (rim_inner z) by exact C. cbn. ring.
Qed.
Lemma cancel_trial (A : nat -> R) : closed_rim g V z' -> total reals (seq 0 ncells) (fun t => total reals (seq 0 ncells) (fun s => inner (E t) (F s) * A t)) = 0.
Proof.
  intros C. apply (total_zero reals 1 RR). intros t _.
  rewrite (total_ext reals _ _ (fun s => A t * inner (F s) (E t))) by (intros; rewrite inner_comm; ring). rewrite real_total_mul, (rim_inner z') by exact C. cbn. ring.
Qed.

(** ** Bounds *)

Lemma rim_total y : total reals (seq 0 ncells) (fun t => vlen (edge_opposite V y (g_sub g t 0))) = 2 * half_rim g V y.
Proof.
  unfold half_rim, vertex_lists. rewrite map_map.
  transitivity (fold_right Rplus 0 (map (fun c => dist (edge_opposite V y (g_sub g c 0)) origin) (seq 0 ncells))); [|field].
  generalize (seq 0 ncells) as l. induction l as [|t l IH]; [reflexivity|]. rewrite AssemblyExact.total_cons, IH. cbn [map fold_right s_add reals]. f_equal.
  rewrite dist_vlen. f_equal. destruct (edge_opposite V y (g_sub g t 0)) as [[? ?] ?]. unfold origin. cbn. f_equal; [f_equal|]; ring.
Qed.

Lemma sum_bound (Q : nat -> nat -> R) q : (forall t s, (t < ncells)%nat -> (s < ncells)%nat -> List.In z (g_sub g t 0) -> List.In z' (g_sub g s 0) -> Rabs (Q t s) <= q / 4) ->
  Rabs (total reals (seq 0 ncells) (fun t => total reals (seq 0 ncells) (fun s => inner (E t) (F s) * Q t s))) <= q * (half_rim g V z * half_rim g V z').
Proof.
  intros H. replace (q * (half_rim g V z * half_rim g V z')) with (total reals (seq 0 ncells) (fun t => total reals (seq 0 ncells) (fun s => (q / 4) * (vlen (E t) * vlen (F s))))).
  - apply real_total_abs. intros t Ht. apply real_total_abs. intros s Hs. apply in_seq in Ht, Hs.
    destruct (in_dec Nat.eq_dec z (g_sub g t 0)) as [I1|N1].
    2:{ rewrite (edge_off z t N1), (proj1 (inner_origin _)), Rmult_0_l, Rabs_R0. assert (vlen origin = 0) as -> by (unfold vlen, norm2, origin; cbn; rewrite !Rmult_0_l, !Rplus_0_r; apply sqrt_0). lra. }
    destruct (in_dec Nat.eq_dec z' (g_sub g s 0)) as [I2|N2].
    2:{ rewrite (edge_off z' s N2), (proj2 (inner_origin _)), Rmult_0_l, Rabs_R0. assert (vlen origin = 0) as -> by (unfold vlen, norm2, origin; cbn; rewrite !Rmult_0_l, !Rplus_0_r; apply sqrt_0). lra. }
    specialize (H t s ltac:(lia) ltac:(lia) I1 I2). rewrite Rabs_mult, (Rmult_comm (q / 4)). apply Rmult_le_compat; auto using Rabs_pos, abs_cauchy.
  - rewrite (total_ext reals _ _ (fun t => q / 4 * (2 * half_rim g V z') * vlen (E t))).
    + rewrite real_total_mul, (rim_total z). field.
    + intros t _. rewrite (total_ext reals _ _ (fun s => q / 4 * vlen (E t) * vlen (F s))) by (intros; ring). rewrite real_total_mul, (rim_total z'). ring.
Qed.

Lemma weighted_bound qd f q : x_simplex X Triangle (pts Triangle) = Some qd -> (forall x y x' y', inside Triangle x y -> inside Triangle x' y' -> Rabs (f x y x' y') <= q) ->
  Rabs (weighted qd f) <= q / 4.
Proof.
  intros A H. unfold weighted. replace (q / 4) with (total reals (enumerate (qd_weights qd)) (fun pw => total reals (enumerate (qd_weights qd)) (fun qw => q * (snd pw * snd qw)))).
  - apply real_total_abs. intros pw Hp. apply real_total_abs. intros qw Hq.
    destruct (positive_weight X Triangle HX In _ _ _ A Hp) as (W1 & I1), (positive_weight X Triangle HX In _ _ _ A Hq) as (W2 & I2).
    rewrite Rabs_mult, (Rabs_pos_eq (snd pw * snd qw)), Rmult_comm by nra. apply Rmult_le_compat_r; [nra|]. now apply H.
  - rewrite (total_ext reals _ _ (fun pw => q * fold_right Rplus 0 (qd_weights qd) * snd pw)).
    + rewrite real_total_mul, sum_weights, (Ex _ _ A). cbn. field.
    + intros pw _. rewrite (total_ext reals _ _ (fun qw => q * snd pw * snd qw)) by (intros; ring). rewrite real_total_mul, sum_weights. ring.
Qed.

Lemma weighted_minus qd f f' : weighted qd f - weighted qd f' = weighted qd (fun x y x' y' => f x y x' y' - f' x y x' y').
Proof.
  unfold weighted. rewrite total_minus. apply total_ext. intros pw _. rewrite total_minus. apply total_ext. intros qw _. ring.
Qed.

Lemma place_near y t x1 x2 k : (t < ncells)%nat -> List.In y (g_sub g t 0) -> reach g V y k -> inside Triangle x1 x2 -> vlen (vsub (place t x1 x2) (V y)) <= k.
Proof.
  intros Ht I Rc (P1 & P2 & P3). pose proof (fun u => Rc (g_sub g t 0) u (cell_list t Ht) I) as Q.
  destruct (Fl t Ht) as (u & v & w & Gt & _). unfold place. rewrite Gt in *. unfold mapped.
  pose proof (Q u ltac:(cbn; auto)) as Qu. pose proof (Q v ltac:(cbn; auto)) as Qv. pose proof (Q w ltac:(cbn; auto)) as Qw. rewrite dist_vlen in Qu, Qv, Qw.
  replace (vsub _ (V y)) with (vadd (vscale (1 - x1 - x2) (vsub (V u) (V y))) (vadd (vscale x1 (vsub (V v) (V y))) (vscale x2 (vsub (V w) (V y))))).
  - apply combination_bound; auto; lra.
  - destruct (V u) as [[? ?] ?], (V v) as [[? ?] ?], (V w) as [[? ?] ?], (V y) as [[? ?] ?]. cbn. f_equal; [f_equal|]; ring.
Qed.

(** ** Far from each other *)

Notation d := (dist (V z) (V z') - (h + h')).
Notation K := (fun x y => 1 / (4 * PI) * (1 / vlen (vsub x y))).

Section Pair.
Context (t s : nat) (x y x' y' : R) (Ht : (t < ncells)%nat) (Hs : (s < ncells)%nat) (It : List.In z (g_sub g t 0)) (Is : List.In z' (g_sub g s 0))
  (Px : inside Triangle x y) (Py : inside Triangle x' y').
Notation p := (place t x y).
Notation q := (place s x' y').
Notation u := (vsub p (V z)).
Notation v := (vsub (V z') q).
Notation o' := (vsub (V z) (V z')).

Lemma length_u : vlen u <= h.
Proof. now apply place_near. Qed.
Lemma length_v : vlen v <= h'.
Proof. replace (vlen v) with (vlen (vsub q (V z'))); [now apply place_near|]. unfold vlen. f_equal. destruct q as [[? ?] ?], (V z') as [[? ?] ?]. unfold norm2. cbn. ring. Qed.

Lemma lengths_below a b : 0 <= a <= 1 -> 0 <= b <= 1 -> d <= vlen (along (along o' u a) v b).
Proof.
  intros Ha Hb. pose proof length_u as Lu. pose proof length_v as Lv. rewrite dist_vlen. unfold along.
  pose proof (vlen_nonneg u) as Nu. pose proof (vlen_nonneg v) as Nv.
  set (w := vadd (vadd o' (vscale a u)) (vscale b v)).
  pose proof (vlen_add w (vadd (vscale (- a) u) (vscale (- b) v))) as T. pose proof (vlen_add (vscale (- a) u) (vscale (- b) v)) as T'.
  assert (Sc : forall k m, 0 <= k -> vlen (vscale (- k) m) = k * vlen m).
  { intros k m Hk. rewrite <- vlen_scale by exact Hk. unfold vlen. f_equal. destruct m as [[? ?] ?]. unfold norm2. cbn. ring. }
  rewrite !Sc in T' by lra.
  replace (vadd w (vadd (vscale (- a) u) (vscale (- b) v))) with o' in T.
  - nra.
  - unfold w. destruct o' as [[? ?] ?], u as [[? ?] ?], v as [[? ?] ?]. cbn. f_equal; [f_equal|]; ring.
Qed.

Lemma shift_both : vsub p q = vadd (vadd o' u) v.
Proof. destruct p as [[? ?] ?], q as [[? ?] ?], (V z) as [[? ?] ?], (V z') as [[? ?] ?]. cbn. f_equal; [f_equal|]; ring. Qed.
Lemma shift_first : vsub p (V z') = vadd o' u.
Proof. destruct p as [[? ?] ?], (V z) as [[? ?] ?], (V z') as [[? ?] ?]. cbn. f_equal; [f_equal|]; ring. Qed.
Lemma shift_second : vsub (V z) q = vadd o' v.
Proof. destruct q as [[? ?] ?], (V z) as [[? ?] ?], (V z') as [[? ?] ?]. cbn. f_equal; [f_equal|]; ring. Qed.

Lemma far_both : d <= vlen (vsub p q).
Proof. rewrite shift_both, <- (along_one o' u), <- (along_one _ v). apply lengths_below; lra. Qed.
Lemma far_first_point : d <= vlen (vsub p (V z')).
Proof. rewrite shift_first, <- (along_one o' u), <- (along_zero (along o' u 1) v). apply lengths_below; lra. Qed.
Lemma far_second_point : d <= vlen (vsub (V z) q).
Proof. rewrite shift_second, <- (along_one o' v), <- (along_zero o' u) at 1. apply lengths_below; lra. Qed.

Lemma pi_pos : 0 < 1 / (4 * PI).
Proof. apply Rdiv_lt_0_compat; [lra|]. pose proof PI_RGT_0. lra. Qed.

Lemma newton_value : newton e 0 p q = K p q.
Proof.
  unfold newton. pose proof far_both as L. rewrite <- dist_vlen in L. rewrite <- dist_vlen. destruct (Req_EM_T (dist p q) 0) as [Z|Z]; [lra|].
  pose proof PI_RGT_0. field. lra.
Qed.

Lemma bound_none : Rabs (newton e 0 p q) <= 1 / (4 * PI * d).
Proof.
  rewrite newton_value. pose proof far_both as L. pose proof pi_pos. pose proof PI_RGT_0. assert (P : 0 < d) by lra. set (k := d) in *. clearbody k.
  rewrite Rabs_pos_eq. 2:{ apply Rmult_le_pos; [lra|]. left. apply Rdiv_lt_0_compat; lra. }
  replace (1 / (4 * PI * k)) with (1 / (4 * PI) * (1 / k)) by (field; lra). apply Rmult_le_compat_l; [lra|]. unfold Rdiv. rewrite !Rmult_1_l. apply Rinv_le_contravar; lra.
Qed.

Lemma bound_first : Rabs (newton e 0 p q - K (V z) q) <= h / (4 * PI * (d * d)).
Proof.
  rewrite newton_value. pose proof pi_pos. pose proof PI_RGT_0. assert (P : 0 < d) by lra. pose proof far_both as L1. pose proof far_second_point as L2. set (k := d) in *. clearbody k.
  rewrite <- Rmult_minus_distr_l, Rabs_mult, (Rabs_pos_eq (1 / (4 * PI))) by lra. replace (h / (4 * PI * (k * k))) with (1 / (4 * PI) * (h / (k * k))) by (field; lra).
  apply Rmult_le_compat_l; [lra|].
  assert (S : vsub p q = vadd (vsub (V z) q) u) by (destruct p as [[? ?] ?], q as [[? ?] ?], (V z) as [[? ?] ?]; cbn; f_equal; [f_equal|]; ring).
  rewrite S in *. eapply Rle_trans; [now apply (simple_difference (vsub (V z) q) u k)|]. apply Rmult_le_compat_r; [left; apply Rinv_0_lt_compat; nra|apply length_u].
Qed.

Lemma bound_second : Rabs (newton e 0 p q - K p (V z')) <= h' / (4 * PI * (d * d)).
Proof.
  rewrite newton_value. pose proof pi_pos. pose proof PI_RGT_0. assert (P : 0 < d) by lra. pose proof far_both as L1. pose proof far_first_point as L2. set (k := d) in *. clearbody k.
  rewrite <- Rmult_minus_distr_l, Rabs_mult, (Rabs_pos_eq (1 / (4 * PI))) by lra. replace (h' / (4 * PI * (k * k))) with (1 / (4 * PI) * (h' / (k * k))) by (field; lra).
  apply Rmult_le_compat_l; [lra|].
  assert (S : vsub p q = vadd (vsub p (V z')) v) by (destruct p as [[? ?] ?], q as [[? ?] ?], (V z') as [[? ?] ?]; cbn; f_equal; [f_equal|]; ring).
  rewrite S in *. eapply Rle_trans; [now apply (simple_difference (vsub p (V z')) v k)|]. apply Rmult_le_compat_r; [left; apply Rinv_0_lt_compat; nra|apply length_v].
Qed.

Lemma bound_mixed : Rabs (newton e 0 p q - K (V z) q - K p (V z') + K (V z) (V z')) <= h * h' / (2 * PI * (d * d * d)).
Proof.
  rewrite newton_value. pose proof pi_pos. pose proof PI_RGT_0. assert (P : 0 < d) by lra. pose proof lengths_below as L. set (k := d) in *. clearbody k.
  rewrite <- !Rmult_minus_distr_l, <- Rmult_plus_distr_l, Rabs_mult, (Rabs_pos_eq (1 / (4 * PI))) by lra.
  replace (h * h' / (2 * PI * (k * k * k))) with (1 / (4 * PI) * (2 * (h * h') / (k * k * k))) by (field; lra).
  apply Rmult_le_compat_l; [lra|]. rewrite shift_both, shift_first, shift_second.
  eapply Rle_trans; [now apply (mixed_difference o' u v k)|]. apply Rmult_le_compat_r; [left; apply Rinv_0_lt_compat; repeat apply Rmult_lt_0_compat; assumption|].
  pose proof length_u. pose proof length_v. pose proof (vlen_nonneg u). pose proof (vlen_nonneg v). nra.
Qed.
End Pair.

Lemma split_total (A B : nat -> nat -> R) : total reals (seq 0 ncells) (fun t => total reals (seq 0 ncells) (fun s => inner (E t) (F s) * A t s)) -
  total reals (seq 0 ncells) (fun t => total reals (seq 0 ncells) (fun s => inner (E t) (F s) * B t s)) =
  total reals (seq 0 ncells) (fun t => total reals (seq 0 ncells) (fun s => inner (E t) (F s) * (A t s - B t s))).
Proof. rewrite total_minus. apply total_ext. intros t _. rewrite total_minus. apply total_ext. intros s _. ring. Qed.

Lemma far_bounds val qd : x_simplex X Triangle (pts Triangle) = Some qd ->
  (forall t s a b, (t < ncells)%nat -> (s < ncells)%nat -> pair_value reals X (laplace_hypersingular (newton e)) deg pts test trial t s a b (val t s a b)) ->
  let r := half_rim g V z * half_rim g V z' in let w := matrix_entry reals val test trial i j in
  Rabs w <= 1 / (4 * PI * d) * r /\
  (closed_rim g V z -> Rabs w <= h / (4 * PI * (d * d)) * r) /\ (closed_rim g V z' -> Rabs w <= h' / (4 * PI * (d * d)) * r) /\
  (closed_rim g V z -> closed_rim g V z' -> Rabs w <= h * h' / (2 * PI * (d * d * d)) * r).
Proof.
  intros A H r w. unfold w. rewrite (entry_far val qd A H). clear w. unfold r. split; [|split; [|split]].
  - apply sum_bound. intros t s Ht Hs It Is. apply weighted_bound; auto. intros. now apply bound_none.
  - intros C. rewrite <- (Rminus_0_r (total _ _ _)), <- (cancel_test (fun s => weighted qd (fun x y x' y' => K (V z) (place s x' y'))) C), split_total.
    apply sum_bound. intros t s Ht Hs It Is. rewrite weighted_minus. apply weighted_bound; auto. intros. now apply bound_first.
  - intros C. rewrite <- (Rminus_0_r (total _ _ _)), <- (cancel_trial (fun t => weighted qd (fun x y x' y' => K (place t x y) (V z'))) C), split_total.
    apply sum_bound. intros t s Ht Hs It Is. rewrite weighted_minus. apply weighted_bound; auto. intros. now apply bound_second.
  - intros C C'. rewrite <- (Rminus_0_r (total _ _ _)), <- (cancel_test (fun s => weighted qd (fun x y x' y' => K (V z) (place s x' y') - K (V z) (V z'))) C), split_total.
    rewrite <- (Rminus_0_r (total _ _ _)), <- (cancel_trial (fun t => weighted qd (fun x y x' y' => K (place t x y) (V z'))) C'), split_total.
    apply sum_bound. intros t s Ht Hs It Is. rewrite !weighted_minus. apply weighted_bound; auto. intros x y x' y' P P'.
    replace (_ - (_ - _) - _) with (newton e 0 (place t x y) (place s x' y') - K (V z) (place s x' y') - K (place t x y) (V z') + K (V z) (V z')) by ring. now apply bound_mixed.
Qed.
End Rims.

(** The entry of two vertices. *)
Theorem hypersingular_decay : forall (X : externals R) wmod e o deg pts (test trial : fspace R R) V,
  dense_setting X wmod (laplace_hypersingular (newton e)) o deg pts Triangle test trial -> positive_externals (Rle 0) X -> inside_rules X Triangle -> exact_constants X Triangle ->
  fs_grid trial = fs_grid test -> fs_family test = lagrange 1 -> fs_family trial = lagrange 1 -> linear_functions test -> linear_functions trial ->
  flat_triangles X (fs_grid test) V -> proper_triangles (fs_grid test) V -> forall rt, legal_runtime Rplus rt ->
  exists m, assemble reals X rt wmod (laplace_hypersingular (newton e)) o trial test = Ok m /\
  forall z z' i j h h', listed (sp_dofmap (fs_space test)) 0 z 0 i -> listed (sp_dofmap (fs_space trial)) 0 z' 0 j ->
    reach (fs_grid test) V z h -> reach (fs_grid test) V z' h' ->
    let d := dist (V z) (V z') - (h + h') in let r := half_rim (fs_grid test) V z * half_rim (fs_grid test) V z' in 0 < d ->
    exists v, nth_error m (i + global_size (fs_space test) * j) = Some v /\
      Rabs v <= 1 / (4 * PI * d) * r /\
      (closed_rim (fs_grid test) V z -> Rabs v <= h / (4 * PI * (d * d)) * r) /\ (closed_rim (fs_grid test) V z' -> Rabs v <= h' / (4 * PI * (d * d)) * r) /\
      (closed_rim (fs_grid test) V z -> closed_rim (fs_grid test) V z' -> Rabs v <= h * h' / (2 * PI * (d * d * d)) * r).
Proof.
  intros X wmod e o deg pts test trial V D HX In Ex Eg Fa Fa' Li Li' Fl Pr rt L.
  destruct (assembled reals 1 RR X rt wmod (laplace_hypersingular (newton e)) o deg pts Triangle test trial L D) as (m & val & Em & _ & Vm & H).
  exists m. split; [exact Em|]. intros z z' i j h h' Lz Lz' Rz Rz' d r Hd.
  assert (Size : forall (fs : fspace R R) y k, serial_space fs -> listed (sp_dofmap (fs_space fs)) 0 y 0 k -> (k < global_size (fs_space fs))%nat).
  { intros fs y k Sp Ly. rewrite (serial_size fs Sp). apply (listed_lt_iff 0 _ _ _ (ss_grid _ Sp) (ss_family _ Sp) (ss_dofs _ Sp)). eauto. }
  eexists. split; [apply H; [apply (Size test z); auto|apply (Size trial z'); auto]; [apply (dn_test _ _ _ _ _ _ _ _ _ D)|apply (dn_trial _ _ _ _ _ _ _ _ _ D)]|].
  destruct (dn_simplex _ _ _ _ _ _ _ _ _ D Triangle (or_introl eq_refl)) as (_ & qd & Q).
  apply (far_bounds X wmod e o deg pts test trial V D HX In Ex Eg Fa Fa' Li Li' Fl Pr z z' i j h h' Lz Lz' Rz Rz' ltac:(unfold d in Hd; lra) val qd Q).
  intros t s a b Ht Hs. apply Vm; [exact Ht|now rewrite Eg].
Qed.
