(** * Linear functions on flat triangles: the form of the hypersingular matrix and its kernel *)
From Coq Require Import Ring_theory Reals Lra.
From Verif Require Import Base BaseFacts Topology TopologyFacts DofMap DofMapFacts SpecDof DofMapResults DofExamples Process Space SpecSpace Options Batch SpecBatch
  Adjacency SpecAdjacency Scalar Integrand CellPair Operators SpecLocal LocalFacts LocalResults Interleave Assembly SpecAssembly
  AssemblyFacts AssemblySingular AssemblyDense AssemblyExact AssemblyResults SpecAlgebra AlgebraFacts AlgebraResults
  SpecDistributed DistributedFacts DistributedResults SpecBroken BrokenResults SpecGalerkin GalerkinResults SpecCurls CurlResults CurlSpaces
  SpecRounding Shapes SpecShapes SpecSphere SpecWidth SpecSymmetry SpecAutomorphism SpecTurns SpecDefinite.

Local Open Scope R_scope.

Definition reals_ring : ring_theory (s_zero reals) 1 (s_add reals) (s_mul reals) (s_sub reals) (s_neg reals) eq := RTheory.

(** ** Curls *)

Section Curls.
Context (X : externals R) (fs : fspace R R) (V : nat -> vec).
Context (Sp : serial_space fs) (Ty : g_types (fs_grid fs) 2 = [Triangle]) (Dim : el_dim (fs_family fs Triangle) = 3%nat) (Li : linear_functions fs)
  (Fl : flat_triangles X (fs_grid fs) V).

Lemma triangle_type c : (c < ent_count (fs_grid fs) 2)%nat -> g_ctype (fs_grid fs) c = Triangle.
Proof. intros Hc. pose proof (wf_ctype _ (ss_grid _ Sp) c Hc) as H. rewrite Ty in H. now destruct H as [H|[]]. Qed.

Lemma three_dofs c : (c < ent_count (fs_grid fs) 2)%nat -> length (dofs_at fs c) = 3%nat.
Proof. intros Hc. rewrite dofs_at_dim by auto. now rewrite triangle_type. Qed.

Lemma curl_at c a i u v w points n p : (c < ent_count (fs_grid fs) 2)%nat -> g_sub (fs_grid fs) c 0 = [u; v; w] ->
  nth_error (dofs_at fs c) a = Some i -> (n < 3)%nat -> surface_curl reals X fs c i points n p = edge_curl a (V u) (V v) (V w) n.
Proof.
  intros Hc Hg Ha Hn. unfold surface_curl, curl, jdet, edge_curl, cell_of. rewrite triangle_type by auto.
  destruct (Fl c Hc) as (u' & v' & w' & Hg' & F). assert (H := eq_trans (eq_sym Hg) Hg'). injection H as <- <- <-.
  destruct (F points) as [_ _ F1 F2 F3].
  assert (La : (a < 3)%nat) by (rewrite <- (three_dofs c Hc); apply nth_error_Some; congruence).
  cbn [s_cast s_sub s_mul s_div reals]. rewrite F2, F1, F3 by auto.
  rewrite !(restricted_at reals 1 reals_ring fs c a i) by (auto; now apply serial_distinct). rewrite triangle_type by auto.
  destruct (Li points p a La) as (_ & -> & ->). f_equal.
  destruct (V u) as [[u1 u2] u3], (V v) as [[v1 v2] v3], (V w) as [[w1 w2] w3].
  destruct a as [|[|[|a]]]; [| | |lia]; cbn [nth opposite vsub]; destruct n as [|[|[|n]]]; [| | |lia| | | |lia| | | |lia]; cbn [coordinate]; ring.
Qed.

Lemma curl_off c i points n p : ~ In i (dofs_at fs c) -> surface_curl reals X fs c i points n p = 0.
Proof.
  intros N. unfold surface_curl, curl. rewrite !(restricted_off reals 1 reals_ring fs c i) by auto.
  cbn [s_cast s_sub s_mul s_div s_zero reals]. unfold Rdiv. ring.
Qed.

Theorem linear_curls (fine : fspace R R) : serial_space fine -> fs_grid fine = fs_grid fs -> interior_family (g_types (fs_grid fine) 2) (fs_family fine) ->
  adds_to_one reals 1 fine -> exists C, spanned reals (surface_curl reals X) fs fine C /\
  forall c u v w k n, (c < ent_count (fs_grid fs) 2)%nat -> g_sub (fs_grid fs) c 0 = [u; v; w] -> In k (dofs_at fine c) -> (n < 3)%nat ->
    (forall a i, nth_error (dofs_at fs c) a = Some i -> C n k i = edge_curl a (V u) (V v) (V w) n) /\
    (forall i, ~ In i (dofs_at fs c) -> C n k i = 0).
Proof.
  intros Sf Eg If Ad.
  destruct (ones_span reals 1 reals_ring (surface_curl reals X) fs fine (fun c n i => surface_curl reals X fs c i [] n 0) Sf Eg If Ad) as (C & HC & HU).
  - intros c i points n p Hc Hi Hn Hp. destruct (in_dec Nat.eq_dec i (dofs_at fs c)) as [H|H].
    + apply In_nth_error in H. destruct H as (a & Ha). destruct (Fl c Hc) as (u & v & w & Hg & _).
      now rewrite !(curl_at c a i u v w) by auto.
    + now rewrite !curl_off by auto.
  - exists C. split; [exact HC|]. intros c u v w k n Hc Hg Hk Hn. split.
    + intros a i Ha. rewrite (HU c k n i Hc Hk). now apply curl_at.
    + intros i Hi. rewrite (HU c k n i Hc Hk). now apply curl_off.
Qed.
End Curls.

(** ** Forms *)

Lemma product_form C n k e x : form k (fun i j => three_products reals C C n n e i j) x =
  total reals (seq 0 3) (fun c => form n e (fun l => total reals (seq 0 k) (fun i => C c l i * x i))).
Proof.
  unfold form, three_products. 
  transitivity (total reals (seq 0 k) (fun i => total reals (seq 0 k) (fun j => total reals (seq 0 3) (fun c =>
    total reals (seq 0 n) (fun p => total reals (seq 0 n) (fun q => x i * (C c p i * e p q * C c q j) * x j)))))).
  { apply total_ext. intros i _. apply total_ext. intros j _.
    rewrite <- (total_mul reals 1 reals_ring), <- (total_mul_r reals 1 reals_ring). apply total_ext. intros c _. unfold projected.
    rewrite <- (total_mul reals 1 reals_ring), <- (total_mul_r reals 1 reals_ring). apply total_ext. intros p _.
    rewrite <- (total_mul reals 1 reals_ring), <- (total_mul_r reals 1 reals_ring). reflexivity. }
  transitivity (total reals (seq 0 3) (fun c => total reals (seq 0 n) (fun p => total reals (seq 0 n) (fun q =>
    total reals (seq 0 k) (fun i => total reals (seq 0 k) (fun j => x i * (C c p i * e p q * C c q j) * x j)))))).
  { rewrite (total_swap3 reals 1 reals_ring). apply total_ext. intros c _. rewrite (total_swap3 reals 1 reals_ring). apply total_ext. intros p _.
    rewrite (total_swap3 reals 1 reals_ring). reflexivity. }
  apply total_ext. intros c _. apply total_ext. intros p _. apply total_ext. intros q _.
  transitivity (total reals (seq 0 k) (fun i => C c p i * x i * (e p q * total reals (seq 0 k) (fun j => C c q j * x j)))).
  - apply total_ext. intros i _. rewrite <- !(total_mul reals 1 reals_ring). apply total_ext. intros j _. cbn [s_mul reals]. ring.
  - rewrite (total_mul_r reals 1 reals_ring). cbn [s_mul reals]. ring.
Qed.

Lemma form_ext n e e' y : (forall i j, (i < n)%nat -> (j < n)%nat -> e i j = e' i j) -> form n e y = form n e' y.
Proof. intros H. unfold form. apply total_ext. intros i Hi. apply total_ext. intros j Hj. apply in_seq in Hi, Hj. rewrite H by lia. reflexivity. Qed.

Lemma form_zero n e y : (forall k, (k < n)%nat -> y k = 0) -> form n e y = 0.
Proof.
  intros H. unfold form. apply (total_zero reals 1 reals_ring). intros k Hk. apply (total_zero reals 1 reals_ring). intros l _.
  apply in_seq in Hk. rewrite H by lia. cbn. ring.
Qed.

Lemma product_semidefinite C n k e : semidefinite n e -> semidefinite k (fun i j => three_products reals C C n n e i j).
Proof.
  intros H y. rewrite product_form. cbn [seq]. rewrite !(total_cons reals), (total_nil reals). cbn [s_add s_zero reals].
  pose proof (H (fun l => total reals (seq 0 k) (fun i => C 0%nat l i * y i))). pose proof (H (fun l => total reals (seq 0 k) (fun i => C 1%nat l i * y i))).
  pose proof (H (fun l => total reals (seq 0 k) (fun i => C 2%nat l i * y i))). lra.
Qed.

(** For a definite matrix the form vanishes only if all curls do. *)
Lemma product_definite C n k e y : definite n e ->
  (form k (fun i j => three_products reals C C n n e i j) y = 0 <->
   forall c l, (c < 3)%nat -> (l < n)%nat -> total reals (seq 0 k) (fun i => C c l i * y i) = 0).
Proof.
  intros H. rewrite product_form. split.
  - cbn [seq]. rewrite !(total_cons reals), (total_nil reals). cbn [s_add s_zero reals]. intros E c l Hc Hl.
    destruct (H (fun l => total reals (seq 0 k) (fun i => C 0%nat l i * y i))) as (P0 & Z0).
    destruct (H (fun l => total reals (seq 0 k) (fun i => C 1%nat l i * y i))) as (P1 & Z1).
    destruct (H (fun l => total reals (seq 0 k) (fun i => C 2%nat l i * y i))) as (P2 & Z2).
    destruct c as [|[|[|c]]]; [apply Z0|apply Z1|apply Z2|lia]; auto; lra.
  - intros E. apply (total_zero reals 1 reals_ring). intros c Hc. apply in_seq in Hc. apply form_zero. intros l Hl. apply E; auto; lia.
Qed.

Lemma product_symmetric C n e i j : (forall k l, (k < n)%nat -> (l < n)%nat -> e k l = e l k) ->
  three_products reals C C n n e i j = three_products reals C C n n e j i.
Proof.
  intros H. unfold three_products. apply total_ext. intros c _. unfold projected. rewrite (total_swap reals 1 reals_ring).
  apply total_ext. intros l Hl. apply total_ext. intros k Hk. apply in_seq in Hl, Hk. rewrite (H k l) by lia. cbn [s_mul reals]. ring.
Qed.

(** The matrix times a vector without curls. *)
Lemma product_times C n k e y i : (forall c l, (c < 3)%nat -> (l < n)%nat -> total reals (seq 0 k) (fun i => C c l i * y i) = 0) ->
  times k (fun i j => three_products reals C C n n e i j) y i = 0.
Proof.
  intros H. unfold times, three_products.
  transitivity (total reals (seq 0 3) (fun c => total reals (seq 0 n) (fun p => total reals (seq 0 n) (fun q =>
    C c p i * e p q * total reals (seq 0 k) (fun j => C c q j * y j))))).
  - transitivity (total reals (seq 0 k) (fun j => total reals (seq 0 3) (fun c => total reals (seq 0 n) (fun p => total reals (seq 0 n) (fun q =>
      C c p i * e p q * (C c q j * y j)))))).
    + apply total_ext. intros j _. rewrite <- (total_mul_r reals 1 reals_ring). apply total_ext. intros c _. unfold projected.
      rewrite <- (total_mul_r reals 1 reals_ring). apply total_ext. intros p _. rewrite <- (total_mul_r reals 1 reals_ring). apply total_ext. intros q _.
      cbn [s_mul reals]. ring.
    + rewrite (total_swap reals 1 reals_ring). apply total_ext. intros c _. rewrite (total_swap reals 1 reals_ring). apply total_ext. intros p _.
      rewrite (total_swap reals 1 reals_ring). apply total_ext. intros q _. now rewrite (total_mul reals 1 reals_ring).
  - apply (total_zero reals 1 reals_ring). intros c Hc. apply (total_zero reals 1 reals_ring). intros p _. apply (total_zero reals 1 reals_ring). intros q Hq.
    apply in_seq in Hc, Hq. rewrite H by lia. cbn. ring.
Qed.

Lemma form_times n e y : form n e y = total reals (seq 0 n) (fun k => y k * times n e y k).
Proof. unfold form, times. apply total_ext. intros k _. rewrite <- (total_mul reals 1 reals_ring). apply total_ext. intros l _. cbn. ring. Qed.

(** ** Linear functions without curls *)

Lemma inner_square v : 0 <= inner v v.
Proof. destruct v as [[a b] c]. cbn. nra. Qed.
Lemma inner_null v : inner v v = 0 -> v = origin.
Proof. destruct v as [[a b] c]. cbn. intros E. unfold origin. assert (a = 0) by nra. assert (b = 0) by nra. assert (c = 0) by nra. congruence. Qed.

Lemma flat_edges p q r x0 x1 x2 : normal p q r <> origin ->
  (forall n, (n < 3)%nat -> x0 * edge_curl 0 p q r n + x1 * edge_curl 1 p q r n + x2 * edge_curl 2 p q r n = 0) -> x0 = x1 /\ x0 = x2.
Proof.
  intros N H. set (s := sqrt (inner (normal p q r) (normal p q r))).
  destruct p as [[p1 p2] p3], q as [[q1 q2] q3], r as [[r1 r2] r3].
  assert (Hs : s <> 0).
  { unfold s. intros E. apply sqrt_eq_0 in E; [|apply inner_square]. now apply N, inner_null. }
  assert (K : forall n, (n < 3)%nat -> x0 * coordinate n (opposite 0 (p1, p2, p3) (q1, q2, q3) (r1, r2, r3)) +
    x1 * coordinate n (opposite 1 (p1, p2, p3) (q1, q2, q3) (r1, r2, r3)) + x2 * coordinate n (opposite 2 (p1, p2, p3) (q1, q2, q3) (r1, r2, r3)) = 0).
  { intros n Hn. specialize (H n Hn). unfold edge_curl in H. fold s in H.
    match type of H with ?a * (?b / _) + ?c * (?d / _) + ?f * (?g / _) = 0 => apply (Rmult_eq_reg_r (/ s)); [|now apply Rinv_neq_0_compat];
      transitivity (a * (b / s) + c * (d / s) + f * (g / s)); [unfold Rdiv; ring|rewrite H; ring] end. }
  pose proof (K 0%nat ltac:(lia)) as K0. pose proof (K 1%nat ltac:(lia)) as K1. pose proof (K 2%nat ltac:(lia)) as K2.
  cbn in K0, K1, K2. clear K H Hs. clearbody s.
  assert (A : forall f, (f = x0 - x2 \/ f = x1 - x0) -> f * (((q2 - p2) * (r3 - p3) - (q3 - p3) * (r2 - p2))) = 0 /\
    f * (((q3 - p3) * (r1 - p1) - (q1 - p1) * (r3 - p3))) = 0 /\ f * (((q1 - p1) * (r2 - p2) - (q2 - p2) * (r1 - p1))) = 0).
  { assert (E0 : (x0 - x2) * (q1 - p1) = - (x1 - x0) * (r1 - p1)) by lra.
    assert (E1 : (x0 - x2) * (q2 - p2) = - (x1 - x0) * (r2 - p2)) by lra.
    assert (E2 : (x0 - x2) * (q3 - p3) = - (x1 - x0) * (r3 - p3)) by lra.
    intros f [-> | ->].
    - repeat split.
      + replace ((x0 - x2) * ((q2 - p2) * (r3 - p3) - (q3 - p3) * (r2 - p2))) with ((x0 - x2) * (q2 - p2) * (r3 - p3) - (x0 - x2) * (q3 - p3) * (r2 - p2)) by ring. rewrite E1, E2. ring.
      + replace ((x0 - x2) * ((q3 - p3) * (r1 - p1) - (q1 - p1) * (r3 - p3))) with ((x0 - x2) * (q3 - p3) * (r1 - p1) - (x0 - x2) * (q1 - p1) * (r3 - p3)) by ring. rewrite E2, E0. ring.
      + replace ((x0 - x2) * ((q1 - p1) * (r2 - p2) - (q2 - p2) * (r1 - p1))) with ((x0 - x2) * (q1 - p1) * (r2 - p2) - (x0 - x2) * (q2 - p2) * (r1 - p1)) by ring. rewrite E0, E1. ring.
    - repeat split.
      + replace ((x1 - x0) * ((q2 - p2) * (r3 - p3) - (q3 - p3) * (r2 - p2))) with (- (- (x1 - x0) * (r3 - p3)) * (q2 - p2) + (- (x1 - x0) * (r2 - p2)) * (q3 - p3)) by ring. rewrite <- E1, <- E2. ring.
      + replace ((x1 - x0) * ((q3 - p3) * (r1 - p1) - (q1 - p1) * (r3 - p3))) with (- (- (x1 - x0) * (r1 - p1)) * (q3 - p3) + (- (x1 - x0) * (r3 - p3)) * (q1 - p1)) by ring. rewrite <- E0, <- E2. ring.
      + replace ((x1 - x0) * ((q1 - p1) * (r2 - p2) - (q2 - p2) * (r1 - p1))) with (- (- (x1 - x0) * (r2 - p2)) * (q1 - p1) + (- (x1 - x0) * (r1 - p1)) * (q2 - p2)) by ring. rewrite <- E0, <- E1. ring. }
  assert (Z : forall f, (f = x0 - x2 \/ f = x1 - x0) -> f = 0).
  { intros f Hf. destruct (Req_dec f 0) as [E|E]; [exact E|]. exfalso. apply N. destruct (A f Hf) as (A0 & A1 & A2).
    unfold normal, vsub, cross, origin. f_equal; [f_equal|].
    - destruct (Rmult_integral _ _ A0) as [?|E']; [contradiction|exact E'].
    - destruct (Rmult_integral _ _ A1) as [?|E']; [contradiction|exact E'].
    - destruct (Rmult_integral _ _ A2) as [?|E']; [contradiction|exact E']. }
  pose proof (Z _ (or_introl eq_refl)). pose proof (Z _ (or_intror eq_refl)). lra.
Qed.

Lemma edges_sum p q r n : (n < 3)%nat -> edge_curl 0 p q r n + edge_curl 1 p q r n + edge_curl 2 p q r n = 0.
Proof.
  intros Hn. unfold edge_curl, Rdiv. rewrite <- !Rmult_plus_distr_r.
  destruct p as [[p1 p2] p3], q as [[q1 q2] q3], r as [[r1 r2] r3].
  match goal with |- ?a * _ = 0 => assert (E : a = 0) end; [|rewrite E; ring].
  destruct n as [|[|[|n]]]; [| | |lia]; cbn; ring.
Qed.

(** ** The DOFs of linear functions are the vertices *)

Lemma vertex_dofs {T R} (fs : fspace T R) : serial_space fs -> g_types (fs_grid fs) 2 = [Triangle] -> fs_family fs = lagrange 1 ->
  exists f, forall c, (c < ent_count (fs_grid fs) 2)%nat -> dofs_at fs c = map f (g_sub (fs_grid fs) c 0).
Proof.
  intros Sp Ty Fa. exists (fun v => hd 0%nat (edof (sp_dofmap (fs_space fs)) 0 v)). intros c Hc.
  assert (W := ss_grid _ Sp). assert (WF := ss_family _ Sp). assert (HA := ss_dofs _ Sp).
  assert (Ct : g_ctype (fs_grid fs) c = Triangle). { pose proof (wf_ctype _ W c Hc) as H. rewrite Ty in H. now destruct H as [H|[]]. }
  assert (L1 : length (dofs_at fs c) = 3%nat) by (rewrite dofs_at_dim, Ct, Fa by auto; reflexivity).
  assert (L2 : length (g_sub (fs_grid fs) c 0) = 3%nat) by (rewrite (wf_sub_length _ W) by (auto; lia); now rewrite Ct).
  apply nth_error_ext. intros x. rewrite nth_error_map. destruct (le_lt_dec 3 x) as [Hx|Hx].
  - rewrite (proj2 (nth_error_None _ _)) by lia. now rewrite (proj2 (nth_error_None _ _)) by lia.
  - destruct (nth_error (g_sub (fs_grid fs) c 0) x) as [v|] eqn:Ev; [|apply nth_error_None in Ev; lia]. cbn [option_map].
    assert (Hs : sub_at (fs_grid fs) c 0 x v) by (repeat split; auto; lia).
    destruct (cell_row_entity 0 _ _ _ W WF HA c 0 x v [x] 0 x Hs) as (n & H1 & H2); [|reflexivity|].
    + rewrite Fa, Ct. destruct x as [|[|[|x]]]; [reflexivity|reflexivity|reflexivity|lia].
    + rewrite dofs_at_row by auto. rewrite H1. f_equal. destruct (edof _ 0 v); cbn in *; congruence.
Qed.

Lemma chain_constant (cells : list (list nat)) (y : nat -> R) u v : chain cells u v ->
  (forall c u v, In c cells -> In u c -> In v c -> y u = y v) -> y u = y v.
Proof. intros H K. induction H as [|u v w c H IH Hc Hv Hw]; [reflexivity|]. rewrite IH. now apply (K c). Qed.

Section Kernel.
Context (X : externals R) (fs fine : fspace R R) (V : nat -> vec) (C : nat -> nat -> nat -> R).
Context (Sp : serial_space fs) (Ty : g_types (fs_grid fs) 2 = [Triangle]) (Fa : fs_family fs = lagrange 1) (Fl : flat_triangles X (fs_grid fs) V).
Context (Sf : serial_space fine) (Eg : fs_grid fine = fs_grid fs) (If : interior_family (g_types (fs_grid fine) 2) (fs_family fine))
  (Dimf : forall t, In t (g_types (fs_grid fine) 2) -> (0 < el_dim (fs_family fine t))%nat).
Context (HC : forall c u v w k n, (c < ent_count (fs_grid fs) 2)%nat -> g_sub (fs_grid fs) c 0 = [u; v; w] -> In k (dofs_at fine c) -> (n < 3)%nat ->
    (forall a i, nth_error (dofs_at fs c) a = Some i -> C n k i = edge_curl a (V u) (V v) (V w) n) /\
    (forall i, ~ In i (dofs_at fs c) -> C n k i = 0)).

Lemma curl_total c u v w k n x : (c < ent_count (fs_grid fs) 2)%nat -> g_sub (fs_grid fs) c 0 = [u; v; w] -> In k (dofs_at fine c) -> (n < 3)%nat ->
  exists i0 i1 i2, dofs_at fs c = [i0; i1; i2] /\ total reals (seq 0 (global_size (fs_space fs))) (fun i => C n k i * x i) =
    x i0 * edge_curl 0 (V u) (V v) (V w) n + x i1 * edge_curl 1 (V u) (V v) (V w) n + x i2 * edge_curl 2 (V u) (V v) (V w) n.
Proof.
  intros Hc Hg Hk Hn. destruct (HC c u v w k n Hc Hg Hk Hn) as (H1 & H2).
  assert (L : length (dofs_at fs c) = 3%nat).
  { apply (three_dofs fs Sp Ty); auto. now rewrite Fa. }
  rewrite (total_ext reals _ _ (fun i => if memb i (dofs_at fs c) then C n k i * x i else s_zero reals)).
  - rewrite (total_members reals 1 reals_ring (dofs_at fs c)); [|now apply serial_distinct|intros i Hi; now apply (serial_lt fs Sp c i)].
    destruct (dofs_at fs c) as [|i0 [|i1 [|i2 [|? ?]]]]; try discriminate L. exists i0, i1, i2. split; [reflexivity|].
    rewrite !(total_cons reals), (total_nil reals). rewrite (H1 0%nat i0), (H1 1%nat i1), (H1 2%nat i2) by reflexivity. cbn [s_add s_zero reals]. ring.
  - intros i _. destruct (memb i (dofs_at fs c)) eqn:E; [reflexivity|]. rewrite H2; [cbn; ring|]. intros H. apply memb_In in H. congruence.
Qed.

Lemma cell_has_dof c : (c < ent_count (fs_grid fs) 2)%nat -> exists k, In k (dofs_at fine c) /\ (k < global_size (fs_space fine))%nat.
Proof.
  intros Hc. assert (Hc' : (c < ent_count (fs_grid fine) 2)%nat) by now rewrite Eg.
  pose proof (dofs_at_dim fine c Sf Hc') as L. pose proof (Dimf _ (wf_ctype _ (ss_grid _ Sf) c Hc')) as P.
  destruct (dofs_at fine c) as [|k l] eqn:E; [cbn in L; lia|]. exists k. split; [now left|].
  apply (serial_lt fine Sf c k); auto. rewrite E. now left.
Qed.

Lemma no_curls x : proper_triangles (fs_grid fs) V -> connected (vertex_lists (fs_grid fs)) ->
  ((forall n k, (n < 3)%nat -> (k < global_size (fs_space fine))%nat -> total reals (seq 0 (global_size (fs_space fs))) (fun i => C n k i * x i) = 0) <->
   exists a, forall i, (i < global_size (fs_space fs))%nat -> x i = a).
Proof.
  intros Pr Co. split.
  - intros Z. destruct (vertex_dofs fs Sp Ty Fa) as (f & Hf).
    assert (K : forall c u v, In c (vertex_lists (fs_grid fs)) -> In u c -> In v c -> x (f u) = x (f v)).
    { intros l u v Hl Hu Hv. unfold vertex_lists in Hl. apply in_map_iff in Hl. destruct Hl as (c & <- & Hc). apply in_seq in Hc.
      assert (Hc' : (c < ent_count (fs_grid fs) 2)%nat) by lia. destruct (Fl c Hc') as (p & q & r & Hg & _).
      destruct (cell_has_dof c Hc') as (k & Hk & Hk').
      assert (E : x (f p) = x (f q) /\ x (f p) = x (f r)).
      { apply (flat_edges (V p) (V q) (V r)); [now apply (Pr c)|]. intros n Hn.
        destruct (curl_total c p q r k n x Hc' Hg Hk Hn) as (i0 & i1 & i2 & Ed & Et). rewrite (Hf c Hc'), Hg in Ed. cbn [map] in Ed. injection Ed as <- <- <-.
        rewrite <- Et. now apply Z. }
      rewrite Hg in Hu, Hv. cbn [In] in Hu, Hv. destruct E as (E1 & E2).
      assert (Q : forall z, p = z \/ q = z \/ r = z \/ False -> x (f z) = x (f p)) by (intros z [<-|[<-|[<-|[]]]]; congruence).
      rewrite (Q u Hu), (Q v Hv). reflexivity. }
    assert (N : forall i, (i < global_size (fs_space fs))%nat -> exists c v, In c (vertex_lists (fs_grid fs)) /\ In v c /\ i = f v).
    { intros i Hi. rewrite (serial_size fs Sp) in Hi. destruct (dof_in_cell fs i Sp Hi) as (c & a & Hc & Ha). rewrite (Hf c Hc) in Ha.
      apply nth_error_In in Ha. apply in_map_iff in Ha. destruct Ha as (v & <- & Hv). exists (g_sub (fs_grid fs) c 0), v. split; [|auto].
      unfold vertex_lists. apply in_map_iff. exists c. split; [reflexivity|]. apply in_seq. lia. }
    exists (x 0%nat). intros i Hi. assert (H0 : (0 < global_size (fs_space fs))%nat) by lia.
    destruct (N i Hi) as (c & v & Hc & Hv & ->). destruct (N 0%nat H0) as (c0 & v0 & Hc0 & Hv0 & E0). rewrite E0.
    apply (chain_constant _ (fun z => x (f z)) v v0 (Co c c0 v v0 Hc Hc0 Hv Hv0) K).
  - intros (a & Ha) n k Hn Hk. rewrite (serial_size fine Sf) in Hk. destruct (dof_in_cell fine k Sf Hk) as (c & b & Hc & Hb). rewrite Eg in Hc.
    destruct (Fl c Hc) as (u & v & w & Hg & _).
    destruct (curl_total c u v w k n x Hc Hg (nth_error_In _ _ Hb) Hn) as (i0 & i1 & i2 & Ed & ->).
    rewrite !Ha; try (apply (serial_lt fs Sp c); auto; rewrite Ed; cbn; tauto).
    pose proof (edges_sum (V u) (V v) (V w) n Hn) as E. replace (a * _ + a * _ + a * _) with (a * (edge_curl 0 (V u) (V v) (V w) n + edge_curl 1 (V u) (V v) (V w) n + edge_curl 2 (V u) (V v) (V w) n)) by ring.
    rewrite E. ring.
Qed.
End Kernel.

Lemma reals_exact' : exact reals.
Proof. split; [exists 1; exact RTheory|]. exists Rinv. reflexivity. Qed.

Theorem linear_form : forall (X : externals R) rt wmod (G H : @green R R) o deg pts (fs fine : fspace R R) V,
  legal_runtime Rplus rt -> (forall x y, H 0%nat x y = G 0%nat x y) ->
  dense_setting X wmod (laplace_hypersingular G) o deg pts Triangle fs fs -> dense_setting X wmod (laplace_single_layer H) o deg pts Triangle fine fine ->
  fs_grid fine = fs_grid fs -> fs_family fs = lagrange 1 -> linear_functions fs -> flat_triangles X (fs_grid fs) V ->
  constants reals 1 fine -> interior_family [Triangle] (fs_family fine) ->
  exists m fm w e, assemble reals X rt wmod (laplace_hypersingular G) o fs fs = Ok m /\ assemble reals X rt wmod (laplace_single_layer H) o fine fine = Ok fm /\
    has_entries (global_size (fs_space fs)) m w /\ has_entries (global_size (fs_space fine)) fm e /\
    (semidefinite (global_size (fs_space fine)) e -> semidefinite (global_size (fs_space fs)) w) /\
    (symmetric_entries (global_size (fs_space fine)) e -> symmetric_entries (global_size (fs_space fs)) w) /\
    (definite (global_size (fs_space fine)) e -> proper_triangles (fs_grid fs) V -> connected (vertex_lists (fs_grid fs)) ->
      kernel_of_constants (global_size (fs_space fs)) w).
Proof.
  intros X rt wmod G H o deg pts fs fine V L EH D D' Eg Fa Li Fl Co If.
  pose proof (dn_test _ _ _ _ _ _ _ _ _ D) as Sp. pose proof (dn_test _ _ _ _ _ _ _ _ _ D') as Sf. pose proof (dn_test_type _ _ _ _ _ _ _ _ _ D) as Ty.
  assert (If' : interior_family (g_types (fs_grid fine) 2) (fs_family fine)) by (rewrite Eg, Ty; exact If).
  assert (Dim : el_dim (fs_family fs Triangle) = 3%nat) by now rewrite Fa.
  destruct (linear_curls X fs V Sp Ty Dim Li Fl fine Sf Eg If' (constants_add reals 1 reals_ring fine Co)) as (C & HC & HU).
  destruct (laplace_curls R R reals X rt wmod G H o deg pts Triangle fs fs fine fine C C reals_exact' L EH D D' HC HC) as (m & fm & e & E & E' & He & Hm).
  set (w := three_products reals C C (global_size (fs_space fine)) (global_size (fs_space fine)) e).
  exists m, fm, w, e. do 2 (split; [assumption|]). split; [exact Hm|]. split; [exact He|]. split; [|split].
  - intros Se. exact (product_semidefinite C (global_size (fs_space fine)) (global_size (fs_space fs)) e Se).
  - intros Sy i j _ _. now apply product_symmetric.
  - intros De Pr Cn x. 
    assert (Dimf : forall t, In t (g_types (fs_grid fine) 2) -> (0 < el_dim (fs_family fine t))%nat) by (intros t Ht; rewrite (co_dim _ _ _ Co t Ht); lia).
    pose proof (no_curls X fs fine V C Sp Ty Fa Fl Sf Eg Dimf HU x Pr Cn) as N.
    pose proof (product_definite C (global_size (fs_space fine)) (global_size (fs_space fs)) e x De) as P.
    assert (P' : form (global_size (fs_space fs)) w x = 0 <-> exists a, forall i, (i < global_size (fs_space fs))%nat -> x i = a) by (unfold w; rewrite P; exact N).
    split; [exact P'|]. split.
    + intros Z. apply P'. rewrite form_times. apply (total_zero reals 1 reals_ring). intros k Hk. apply in_seq in Hk. rewrite Z by lia. cbn. ring.
    + intros A i _. apply (product_times C). apply N. exact A.
Qed.
