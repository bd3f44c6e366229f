(** * The rims of the shapes *)
From Coq Require Import Reals Lra Psatz Permutation.
From Verif Require Import Base BaseFacts Topology TopologyFacts DofMap SpecDof Process Space Options SpecOptions Scalar Integrand CellPair Operators SpecLocal Interleave Assembly SpecAssembly
  Shapes SpecShapes SphereFacts SphereSurface SphereResults ScreenFacts ScreenEdges SpecSphere SpecScreen ScreenGeometry SpecWidth WidthResults SpecVolume VolumeResults AdjacencyFacts CountsSphere SpecDigits DigitsFacts
  SpecNested NestedResults SpecSymmetry SpecAutomorphism SpecTurns SpecShift SpecToeplitz
  SpecConvex ConvexSphere ConvexResults GaussResults OptionsResults Adjacency SpecAdjacency AdjacencyExamples AssemblyResults AssemblyDense SpecShapeSpaces ShapeSpacesResults ShapesResults SpecAlgebra SpecRounding SpecGalerkin
  SpecOperators DimensionResults LocalResults SpecCounts CountsResults TestsResults SpecTransfer SpecMeasure SpecShare SphereGeometry SpecFloatSphere FloatSphere FloatSphereNear FloatSphereError SpecWaves SpecDecay DecayResults DecayPoints SpecMoments MomentResults MomentShapes
  SpecDefinite DefiniteResults DefiniteShapes SpecRims RimKernel RimResults.

Local Open Scope R_scope.
Local Notation dist := SpecWaves.distance.
Local Notation vtotal := SpecVolume.vtotal.

(** ** Closed rims *)

Lemma triple_eq (a b c a' b' c' : R) : a = a' -> b = b' -> c = c' -> (a, b, c) = (a', b', c').
Proof. congruence. Qed.

Section Rim.
Context (V : nat -> vec) (z : nat) (cells : list (list nat)).
Context (Cell : forall c, In c cells -> exists a b d, c = [a; b; d] /\ a <> b /\ b <> d /\ a <> d).
Context (Once : NoDup (flat_map directed_edges cells)).
Context (Both : forall u v, u = z \/ v = z -> In (u, v) (flat_map directed_edges cells) -> In (v, u) (flat_map directed_edges cells)).

Notation edges := (flat_map directed_edges cells).
Notation spoke := (fun e : nat * nat => (fst e =? z) || (snd e =? z))%bool.
Notation f := (fun e : nat * nat => vsub (if (fst e =? z)%nat then V (snd e) else origin) (if (snd e =? z)%nat then V (fst e) else origin)).

Lemma spokes_reversed : Permutation (filter spoke edges) (map (fun e => (snd e, fst e)) (filter spoke edges)).
Proof.
  assert (ND : NoDup (filter spoke edges)) by now apply NoDup_filter.
  assert (G : forall u v, In (u, v) (filter spoke edges) -> In (v, u) (filter spoke edges)).
  { intros u v H. apply filter_In in H. destruct H as (H & S). cbn in S. apply filter_In. split.
    - apply Both; auto. apply Bool.orb_true_iff in S. rewrite !Nat.eqb_eq in S. exact S.
    - cbn. now rewrite Bool.orb_comm. }
  apply NoDup_Permutation; [exact ND| |].
  - apply NoDup_map_inj_in; [|exact ND]. intros [a b] [a' b'] _ _ E. cbn in E. injection E as -> ->. auto.
  - intros [u v]. rewrite in_map_iff. split.
    + intros H. exists (v, u). auto.
    + intros ([a b] & E & H). cbn in E. injection E as <- <-. now apply G.
Qed.

Lemma spokes_only l : vtotal f l = vtotal f (filter spoke l).
Proof.
  induction l as [|[a b] l IH]; [reflexivity|]. cbn [filter]. rewrite vtotal_cons, IH. cbn [fst snd].
  destruct (a =? z)%nat eqn:A; cbn [orb]; [rewrite vtotal_cons; cbn [fst snd]; now rewrite A|].
  destruct (b =? z)%nat eqn:B; cbn [orb]; [rewrite vtotal_cons; cbn [fst snd]; now rewrite A, B|].
  replace (vsub origin origin) with origin; [apply vadd_origin|]. unfold origin. cbn. f_equal; [f_equal|]; ring.
Qed.

Lemma rim_closed : fold_right vadd origin (map (edge_opposite V z) cells) = origin.
Proof.
  assert (T : fold_right vadd origin (map (edge_opposite V z) cells) = vtotal f edges).
  { rewrite vtotal_flat. clear Once Both. induction cells as [|c l IH]; [reflexivity|]. cbn [map fold_right]. rewrite vtotal_cons, IH by (intros; apply Cell; now right). f_equal.
    destruct (Cell c) as (a & b & d & -> & N1 & N2 & N3); [now left|]. unfold directed_edges, edge_opposite, vtotal. cbn [tl firstn app combine fold_right fst snd].
    rewrite (Nat.eqb_sym a z), (Nat.eqb_sym b z), (Nat.eqb_sym d z).
    destruct (z =? a)%nat eqn:A, (z =? b)%nat eqn:B, (z =? d)%nat eqn:D; rewrite ?Nat.eqb_eq, ?Nat.eqb_neq in *; try (exfalso; congruence);
      destruct (V a) as [[? ?] ?], (V b) as [[? ?] ?], (V d) as [[? ?] ?]; unfold origin; cbn; apply triple_eq; ring. }
  rewrite T, spokes_only.
  assert (U : vtotal f (filter spoke edges) = vscale (-1) (vtotal f (filter spoke edges))).
  { rewrite (vtotal_perm f _ _ spokes_reversed) at 1. rewrite vtotal_map, <- vtotal_scale. apply vtotal_ext. intros [u v] _. cbn [fst snd].
    destruct (u =? z)%nat, (v =? z)%nat, (V u) as [[? ?] ?], (V v) as [[? ?] ?]; unfold origin; cbn; apply triple_eq; ring. }
  destruct (vtotal f (filter spoke edges)) as [[x y] w]. cbn in U. injection U as Tx Ty Tz. unfold origin. f_equal; [f_equal|]; lra.
Qed.
End Rim.

(** ** Edges of at most this length, six cells at most *)

Section Uniform.
Context (g : grid) (V : nat -> vec) (h : R).
Context (Cells : forall c, In c (vertex_lists g) -> exists u v w, c = [u; v; w] /\ dist (V u) (V v) <= h /\ dist (V v) (V w) <= h /\ dist (V w) (V u) <= h).

Lemma dist_self p : dist p p = 0.
Proof. rewrite dist_vlen. unfold vlen. rewrite <- sqrt_0. f_equal. destruct p as [[? ?] ?]. unfold norm2. cbn. ring. Qed.

Lemma edge_positive c : In c (vertex_lists g) -> 0 <= h.
Proof. intros Hc. destruct (Cells c Hc) as (u & v & w & _ & A & _). rewrite dist_vlen in A. pose proof (vlen_nonneg (vsub (V u) (V v))). lra. Qed.

Lemma uniform_reach z : reach g V z h.
Proof.
  intros c x Hc Hz Hx. pose proof (edge_positive c Hc). destruct (Cells c Hc) as (u & v & w & -> & A & B & C).
  pose proof (dist_sym (V u) (V v)). pose proof (dist_sym (V v) (V w)). pose proof (dist_sym (V w) (V u)).
  pose proof (dist_self (V u)). pose proof (dist_self (V v)). pose proof (dist_self (V w)).
  cbn [In] in Hz, Hx. destruct Hz as [<-|[<-|[<-|[]]]]; destruct Hx as [<-|[<-|[<-|[]]]]; lra.
Qed.

Lemma edge_opposite_length z c : In c (vertex_lists g) -> dist (edge_opposite V z c) origin <= if memb z c then h else 0.
Proof.
  intros Hc. destruct (Cells c Hc) as (u & v & w & -> & A & B & C).
  assert (M : forall p q, dist (vsub p q) origin = dist p q).
  { intros p q. rewrite !dist_vlen. f_equal. destruct p as [[? ?] ?], q as [[? ?] ?]. unfold origin. cbn. f_equal; [f_equal|]; ring. }
  unfold edge_opposite, memb. cbn [existsb].
  destruct (z =? u)%nat; [cbn [orb]; now rewrite M|]. destruct (z =? v)%nat; [cbn [orb]; now rewrite M|]. destruct (z =? w)%nat; [cbn [orb]; now rewrite M|].
  cbn [orb]. rewrite dist_self. lra.
Qed.

Lemma uniform_rim z : (valence (vertex_lists g) z <= 6)%nat -> 0 <= h -> half_rim g V z <= 3 * h.
Proof.
  intros Hv Hh. unfold half_rim.
  assert (S : forall l, (forall c, In c l -> In c (vertex_lists g)) -> fold_right Rplus 0 (map (fun c => dist (edge_opposite V z c) origin) l) <= INR (cnt (memb z) l) * h).
  { induction l as [|c l IH]; intros Hl; [cbn; lra|]. rewrite cnt_cons. cbn [map fold_right]. pose proof (edge_opposite_length z c (Hl c (or_introl eq_refl))) as B.
    specialize (IH (fun x Hx => Hl x (or_intror Hx))). rewrite plus_INR. destruct (memb z c); cbn [INR]; lra. }
  specialize (S _ (fun c H => H)). apply le_INR in Hv. unfold valence in Hv. cbn [INR] in Hv. nra.
Qed.
End Uniform.

(** ** Sphere *)

Section Sphere.
Context (level : nat) (id : nat) (b : builder vec) (E : regular_sphere real_numbers level 1 = Ok b).
Notation g := (built_grid id Triangle b).
Notation V := (SpecSphere.position (points_of b)).
Notation h := (sqrt (6 / (4 ^ level + 2))).

Lemma sphere_is_surface : surface (length (points_of b)) (cells_of b).
Proof. destruct (sphere_regular real_numbers level) as (b' & E' & SU & _). rewrite E in E'. injection E' as <-. exact SU. Qed.

Lemma sphere_rim z : closed_rim g V z.
Proof.
  unfold closed_rim. rewrite built_lists by now left. pose proof sphere_is_surface as SU.
  apply rim_closed.
  - intros c Hc. destruct (su_cell _ _ SU c Hc) as (a & b' & d & -> & _ & N). eauto.
  - apply NoDup_flat_map; [apply (su_nodup _ _ SU)| |].
    + intros c Hc. destruct (su_cell _ _ SU c Hc) as (a & b' & d & -> & B & N1 & N2 & N3). cbn.
      repeat constructor; cbn; intros C; repeat (destruct C as [C|C]; [injection C as C|]); try contradiction; congruence.
    + intros c c' e Hc Hc'. now apply (su_edge _ _ SU).
  - intros u v _ H. apply in_flat_map in H. destruct H as (c & Hc & He). destruct (su_closed _ _ SU c u v Hc He) as (c' & Hc' & He'). apply in_flat_map. eauto.
Qed.

Lemma sphere_valence z : (valence (vertex_lists g) z <= 6)%nat.
Proof.
  rewrite built_lists by now left. destruct (sphere_regular real_numbers level) as (b' & E' & SU & _ & _ & Rg & _). rewrite E in E'. injection E' as <-.
  destruct (Nat.lt_ge_cases z (length (@points_of vec b))) as [Hz|Hz].
  - change (valence (@cells_of vec b) z <= 6)%nat. assert (K : valence (@cells_of vec b) z = if (z <? 6)%nat then 4%nat else 6%nat) by exact (Rg z Hz). rewrite K. destruct (z <? 6)%nat; lia.
  - change (valence (@cells_of vec b) z <= 6)%nat. unfold valence, cnt. rewrite (proj2 (length_zero_iff_nil _)); [lia|].
    destruct (filter (memb z) (@cells_of vec b)) as [|c l] eqn:F; [reflexivity|]. exfalso. assert (I : In c (c :: l)) by now left. rewrite <- F in I. apply filter_In in I. destruct I as (I & M).
    apply memb_In in M. destruct (su_cell _ _ SU c I) as (x & y & w & -> & B & _). cbn [In] in M. change (vec3 real_numbers) with vec in B. intuition lia.
Qed.

Lemma sphere_edges c : In c (vertex_lists g) -> exists u v w, c = [u; v; w] /\ dist (V u) (V v) <= h /\ dist (V v) (V w) <= h /\ dist (V w) (V u) <= h.
Proof.
  rewrite built_lists by now left. intros Hc. destruct (su_cell _ _ sphere_is_surface c Hc) as (u & v & w & -> & (Bu & Bv & Bw) & _).
  exists u, v, w. split; [reflexivity|].
  assert (Pt : forall x, (x < length (points_of b))%nat -> nth_error (points_of b) x = Some (V x)) by (intros x Hx; now apply nth_error_nth').
  assert (L : forall x y, (x < length (points_of b))%nat -> (y < length (points_of b))%nat -> In (x, y) (directed_edges [u; v; w]) -> dist (V x) (V y) <= h).
  { intros x y Hx Hy He. rewrite dist_vlen. apply (edge_length level b E). exists [u; v; w], x, y. auto. }
  split; [|split]; apply L; auto; cbn; auto.
Qed.

Lemma sphere_rims z : closed_rim g V z /\ half_rim g V z <= 3 * h /\ reach g V z h.
Proof.
  split; [apply sphere_rim|]. split; [|apply uniform_reach, sphere_edges].
  apply uniform_rim; [apply sphere_edges|apply sphere_valence|apply sqrt_pos].
Qed.
End Sphere.

(** ** Screens *)

Section Screen.
Context (n : nat) (id : nat) (b : builder (nat * nat)) (E : screen_triangles n = Ok b).
Notation g := (built_grid id Triangle b).
Notation V := (SpecSphere.position (screen_positions n b)).
Notation h := (sqrt 2 / INR (n + 1)).

Lemma screen_size : (n <> 0)%nat.
Proof. intros ->. discriminate. Qed.

Lemma screen_lists : vertex_lists g = triangle_cells n.
Proof.
  destruct (screen_triangles_spec n screen_size) as (b' & E' & P & C & _). rewrite E in E'. injection E' as <-.
  rewrite built_lists by now left. unfold cells_of. rewrite C. apply map_snd_enumerate.
Qed.

Lemma edge_cases e : In e (flat_map directed_edges (triangle_cells n)) <-> exists x y, (x < n /\ y < n)%nat /\
  let p := (y * (n + 1) + x)%nat in
  (e = (p, p + 1) \/ e = (p + 1, p + n + 2) \/ e = (p + n + 2, p) \/ e = (p, p + n + 2) \/ e = (p + n + 2, p + n + 1) \/ e = (p + n + 1, p))%nat.
Proof.
  rewrite in_flat_map. split.
  - intros (c & Hc & He). apply In_triangle_cells in Hc. destruct Hc as (x & y & Hx & Hy & [-> | ->]); exists x, y; (split; [auto|]); cbn in He |- *; intuition auto.
  - intros (x & y & (Hx & Hy) & He). cbv zeta in He.
    assert (L : In (lower n x y) (triangle_cells n)) by (apply In_triangle_cells; exists x, y; auto).
    assert (U : In (upper n x y) (triangle_cells n)) by (apply In_triangle_cells; exists x, y; auto).
    destruct He as [->|[->|[->|[->|[->| ->]]]]]; [exists (lower n x y)|exists (lower n x y)|exists (lower n x y)|exists (upper n x y)|exists (upper n x y)|exists (upper n x y)]; (split; [assumption|]); cbn; auto.
Qed.

Lemma screen_edges_once : NoDup (flat_map directed_edges (triangle_cells n)).
Proof.
  pose proof screen_size as Hn. apply NoDup_flat_map; [apply triangles_NoDup| |].
  - intros c Hc. apply In_triangle_cells in Hc. destruct Hc as (x & y & Hx & Hy & [-> | ->]); cbn;
      repeat constructor; cbn; intros C; repeat (destruct C as [C|C]; [injection C as C|]); try contradiction; lia.
  - intros c c' e Hc Hc' He He'. apply In_triangle_cells in Hc, Hc'. destruct Hc as (x & y & Hx & Hy & Ec), Hc' as (x' & y' & Hx' & Hy' & Ec').
    assert (S : (y * (n + 1) + x = y' * (n + 1) + x')%nat -> x = x' /\ y = y') by (intros K; apply (id_inj n) in K; [exact K|lia|lia]).
    destruct e as [u v]. destruct Ec as [-> | ->], Ec' as [-> | ->]; cbn in He, He';
      (destruct He as [He|[He|[He|[]]]]; injection He as <- <-); (destruct He' as [He'|[He'|[He'|[]]]]; injection He' as K1 K2);
      solve [exfalso; lia | (destruct S as (-> & ->); [lia|reflexivity])].
Qed.

Lemma screen_rim x y : (0 < x < n)%nat -> (0 < y < n)%nat -> closed_rim g V (y * (n + 1) + x).
Proof.
  intros Hx Hy. unfold closed_rim. rewrite screen_lists. pose proof screen_size as Hn. apply rim_closed.
  - intros c Hc. apply In_triangle_cells in Hc. destruct Hc as (i & j & Hi & Hj & [-> | ->]); do 3 eexists; (split; [reflexivity|]); lia.
  - apply screen_edges_once.
  - intros u v T H. apply edge_cases in H. destruct H as (i & j & (Hi & Hj) & H). apply edge_cases.
    assert (S : forall i' j', (i' <= n)%nat -> (j' * (n + 1) + i' = y * (n + 1) + x)%nat -> i' = x /\ j' = y) by (intros i' j' Hi' K; apply (id_inj n) in K; [exact K|lia|lia]).
    assert (S00 := S i j ltac:(lia)). assert (S10 := S (i + 1)%nat j ltac:(lia)). assert (S01 := S i (j + 1)%nat ltac:(lia)). assert (S11 := S (i + 1)%nat (j + 1)%nat ltac:(lia)). clear S.
    cbv zeta in H. destruct H as [H|[H|[H|[H|[H|H]]]]]; injection H as -> ->.
    + assert (j = y) by (destruct T as [T|T]; [apply S00|apply S10]; lia). exists i, (j - 1)%nat. split; [lia|]. cbv zeta. assert (j * (n + 1) = (j - 1) * (n + 1) + (n + 1))%nat by nia. do 4 right. left. f_equal; lia.
    + assert (i + 1 = x)%nat by (destruct T as [T|T]; [apply S10|apply S11]; lia). exists (i + 1)%nat, j. split; [lia|]. cbv zeta. do 5 right. f_equal; lia.
    + exists i, j. split; [lia|]. cbv zeta. do 3 right. left. reflexivity.
    + exists i, j. split; [lia|]. cbv zeta. do 2 right. left. reflexivity.
    + assert (j + 1 = y)%nat by (destruct T as [T|T]; [apply S11|apply S01]; lia). exists i, (j + 1)%nat. split; [lia|]. cbv zeta. left. f_equal; lia.
    + assert (i = x)%nat by (destruct T as [T|T]; [apply S01|apply S00]; lia). exists (i - 1)%nat, j. split; [lia|]. cbv zeta. right. left. f_equal; lia.
Qed.

Lemma screen_place x y : (x <= n)%nat -> (y <= n)%nat -> V (y * (n + 1) + x) = (INR x / INR (n + 1), INR y / INR (n + 1), 0).
Proof.
  intros Hx Hy. destruct (screen_triangles_spec n screen_size) as (b' & E' & P & C & _). rewrite E in E'. injection E' as <-.
  assert (Pts : points_of b = square_points (n + 1)) by (unfold points_of; rewrite P; apply map_snd_enumerate).
  unfold SpecSphere.position, screen_positions. rewrite Pts. apply nth_error_nth. erewrite map_nth_error; [|apply square_point_at; lia]. reflexivity.
Qed.

Lemma short_edge (a a' c c' : nat) : (a <= a' + 1)%nat -> (a' <= a + 1)%nat -> (c <= c' + 1)%nat -> (c' <= c + 1)%nat ->
  dist (INR a / INR (n + 1), INR c / INR (n + 1), 0) (INR a' / INR (n + 1), INR c' / INR (n + 1), 0) <= h.
Proof.
  intros H1 H2 H3 H4. assert (P : 0 < INR (n + 1)) by (apply lt_0_INR; lia).
  apply le_INR in H1, H2, H3, H4. rewrite plus_INR in H1, H2, H3, H4. cbn [INR] in H1, H2, H3, H4.
  rewrite dist_vlen. unfold vlen. replace h with (sqrt (2 / (INR (n + 1) * INR (n + 1)))).
  - apply sqrt_le_1_alt. unfold norm2. cbn [vsub inner]. set (k := INR (n + 1)) in *. clearbody k.
    replace (_ + _ + _) with (((INR a - INR a') * (INR a - INR a') + (INR c - INR c') * (INR c - INR c')) / (k * k)) by (field; lra).
    apply Rmult_le_compat_r; [left; apply Rinv_0_lt_compat; nra|]. nra.
  - rewrite sqrt_div_alt by nra. rewrite sqrt_square by lra. reflexivity.
Qed.

Lemma screen_edges c : In c (vertex_lists g) -> exists u v w, c = [u; v; w] /\ dist (V u) (V v) <= h /\ dist (V v) (V w) <= h /\ dist (V w) (V u) <= h.
Proof.
  rewrite screen_lists. intros Hc. apply In_triangle_cells in Hc. destruct Hc as (x & y & Hx & Hy & Ec).
  assert (E10 : (y * (n + 1) + x + 1 = y * (n + 1) + (x + 1))%nat) by lia.
  assert (E01 : (y * (n + 1) + x + n + 1 = (y + 1) * (n + 1) + x)%nat) by lia.
  assert (E11 : (y * (n + 1) + x + n + 2 = (y + 1) * (n + 1) + (x + 1))%nat) by lia.
  destruct Ec as [-> | ->]; do 3 eexists; (split; [reflexivity|]); rewrite ?E10, ?E01, ?E11, !screen_place by lia; (split; [|split]); apply short_edge; lia.
Qed.

Lemma screen_reach z : half_rim g V z <= 3 * h /\ reach g V z h.
Proof.
  split; [|apply uniform_reach, screen_edges]. apply uniform_rim; [apply screen_edges|rewrite screen_lists; apply triangle_valence|].
  apply Rmult_le_pos; [apply sqrt_pos|]. left. apply Rinv_0_lt_compat, lt_0_INR. lia.
Qed.
End Screen.

(** ** Assembly *)

Lemma half_rim_nonneg g V z : 0 <= half_rim g V z.
Proof.
  unfold half_rim. assert (0 <= fold_right Rplus 0 (map (fun c => dist (edge_opposite V z c) origin) (vertex_lists g))); [|lra].
  induction (vertex_lists g) as [|c l IH]; cbn [map fold_right]; [lra|]. rewrite dist_vlen. pose proof (vlen_nonneg (vsub (edge_opposite V z c) origin)). lra.
Qed.

Section Assembled.
Context (X : externals R) (rt : runtime R) (wmod : nat) (e : R) (calls : list setter) (g : grid) (V : nat -> vec) (h : R) (test trial : fspace R R).
Context (Legal : legal_runtime Rplus rt) (Shape : shape_grid g) (Types : g_types g 2 = [Triangle]) (Rules : proper_rules X) (Exist : rules_exist X Triangle (after calls)).
Context (Batch : (0 < get_batch_size (after calls) < wmod)%nat) (Fits : (2 * ent_count g 2 * ent_count g 2 <= wmod)%nat).
Context (HX : positive_externals (Rle 0) X) (Inside : inside_rules X Triangle) (Ex : exact_constants X Triangle).
Context (Flat : flat_triangles X g V) (Proper : proper_triangles g V) (Rims : forall z, half_rim g V z <= 3 * h /\ reach g V z h).
Context (Made : made_on g (lagrange 1) test) (Made' : made_on g (lagrange 1) trial) (Linear : linear_functions test) (Linear' : linear_functions trial).

Lemma scaled (c r : R) : 0 <= c -> 0 <= r <= 9 * (h * h) -> forall v, Rabs v <= c * r -> Rabs v <= 9 * (h * h) * c.
Proof. intros Hc Hr v H. nra. Qed.

Lemma shape_decay : exists m, assemble reals X rt wmod (laplace_hypersingular (newton e)) (after calls) trial test = Ok m /\
  forall z z' i j, listed (sp_dofmap (fs_space test)) 0 z 0 i -> listed (sp_dofmap (fs_space trial)) 0 z' 0 j ->
    let d := dist (V z) (V z') - 2 * h in 0 < d ->
    exists v, nth_error m (i + global_size (fs_space test) * j) = Some v /\ Rabs v <= 9 * (h * h) * (1 / (4 * PI * d)) /\
      (closed_rim g V z \/ closed_rim g V z' -> Rabs v <= 9 * (h * h) * (h / (4 * PI * (d * d)))) /\
      (closed_rim g V z -> closed_rim g V z' -> Rabs v <= 9 * (h * h) * (h * h / (2 * PI * (d * d * d)))).
Proof.
  destruct (made_settings X wmod calls g Triangle Shape Types Rules Exist Batch Fits) as (deg & pts & D).
  assert (St : standard (lagrange 1)) by (constructor; lia).
  pose proof (D (laplace_hypersingular (newton e)) _ _ test trial St St Made Made' (sh_laplace_hyper reals (newton e))) as D1.
  pose proof (mo_grid _ _ _ Made) as Gu. pose proof (mo_grid _ _ _ Made') as Gv.
  destruct (hypersingular_decay X wmod e (after calls) deg pts test trial V D1 HX Inside Ex) with (rt := rt) as (m & Em & H); auto; try (rewrite ?Gu, ?Gv; auto; fail).
  - exact (mo_family _ _ _ Made).
  - exact (mo_family _ _ _ Made').
  - exists m. split; [exact Em|]. intros z z' i j Lz Lz' d Hd. rewrite Gu in H.
    destruct (Rims z) as (R1 & R2), (Rims z') as (R3 & R4).
    assert (Hd' : 0 < dist (V z) (V z') - (h + h)) by (unfold d in Hd; lra).
    destruct (H z z' i j h h Lz Lz' R2 R4 Hd') as (v & Ev & B1 & B2 & B3 & B4). clear H.
    replace (dist (V z) (V z') - (h + h)) with d in * by (unfold d; ring).
    assert (Pr : 0 <= half_rim g V z * half_rim g V z' <= 9 * (h * h)).
    { pose proof (half_rim_nonneg g V z). pose proof (half_rim_nonneg g V z'). nra. }
    assert (Hh : 0 <= h) by (pose proof (half_rim_nonneg g V z); lra). pose proof PI_RGT_0.
    assert (P2 : 0 < 4 * PI * d) by (apply Rmult_lt_0_compat; lra).
    assert (P3 : 0 < 4 * PI * (d * d)) by (apply Rmult_lt_0_compat; [lra|nra]).
    assert (P4 : 0 < 2 * PI * (d * d * d)) by (apply Rmult_lt_0_compat; [lra|]; repeat apply Rmult_lt_0_compat; lra).
    assert (Q : forall a b, 0 <= a -> 0 < b -> 0 <= a / b) by (intros; apply Rmult_le_pos; [assumption|left; now apply Rinv_0_lt_compat]).
    exists v. split; [exact Ev|]. split; [|split].
    + eapply scaled; [apply Q; [lra|exact P2]|exact Pr|exact B1].
    + intros [C|C]; (eapply scaled; [apply Q; [exact Hh|exact P3]|exact Pr|]); [apply B2|apply B3]; exact C.
    + intros C C'. eapply scaled; [apply Q; [nra|exact P4]|exact Pr|now apply B4].
Qed.
End Assembled.

Theorem sphere_decay : forall (X : externals R) rt wmod e calls level id (b : builder vec) (test trial : fspace R R),
  legal_runtime Rplus rt -> regular_sphere real_numbers level 1 = Ok b -> flat_cells X (built_grid id Triangle b) b -> proper_rules X -> rules_exist X Triangle (after calls) ->
  (0 < get_batch_size (after calls) < wmod)%nat -> (2 * length (cells_of b) * length (cells_of b) <= wmod)%nat ->
  positive_externals (Rle 0) X -> inside_rules X Triangle -> exact_constants X Triangle ->
  made_on (built_grid id Triangle b) (lagrange 1) test -> made_on (built_grid id Triangle b) (lagrange 1) trial -> linear_functions test -> linear_functions trial ->
  exists m, assemble reals X rt wmod (laplace_hypersingular (newton e)) (after calls) trial test = Ok m /\
  forall z z' i j, listed (sp_dofmap (fs_space test)) 0 z 0 i -> listed (sp_dofmap (fs_space trial)) 0 z' 0 j ->
    let h := sqrt (6 / (4 ^ level + 2)) in
    let d := dist (SpecSphere.position (points_of b) z) (SpecSphere.position (points_of b) z') - 2 * h in 0 < d ->
    exists v, nth_error m (i + global_size (fs_space test) * j) = Some v /\ Rabs v <= 162 / (PI * (4 ^ level + 2) ^ 2 * d ^ 3).
Proof.
  intros X rt wmod e calls level id b test trial L E Fl Pr Re Ba Fi HX Ins Ex Mt Ms Lt Ls.
  assert (Ec : ent_count (built_grid id Triangle b) 2 = length (cells_of b)).
  { destruct (sphere_cells level id b E) as (Nc & _). exact Nc. }
  destruct (shape_decay X rt wmod e calls (built_grid id Triangle b) (SpecSphere.position (points_of b)) (sqrt (6 / (4 ^ level + 2))) test trial) as (m & Em & H); auto.
  - exact (shape_sphere real_numbers level id b E).
  - now rewrite Ec.
  - exact (sphere_flat level id b E X Fl).
  - exact (sphere_proper level id b E).
  - intros z. destruct (sphere_rims level id b E z) as (_ & K). exact K.
  - exists m. split; [exact Em|]. intros z z' i j Lz Lz' h d Hd. destruct (H z z' i j Lz Lz' Hd) as (v & Ev & _ & _ & B). exists v. split; [exact Ev|].
    eapply Rle_trans; [apply B; apply (sphere_rims level id b E)|]. right. fold h. fold d. assert (P : 0 < 4 ^ level) by (apply pow_lt; lra).
    assert (Sq : h * h = 6 / (4 ^ level + 2)) by (apply sqrt_sqrt; left; apply Rdiv_lt_0_compat; lra). rewrite Sq. pose proof PI_RGT_0. field. split; [|split]; lra.
Qed.

Theorem screen_decay : forall (X : externals R) rt wmod e calls n id (b : builder (nat * nat)) (test trial : fspace R R),
  legal_runtime Rplus rt -> screen_triangles n = Ok b -> flat_screen n X (built_grid id Triangle b) b -> proper_rules X -> rules_exist X Triangle (after calls) ->
  (0 < get_batch_size (after calls) < wmod)%nat -> (2 * length (cells_of b) * length (cells_of b) <= wmod)%nat ->
  positive_externals (Rle 0) X -> inside_rules X Triangle -> exact_constants X Triangle ->
  made_on (built_grid id Triangle b) (lagrange 1) test -> made_on (built_grid id Triangle b) (lagrange 1) trial -> linear_functions test -> linear_functions trial ->
  exists m, assemble reals X rt wmod (laplace_hypersingular (newton e)) (after calls) trial test = Ok m /\
  forall x y x' y' i j, (x <= n)%nat -> (y <= n)%nat -> (x' <= n)%nat -> (y' <= n)%nat ->
    listed (sp_dofmap (fs_space test)) 0 (y * (n + 1) + x) 0 i -> listed (sp_dofmap (fs_space trial)) 0 (y' * (n + 1) + x') 0 j ->
    let k := INR (n + 1) in
    let d := sqrt ((INR x - INR x') ^ 2 + (INR y - INR y') ^ 2) - 2 * sqrt 2 in 0 < d ->
    let inner_vertex a c := (0 < a < n /\ 0 < c < n)%nat in
    exists v, nth_error m (i + global_size (fs_space test) * j) = Some v /\ Rabs v <= 9 / (2 * PI * d * k) /\
      (inner_vertex x y \/ inner_vertex x' y' -> Rabs v <= 9 * sqrt 2 / (2 * PI * d ^ 2 * k)) /\
      (inner_vertex x y -> inner_vertex x' y' -> Rabs v <= 18 / (PI * d ^ 3 * k)).
Proof.
  intros X rt wmod e calls n id b test trial L E Fl Pr Re Ba Fi HX Ins Ex Mt Ms Lt Ls.
  assert (Ec : ent_count (built_grid id Triangle b) 2 = length (cells_of b)).
  { unfold ent_count. cbn. rewrite Nat.add_0_r, map_length. unfold cells_of. now rewrite map_length. }
  destruct (shape_decay X rt wmod e calls (built_grid id Triangle b) (SpecSphere.position (screen_positions n b)) (sqrt 2 / INR (n + 1)) test trial) as (m & Em & H); auto.
  - exact (shape_triangles n id b E).
  - now rewrite Ec.
  - exact (screen_flat n id b E X Fl).
  - exact (screen_proper n id b E).
  - intros z. exact (screen_reach n id b E z).
  - exists m. split; [exact Em|]. intros x y x' y' i j Hx Hy Hx' Hy' Lz Lz' k d Hd iv.
    specialize (H _ _ i j Lz Lz'). rewrite !(screen_place n b E) in H by assumption. cbv zeta in H. fold k in H.
    assert (Pk : 0 < k) by (apply lt_0_INR; lia). pose proof PI_RGT_0.
    assert (Ed : dist (INR x / k, INR y / k, 0) (INR x' / k, INR y' / k, 0) - 2 * (sqrt 2 / k) = d / k).
    { rewrite dist_vlen. unfold vlen, norm2. cbn [vsub Scalar.s_add]. unfold d. rewrite Rdiv_minus_distr.
      replace (2 * (sqrt 2 / k)) with (2 * sqrt 2 / k) by (field; lra). f_equal.
      replace (inner _ _) with (((INR x - INR x') ^ 2 + (INR y - INR y') ^ 2) / (k * k)) by (cbn; field; lra).
      rewrite sqrt_div_alt by nra. now rewrite sqrt_square by lra. }
    rewrite Ed in H. assert (Sq : sqrt 2 * sqrt 2 = 2) by (apply sqrt_sqrt; lra).
    destruct H as (v & Ev & B1 & B2 & B3); [now apply Rdiv_lt_0_compat|]. exists v. split; [exact Ev|].
    assert (Hh : sqrt 2 / k * (sqrt 2 / k) = 2 / (k * k)) by (replace (sqrt 2 / k * (sqrt 2 / k)) with (sqrt 2 * sqrt 2 / (k * k)) by (field; lra); now rewrite Sq).
    rewrite Hh in *. split; [|split].
    + eapply Rle_trans; [exact B1|]. right. field. repeat split; lra.
    + intros I. eapply Rle_trans; [apply B2|right; field; repeat split; lra].
      destruct I as [(I1 & I2)|(I1 & I2)]; [left|right]; now apply (screen_rim n id b E).
    + intros (I1 & I2) (J1 & J2). eapply Rle_trans; [apply B3; now apply (screen_rim n id b E)|]. right. field. repeat split; lra.
Qed.
