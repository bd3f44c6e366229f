(** * The shapes are connected, and their triangles are proper *)
From Coq Require Import Reals Lra.
From Verif Require Import Base BaseFacts Topology TopologyFacts DofMap SpecDof Process Space Options SpecOptions Scalar Integrand CellPair Operators SpecLocal Interleave Assembly SpecAssembly
  Shapes SpecShapes SphereFacts SphereResults ScreenFacts SpecSphere SpecScreen ScreenGeometry SpecWidth SpecNested NestedResults SpecSymmetry SpecAutomorphism SpecTurns SpecShift SpecToeplitz
  SpecConvex ConvexSphere ConvexResults GaussResults SpecOptions OptionsResults Adjacency SpecAdjacency AdjacencyExamples AssemblyResults AssemblyDense SpecShapeSpaces ShapeSpacesResults ShapesResults SpecAlgebra SpecRounding SpecGalerkin
  SpecOperators DimensionResults LocalResults SpecCounts CountsResults TestsResults SpecDefinite DefiniteResults.

Local Open Scope nat_scope.

(** ** Chains *)

Section Chains.
Context (cells : list (list nat)).

Lemma chain_trans u v w : chain cells u v -> chain cells v w -> chain cells u w.
Proof. intros H K. induction K as [|v w x c K IH Hc Hw Hx]; [exact H|]. exact (chain_step _ _ w _ c (IH H) Hc Hw Hx). Qed.

Lemma chain_cell c u v : In c cells -> In u c -> In v c -> chain cells u v.
Proof. intros Hc Hu Hv. exact (chain_step _ _ u _ c (chain_refl _ u) Hc Hu Hv). Qed.

Lemma chain_sym u v : chain cells u v -> chain cells v u.
Proof.
  intros H. induction H as [|u v w c H IH Hc Hv Hw]; [constructor|]. apply (chain_trans w v u); [|exact IH]. now apply (chain_cell c).
Qed.

Lemma connected_to r : (forall c v, In c cells -> In v c -> chain cells r v) -> connected cells.
Proof. intros H c d u v Hc Hd Hu Hv. apply (chain_trans u r v); [apply chain_sym|]; eauto. Qed.
End Chains.

(** ** Sphere *)

Lemma octahedron_connected : connected octahedron_cells.
Proof.
  apply (connected_to _ 1).
  assert (A : forall v, In v [0; 1; 2; 4; 5] -> chain octahedron_cells 1 v).
  { intros v Hv. cbn [In] in Hv. destruct Hv as [<-|[<-|[<-|[<-|[<-|[]]]]]].
    - apply (chain_cell _ [0; 1; 2]); cbn; auto.
    - constructor.
    - apply (chain_cell _ [0; 1; 2]); cbn; auto.
    - apply (chain_cell _ [0; 4; 1]); cbn; auto 6.
    - apply (chain_cell _ [5; 2; 1]); cbn; auto 8. }
  assert (B : chain octahedron_cells 1 3).
  { apply (chain_step _ _ 2 _ [0; 2; 3]); [apply A|..]; cbn; auto 6. }
  intros c v Hc Hv. cbn [octahedron_cells In] in Hc.
  assert (C : v = 3 \/ In v [0; 1; 2; 4; 5]).
  { repeat (destruct Hc as [<-|Hc]; [cbn [In] in Hv |- *; intuition auto|]); destruct Hc. }
  destruct C as [->|C]; auto.
Qed.

Lemma quartered_connected m coarse fine : quartered m coarse fine -> length fine = 4 * length coarse -> connected coarse -> connected fine.
Proof.
  intros (Sy & Q) Ln Co.
  assert (A : forall k c, nth_error coarse k = Some c -> exists u v w, c = [u; v; w] /\
    forall x j d, j < 4 -> nth_error fine (4 * k + j) = Some d -> In x d -> chain fine u x /\ (forall y, In y c -> chain fine u y)).
  { intros k c Hk. destruct (Q k c Hk) as (u & v & w & -> & H0 & H1 & H2 & H3). exists u, v, w. split; [reflexivity|].
    pose proof (nth_error_In _ _ H0) as I0. pose proof (nth_error_In _ _ H1) as I1. pose proof (nth_error_In _ _ H2) as I2. pose proof (nth_error_In _ _ H3) as I3.
    assert (U0 : chain fine u (m u v)) by (apply (chain_cell _ _ _ _ I0); cbn; auto).
    assert (U1 : chain fine u (m u w)) by (apply (chain_cell _ _ _ _ I0); cbn; auto).
    assert (U2 : chain fine u (m v w)) by (apply (chain_step _ _ (m u v) _ _ U0 I3); cbn; auto).
    assert (U3 : chain fine u v) by (apply (chain_step _ _ (m v w) _ _ U2 I1); cbn; auto).
    assert (U4 : chain fine u w) by (apply (chain_step _ _ (m u w) _ _ U1 I2); cbn; rewrite (Sy w u); auto).
    assert (Uu : chain fine u u) by constructor.
    intros x j d Hj Hd Hx. split.
    - assert (E : d = [u; m u v; m u w] \/ d = [v; m v w; m v u] \/ d = [w; m w u; m w v] \/ d = [m v w; m w u; m u v]).
      { destruct j as [|[|[|[|j]]]]; [| | | |lia]; rewrite ?Nat.add_0_r in Hd; [left|right; left|right; right; left|right; right; right]; congruence. }
      rewrite (Sy v u), (Sy w u), (Sy w v) in E.
      destruct E as [->|[->|[->| ->]]]; cbn [In] in Hx; (repeat (destruct Hx as [<-|Hx]; [assumption|]); destruct Hx).
    - intros y [<-|[<-|[<-|[]]]]; auto. }
  assert (F : forall d, In d fine -> exists k c u, nth_error coarse k = Some c /\ In u c /\ forall x, In x d -> chain fine u x).
  { intros d Hd. apply In_nth_error in Hd. destruct Hd as (i & Hi).
    assert (Li : i < length fine) by (apply nth_error_Some; congruence).
    pose proof (Nat.div_mod i 4 ltac:(lia)) as Dm. pose proof (Nat.mod_upper_bound i 4 ltac:(lia)) as Mu.
    set (k := i / 4) in *. set (j := i mod 4) in *.
    destruct (nth_error coarse k) as [c|] eqn:Ec; [|apply nth_error_None in Ec; lia].
    destruct (A k c Ec) as (u & v & w & -> & H). exists k, [u; v; w], u. split; [exact Ec|]. split; [now left|].
    intros x Hx. rewrite Dm in Hi. destruct (H x j d Mu Hi Hx) as (K & _). exact K. }
  assert (B : forall u v, chain coarse u v -> chain fine u v).
  { intros u v H. induction H as [|u v w c H IH Hc Hv Hw]; [constructor|]. apply (chain_trans _ _ v); [exact IH|].
    apply In_nth_error in Hc. destruct Hc as (k & Hk). destruct (A k c Hk) as (a & b & d & -> & K).
    destruct (Q k _ Hk) as (a' & b' & d' & Ec & H0 & _). injection Ec as <- <- <-.
    destruct (K a 0 [a; m a b; m a d] ltac:(lia)) as (_ & K'); [rewrite Nat.add_0_r; exact H0|now left|].
    apply (chain_trans _ _ a); [apply chain_sym|]; now apply K'. }
  intros c d x y Hc Hd Hx Hy. destruct (F c Hc) as (k & c' & u & Hk & Hu & Kx). destruct (F d Hd) as (l & d' & v & Hl & Hv & Ky).
  apply (chain_trans _ _ u); [apply chain_sym; auto|]. apply (chain_trans _ _ v); [|auto]. apply B.
  apply (Co c' d'); auto; eapply nth_error_In; eauto.
Qed.

Theorem sphere_connected : forall R L b, regular_sphere R L 1 = Ok b -> connected (cells_of b).
Proof.
  intros R L. induction L as [|L IH]; intros b E.
  - destruct (sphere_of_levels R 0 (octahedron_points R) octahedron_cells eq_refl octahedron_surface) as (b0 & E0 & _ & C).
    rewrite E in E0. injection E0 as <-. rewrite C. exact octahedron_connected.
  - destruct (sphere_exists R L) as (a & Ea). destruct (nested_levels R L a b Ea E) as (np & m & _ & _ & Ln & Q & _).
    exact (quartered_connected m _ _ Q Ln (IH a Ea)).
Qed.

(** ** Screens *)

Section Screens.
Variable n : nat.
Local Notation id x y := (y * (n + 1) + x).

Lemma square_chain cells : n <> 0 ->
  (forall x y, x < n -> y < n -> exists c, In c cells /\ In (id x y) c /\ In (id (x + 1) y) c) ->
  (forall x y, x < n -> y < n -> exists c, In c cells /\ In (id x y) c /\ In (id x (y + 1)) c) ->
  (forall x y, x < n -> y < n -> exists c, In c cells /\ In (id (x + 1) y) c /\ In (id (x + 1) (y + 1)) c) ->
  forall x y, x <= n -> y <= n -> chain cells 0 (id x y).
Proof.
  intros Hn A B C.
  assert (Bottom : forall x, x <= n -> chain cells 0 (id x 0)).
  { induction x as [|x IH]; intros Hx; [constructor|]. destruct (A x 0) as (c & Hc & H1 & H2); [lia|lia|].
    apply (chain_step _ _ (id x 0) _ c); auto; [apply IH; lia|]. replace (Datatypes.S x) with (x + 1) by lia. exact H2. }
  intros x y Hx. induction y as [|y IH]; intros Hy; [now apply Bottom|].
  assert (K := IH ltac:(lia)). clear IH. destruct (Nat.eq_dec x n) as [->|N].
  - destruct (C (n - 1) y) as (c & Hc & H1 & H2); [lia|lia|]. rewrite !(Nat.sub_add 1 n) in * by lia.
    apply (chain_step _ _ (id n y) _ c); auto. replace (Datatypes.S y) with (y + 1) by lia. exact H2.
  - destruct (B x y) as (c & Hc & H1 & H2); [lia|lia|]. apply (chain_step _ _ (id x y) _ c); auto. replace (Datatypes.S y) with (y + 1) by lia. exact H2.
Qed.

Lemma triangle_cells_connected : n <> 0 -> connected (triangle_cells n).
Proof.
  intros Hn. apply (connected_to _ 0).
  assert (K : forall x y, x <= n -> y <= n -> chain (triangle_cells n) 0 (id x y)).
  { apply square_chain; auto.
    - intros x y Hx Hy. exists (lower n x y). rewrite In_triangle_cells, !In_lower. split; [exists x, y|]; auto.
    - intros x y Hx Hy. exists (upper n x y). rewrite In_triangle_cells, !In_upper. split; [exists x, y|]; auto.
    - intros x y Hx Hy. exists (lower n x y). rewrite In_triangle_cells, !In_lower. split; [exists x, y|]; auto. }
  intros c v Hc Hv. apply In_triangle_cells in Hc. destruct Hc as (x & y & Hx & Hy & [-> | ->]).
  - apply In_lower in Hv. destruct Hv as [->|[->| ->]]; apply K; lia.
  - apply In_upper in Hv. destruct Hv as [->|[->| ->]]; apply K; lia.
Qed.

Lemma quad_cells_connected : n <> 0 -> connected (quad_cells n).
Proof.
  intros Hn. apply (connected_to _ 0).
  assert (K : forall x y, x <= n -> y <= n -> chain (quad_cells n) 0 (id x y)).
  { apply square_chain; auto.
    - intros x y Hx Hy. exists (quad n x y). rewrite In_quad_cells, !In_quad. split; [exists x, y|]; auto.
    - intros x y Hx Hy. exists (quad n x y). rewrite In_quad_cells, !In_quad. split; [exists x, y|]; auto.
    - intros x y Hx Hy. exists (quad n x y). rewrite In_quad_cells, !In_quad. split; [exists x, y|]; auto 6. }
  intros c v Hc Hv. apply In_quad_cells in Hc. destruct Hc as (x & y & Hx & Hy & ->).
  apply In_quad in Hv. destruct Hv as [->|[->|[->| ->]]]; apply K; lia.
Qed.
End Screens.

(** ** The vertices of the cells of the grid built *)

Lemma built_lists {P : Type} id t (b : builder P) : t = Triangle \/ t = Quadrilateral -> vertex_lists (built_grid id t b) = cells_of b.
Proof.
  intros Ht.
  unfold vertex_lists, built_grid, cells_of. cbn [g_sub grid_of_cells].
  assert (E : forall cells, ent_count (grid_of_cells id t (length (b_points b)) cells) 2 = length cells).
  { intros cells. destruct Ht as [-> | ->]; unfold ent_count; cbn; apply Nat.add_0_r. }
  rewrite E. apply map_nth_seq.
Qed.

Theorem screen_connected : forall n t b, screen n t b -> connected (cells_of b).
Proof.
  intros n t b H. destruct H as [b E|b E]; (assert (Hn : n <> 0) by (intros ->; discriminate)).
  - destruct (screen_triangles_spec n Hn) as (b' & E' & P & C & _). rewrite E in E'. injection E' as <-.
    unfold cells_of. rewrite C, map_snd_enumerate. now apply triangle_cells_connected.
  - destruct (screen_quadrilaterals_spec n Hn) as (b' & E' & P & C & _). rewrite E in E'. injection E' as <-.
    unfold cells_of. rewrite C, map_snd_enumerate. now apply quad_cells_connected.
Qed.

Local Open Scope R_scope.

(** ** Proper triangles *)

Lemma acute_proper p q r : acute p q r -> normal p q r <> origin.
Proof.
  intros (A & B & C) N. pose proof (f_equal (fun v => inner v v) N) as Q.
  unfold normal in Q. destruct p as [[p1 p2] p3], q as [[q1 q2] q3], r as [[r1 r2] r3]. cbn in A, B, C, Q.
  set (a1 := q1 - p1) in *. set (a2 := q2 - p2) in *. set (a3 := q3 - p3) in *.
  set (b1 := r1 - p1) in *. set (b2 := r2 - p2) in *. set (b3 := r3 - p3) in *.
  assert (E1 : (a1 * a1 + a2 * a2 + a3 * a3) - (a1 * b1 + a2 * b2 + a3 * b3) > 0) by (subst a1 a2 a3 b1 b2 b3; lra).
  assert (E2 : (b1 * b1 + b2 * b2 + b3 * b3) - (a1 * b1 + a2 * b2 + a3 * b3) > 0) by (subst a1 a2 a3 b1 b2 b3; lra).
  clearbody a1 a2 a3 b1 b2 b3.
  set (x := a1 * a1 + a2 * a2 + a3 * a3) in *. set (y := b1 * b1 + b2 * b2 + b3 * b3) in *. set (d := a1 * b1 + a2 * b2 + a3 * b3) in *.
  assert (L : x * y - d * d = 0) by (subst x y d; lra). clearbody x y d. nra.
Qed.

Section Sphere.
Context (level : nat) (id : nat) (b : builder vec) (E : regular_sphere real_numbers level 1 = Ok b).

Lemma sphere_corner c : (c < ent_count (built_grid id Triangle b) 2)%nat -> exists u v w,
  g_sub (built_grid id Triangle b) c 0 = [u; v; w] /\
  corners_of b c (SpecSphere.position (points_of b) u) (SpecSphere.position (points_of b) v) (SpecSphere.position (points_of b) w).
Proof.
  intros Hc. destruct (sphere_cells level id b E) as (Nc & H). rewrite Nc in Hc. destruct (H c Hc) as (p & q & r & (u & v & w & Ec & Eu & Ev & Ew) & _).
  exists u, v, w. split.
  - change (nth c (cells_of b) [] = [u; v; w]). now apply nth_error_nth.
  - exists u, v, w. unfold SpecSphere.position. now rewrite (nth_error_nth _ _ origin Eu), (nth_error_nth _ _ origin Ev), (nth_error_nth _ _ origin Ew).
Qed.

Lemma sphere_flat (X : externals R) : flat_cells X (built_grid id Triangle b) b ->
  flat_triangles X (built_grid id Triangle b) (SpecSphere.position (points_of b)).
Proof.
  intros Fl c Hc. destruct (sphere_corner c Hc) as (u & v & w & Eg & Co). exists u, v, w. split; [exact Eg|].
  intros points. now apply Fl.
Qed.

Theorem sphere_proper : proper_triangles (built_grid id Triangle b) (SpecSphere.position (points_of b)).
Proof.
  intros c u v w Hc Eg. destruct (sphere_corner c Hc) as (u' & v' & w' & Eg' & Co). rewrite Eg in Eg'. injection Eg' as <- <- <-.
  apply acute_proper. exact (sphere_acute level b E c _ _ _ Co).
Qed.
End Sphere.

Section Screen.
Context (n : nat) (id : nat) (b : builder (nat * nat)) (E : screen_triangles n = Ok b).

Lemma screen_corner c : (c < ent_count (built_grid id Triangle b) 2)%nat -> exists u v w p q r,
  In [u; v; w] (triangle_cells n) /\ g_sub (built_grid id Triangle b) c 0 = [u; v; w] /\
  corner b c 0 p /\ corner b c 1 q /\ corner b c 2 r /\
  SpecSphere.position (screen_positions n b) u = screen_position n p /\
  SpecSphere.position (screen_positions n b) v = screen_position n q /\
  SpecSphere.position (screen_positions n b) w = screen_position n r.
Proof.
  intros Hc. assert (Hn : (n <> 0)%nat) by (intros ->; discriminate).
  destruct (screen_triangles_spec n Hn) as (b' & E' & P & C & _). rewrite E in E'. injection E' as <-.
  assert (Pts : points_of b = square_points (n + 1)) by (unfold points_of; rewrite P; apply map_snd_enumerate).
  assert (Cs : cells_of b = triangle_cells n) by (unfold cells_of; rewrite C; apply map_snd_enumerate).
  assert (Lc : (c < length (cells_of b))%nat).
  { unfold ent_count in Hc. cbn in Hc. rewrite Nat.add_0_r, map_length in Hc. unfold cells_of. rewrite map_length. exact Hc. }
  destruct (nth_error (cells_of b) c) as [vs|] eqn:Ec; [|apply nth_error_None in Ec; lia].
  assert (Iv : In vs (triangle_cells n)) by (rewrite <- Cs; now apply nth_error_In in Ec).
  assert (K : exists u v w, vs = [u; v; w] /\ (u < length (points_of b))%nat /\ (v < length (points_of b))%nat /\ (w < length (points_of b))%nat).
  { assert (B : forall x, In x vs -> (x < length (points_of b))%nat).
    { intros x Hx. rewrite Pts, square_points_length. apply In_triangle_cells in Iv. destruct Iv as (i & j & Hi & Hj & [-> | ->]).
      - apply In_lower in Hx. destruct Hx as [->|[->| ->]]; nia.
      - apply In_upper in Hx. destruct Hx as [->|[->| ->]]; nia. }
    pose proof Iv as Iv'. apply In_triangle_cells in Iv'. destruct Iv' as (i & j & _ & _ & [-> | ->]);
      do 3 eexists; (split; [reflexivity|]); repeat split; apply B; cbn; auto. }
  destruct K as (u & v & w & -> & Hu & Hv & Hw).
  assert (Pt : forall x, (x < length (points_of b))%nat -> exists p, nth_error (points_of b) x = Some p /\ SpecSphere.position (screen_positions n b) x = screen_position n p).
  { intros x Hx. destruct (nth_error (points_of b) x) as [p|] eqn:Ex; [|apply nth_error_None in Ex; lia]. exists p. split; [reflexivity|].
    unfold SpecSphere.position, screen_positions. apply nth_error_nth. now apply map_nth_error. }
  destruct (Pt u Hu) as (p & Ep & Pp). destruct (Pt v Hv) as (q & Eq & Pq). destruct (Pt w Hw) as (r & Er & Pr).
  exists u, v, w, p, q, r. split; [exact Iv|]. split; [change (nth c (cells_of b) [] = [u; v; w]); now apply nth_error_nth|].
  split; [exists [u; v; w], u; auto|]. split; [exists [u; v; w], v; auto|]. split; [exists [u; v; w], w; auto|]. auto.
Qed.

Lemma screen_flat (X : externals R) : flat_screen n X (built_grid id Triangle b) b ->
  flat_triangles X (built_grid id Triangle b) (SpecSphere.position (screen_positions n b)).
Proof.
  intros Fl c Hc. destruct (screen_corner c Hc) as (u & v & w & p & q & r & _ & Eg & Cp & Cq & Cr & Eu & Ev & Ew). exists u, v, w. split; [exact Eg|].
  intros points. rewrite Eu, Ev, Ew. now apply Fl.
Qed.

Theorem screen_proper : proper_triangles (built_grid id Triangle b) (SpecSphere.position (screen_positions n b)).
Proof.
  intros c u v w Hc Eg. destruct (screen_corner c Hc) as (u' & v' & w' & p & q & r & Iv & Eg' & _). rewrite Eg in Eg'. injection Eg' as <- <- <-.
  assert (Hn : (n <> 0)%nat) by (intros ->; discriminate).
  destruct (screen_triangles_spec n Hn) as (b' & E' & P & C & _). rewrite E in E'. injection E' as <-.
  assert (Pts : screen_positions n b = map (screen_position n) (square_points (n + 1))) by (unfold screen_positions, points_of; rewrite P; now rewrite map_snd_enumerate).
  rewrite Pts, (triangle_normal n _ _ _ _ Iv eq_refl). intros Z. injection Z as Z.
  assert (M : 0 < / INR (n + 1)) by (apply Rinv_0_lt_compat, lt_0_INR; lia). 
  assert (0 < / INR (n + 1) * / INR (n + 1)) by now apply Rmult_lt_0_compat. unfold screen_denominator in Z. lra.
Qed.
End Screen.

(** ** Assembly *)

Lemma made_settings (X : externals R) wmod calls G t : shape_grid G -> g_types G 2 = [t] -> proper_rules X -> rules_exist X t (after calls) ->
  (0 < get_batch_size (after calls) < wmod)%nat -> (2 * ent_count G 2 * ent_count G 2 <= wmod)%nat ->
  exists deg pts, forall O tf sf (test trial : fspace R R), standard tf -> standard sf -> made_on G tf test -> made_on G sf trial -> shipped reals O ->
    dense_setting X wmod O (after calls) deg pts t test trial.
Proof.
  intros Hg Ety Pr [Re1 Re2] (B1 & B2) Cw. destruct (shape_counted G Hg) as (t' & V & Ed & F & Ht & [W Cf Ty O' _ _ _ _ _]).
  assert (Pf : pairs_fit wmod G) by (apply pairs_fit_square; lia).
  assert (Cw' : (2 * ent_count G 2 <= wmod)%nat) by (destruct (ent_count G 2); lia).
  rewrite Ety in Ty. injection Ty as <-. assert (Su : supported t) by exact Ht.
  destruct (options_history calls) as (Hr & Hs & _). destruct (Hr t Su) as (n & En & _). destruct (Hs (t, t) Su Su) as (m & Em & _).
  assert (Gd : g_gdim G = 3%nat) by (destruct Hg; reflexivity).
  exists (fun _ _ => m), (fun _ => n). intros O tf sf test trial Htf Hsf Mt Ms Sh.
  pose proof (mo_grid _ _ _ Mt) as Gt. pose proof (mo_grid _ _ _ Ms) as Gs.
  constructor; rewrite ?Gt, ?Gs; auto.
  - now apply (made_serial _ _ G tf).
  - now apply (made_serial _ _ G sf).
  - intros _. congruence.
  - unfold in_space. now rewrite Gt.
  - unfold in_space. now rewrite Gs.
  - intros u _. apply (mo_components _ _ _ Mt).
  - intros u _. apply (mo_components _ _ _ Ms).
  - exact (shipped_fitting _ O Sh).
  - intros u [<-|[]]. split; auto.
  - intros _. split; [|split; [|split]].
    + intros u s [<-|[]] [<-|[]]. exact Em.
    + intros u s p kind [<-|[]] [<-|[]] Hp Hk. eapply Re2; eauto.
    + exact Cf.
    + exact Pf.
Qed.

Section Forms.
Context (X : externals R) (rt : runtime R) (wmod : nat) (G H : @green R R) (calls : list setter) (g : grid) (V : nat -> vec) (fs fine : fspace R R).
Context (Legal : legal_runtime Rplus rt) (Same : forall x y, H 0%nat x y = G 0%nat x y).
Context (Shape : shape_grid g) (Types : g_types g 2 = [Triangle]) (Rules : proper_rules X) (Exist : rules_exist X Triangle (after calls)).
Context (Batch : (0 < get_batch_size (after calls) < wmod)%nat) (Fits : (2 * ent_count g 2 * ent_count g 2 <= wmod)%nat).
Context (Flat : flat_triangles X g V) (Proper : proper_triangles g V) (Joined : connected (vertex_lists g)).
Context (Made : made_on g (lagrange 1) fs) (Linear : linear_functions fs) (Fine : made_on g (interior_only (fun _ => 1%nat)) fine) (Constant : constants reals 1 fine).

Lemma shape_form : exists m fm w e,
  assemble reals X rt wmod (laplace_hypersingular G) (after calls) fs fs = Ok m /\ assemble reals X rt wmod (laplace_single_layer H) (after calls) fine fine = Ok fm /\
  has_entries (global_size (fs_space fs)) m w /\ has_entries (global_size (fs_space fine)) fm e /\
  (semidefinite (global_size (fs_space fine)) e -> semidefinite (global_size (fs_space fs)) w) /\
  (symmetric_entries (global_size (fs_space fine)) e -> symmetric_entries (global_size (fs_space fs)) w) /\
  (definite (global_size (fs_space fine)) e -> kernel_of_constants (global_size (fs_space fs)) w).
Proof.
  destruct (made_settings X wmod calls g Triangle Shape Types Rules Exist Batch Fits) as (deg & pts & D).
  assert (St : standard (lagrange 1)) by (constructor; lia). assert (St' : standard (interior_only (fun _ => 1%nat))) by (constructor; intros; lia).
  pose proof (D (laplace_hypersingular G) _ _ fs fs St St Made Made (sh_laplace_hyper reals G)) as D1.
  pose proof (D (laplace_single_layer H) _ _ fine fine St' St' Fine Fine (sh_laplace_single reals H)) as D2.
  pose proof (mo_grid _ _ _ Made) as Gu. pose proof (mo_grid _ _ _ Fine) as Gv.
  destruct (linear_form X rt wmod G H (after calls) deg pts fs fine V Legal Same D1 D2) as (m & fm & w & e & E1 & E2 & W1 & W2 & K1 & K2 & K3); auto.
  - now rewrite Gu, Gv.
  - exact (mo_family _ _ _ Made).
  - now rewrite Gu.
  - rewrite (mo_family _ _ _ Fine). apply interior_only_interior.
  - exists m, fm, w, e. rewrite Gu in K3. auto 10.
Qed.
End Forms.

Theorem sphere_form : forall (X : externals R) rt wmod (G H : @green R R) calls level id (b : builder vec) (fs fine : fspace R R),
  legal_runtime Rplus rt -> (forall x y, H 0%nat x y = G 0%nat x y) -> regular_sphere real_numbers level 1 = Ok b ->
  flat_cells X (built_grid id Triangle b) b -> proper_rules X -> rules_exist X Triangle (after calls) ->
  (0 < get_batch_size (after calls) < wmod)%nat -> (2 * length (cells_of b) * length (cells_of b) <= wmod)%nat ->
  made_on (built_grid id Triangle b) (lagrange 1) fs -> linear_functions fs ->
  made_on (built_grid id Triangle b) (interior_only (fun _ => 1%nat)) fine -> constants reals 1 fine ->
  exists m fm w e,
    assemble reals X rt wmod (laplace_hypersingular G) (after calls) fs fs = Ok m /\ assemble reals X rt wmod (laplace_single_layer H) (after calls) fine fine = Ok fm /\
    has_entries (global_size (fs_space fs)) m w /\ has_entries (global_size (fs_space fine)) fm e /\
    (semidefinite (global_size (fs_space fine)) e -> semidefinite (global_size (fs_space fs)) w) /\
    (symmetric_entries (global_size (fs_space fine)) e -> symmetric_entries (global_size (fs_space fs)) w) /\
    (definite (global_size (fs_space fine)) e -> kernel_of_constants (global_size (fs_space fs)) w).
Proof.
  intros X rt wmod G H calls level id b fs fine L EH E Fl Pr Re B Fi Mu Lu Mv Cv. pose proof (proj1 (sphere_cells level id b E)) as Nc.
  apply (shape_form X rt wmod G H calls (built_grid id Triangle b) (SpecSphere.position (points_of b))); auto.
  - exact (shape_sphere real_numbers level id b E).
  - now rewrite Nc.
  - exact (sphere_flat level id b E X Fl).
  - exact (sphere_proper level id b E).
  - rewrite built_lists by now left. exact (sphere_connected real_numbers level b E).
Qed.

Theorem screen_form : forall (X : externals R) rt wmod (G H : @green R R) calls n id (b : builder (nat * nat)) (fs fine : fspace R R),
  legal_runtime Rplus rt -> (forall x y, H 0%nat x y = G 0%nat x y) -> screen_triangles n = Ok b ->
  flat_screen n X (built_grid id Triangle b) b -> proper_rules X -> rules_exist X Triangle (after calls) ->
  (0 < get_batch_size (after calls) < wmod)%nat -> (2 * length (cells_of b) * length (cells_of b) <= wmod)%nat ->
  made_on (built_grid id Triangle b) (lagrange 1) fs -> linear_functions fs ->
  made_on (built_grid id Triangle b) (interior_only (fun _ => 1%nat)) fine -> constants reals 1 fine ->
  exists m fm w e,
    assemble reals X rt wmod (laplace_hypersingular G) (after calls) fs fs = Ok m /\ assemble reals X rt wmod (laplace_single_layer H) (after calls) fine fine = Ok fm /\
    has_entries (global_size (fs_space fs)) m w /\ has_entries (global_size (fs_space fine)) fm e /\
    (semidefinite (global_size (fs_space fine)) e -> semidefinite (global_size (fs_space fs)) w) /\
    (symmetric_entries (global_size (fs_space fine)) e -> symmetric_entries (global_size (fs_space fs)) w) /\
    (definite (global_size (fs_space fine)) e -> kernel_of_constants (global_size (fs_space fs)) w).
Proof.
  intros X rt wmod G H calls n id b fs fine L EH E Fl Pr Re B Fi Mu Lu Mv Cv.
  assert (Nc : ent_count (built_grid id Triangle b) 2 = length (cells_of b)) by (unfold ent_count, cells_of; cbn; apply Nat.add_0_r).
  apply (shape_form X rt wmod G H calls (built_grid id Triangle b) (SpecSphere.position (screen_positions n b))); auto.
  - exact (shape_triangles n id b E).
  - now rewrite Nc.
  - exact (screen_flat n id b E X Fl).
  - exact (screen_proper n id b E).
  - rewrite built_lists by now left. exact (screen_connected n Triangle b (screen_of_triangles n b E)).
Qed.
