(** * Matrices on the sphere and turns of the sphere: proofs *)
From Coq Require Import Reals Lra Psatz Permutation FinFun Ring_theory.
From Verif Require Import Base BaseFacts Topology TopologyFacts DofMap SpecDof Process Space SpecSpace Options SpecOptions Adjacency SpecAdjacency
  Scalar Integrand CellPair Operators SpecLocal SpecOperators Interleave Assembly SpecAssembly AssemblyResults SpecAlgebra SpecDistributed SpecRenumber SpecSimilar SpecShapeSpaces ShapeSpacesResults
  SpecAutomorphism AutomorphismResults DimensionResults
  Shapes SpecShapes SphereFacts SphereSurface SphereResults ShapesResults SpecSphere SphereGeometry SphereTiling NestedResults SpecWidth SpecSymmetry SymmetryResults SpecTurns.

(** ** Automorphisms from maps of vertices and cells *)

Lemma injective_renumbering n f : (forall i, i < n -> f i < n) -> (forall i j, i < n -> j < n -> f i = f j -> i = j) -> renumbering n f.
Proof.
  intros H1 H2. split; [exact H1|]. split; [exact H2|].
  assert (B : bFun n f) by exact H1. assert (I : bInjective n f) by exact H2.
  apply (proj1 (bInjective_bSurjective B)) in I. exact I.
Qed.

Lemma finite_choice (n : nat) (P : nat -> nat -> Prop) : (forall i, i < n -> exists j, P i j) -> exists f, forall i, i < n -> P i (f i).
Proof.
  induction n as [|n IH]; intros H; [exists (fun _ => 0); lia|].
  destruct IH as (f & Hf); [auto|]. destruct (H n) as (j & Hj); [lia|].
  exists (fun i => if i =? n then j else f i). intros i Hi. destruct (Nat.eqb_spec i n) as [->|N]; [exact Hj|]. apply Hf. lia.
Qed.

Lemma norm_image (f : nat -> nat) u v : norm_pair (f (fst (norm_pair (u, v))), f (snd (norm_pair (u, v)))) = norm_pair (f u, f v).
Proof.
  unfold norm_pair at 2 3. destruct (u <=? v); cbn [fst snd]; [reflexivity|]. unfold norm_pair.
  destruct (Nat.leb_spec (f v) (f u)), (Nat.leb_spec (f u) (f v)); auto; try lia. assert (f u = f v) by lia. congruence.
Qed.

Section Automorphism.
Variables (id n : nat) (t : cell_type) (cells : list (list nat)) (sigma tau : nat -> nat).
Hypothesis Va : valid_cells t n cells.
Hypothesis (Rs : renumbering n sigma) (Rt : renumbering (length cells) tau).
Hypothesis Im : forall c, c < length cells -> nth (tau c) cells [] = map sigma (nth c cells []).

Let edges := grid_edges t cells.
Let edge_image (e : nat * nat) : nat * nat := norm_pair (sigma (fst e), sigma (snd e)).
Let lift (d e : nat) : nat :=
  match d with 0 => sigma e | 1 => index_of (edge_image (nth e edges (0, 0))) edges | _ => tau e end.

Lemma image_edges c : c < length cells -> cell_edges t (nth (tau c) cells []) = map edge_image (cell_edges t (nth c cells [])).
Proof.
  intros Hc. rewrite Im by auto. destruct Va as (St & Hv). destruct (Hv (nth c cells []) (nth_In _ _ Hc)) as (Hl & _ & _).
  unfold cell_edges. rewrite map_map. apply map_ext_in. intros [a b] Hab. cbn [fst snd].
  apply In_nth_error in Hab. destruct Hab as (i & Hi). destruct (ref_edges_lt t i a b St Hi) as (Ha & Hb & _).
  unfold edge_image. rewrite norm_image.
  rewrite (nth_indep _ 0 (sigma 0)) by (rewrite map_length; lia). rewrite (nth_indep (map sigma _) 0 (sigma 0)) by (rewrite map_length; lia).
  now rewrite !map_nth.
Qed.

Lemma edge_known c e : c < length cells -> In e (cell_edges t (nth c cells [])) -> In e edges.
Proof. intros Hc He. unfold edges, grid_edges. apply dedup_In, in_flat_map. exists (nth c cells []). split; auto. now apply nth_In. Qed.

Lemma edge_of_cell e : In e edges -> exists c, c < length cells /\ In e (cell_edges t (nth c cells [])).
Proof.
  unfold edges, grid_edges. rewrite dedup_In, in_flat_map. intros (vs & Hvs & He). destruct (In_nth_error _ _ Hvs) as (c & Hc).
  exists c. rewrite (nth_error_nth _ _ [] Hc). split; auto. apply nth_error_Some. congruence.
Qed.

Lemma edge_ends_lt e : In e edges -> fst e < n /\ snd e < n /\ fst e <= snd e.
Proof.
  intros He. destruct (edge_of_cell e He) as (c & Hc & H). destruct Va as (St & Hv). destruct (Hv (nth c cells []) (nth_In _ _ Hc)) as (Hl & _ & Hn).
  unfold cell_edges in H. apply in_map_iff in H. destruct H as ([a b] & <- & Hab). cbn [fst snd].
  apply In_nth_error in Hab. destruct Hab as (i & Hi). destruct (ref_edges_lt t i a b St Hi) as (Ha & Hb & _).
  assert (nth a (nth c cells []) 0 < n) by (apply Hn, nth_In; lia). assert (nth b (nth c cells []) 0 < n) by (apply Hn, nth_In; lia).
  unfold norm_pair. destruct (Nat.leb_spec (nth a (nth c cells []) 0) (nth b (nth c cells []) 0)); cbn [fst snd]; lia.
Qed.

Lemma image_known e : In e edges -> In (edge_image e) edges.
Proof.
  intros He. destruct (edge_of_cell e He) as (c & Hc & H). apply (edge_known (tau c)); [now apply Rt|]. rewrite image_edges by auto. now apply in_map.
Qed.

Lemma image_injective e e' : In e edges -> In e' edges -> edge_image e = edge_image e' -> e = e'.
Proof.
  intros He He' E. destruct (edge_ends_lt e He) as (A1 & A2 & A3), (edge_ends_lt e' He') as (B1 & B2 & B3).
  destruct Rs as (_ & Inj & _). unfold edge_image in E. apply norm_pair_eq in E. destruct e as [x y], e' as [x' y']. cbn [fst snd] in *.
  destruct E as [(E1 & E2)|(E1 & E2)]; apply Inj in E1, E2; auto; subst; auto. assert (x' = y') by lia. subst. reflexivity.
Qed.

Lemma edge_renumbering : renumbering (length edges) (lift 1).
Proof.
  assert (G : forall e, e < length edges -> In (nth e edges (0, 0)) edges) by (intros e He; now apply nth_In).
  apply injective_renumbering.
  - intros e He. cbn [lift]. apply index_of_lt, image_known, G, He.
  - intros e e' He He' E. cbn [lift] in E. apply index_of_inj in E; try (apply image_known, G; assumption).
    apply image_injective in E; auto. apply (proj1 (NoDup_nth edges (0, 0)) (dedup_NoDup _)) in E; auto.
Qed.

Lemma cells_automorphism : exists L, renumbered_grid (grid_of_cells id t n cells) (grid_of_cells id t n cells) L /\ forall c, L 2 c = tau c.
Proof.
  destruct Va as (St & Hv).
  assert (E0 : ent_count (grid_of_cells id t n cells) 0 = n) by (cbn; lia).
  assert (E1 : ent_count (grid_of_cells id t n cells) 1 = length edges) by (cbn; fold edges; lia).
  assert (E2 : ent_count (grid_of_cells id t n cells) 2 = length cells) by (destruct St as [-> | ->]; cbn; lia).
  exists lift. split; [|reflexivity]. constructor.
  - reflexivity.
  - intros [|[|[|d]]] Hd; try lia; [rewrite E0; exact Rs|rewrite E1; exact edge_renumbering|rewrite E2; exact Rt].
  - reflexivity.
  - reflexivity.
  - reflexivity.
  - intros c d Hc Hd. rewrite E2 in Hc. destruct d as [|[|[|d]]]; try lia; cbn [g_sub grid_of_cells].
    + now apply Im.
    + cbn [lift]. fold edges. rewrite image_edges by auto. rewrite !map_map. apply map_ext_in. intros e He.
      change (index_of (edge_image e) edges = index_of (edge_image (nth (index_of e edges) edges (0, 0))) edges). f_equal. f_equal. symmetry.
      apply nth_error_nth. apply index_of_nth. now apply (edge_known c).
    + reflexivity.
Qed.
End Automorphism.

Local Open Scope R_scope.

(** ** The turns map cells to cells in order *)

Lemma octahedron_in_order (b : builder vec) k s t o : regular_sphere real_numbers 0 1 = Ok b -> upright k s t o -> mapped_in_order b (octahedral k s t o).
Proof.
  intros E U j p q r (u & v & w & Hk & Hp & Hq & Hr).
  assert (PC : @points_of vec b = (octahedron_points real_numbers : list vec) /\ @cells_of vec b = octahedron_cells).
  { destruct (sphere_of_levels real_numbers 0 (octahedron_points real_numbers) octahedron_cells eq_refl octahedron_surface) as (b0 & E0 & P & C).
    rewrite E in E0. injection E0 as <-. auto. }
  destruct PC as (P & C). unfold corners_of. rewrite P, C in *.
  assert (G : forall i u v w p q r p' q' r', nth_error octahedron_cells i = Some [u; v; w] ->
    nth_error (octahedron_points real_numbers) u = Some p -> nth_error (octahedron_points real_numbers) v = Some q -> nth_error (octahedron_points real_numbers) w = Some r ->
    p = p' -> q = q' -> r = r' ->
    exists k' u v w, nth_error octahedron_cells k' = Some [u; v; w] /\ nth_error (octahedron_points real_numbers) u = Some p' /\
      nth_error (octahedron_points real_numbers) v = Some q' /\ nth_error (octahedron_points real_numbers) w = Some r').
  { intros i u0 v0 w0 p0 q0 r0 p' q' r' H1 H2 H3 H4 <- <- <-. exists i, u0, v0, w0. auto. }
  do 8 (destruct j as [|j]; [injection Hk as <- <- <-; cbn in Hp, Hq, Hr; injection Hp as <-; injection Hq as <-; injection Hr as <-;
    destruct U as [(-> & U)|(-> & U)]; destruct s, t, o; try discriminate U; unfold octahedral;
    first [ eapply (G 0%nat); [reflexivity..| | |]; apply vec_eq; solve [cbn; ring]
          | eapply (G 1%nat); [reflexivity..| | |]; apply vec_eq; solve [cbn; ring]
          | eapply (G 2%nat); [reflexivity..| | |]; apply vec_eq; solve [cbn; ring]
          | eapply (G 3%nat); [reflexivity..| | |]; apply vec_eq; solve [cbn; ring]
          | eapply (G 4%nat); [reflexivity..| | |]; apply vec_eq; solve [cbn; ring]
          | eapply (G 5%nat); [reflexivity..| | |]; apply vec_eq; solve [cbn; ring]
          | eapply (G 6%nat); [reflexivity..| | |]; apply vec_eq; solve [cbn; ring]
          | eapply (G 7%nat); [reflexivity..| | |]; apply vec_eq; solve [cbn; ring] ] |]).
  destruct j; discriminate Hk.
Qed.

Lemma next_in_order L (b b' : builder vec) T : regular_sphere real_numbers L 1 = Ok b -> regular_sphere real_numbers (S L) 1 = Ok b' ->
  (forall p q, T (middle p q) = middle (T p) (T q)) -> mapped_in_order b T -> mapped_in_order b' T.
Proof.
  intros E E' TM H k' p' q' r' H'. destruct (child_corners L b b' E E' k' p' q' r' H') as (k & p & q & r & Hk & Cs).
  destruct (H k p q r Hk) as (j & Hj).
  destruct (corners_children L b b' E E' j _ _ _ Hj) as (C1 & C2 & C3 & C4).
  destruct Cs as [(-> & -> & ->)|[(-> & -> & ->)|[(-> & -> & ->)|(-> & -> & ->)]]]; rewrite !TM; assumption.
Qed.

Theorem sphere_in_order : forall L (b : builder vec) k s t o, regular_sphere real_numbers L 1 = Ok b -> upright k s t o ->
  mapped_in_order b (octahedral k s t o).
Proof.
  intros L b k s t o E U. revert b E. induction L as [|L IH]; intros b E; [now apply octahedron_in_order|].
  destruct (sphere_tiling L) as (b0 & E0 & _). apply (next_in_order L b0 b _ E0 E); [intros; apply octahedral_middle|auto].
Qed.

(** The turn by a third about a diagonal is not among them. *)
Lemma not_in_order : forall (b : builder vec), regular_sphere real_numbers 0 1 = Ok b -> ~ mapped_in_order b (octahedral 1 false false false).
Proof.
  intros b E H.
  assert (PC : @points_of vec b = (octahedron_points real_numbers : list vec) /\ @cells_of vec b = octahedron_cells).
  { destruct (sphere_of_levels real_numbers 0 (octahedron_points real_numbers) octahedron_cells eq_refl octahedron_surface) as (b0 & E0 & P & C).
    rewrite E in E0. injection E0 as <-. auto. }
  destruct PC as (P & C).
  destruct (H 0%nat (0, 0, 1) (1, 0, 0) (0, 1, 0)) as (k & u & v & w & Hk & Hp & Hq & Hr).
  { exists 0%nat, 1%nat, 2%nat. rewrite P, C. auto. }
  rewrite P in Hp, Hq, Hr. rewrite C in Hk. unfold octahedral, mirrored, permuted in Hp.
  do 8 (destruct k as [|k]; [injection Hk as <- <- <-; apply (f_equal (fun x => match x with Some (x1, x2, x3) => x1 + 2 * x2 + 3 * x3 | None => 0 end)) in Hp; cbn in Hp; lra|]).
  destruct k; discriminate Hk.
Qed.

(** Any cell of the octahedron is the image of any other. *)
Lemma octahedron_transitive : forall (b : builder vec) c c', regular_sphere real_numbers 0 1 = Ok b -> (c < 8)%nat -> (c' < 8)%nat ->
  exists k s t o p q r, upright k s t o /\ corners_of b c p q r /\
    corners_of b c' (octahedral k s t o p) (octahedral k s t o q) (octahedral k s t o r).
Proof.
  intros b c c' E Hc Hc'.
  assert (PC : @points_of vec b = (octahedron_points real_numbers : list vec) /\ @cells_of vec b = octahedron_cells).
  { destruct (sphere_of_levels real_numbers 0 (octahedron_points real_numbers) octahedron_cells eq_refl octahedron_surface) as (b0 & E0 & P & C).
    rewrite E in E0. injection E0 as <-. auto. }
  destruct PC as (P & C). unfold corners_of. rewrite P, C.
  assert (G : forall i u v w p q r p' q' r', nth_error octahedron_cells i = Some [u; v; w] ->
    nth_error (octahedron_points real_numbers) u = Some p -> nth_error (octahedron_points real_numbers) v = Some q -> nth_error (octahedron_points real_numbers) w = Some r ->
    p = p' -> q = q' -> r = r' ->
    exists u v w, nth_error octahedron_cells i = Some [u; v; w] /\ nth_error (octahedron_points real_numbers) u = Some p' /\
      nth_error (octahedron_points real_numbers) v = Some q' /\ nth_error (octahedron_points real_numbers) w = Some r').
  { intros i u0 v0 w0 p0 q0 r0 p' q' r' H1 H2 H3 H4 <- <- <-. exists u0, v0, w0. auto. }
  assert (F : forall k s t o, upright k s t o -> (exists p q r,
      (exists u v w, nth_error octahedron_cells c = Some [u; v; w] /\ nth_error (octahedron_points real_numbers) u = Some p /\
        nth_error (octahedron_points real_numbers) v = Some q /\ nth_error (octahedron_points real_numbers) w = Some r) /\
      (exists u v w, nth_error octahedron_cells c' = Some [u; v; w] /\ nth_error (octahedron_points real_numbers) u = Some (octahedral k s t o p) /\
        nth_error (octahedron_points real_numbers) v = Some (octahedral k s t o q) /\ nth_error (octahedron_points real_numbers) w = Some (octahedral k s t o r))) ->
    exists k s t o p q r, upright k s t o /\
      (exists u v w, nth_error octahedron_cells c = Some [u; v; w] /\ nth_error (octahedron_points real_numbers) u = Some p /\
        nth_error (octahedron_points real_numbers) v = Some q /\ nth_error (octahedron_points real_numbers) w = Some r) /\
      (exists u v w, nth_error octahedron_cells c' = Some [u; v; w] /\ nth_error (octahedron_points real_numbers) u = Some (octahedral k s t o p) /\
        nth_error (octahedron_points real_numbers) v = Some (octahedral k s t o q) /\ nth_error (octahedron_points real_numbers) w = Some (octahedral k s t o r))).
  { intros k s t o U (p & q & r & H). exists k, s, t, o, p, q, r. auto. }
  Ltac turn_cells G F k s t o := apply (F k s t o); [unfold upright; cbn; auto|]; eexists _, _, _; split;
    [eexists _, _, _; split; [reflexivity|]; split; [reflexivity|]; split; reflexivity|];
    unfold octahedral; eapply G; [reflexivity..| | |]; apply vec_eq; solve [cbn; ring].
  do 8 (destruct c as [|c]; [do 8 (destruct c' as [|c']; [
    first [ turn_cells G F 0%nat false false false | turn_cells G F 0%nat true true false | turn_cells G F 0%nat true false true | turn_cells G F 0%nat false true true
          | turn_cells G F 3%nat true false false | turn_cells G F 3%nat false true false | turn_cells G F 3%nat false false true | turn_cells G F 3%nat true true true ] |]); lia|]).
  lia.
Qed.

(** ** Maps of vertices and cells *)

Lemma corners_unique (b : builder vec) k p q r p' q' r' : corners_of b k p q r -> corners_of b k p' q' r' -> p = p' /\ q = q' /\ r = r'.
Proof.
  intros (u & v & w & Hk & Hp & Hq & Hr) (u' & v' & w' & Hk' & Hp' & Hq' & Hr'). rewrite Hk in Hk'. injection Hk' as <- <- <-.
  rewrite Hp in Hp'. rewrite Hq in Hq'. rewrite Hr in Hr'. injection Hp' as <-. injection Hq' as <-. injection Hr' as <-. auto.
Qed.

Section Maps.
Variables (L : nat) (b : builder vec) (T : vec -> vec).
Hypothesis E : regular_sphere real_numbers L 1 = Ok b.
Hypothesis Inj : forall p q, T p = T q -> p = q.
Hypothesis Ord : mapped_in_order b T.

Lemma sphere_distinct : NoDup (points_of b).
Proof. destruct (sphere_points_differ L) as (b0 & E0 & N). rewrite E in E0. injection E0 as <-. exact N. Qed.

Lemma cell_corners c : (c < length (cells_of b))%nat -> exists u v w, nth_error (cells_of b) c = Some [u; v; w] /\
  nth_error (points_of b) u = Some (position (points_of b) u) /\ nth_error (points_of b) v = Some (position (points_of b) v) /\
  nth_error (points_of b) w = Some (position (points_of b) w).
Proof.
  intros Hc. destruct (sphere_tiling_vec L b E) as (SU & _). apply nth_error_Some in Hc. destruct (nth_error (cells_of b) c) as [vs|] eqn:Ec; [|contradiction].
  destruct (su_cell _ _ SU vs (nth_error_In _ _ Ec)) as (u & v & w & -> & (Bu & Bv & Bw) & _). exists u, v, w. split; auto.
  unfold position. split; [|split]; now apply nth_error_nth'.
Qed.

Lemma sphere_maps : exists sigma tau, renumbering (length (points_of b)) sigma /\ renumbering (length (cells_of b)) tau /\
  carries b T tau /\ forall c, (c < length (cells_of b))%nat -> nth (tau c) (cells_of b) [] = map sigma (nth c (cells_of b) []).
Proof.
  destruct (sphere_tiling_vec L b E) as (SU & _). pose proof sphere_distinct as ND.
  assert (DI : forall i j p, nth_error (points_of b) i = Some p -> nth_error (points_of b) j = Some p -> i = j).
  { intros i j p Hi Hj. apply (proj1 (NoDup_nth_error (points_of b)) ND); [apply nth_error_Some; congruence|congruence]. }
  assert (CT : exists tau, forall c, (c < length (cells_of b))%nat -> forall p q r, corners_of b c p q r -> corners_of b (tau c) (T p) (T q) (T r)).
  { apply (finite_choice _ (fun c c' => forall p q r, corners_of b c p q r -> corners_of b c' (T p) (T q) (T r))).
    intros c Hc. destruct (cell_corners c Hc) as (u & v & w & Ec & Hu & Hv & Hw).
    destruct (Ord c _ _ _ (ex_intro _ u (ex_intro _ v (ex_intro _ w (conj Ec (conj Hu (conj Hv Hw))))))) as (c' & Hc').
    exists c'. intros p q r (u' & v' & w' & Ec' & Hu' & Hv' & Hw'). rewrite Ec in Ec'. injection Ec' as <- <- <-.
    rewrite Hu in Hu'. rewrite Hv in Hv'. rewrite Hw in Hw'. injection Hu' as <-. injection Hv' as <-. injection Hw' as <-. exact Hc'. }
  destruct CT as (tau & Ht).
  assert (CS : exists sigma, forall v, (v < length (points_of b))%nat -> nth_error (points_of b) (sigma v) = Some (T (position (points_of b) v))).
  { apply (finite_choice _ (fun v v' => nth_error (points_of b) v' = Some (T (position (points_of b) v)))).
    intros v Hv. destruct (su_used _ _ SU v Hv) as (vs & Hvs & Hin). destruct (In_nth_error _ _ Hvs) as (c & Hc).
    assert (Lc : (c < length (cells_of b))%nat) by (apply nth_error_Some; congruence).
    destruct (cell_corners c Lc) as (x & y & z & Ec & Hx & Hy & Hz). rewrite Hc in Ec. injection Ec as ->.
    destruct (Ht c Lc _ _ _ (ex_intro _ x (ex_intro _ y (ex_intro _ z (conj Hc (conj Hx (conj Hy Hz))))))) as (x' & y' & z' & _ & Hx' & Hy' & Hz').
    destruct Hin as [<-|[<-|[<-|[]]]]; eauto. }
  destruct CS as (sigma & Hs).
  assert (Lt : forall c, (c < length (cells_of b))%nat -> (tau c < length (cells_of b))%nat).
  { intros c Hc. destruct (cell_corners c Hc) as (u & v & w & Ec & Hu & Hv & Hw).
    destruct (Ht c Hc _ _ _ (ex_intro _ u (ex_intro _ v (ex_intro _ w (conj Ec (conj Hu (conj Hv Hw))))))) as (u' & v' & w' & Ec' & _).
    apply nth_error_Some. congruence. }
  assert (Im : forall c, (c < length (cells_of b))%nat -> nth (tau c) (cells_of b) [] = map sigma (nth c (cells_of b) [])).
  { intros c Hc. destruct (cell_corners c Hc) as (u & v & w & Ec & Hu & Hv & Hw).
    destruct (Ht c Hc _ _ _ (ex_intro _ u (ex_intro _ v (ex_intro _ w (conj Ec (conj Hu (conj Hv Hw))))))) as (u' & v' & w' & Ec' & Hu' & Hv' & Hw').
    rewrite (nth_error_nth _ _ [] Ec), (nth_error_nth _ _ [] Ec'). cbn [map].
    assert (B : forall x, nth_error (points_of b) x = Some (position (points_of b) x) -> (x < length (points_of b))%nat) by (intros x Hx; apply nth_error_Some; congruence).
    rewrite (DI _ _ _ Hu' (Hs u (B u Hu))), (DI _ _ _ Hv' (Hs v (B v Hv))), (DI _ _ _ Hw' (Hs w (B w Hw))). reflexivity. }
  assert (Rs : renumbering (length (points_of b)) sigma).
  { apply injective_renumbering.
    - intros v Hv. apply nth_error_Some. rewrite Hs by auto. discriminate.
    - intros v v' Hv Hv' Ev. pose proof (Hs v Hv) as H1. rewrite Ev, (Hs v' Hv') in H1. injection H1 as H1. apply Inj in H1.
      apply (proj1 (NoDup_nth (points_of b) origin) ND); auto. }
  exists sigma, tau. split; [exact Rs|]. split; [|split; [|exact Im]].
  - apply injective_renumbering; [exact Lt|]. intros c c' Hc Hc' Ec. pose proof (Im c Hc) as H1. rewrite Ec, (Im c' Hc') in H1.
    apply (proj1 (NoDup_nth (cells_of b) []) (su_nodup _ _ SU)); auto.
    assert (G : forall l l', (forall x, In x l -> (x < length (points_of b))%nat) -> (forall x, In x l' -> (x < length (points_of b))%nat) -> map sigma l = map sigma l' -> l = l').
    { induction l as [|x l IH]; intros [|y l'] Hl Hl' M; try discriminate; [reflexivity|]. cbn in M. injection M as M1 M2. f_equal.
      - apply (proj1 (proj2 Rs)); auto; [apply Hl|apply Hl']; now left.
      - apply IH; auto; intros z Hz; [apply Hl|apply Hl']; now right. }
    assert (B : forall c, (c < length (cells_of b))%nat -> forall x, In x (nth c (cells_of b) []) -> (x < length (points_of b))%nat).
    { intros d Hd x Hx. destruct (su_cell _ _ SU _ (nth_In _ [] Hd)) as (x1 & x2 & x3 & Ex & (B1 & B2 & B3) & _). rewrite Ex in Hx.
      destruct Hx as [<-|[<-|[<-|[]]]]; auto. }
    symmetry. exact (G _ _ (B c' Hc') (B c Hc) H1).
  - intros c p q r Hc. apply Ht; auto. destruct Hc as (u & v & w & Ec & _). apply nth_error_Some. congruence.
Qed.
End Maps.

(** ** Geometry *)

Definition axis (k i : nat) : nat := match k, i with 3%nat, 0%nat => 1%nat | 3%nat, 1%nat => 0%nat | _, _ => i end.
Definition reversed (s t o : bool) (i : nat) : bool := match i with 0%nat => s | 1%nat => t | _ => o end.
Definition signed (f : bool) (x : R) : R := if f then - x else x.

Lemma turn_coordinate k s t o i p : upright k s t o -> (i < 3)%nat ->
  coordinate i (octahedral k s t o p) = signed (reversed s t o i) (coordinate (axis k i) p).
Proof.
  intros U Hi. destruct p as [[x y] z]. destruct U as [(-> & _)|(-> & _)]; destruct i as [|[|[|i]]]; try lia; reflexivity.
Qed.

Lemma turn_sub k s t o p q : vsub (octahedral k s t o p) (octahedral k s t o q) = octahedral k s t o (vsub p q).
Proof.
  destruct p as [[? ?] ?], q as [[? ?] ?]. unfold octahedral.
  destruct k as [|[|[|[|[|k]]]]], s, t, o; cbn; apply vec_eq; ring.
Qed.

Lemma turn_cross k s t o p q : upright k s t o -> cross (octahedral k s t o p) (octahedral k s t o q) = octahedral k s t o (cross p q).
Proof.
  intros U. destruct p as [[? ?] ?], q as [[? ?] ?]. unfold octahedral.
  destruct U as [(-> & U)|(-> & U)]; destruct s, t, o; try discriminate U; cbn; apply vec_eq; ring.
Qed.

Lemma turn_normal k s t o p q r : upright k s t o ->
  normal (octahedral k s t o p) (octahedral k s t o q) (octahedral k s t o r) = octahedral k s t o (normal p q r).
Proof. intros U. unfold normal. now rewrite !turn_sub, turn_cross. Qed.

Lemma turn_injective k s t o p q : octahedral k s t o p = octahedral k s t o q -> p = q.
Proof.
  intros H. destruct (octahedral_inverse k s t o) as (k' & s' & t' & o' & V). rewrite <- (V p), <- (V q). now rewrite H.
Qed.

Section Scalars.
Context {T : Type} (Sc : scalar T R) (one : T).
Hypothesis RT : ring_theory (s_zero Sc) one (s_add Sc) (s_mul Sc) (s_sub Sc) (s_neg Sc) eq.
Hypothesis Cneg : forall x, s_cast Sc (- x) = s_neg Sc (s_cast Sc x).
Add Ring scalars : RT.

Definition turn_matrix (k : nat) (s t o : bool) (i j : nat) : T :=
  if (j =? axis k i)%nat then (if reversed s t o i then s_neg Sc one else one) else s_zero Sc.

Lemma turn_dot k s t o i v : upright k s t o -> (i < 3)%nat ->
  SpecLocal.dot Sc (turn_matrix k s t o i) v = if reversed s t o i then s_neg Sc (v (axis k i)) else v (axis k i).
Proof.
  intros U Hi. unfold SpecLocal.dot, turn_matrix.
  destruct U as [(-> & _)|(-> & _)]; destruct i as [|[|[|i]]]; try lia; cbn [axis Nat.eqb reversed]; destruct s, t, o; ring.
Qed.

Lemma turn_orthogonal k s t o : upright k s t o -> orthogonal Sc (turn_matrix k s t o).
Proof.
  intros U u v. unfold SpecLocal.dot at 1. rewrite !turn_dot by (auto; lia). unfold SpecLocal.dot.
  destruct U as [(-> & _)|(-> & _)]; destruct s, t, o; cbn [axis reversed]; ring.
Qed.

Lemma cast_signed f x : s_cast Sc (signed f x) = if f then s_neg Sc (s_cast Sc x) else s_cast Sc x.
Proof. destruct f; cbn [signed]; auto. Qed.

Lemma axis_lt k s t o i : upright k s t o -> (i < 3)%nat -> (axis k i < 3)%nat.
Proof. intros [(-> & _)|(-> & _)] Hi; destruct i as [|[|[|i]]]; cbn; lia. Qed.

Lemma flat_similar k s t o points p q r x x' : upright k s t o ->
  flat_cell points p q r x -> flat_cell points (octahedral k s t o p) (octahedral k s t o q) (octahedral k s t o r) x' ->
  similar_cell Sc (octahedral k s t o) (turn_matrix k s t o) one one x x'.
Proof.
  intros U [P N J1 J2 D] [P' N' J1' J2' D']. rewrite !turn_sub in *. rewrite turn_normal in * by exact U. rewrite octahedral_inner in *.
  constructor.
  - intros j. unfold SpecLocal.position. rewrite !P' by lia. rewrite !turn_coordinate by (auto; lia). rewrite !P by lia.
    destruct U as [(-> & _)|(-> & _)]; unfold octahedral; cbn [axis reversed permuted mirrored];
      apply vec_eq; [destruct s|destruct t|destruct o|destruct s|destruct t|destruct o]; cbn [signed]; ring.
  - intros j i Hi. rewrite turn_dot by auto. rewrite N', N by (auto; eapply axis_lt; eauto). rewrite turn_coordinate by auto.
    replace (signed (reversed s t o i) (coordinate (axis k i) (normal p q r)) / sqrt (inner (normal p q r) (normal p q r)))
      with (signed (reversed s t o i) (coordinate (axis k i) (normal p q r) / sqrt (inner (normal p q r) (normal p q r))))
      by (destruct (reversed s t o i); unfold signed, Rdiv; ring).
    rewrite cast_signed. destruct (reversed s t o i); ring.
  - intros j c i Hc Hi. rewrite turn_dot by auto. pose proof (axis_lt k s t o i U Hi) as Ha. destruct c as [|[|c]]; [| |lia].
    + change (3 * 0 + i)%nat with i. change (3 * 0 + axis k i)%nat with (axis k i). rewrite J1', J1, turn_coordinate, cast_signed by auto. destruct (reversed s t o i); ring.
    + change (3 * 1 + i)%nat with (3 + i)%nat. change (3 * 1 + axis k i)%nat with (3 + axis k i)%nat.
      rewrite J2', J2, turn_coordinate, cast_signed by auto. destruct (reversed s t o i); ring.
  - intros j. rewrite D', D. ring.
Qed.

Lemma radial_similar k s t o (G : @green T R) : upright k s t o -> radial Sc G ->
  similar_green Sc (octahedral k s t o) (turn_matrix k s t o) one one G G.
Proof.
  intros U (phi & psi & V & D).
  assert (C : forall x y, chord2 (octahedral k s t o x) (octahedral k s t o y) = chord2 x y) by (intros x y; unfold chord2; now rewrite turn_sub, octahedral_inner).
  constructor.
  - intros x y. rewrite !V, C. ring.
  - intros i x y Hi. rewrite turn_dot by auto. pose proof (axis_lt k s t o i U Hi) as Ha. rewrite !D, C by auto. rewrite turn_sub, turn_coordinate, cast_signed by auto.
    destruct (reversed s t o i); ring.
Qed.
End Scalars.

(** ** Matrices *)

Lemma laplace_shipped {T R : Type} (Sc : scalar T R) kd G : shipped Sc (laplace_operator kd G).
Proof. destruct kd; constructor. Qed.
Lemma helmholtz_shipped {T R : Type} (Sc : scalar T R) kd G k : shipped Sc (helmholtz_operator Sc kd G k).
Proof. destruct kd; constructor. Qed.

Section Matrices.
Context {T : Type} (Sc : scalar T R) (X : externals R).
Variables (level id wmod : nat) (b : builder vec) (calls : list setter) (tf sf : family) (test trial : fspace T R) (rt : runtime T).
Hypothesis (Ex : exact Sc) (Ec : exact_cast Sc) (En : r_neg Sc = Ropp).
Hypothesis (E : regular_sphere real_numbers level 1 = Ok b).
Hypothesis (Htf : standard tf) (Hsf : standard sf).
Hypothesis (Mt : made_on (built_grid id Triangle b) tf test) (Ms : made_on (built_grid id Triangle b) sf trial).
Hypothesis (Fl : flat_cells X (built_grid id Triangle b) b).
Hypothesis (Pr : proper_rules X) (Re : rules_exist X Triangle (after calls)).
Hypothesis (Bt : (0 < get_batch_size (after calls) < wmod)%nat).
Hypothesis (Cw : (2 * ent_count (built_grid id Triangle b) 2 * ent_count (built_grid id Triangle b) 2 <= wmod)%nat).
Hypothesis (Lr : legal_runtime (s_add Sc) rt).

Lemma turn_automorphism k s t o : upright k s t o ->
  exists L, renumbered_grid (built_grid id Triangle b) (built_grid id Triangle b) L /\ carries b (octahedral k s t o) (L 2%nat).
Proof.
  intros U. pose proof (sphere_in_order level b k s t o E U) as Ord.
  destruct (sphere_maps level b (octahedral k s t o) E (turn_injective k s t o) Ord) as (sigma & tau & Rs & Rt & Ca & Im).
  destruct (sphere_tiling_vec level b E) as (SU & _).
  assert (Va : valid_cells Triangle (length (points_of b)) (cells_of b)) by (apply surface_valid; exact SU).
  destruct (cells_automorphism id (length (points_of b)) Triangle (cells_of b) sigma tau Va Rs Rt Im) as (L & Au & HL).
  exists L. split.
  - unfold built_grid. unfold points_of, cells_of in Au. rewrite map_length in Au. exact Au.
  - intros c p q r H. rewrite HL. now apply Ca.
Qed.

Lemma turn_moved one k s t o L : ring_theory (s_zero Sc) one (s_add Sc) (s_mul Sc) (s_sub Sc) (s_neg Sc) eq -> upright k s t o ->
  carries b (octahedral k s t o) (L 2%nat) -> moved_cells Sc (octahedral k s t o) (turn_matrix Sc one k s t o) one (built_grid id Triangle b) X L.
Proof.
  intros RT U Ca ty points c Hc.
  assert (Hc' : (c < length (cells_of b))%nat) by (unfold cells_of; rewrite map_length; cbn in Hc; rewrite map_length, Nat.add_0_r in Hc; exact Hc).
  destruct (cell_corners level b E c Hc') as (u & v & w & Hk & Hu & Hv & Hw).
  assert (Co : corners_of b c (position (points_of b) u) (position (points_of b) v) (position (points_of b) w)) by (exists u, v, w; auto).
  eapply (flat_similar Sc one RT); [|exact U|apply Fl; exact Co|apply Fl; apply Ca; exact Co].
  intros x. rewrite <- (proj2 Ec), En. reflexivity.
Qed.

Lemma cast_neg x : s_cast Sc (- x) = s_neg Sc (s_cast Sc x).
Proof. rewrite <- (proj2 Ec), En. reflexivity. Qed.

Theorem laplace_turns : forall kd (G : @green T R), radial Sc G -> exists m,
  assemble Sc X rt wmod (laplace_operator kd G) (after calls) trial test = Ok m /\
  forall k s t o, upright k s t o -> exists tau, renumbering (ent_count (built_grid id Triangle b) 2) tau /\
    carries b (octahedral k s t o) tau /\ same_on_images test trial m tau.
Proof.
  intros kd G Rd.
  destruct (made_dense T R Sc X wmod (laplace_operator kd G) calls (built_grid id Triangle b) tf sf test trial Triangle) as (deg & pts & D); auto.
  { exact (shape_sphere real_numbers level id b E). } { apply laplace_shipped. }
  assert (Gt : fs_grid test = built_grid id Triangle b) by apply Mt. assert (Gs : fs_grid trial = built_grid id Triangle b) by apply Ms.
  assert (Same : fs_grid trial = fs_grid test) by congruence.
  assert (Ex' := Ex). destruct Ex' as ((one & RT) & _).
  assert (One : forall x, s_mul Sc one x = x) by (intros x; apply (Rmul_1_l RT)).
  assert (A : forall k s t o, upright k s t o -> exists m L f h, carries b (octahedral k s t o) (L 2%nat) /\ renumbering (ent_count (built_grid id Triangle b) 2) (L 2%nat) /\
    assemble Sc X rt wmod (laplace_operator kd G) (after calls) trial test = Ok m /\ same_on_images test trial m (L 2%nat) /\ renumbering (global_size (fs_space test)) f /\ renumbering (global_size (fs_space trial)) h).
  { intros k s t o U. destruct (turn_automorphism k s t o U) as (L & Au & Ca).
    destruct (laplace_automorphism Sc X (octahedral k s t o) (turn_matrix Sc one k s t o) one G kd rt wmod (after calls) deg pts Triangle test trial L) as (m & f & h & Em & Rf & Rh & Df & H); auto.
    - now apply turn_orthogonal.
    - apply radial_similar; auto. exact cast_neg.
    - rewrite Gt. exact Au.
    - rewrite Gt. now apply turn_moved.
    - pose proof (rg_bijective _ _ _ Au 2 (le_n 2)) as Bj.
      exists m, L, f, h. split; auto. split; auto. split; auto. split; auto.
      apply (images_from_numbers test trial m L f h); auto; [apply D|apply D|rewrite Gt; exact Bj]. }
  destruct (A 0%nat false false false) as (m & _ & _ & _ & _ & _ & Em & _); [now left|]. exists m. split; [exact Em|].
  intros k s t o U. destruct (A k s t o U) as (m' & L & _ & _ & Ca & Bj & Em' & H & _). rewrite Em in Em'. injection Em' as <-. exists (L 2%nat). auto.
Qed.

Theorem helmholtz_turns : forall kd (G : R -> @green T R) wavenumber, radial Sc (G wavenumber) -> exists m,
  assemble Sc X rt wmod (helmholtz_operator Sc kd G wavenumber) (after calls) trial test = Ok m /\
  forall k s t o, upright k s t o -> exists tau, renumbering (ent_count (built_grid id Triangle b) 2) tau /\
    carries b (octahedral k s t o) tau /\ same_on_images test trial m tau.
Proof.
  intros kd G wn Rd.
  destruct (made_dense T R Sc X wmod (helmholtz_operator Sc kd G wn) calls (built_grid id Triangle b) tf sf test trial Triangle) as (deg & pts & D); auto.
  { exact (shape_sphere real_numbers level id b E). } { apply helmholtz_shipped. }
  assert (Gt : fs_grid test = built_grid id Triangle b) by apply Mt. assert (Gs : fs_grid trial = built_grid id Triangle b) by apply Ms.
  assert (Same : fs_grid trial = fs_grid test) by congruence.
  assert (Ex' := Ex). destruct Ex' as ((one & RT) & _).
  assert (One : forall x, s_mul Sc one x = x) by (intros x; apply (Rmul_1_l RT)).
  assert (A : forall k s t o, upright k s t o -> exists m L f h, carries b (octahedral k s t o) (L 2%nat) /\ renumbering (ent_count (built_grid id Triangle b) 2) (L 2%nat) /\
    assemble Sc X rt wmod (helmholtz_operator Sc kd G wn) (after calls) trial test = Ok m /\ same_on_images test trial m (L 2%nat) /\ renumbering (global_size (fs_space test)) f /\ renumbering (global_size (fs_space trial)) h).
  { intros k s t o U. destruct (turn_automorphism k s t o U) as (L & Au & Ca).
    destruct (helmholtz_automorphism Sc X (octahedral k s t o) (turn_matrix Sc one k s t o) one G wn kd rt wmod (after calls) deg pts Triangle test trial L) as (m & f & h & Em & Rf & Rh & Df & H); auto.
    - now apply turn_orthogonal.
    - apply radial_similar; auto. exact cast_neg.
    - rewrite Gt. exact Au.
    - rewrite Gt. now apply turn_moved.
    - pose proof (rg_bijective _ _ _ Au 2 (le_n 2)) as Bj.
      exists m, L, f, h. split; auto. split; auto. split; auto. split; auto.
      apply (images_from_numbers test trial m L f h); auto; [apply D|apply D|rewrite Gt; exact Bj]. }
  destruct (A 0%nat false false false) as (m & _ & _ & _ & _ & _ & Em & _); [now left|]. exists m. split; [exact Em|].
  intros k s t o U. destruct (A k s t o U) as (m' & L & _ & _ & Ca & Bj & Em' & H & _). rewrite Em in Em'. injection Em' as <-. exists (L 2%nat). auto.
Qed.
End Matrices.

(** The cells of the octahedron look alike. *)
Lemma carried_to L (b : builder vec) T tau c c' p q r : regular_sphere real_numbers L 1 = Ok b -> corners_of b c p q r -> corners_of b c' (T p) (T q) (T r) ->
  carries b T tau -> tau c = c'.
Proof.
  intros E H1 H2 Ca. specialize (Ca _ _ _ _ H1). destruct Ca as (u & v & w & Hk & Hu & Hv & Hw). destruct H2 as (u' & v' & w' & Hk' & Hu' & Hv' & Hw').
  destruct (sphere_tiling_vec L b E) as (SU & _). pose proof (sphere_distinct L b E) as ND.
  assert (DI : forall i j x, nth_error (points_of b) i = Some x -> nth_error (points_of b) j = Some x -> i = j).
  { intros i j x Hi Hj. apply (proj1 (NoDup_nth_error (points_of b)) ND); [apply nth_error_Some; congruence|congruence]. }
  rewrite (DI _ _ _ Hu' Hu), (DI _ _ _ Hv' Hv), (DI _ _ _ Hw' Hw) in Hk'.
  apply (proj1 (NoDup_nth_error (cells_of b)) (su_nodup _ _ SU)); [apply nth_error_Some; congruence|congruence].
Qed.

Lemma turns_like_blocks {T : Type} id (b : builder vec) (test trial : fspace T R) m : regular_sphere real_numbers 0 1 = Ok b ->
  fs_grid test = built_grid id Triangle b -> fs_grid trial = built_grid id Triangle b ->
  (forall k s t o, upright k s t o -> exists tau, renumbering (ent_count (built_grid id Triangle b) 2) tau /\
    carries b (octahedral k s t o) tau /\ same_on_images test trial m tau) -> like_blocks test trial m.
Proof.
  intros E Gt Gs H c c' a a' i j i' j' Hc Hc' Hi Hj Hi' Hj'.
  assert (C8 : ent_count (built_grid id Triangle b) 2 = 8%nat) by (apply (proj1 entity_counts real_numbers 0%nat b id E)).
  destruct (octahedron_transitive b c c' E) as (k & s & t & o & p & q & r & U & H1 & H2); [rewrite Gt in Hc; lia|rewrite Gt in Hc'; lia|].
  destruct (H k s t o U) as (tau & _ & Ca & Sm). pose proof (carried_to 0 b _ tau c c' p q r E H1 H2 Ca) as Et.
  apply (Sm c c a a'); auto; [rewrite Gs, <- Gt; exact Hc|rewrite Et; exact Hi'|rewrite Et; exact Hj'].
Qed.

Theorem octahedron_blocks : forall {T : Type} (Sc : scalar T R) (X : externals R) id wmod (b : builder vec) calls tf sf (test trial : fspace T R) rt,
  exact Sc -> exact_cast Sc -> r_neg Sc = Ropp -> regular_sphere real_numbers 0 1 = Ok b -> standard tf -> standard sf ->
  made_on (built_grid id Triangle b) tf test -> made_on (built_grid id Triangle b) sf trial ->
  flat_cells X (built_grid id Triangle b) b -> proper_rules X -> rules_exist X Triangle (after calls) ->
  (0 < get_batch_size (after calls) < wmod)%nat -> (128 <= wmod)%nat -> legal_runtime (s_add Sc) rt ->
  (forall kd (G : @green T R), radial Sc G -> exists m,
     assemble Sc X rt wmod (laplace_operator kd G) (after calls) trial test = Ok m /\ like_blocks test trial m) /\
  (forall kd (G : R -> @green T R) wavenumber, radial Sc (G wavenumber) -> exists m,
     assemble Sc X rt wmod (helmholtz_operator Sc kd G wavenumber) (after calls) trial test = Ok m /\ like_blocks test trial m).
Proof.
  intros T Sc X id wmod b calls tf sf test trial rt Ex Ec En E Htf Hsf Mt Ms Fl Pr Re Bt Cw Lr.
  assert (C8 : ent_count (built_grid id Triangle b) 2 = 8%nat) by (apply (proj1 entity_counts real_numbers 0%nat b id E)).
  assert (Cw' : (2 * ent_count (built_grid id Triangle b) 2 * ent_count (built_grid id Triangle b) 2 <= wmod)%nat) by (rewrite C8; exact Cw).
  split.
  - intros kd G Rd. destruct (laplace_turns Sc X 0 id wmod b calls tf sf test trial rt Ex Ec En E Htf Hsf Mt Ms Fl Pr Re Bt Cw' Lr kd G Rd) as (m & Em & H).
    exists m. split; [exact Em|]. apply (turns_like_blocks id b test trial m E); [apply Mt|apply Ms|exact H].
  - intros kd G wn Rd. destruct (helmholtz_turns Sc X 0 id wmod b calls tf sf test trial rt Ex Ec En E Htf Hsf Mt Ms Fl Pr Re Bt Cw' Lr kd G wn Rd) as (m & Em & H).
    exists m. split; [exact Em|]. apply (turns_like_blocks id b test trial m E); [apply Mt|apply Ms|exact H].
Qed.
