(** * Matrices on screens are constant along shifts: proofs *)
From Coq Require Import Reals ZArith Ring_theory Ring.
From Verif Require Import Base BaseFacts Topology TopologyFacts DofMap DofMapFacts SpecDof DofMapResults DofExamples Process Space SpecSpace Options SpecOptions Adjacency SpecAdjacency
  Scalar Integrand CellPair Operators SpecLocal SpecOperators Interleave Assembly SpecAssembly AssemblySingular AssemblyDense AssemblyExact AssemblyResults SpecAlgebra AlgebraFacts
  SpecSimilar SimilarResults SpecShapeSpaces ShapeSpacesResults Shapes SpecShapes SpecSphere SpecWidth SymmetryResults SpecScreen ScreenFacts CountsResults SpecSymmetry SpecTurns TurnResults SpecAutomorphism
  SpecBroken BrokenResults SpecShift ShiftResults SpecToeplitz.

(** ** Copies of cells given by their vertices *)

Lemma nth_error_map_inv {A B : Type} (f : A -> B) l k y : nth_error (map f l) k = Some y -> exists x, nth_error l k = Some x /\ f x = y.
Proof. rewrite nth_error_map. destruct (nth_error l k) as [x|]; cbn; [|discriminate]. intros E. injection E as <-. now exists x. Qed.

Section Copied.
Variables (id n : nat) (t : cell_type) (cells : list (list nat)) (D : nat -> Prop) (tau : nat -> nat).
Hypothesis Va : valid_cells t n cells.
Let V c k := nth k (nth c cells []) 0.
Hypothesis (Dl : forall c, D c -> c < length cells) (Dt : forall c, D c -> tau c < length cells).
Hypothesis Sh : forall c c' k k', D c -> D c' -> k < ref_count t 0 -> k' < ref_count t 0 -> (V c k = V c' k' <-> V (tau c) k = V (tau c') k').
Hypothesis Inj : forall c c', D c -> D c' -> tau c = tau c' -> c = c'.
Let g := grid_of_cells id t n cells.

Lemma corners_length c : c < length cells -> length (nth c cells []) = ref_count t 0.
Proof. intros H. destruct Va as (_ & Hv). now destruct (Hv _ (nth_In _ [] H)). Qed.

Lemma share_vertices c c' k k' : c < length cells -> c' < length cells ->
  (share g c c' 0 k k' <-> k < ref_count t 0 /\ k' < ref_count t 0 /\ V c k = V c' k').
Proof.
  intros H H'. unfold share. cbn [g grid_of_cells g_sub]. split.
  - intros (e & E & E'). assert (k < length (nth c cells [])) by (apply nth_error_Some; congruence).
    assert (k' < length (nth c' cells [])) by (apply nth_error_Some; congruence). rewrite corners_length in * by auto.
    unfold V. rewrite (nth_error_nth _ _ 0 E), (nth_error_nth _ _ 0 E'). auto.
  - intros (L & L' & E). exists (V c k). unfold V in *. split; [|rewrite E]; apply nth_error_nth'; rewrite corners_length; auto.
Qed.

Lemma share_edges c c' k k' : c < length cells -> c' < length cells ->
  (share g c c' 1 k k' <-> exists u v u' v', nth_error (ref_edges t) k = Some (u, v) /\ nth_error (ref_edges t) k' = Some (u', v') /\
    ((V c u = V c' u' /\ V c v = V c' v') \/ (V c u = V c' v' /\ V c v = V c' u'))).
Proof.
  intros H H'. unfold share. cbn [g grid_of_cells g_sub]. unfold cell_edges. rewrite !map_map. split.
  - intros (e & E & E'). apply nth_error_map_inv in E, E'. destruct E as ((u & v) & Eu & <-), E' as ((u' & v') & Eu' & E'). cbn [fst snd] in E'.
    exists u, v, u', v'. split; auto. split; auto. symmetry in E'. apply index_of_inj in E'.
    + now apply norm_pair_eq in E'.
    + apply (edge_known t cells c); auto. unfold cell_edges. apply in_map_iff. exists (u, v). split; auto. eapply nth_error_In; eauto.
    + apply (edge_known t cells c'); auto. unfold cell_edges. apply in_map_iff. exists (u', v'). split; auto. eapply nth_error_In; eauto.
  - intros (u & v & u' & v' & Eu & Eu' & C). eexists. split; [apply (map_nth_error _ _ _ Eu)|].
    rewrite (map_nth_error _ _ _ Eu'). cbn [fst snd]. do 2 f_equal. fold (V c u) (V c v) (V c' u') (V c' v').
    destruct C as [(-> & ->)|(-> & ->)]; auto. unfold norm_pair.
    destruct (Nat.leb_spec (V c' u') (V c' v')), (Nat.leb_spec (V c' v') (V c' u')); auto; try lia. f_equal; lia.
Qed.

Lemma copied_by_vertices : copied g D tau.
Proof.
  destruct Va as (St & _).
  assert (E2 : ent_count g 2 = length cells) by (destruct St as [-> | ->]; cbn; lia).
  constructor.
  - intros c H. rewrite E2. auto.
  - intros c H. rewrite E2. auto.
  - reflexivity.
  - intros c c' d k k' H H' Hd. pose proof (Dl c H). pose proof (Dl c' H'). pose proof (Dt c H). pose proof (Dt c' H').
    destruct d as [|[|[|d]]]; try lia.
    + rewrite !share_vertices by auto. split; intros (A & B & C); (split; [auto|]); (split; [auto|]); now apply (Sh c c').
    + rewrite !share_edges by auto.
      split; intros (u & v & u' & v' & Eu & Eu' & C); exists u, v, u', v'; (split; [auto|]); (split; [auto|]);
        destruct (ref_edges_lt t k u v St Eu) as (L1 & L2 & _); destruct (ref_edges_lt t k' u' v' St Eu') as (L3 & L4 & _);
        (destruct C as [(C1 & C2)|(C1 & C2)]; [left|right]; split; now apply (Sh c c')).
    + unfold share. cbn [g grid_of_cells g_sub]. split; intros (e & E & E').
      * destruct k as [|[|k]], k' as [|[|k']]; try discriminate. cbn in *. assert (c = c') as -> by congruence. exists (tau c'). auto.
      * destruct k as [|[|k]], k' as [|[|k']]; try discriminate. cbn in *. assert (c = c') as -> by (apply Inj; auto; congruence). exists c'. auto.
Qed.
End Copied.

(** ** The cells of a screen *)

Definition per (t : cell_type) : nat := match t with Triangle => 2 | _ => 1 end.
Definition number (t : cell_type) (n x y h : nat) : nat := (y * n + x) * per t + h.
Definition offsets (t : cell_type) (h : nat) : list (nat * nat) :=
  match t, h with
  | Triangle, 0 => [(0, 0); (1, 0); (1, 1)]
  | Triangle, _ => [(0, 0); (1, 1); (0, 1)]
  | _, _ => [(0, 0); (1, 0); (0, 1); (1, 1)]
  end.

Section Screen.
Variables (n : nat) (t : cell_type) (b : builder (nat * nat)).
Hypothesis Sc : screen n t b.

Lemma screen_facts : n <> 0 /\ points_of b = square_points (n + 1) /\ length (b_points b) = (n + 1) * (n + 1) /\ length (cells_of b) = n * n * per t /\
  valid_cells t ((n + 1) * (n + 1)) (cells_of b) /\ NoDup (cells_of b) /\
  forall x y h, x < n -> y < n -> h < per t ->
    nth_error (cells_of b) (number t n x y h) = Some (map (fun o => (y + snd o) * (n + 1) + (x + fst o)) (offsets t h)).
Proof.
  destruct Sc as [b' E|b' E].
  - assert (Hn : n <> 0) by (intros ->; discriminate E). destruct (screen_triangles_spec n Hn) as (b0 & E' & P & C & L). rewrite E in E'. injection E' as <-.
    assert (Ec : cells_of b' = triangle_cells n) by (unfold cells_of; now rewrite C, map_snd_enumerate).
    assert (Ep : points_of b' = square_points (n + 1)) by (unfold points_of; now rewrite P, map_snd_enumerate).
    split; auto. split; auto. split; [now rewrite P, length_enumerate, square_points_length|]. rewrite Ec. split; [rewrite L; cbn [per]; lia|].
    split; [apply triangles_valid|]. split; [apply triangles_NoDup|]. intros x y h Hx Hy Hh. unfold number. cbn [per] in *.
    unfold triangle_cells. replace ((y * n + x) * 2 + h) with (y * (n * 2) + (x * 2 + h)) by lia. rewrite (flat_map_nth _ _ (n * 2)) with (a := y).
    + rewrite (flat_map_nth _ _ 2) with (a := x); auto; [|rewrite nth_error_seq; auto]. destruct h as [|[|h]]; try lia; cbn [nth_error offsets map fst snd lower upper]; unfold lower, upper; do 2 f_equal; try lia; f_equal; try lia; f_equal; lia.
    + intros a _. clear. induction (seq 0 n) eqn:Q in n |- *; [destruct n; [reflexivity|discriminate Q]|].
      rewrite <- Q. clear Q IHl. transitivity (length (seq 0 n) * 2); [|now rewrite seq_length]. induction (seq 0 n); cbn [flat_map app length] in *; lia.
    + rewrite nth_error_seq; auto.
    + nia.
  - assert (Hn : n <> 0) by (intros ->; discriminate E). destruct (screen_quadrilaterals_spec n Hn) as (b0 & E' & P & C & L). rewrite E in E'. injection E' as <-.
    assert (Ec : cells_of b' = quad_cells n) by (unfold cells_of; now rewrite C, map_snd_enumerate).
    assert (Ep : points_of b' = square_points (n + 1)) by (unfold points_of; now rewrite P, map_snd_enumerate).
    split; auto. split; auto. split; [now rewrite P, length_enumerate, square_points_length|]. rewrite Ec. split; [rewrite L; cbn [per]; lia|].
    split; [apply quads_valid|]. split; [apply quads_NoDup|]. intros x y h Hx Hy Hh. unfold number. cbn [per] in *. assert (h = 0) as -> by lia.
    unfold quad_cells. replace ((y * n + x) * 1 + 0) with (y * n + x) by lia. rewrite (flat_map_nth _ _ n) with (a := y).
    + rewrite flat_map_single, (map_nth_error _ _ _ (nth_error_seq 0 n x Hx)). cbn [offsets map fst snd]. unfold quad. do 2 f_equal; try lia; f_equal; try lia; f_equal; try lia; f_equal; lia.
    + intros. rewrite flat_map_single. now rewrite map_length, seq_length.
    + rewrite nth_error_seq; auto.
    + exact Hx.
Qed.

Lemma offset_le h k o : h < per t -> nth_error (offsets t h) k = Some o -> fst o <= 1 /\ snd o <= 1.
Proof. intros _ H. destruct t, h as [|h]; do 5 (destruct k as [|k]; cbn in H; [try (injection H as <-; cbn; lia); try discriminate H|]); destruct k; discriminate. Qed.

Lemma screen_number c : c < length (cells_of b) -> exists x y h, x < n /\ y < n /\ h < per t /\ c = number t n x y h.
Proof.
  intros H. destruct screen_facts as (Hn & _ & _ & L & _). rewrite L in H. assert (Hp : per t <> 0) by (destruct t; cbn; lia).
  pose proof (Nat.div_mod c (per t) Hp) as D1. assert (Q : c / per t < n * n) by (apply Nat.div_lt_upper_bound; lia).
  destruct (number_of n (c / per t) Q) as (x & y & Hx & Hy & E). exists x, y, (c mod per t). split; auto. split; auto.
  split; [now apply Nat.mod_upper_bound|]. unfold number. rewrite <- E. lia.
Qed.

Lemma number_lt x y h : x < n -> y < n -> h < per t -> number t n x y h < length (cells_of b).
Proof. intros Hx Hy Hh. destruct screen_facts as (_ & _ & _ & _ & _ & _ & C). apply nth_error_Some. now rewrite C. Qed.

Lemma corner_at x y h k p : x < n -> y < n -> h < per t ->
  (corner b (number t n x y h) k p <-> exists o, nth_error (offsets t h) k = Some o /\ p = (x + fst o, y + snd o)).
Proof.
  intros Hx Hy Hh. destruct screen_facts as (_ & P & _ & _ & _ & _ & C). unfold corner. rewrite C, P by auto. split.
  - intros (vs & v & E & Ev & Ep). injection E as <-. apply nth_error_map_inv in Ev. destruct Ev as (o & Eo & <-). exists o. split; auto.
    destruct (offset_le h k o Hh Eo). rewrite square_point_at in Ep by lia. congruence.
  - intros (o & Eo & ->). do 2 eexists. split; [reflexivity|]. split; [apply (map_nth_error _ _ _ Eo)|]. destruct (offset_le h k o Hh Eo). apply square_point_at; lia.
Qed.

Lemma corner_vertex c k p : c < length (cells_of b) -> corner b c k p ->
  nth k (nth c (cells_of b) []) 0 = snd p * (n + 1) + fst p /\ fst p <= n /\ snd p <= n /\ k < ref_count t 0.
Proof.
  intros Hc Co. destruct (screen_number c Hc) as (x & y & h & Hx & Hy & Hh & ->). destruct (proj1 (corner_at x y h k p Hx Hy Hh) Co) as (o & Eo & ->).
  destruct screen_facts as (_ & _ & _ & _ & (_ & Va) & _ & C). pose proof (C x y h Hx Hy Hh) as E. rewrite (nth_error_nth _ _ [] E). cbn [fst snd].
  rewrite (nth_error_nth _ _ 0 (map_nth_error _ _ _ Eo)). destruct (offset_le h k o Hh Eo). split; auto. split; [lia|]. split; [lia|].
  destruct (Va _ (nth_error_In _ _ E)) as (<- & _). rewrite map_length. apply nth_error_Some. congruence.
Qed.

Lemma corner_exists c k : c < length (cells_of b) -> k < ref_count t 0 -> exists p, corner b c k p.
Proof.
  intros Hc Hk. destruct (screen_number c Hc) as (x & y & h & Hx & Hy & Hh & ->).
  destruct screen_facts as (_ & _ & _ & _ & (_ & Va) & _ & C). pose proof (C x y h Hx Hy Hh) as E. destruct (Va _ (nth_error_In _ _ E)) as (L & _).
  rewrite map_length in L. destruct (nth_error (offsets t h) k) as [o|] eqn:Eo; [|apply nth_error_None in Eo; lia].
  eexists. apply corner_at; auto. exists o. split; auto.
Qed.

Lemma corner_unique c k p q : corner b c k p -> corner b c k q -> p = q.
Proof. intros (vs & v & A & B & C) (vs' & v' & A' & B' & C'). congruence. Qed.

Lemma same_vertex c c' k k' p p' : c < length (cells_of b) -> c' < length (cells_of b) -> corner b c k p -> corner b c' k' p' ->
  (nth k (nth c (cells_of b) []) 0 = nth k' (nth c' (cells_of b) []) 0 <-> p = p').
Proof.
  intros Hc Hc' Co Co'. destruct (corner_vertex c k p Hc Co) as (-> & A & B & _), (corner_vertex c' k' p' Hc' Co') as (-> & A' & B' & _).
  split; [|now intros ->]. intros E. apply (number_inj (n + 1)) in E; try lia. destruct p, p'; cbn [fst snd] in *. destruct E. congruence.
Qed.

(** ** Moving cells *)

Section Move.
Variables dx dy : Z.

Lemma moved_at x y h c' : x < n -> y < n -> h < per t -> (moved_cell b dx dy (number t n x y h) c' <->
  exists x' y', x' < n /\ y' < n /\ Z.of_nat x' = (Z.of_nat x + dx)%Z /\ Z.of_nat y' = (Z.of_nat y + dy)%Z /\ c' = number t n x' y' h).
Proof.
  intros Hx Hy Hh. split.
  - intros (_ & L & M). destruct (screen_number c' L) as (x' & y' & h' & Hx' & Hy' & Hh' & ->). exists x', y'.
    assert (K : forall k o, nth_error (offsets t h) k = Some o -> exists o', nth_error (offsets t h') k = Some o' /\
      Z.of_nat (x' + fst o') = (Z.of_nat (x + fst o) + dx)%Z /\ Z.of_nat (y' + snd o') = (Z.of_nat (y + snd o) + dy)%Z).
    { intros k o Eo. destruct (proj1 (M k) (x + fst o, y + snd o)) as (q & Cq & Mq); [apply corner_at; auto; now exists o|].
      destruct (proj1 (corner_at x' y' h' k q Hx' Hy' Hh') Cq) as (o' & Eo' & ->). now exists o'. }
    assert (h = h').
    { destruct t; cbn [per offsets] in *; try lia. destruct h as [|[|h]], h' as [|[|h']]; try lia.
      - destruct (K 0 (0, 0) eq_refl) as (o & Eo & K1 & K2), (K 1 (1, 0) eq_refl) as (o' & Eo' & K1' & K2'). injection Eo as <-. injection Eo' as <-. cbn [fst snd] in *. lia.
      - destruct (K 0 (0, 0) eq_refl) as (o & Eo & K1 & K2), (K 1 (1, 1) eq_refl) as (o' & Eo' & K1' & K2'). injection Eo as <-. injection Eo' as <-. cbn [fst snd] in *. lia. }
    subst h'. assert (E0 : nth_error (offsets t h) 0 = Some (0, 0)) by (destruct t, h; reflexivity).
    destruct (K 0 (0, 0) E0) as (o & Eo & K1 & K2). rewrite E0 in Eo. injection Eo as <-. cbn [fst snd] in *. repeat split; auto; lia.
  - intros (x' & y' & Hx' & Hy' & Ex & Ey & ->). split; [now apply number_lt|]. split; [now apply number_lt|]. intros k. split.
    + intros p Cp. destruct (proj1 (corner_at x y h k p Hx Hy Hh) Cp) as (o & Eo & ->). exists (x' + fst o, y' + snd o).
      split; [apply corner_at; auto; now exists o|]. split; cbn [fst snd]; lia.
    + intros p Cp. destruct (proj1 (corner_at x' y' h k p Hx' Hy' Hh) Cp) as (o & Eo & ->). exists (x + fst o, y + snd o).
      split; [apply corner_at; auto; now exists o|]. split; cbn [fst snd]; lia.
Qed.

Definition image (c : nat) : nat :=
  let q := c / per t in number t n (Z.to_nat (Z.of_nat (q mod n) + dx)) (Z.to_nat (Z.of_nat (q / n) + dy)) (c mod per t).

Lemma image_moved c c' : moved_cell b dx dy c c' -> image c = c'.
Proof.
  intros M. destruct screen_facts as (Hn & _). assert (Hp : per t <> 0) by (destruct t; cbn; lia).
  destruct (screen_number c (proj1 M)) as (x & y & h & Hx & Hy & Hh & ->). apply moved_at in M; auto.
  destruct M as (x' & y' & Hx' & Hy' & Ex & Ey & ->). unfold image, number at 2 3 4.
  rewrite (Nat.add_comm _ h), Nat.mod_add, Nat.div_add, (Nat.mod_small h), (Nat.div_small h) by auto. cbn [Nat.add].
  rewrite (Nat.add_comm _ x), Nat.mod_add, Nat.div_add, (Nat.mod_small x), (Nat.div_small x) by auto. cbn [Nat.add].
  f_equal; lia.
Qed.

Definition movable (c : nat) : Prop := exists c', moved_cell b dx dy c c'.

Lemma movable_image c : movable c -> moved_cell b dx dy c (image c).
Proof. intros (c' & M). now rewrite (image_moved c c' M). Qed.

Lemma moved_point_iff p q p' q' : moved_point dx dy p q -> moved_point dx dy p' q' -> (p = p' <-> q = q').
Proof. destruct p, q, p', q'. unfold moved_point. cbn [fst snd]. intros (A & B) (A' & B'). split; intros E; injection E as -> ->; f_equal; lia. Qed.

Lemma moved_vertices c c' k k' : movable c -> movable c' -> k < ref_count t 0 -> k' < ref_count t 0 ->
  (nth k (nth c (cells_of b) []) 0 = nth k' (nth c' (cells_of b) []) 0 <->
   nth k (nth (image c) (cells_of b) []) 0 = nth k' (nth (image c') (cells_of b) []) 0).
Proof.
  intros M M' Hk Hk'. apply movable_image in M, M'. destruct M as (L & L1 & M), M' as (L' & L1' & M').
  destruct (corner_exists c k L Hk) as (p & Cp), (corner_exists c' k' L' Hk') as (p' & Cp').
  destruct (proj1 (M k) p Cp) as (q & Cq & Mq), (proj1 (M' k') p' Cp') as (q' & Cq' & Mq').
  rewrite (same_vertex c c' k k' p p'), (same_vertex (image c) (image c') k k' q q') by auto. now apply moved_point_iff.
Qed.

Lemma image_inj c c' : movable c -> movable c' -> image c = image c' -> c = c'.
Proof.
  intros M M' E. destruct screen_facts as (_ & _ & _ & _ & Va & Nd & _). pose proof M as (x & Lc & _). pose proof M' as (x' & Lc' & _).
  apply (proj1 (NoDup_nth (cells_of b) []) Nd); auto.
  assert (Le : forall e, e < length (cells_of b) -> length (nth e (cells_of b) []) = ref_count t 0) by (intros e He; now apply (corners_length ((n + 1) * (n + 1)) t)).
  apply (nth_ext _ _ 0 0); [now rewrite !Le|]. intros k Hk. rewrite Le in Hk by auto. apply moved_vertices; auto. now rewrite E.
Qed.

Lemma screen_copied id : copied (built_grid id t b) movable image.
Proof.
  destruct screen_facts as (_ & _ & Lp & _ & Va & _). unfold built_grid. rewrite Lp. apply copied_by_vertices; auto.
  - intros c (c' & L & _). exact L.
  - intros c M. apply movable_image in M. apply M.
  - intros c c' k k' M M' Hk Hk'. now apply moved_vertices.
  - exact image_inj.
Qed.
End Move.
End Screen.

(** ** Moving functions *)

Lemma screen_is_shape n id t b : screen n t b -> shape_grid (built_grid id t b).
Proof. intros [b' E|b' E]; [eapply shape_triangles|eapply shape_quadrilaterals]; exact E. Qed.

Lemma screen_cell_count n id t b : screen n t b -> ent_count (built_grid id t b) 2 = length (cells_of b).
Proof. unfold cells_of. intros []; cbn; lia. Qed.

Section Functions.
Context {T R : Type}.
Variables (n id : nat) (t : cell_type) (b : builder (nat * nat)) (fam : family) (fs : fspace T R).
Hypothesis (Sc : screen n t b) (Hf : standard fam) (Mo : made_on (built_grid id t b) fam fs).
Variables dx dy : Z.

Let screen_shape := screen_is_shape n id t b Sc.
Let screen_count := screen_cell_count n id t b Sc.

Lemma moved_is_copy i i' : moved_function b fs dx dy i i' -> (forall c, lives_on fs i c -> movable b dx dy c) /\ copy_of fs (image n t dx dy) i i'.
Proof.
  intros ((c0 & c0' & a0 & M0 & H0 & H0') & Fw & Bw). split; [exact Fw|].
  pose proof (made_serial T R _ _ _ screen_shape Hf Mo) as Sp. pose proof (mo_grid _ _ _ Mo) as Eg.
  pose proof (screen_copied n t b Sc dx dy id) as Cp. rewrite <- Eg in Cp.
  assert (D0 : movable b dx dy c0) by (now exists c0').
  assert (E0 : image n t dx dy c0 = c0') by (now apply (image_moved n t b Sc)).
  split.
  - exists c0, a0. rewrite E0, Eg, screen_count. split; [apply M0|]. auto.
  - intros c' Lc'. destruct (Bw c' Lc') as (c & M). exists c. pose proof (image_moved n t b Sc dx dy c c' M) as Ei. split; [|exact Ei].
    assert (Dc : movable b dx dy c) by (now exists c'). destruct Lc' as (L & H'). apply In_nth_error in H'. destruct H' as (a' & H').
    split; [now apply (cp_cell _ _ _ Cp)|]. apply (nth_error_In _ a').
    apply (same_dof fs c0' c' c0 c a0 a' i' i Sp); auto; try (rewrite <- ?E0, <- ?Ei; (now apply (cp_lt _ _ _ Cp)) || (now apply (cp_cell _ _ _ Cp)) || (symmetry; now apply (cp_type _ _ _ Cp))).
    intros d k k' Hd. rewrite <- E0, <- Ei. now apply (cp_share _ _ _ Cp).
Qed.

Lemma alike_back x x' d : Z.of_nat x' = (Z.of_nat x + d)%Z -> alike n d x -> alike n (- d) x'.
Proof. intros E [->|(A & B)]; [left; lia|right; lia]. Qed.

Lemma corner_movable e f c k p : c < length (cells_of b) -> corner b c k p -> alike n e (fst p) -> alike n f (snd p) ->
  exists c', moved_cell b e f c c'.
Proof.
  intros Hc Co Ax Ay. destruct (screen_number n t b Sc c Hc) as (x & y & h & Hx & Hy & Hh & ->).
  destruct (proj1 (corner_at n t b Sc x y h k p Hx Hy Hh) Co) as (o & Eo & ->). cbn [fst snd] in *. destruct (offset_le n t b Sc h k o Hh Eo).
  exists (number t n (Z.to_nat (Z.of_nat x + e)) (Z.to_nat (Z.of_nat y + f)) h). apply (moved_at n t b Sc); auto.
  unfold alike in Ax, Ay. do 2 eexists. repeat split; lia.
Qed.

Lemma moved_back e f c c' : moved_cell b e f c c' <-> moved_cell b (- e) (- f) c' c.
Proof.
  assert (P : forall e f p q, moved_point e f p q -> moved_point (- e) (- f) q p) by (intros e0 f0 [? ?] [? ?] (A & B); split; cbn [fst snd] in *; lia).
  assert (P' : forall p q, moved_point (- e) (- f) q p -> moved_point e f p q) by (intros [? ?] [? ?] (A & B); split; cbn [fst snd] in *; lia).
  split; intros (L & L' & M); (split; [exact L'|]); (split; [exact L|]); intros k; destruct (M k) as (M1 & M2); split; intros p Cp.
  - destruct (M2 p Cp) as (q & Cq & Mq). exists q. auto.
  - destruct (M1 p Cp) as (q & Cq & Mq). exists q. auto.
  - destruct (M2 p Cp) as (q & Cq & Mq). exists q. auto.
  - destruct (M1 p Cp) as (q & Cq & Mq). exists q. auto.
Qed.

(** The other cells of a function have the corners of its entity. *)
Lemma common_corner c a d e l i k p c1 : c < length (cells_of b) -> el_edofs (fam t) d e = Some l -> In a l -> nth_error (dofs_at fs c) a = Some i ->
  lives_on fs i c1 -> (d = 2 -> c1 = c) /\ (corner_of_entity t d e k -> corner b c k p -> exists k1, corner b c1 k1 p).
Proof.
  intros Hc El Ia Hi (L1 & H1).
  pose proof (made_serial T R _ _ _ screen_shape Hf Mo) as Sp. pose proof (mo_grid _ _ _ Mo) as Eg. pose proof (mo_family _ _ _ Mo) as Ef.
  assert (W := ss_grid _ Sp). assert (WF := ss_family _ Sp). assert (HA := ss_dofs _ Sp).
  assert (Lc : c < ent_count (fs_grid fs) 2) by (rewrite Eg, screen_count; exact Hc).
  assert (Ty : forall x, g_ctype (fs_grid fs) x = t) by (intros x; now rewrite Eg).
  apply In_nth_error in H1. destruct H1 as (a1 & H1). rewrite dofs_at_row in Hi, H1 by auto.
  destruct (cell_row_origin 0 _ _ _ W WF HA c a i Lc Hi) as (d0 & k0 & e0 & l0 & s0 & (_ & Ld & Ek) & El0 & Es & En).
  destruct (cell_row_origin 0 _ _ _ W WF HA c1 a1 i L1 H1) as (d' & k' & e' & l' & s' & (_ & _ & Ek') & El' & Es' & En').
  destruct (edof_unique 0 _ _ _ W WF HA i d0 e0 s0 d' e' s' En En') as (<- & <- & <-).
  assert (Own : d0 = d /\ k0 = e).
  { assert (We := wff_el _ _ WF t). assert (It : In t (g_types (fs_grid fs) 2)) by (rewrite <- (Ty c); now apply (wf_ctype _ W)).
    rewrite Ty, Ef in El0. specialize (We It). rewrite Ef in We. apply In_nth_error in Ia. destruct Ia as (s1 & Ia).
    destruct (we_inj t (fam t) d0 k0 l0 s0 d e l s1 a We El0 Es El Ia) as (A & B & _). auto. }
  destruct Own as (-> & ->).
  assert (Shr : share (grid_of_cells id t ((n + 1) * (n + 1)) (cells_of b)) c c1 d e k').
  { exists e0. rewrite Eg in Ek, Ek'. unfold built_grid in Ek, Ek'. destruct (screen_facts n t b Sc) as (_ & _ & Lp & _). rewrite Lp in Ek, Ek'. auto. }
  rewrite Eg, screen_count in L1. destruct (screen_facts n t b Sc) as (_ & _ & _ & _ & Va & _).
  assert (Tr : forall u, corner b c k p -> u < ref_count t 0 -> nth k (nth c (cells_of b) []) 0 = nth u (nth c1 (cells_of b) []) 0 -> exists k1, corner b c1 k1 p).
  { intros u Cp Hu E. destruct (corner_exists n t b Sc c1 u L1 Hu) as (q & Cq). rewrite (same_vertex n t b Sc c c1 k u p q) in E by auto. subst q. now exists u. }
  destruct d as [|[|[|d]]]; [split; [lia|]|split; [lia|]|split; [|intros []]|lia].
  - intros Ck Cp. cbn [corner_of_entity] in Ck. subst k. apply (share_vertices id ((n + 1) * (n + 1)) t (cells_of b) Va) in Shr; auto.
    destruct Shr as (_ & Hk' & E). now apply (Tr k').
  - intros (u & v & Eu & Ck) Cp. apply (share_edges id ((n + 1) * (n + 1)) t (cells_of b)) in Shr; auto.
    destruct Shr as (u0 & v0 & u' & v' & Eu0 & Eu' & C). rewrite Eu in Eu0. injection Eu0 as <- <-.
    destruct (ref_edges_lt t k' u' v' (proj1 Va) Eu') as (L3 & L4 & _).
    destruct Ck as [-> | ->], C as [(C1 & C2)|(C1 & C2)]; eauto.
  - intros _. destruct Shr as (x & X1 & X2). cbn [grid_of_cells g_sub] in X1, X2. destruct e as [|[|e]], k' as [|[|k']]; try discriminate. cbn in X1, X2. congruence.
Qed.

Theorem moves_with_cell : forall c c' d e l a i i', moved_cell b dx dy c c' -> el_edofs (fam t) d e = Some l -> In a l ->
  (d = 2 \/ exists k p, corner_of_entity t d e k /\ corner b c k p /\ alike n dx (fst p) /\ alike n dy (snd p)) ->
  nth_error (dofs_at fs c) a = Some i -> nth_error (dofs_at fs c') a = Some i' -> moved_function b fs dx dy i i'.
Proof.
  intros c c' d e l a i i' M El Ia Cond Hi Hi'. split; [exists c, c', a; auto|].
  pose proof (mo_grid _ _ _ Mo) as Eg.
  assert (Ln : forall x j, lives_on fs j x -> x < length (cells_of b)) by (intros x j (L & _); rewrite Eg, screen_count in L; exact L).
  split.
  - intros c1 L1. destruct Cond as [-> |(k & p & Ck & Cp & Ax & Ay)].
    + destruct (common_corner c a 2 e l i 0 (0, 0) c1 (proj1 M) El Ia Hi L1) as (H & _). rewrite (H eq_refl). now exists c'.
    + destruct (common_corner c a d e l i k p c1 (proj1 M) El Ia Hi L1) as (_ & H). destruct (H Ck Cp) as (k1 & C1).
      apply (corner_movable dx dy c1 k1 p); auto. eapply Ln; eauto.
  - intros c1 L1. destruct Cond as [-> |(k & p & Ck & Cp & Ax & Ay)].
    + destruct (common_corner c' a 2 e l i' 0 (0, 0) c1 (proj1 (proj2 M)) El Ia Hi' L1) as (H & _). rewrite (H eq_refl). now exists c.
    + destruct M as (L & L' & M). destruct (proj1 (M k) p Cp) as (q & Cq & (Ex & Ey)).
      destruct (common_corner c' a d e l i' k q c1 L' El Ia Hi' L1) as (_ & H). destruct (H Ck Cq) as (k1 & C1).
      destruct (corner_movable (- dx) (- dy) c1 k1 q) as (c0 & M0); [eapply Ln; eauto|exact C1|now apply (alike_back (fst p))|now apply (alike_back (snd p))|].
      exists c0. now apply moved_back.
Qed.
End Functions.

(** ** Matrices *)

Local Open Scope R_scope.

Definition displacement (n : nat) (dx dy : Z) : vec := (IZR dx / INR (screen_denominator n), IZR dy / INR (screen_denominator n), 0).

Lemma moved_position n dx dy p q : moved_point dx dy p q -> screen_position n q = vadd (screen_position n p) (displacement n dx dy).
Proof.
  intros (Ex & Ey). unfold screen_position, displacement, vadd. rewrite !INR_IZR_INZ, Ex, Ey, !plus_IZR. unfold Rdiv. apply vec_eq; ring.
Qed.

Lemma vsub_translated p q v : vsub (vadd p v) (vadd q v) = vsub p q.
Proof. destruct p as [[? ?] ?], q as [[? ?] ?], v as [[? ?] ?]. cbn. apply vec_eq; ring. Qed.

Lemma normal_translated p q r v : normal (vadd p v) (vadd q v) (vadd r v) = normal p q r.
Proof. unfold normal. now rewrite !vsub_translated. Qed.

Lemma coordinate_vadd i p v : (i < 3)%nat -> coordinate i (vadd p v) = coordinate i p + coordinate i v.
Proof. intros H. destruct p as [[? ?] ?], v as [[? ?] ?]. destruct i as [|[|[|i]]]; try lia; reflexivity. Qed.

Section Translation.
Context {T : Type} (Sc : scalar T R) (one : T) (RT : ring_theory (s_zero Sc) one (s_add Sc) (s_mul Sc) (s_sub Sc) (s_neg Sc) eq).
Add Ring TRing : RT.

Definition unit_matrix (i j : nat) : T := if Nat.eqb i j then one else s_zero Sc.

Lemma unit_dot i v : (i < 3)%nat -> dot Sc (unit_matrix i) v = v i.
Proof. intros H. destruct i as [|[|[|i]]]; try lia; cbn [dot unit_matrix Nat.eqb]; unfold dot, unit_matrix; cbn [Nat.eqb]; ring. Qed.

Lemma unit_orthogonal : orthogonal Sc unit_matrix.
Proof. intros u v. unfold dot at 1. rewrite !unit_dot by lia. reflexivity. Qed.

Lemma flat_translated points p q r v x x' : flat_cell points p q r x -> flat_cell points (vadd p v) (vadd q v) (vadd r v) x' ->
  similar_cell Sc (fun y => vadd y v) unit_matrix one one x x'.
Proof.
  intros [P N J1 J2 D] [P' N' J1' J2' D']. rewrite !vsub_translated in *. rewrite normal_translated in *. constructor.
  - intros j. unfold SpecLocal.position. rewrite !P', !P by lia. rewrite !coordinate_vadd by lia. destruct v as [[v1 v2] v3]. cbn [vadd coordinate]. apply vec_eq; ring.
  - intros j i Hi. rewrite unit_dot by auto. rewrite N', N by auto. ring.
  - intros j c i Hc Hi. rewrite unit_dot by auto. destruct c as [|[|c]]; [| |lia].
    + change (3 * 0 + i)%nat with i. rewrite J1', J1 by auto. ring.
    + change (3 * 1 + i)%nat with (3 + i)%nat. rewrite J2', J2 by auto. ring.
  - intros j. rewrite D', D. ring.
Qed.

Lemma radial_translated v (G : @green T R) : radial Sc G -> similar_green Sc (fun y => vadd y v) unit_matrix one one G G.
Proof.
  intros (phi & psi & V & D).
  assert (C : forall x y, chord2 (vadd x v) (vadd y v) = chord2 x y) by (intros x y; unfold chord2; now rewrite vsub_translated).
  constructor.
  - intros x y. rewrite !V, C. ring.
  - intros i x y Hi. rewrite unit_dot by auto. rewrite !D, C, vsub_translated by auto. ring.
Qed.

Lemma screen_moved n t b X g dx dy : screen n t b -> flat_screen n X g b ->
  moved_copies Sc (fun y => vadd y (displacement n dx dy)) unit_matrix one one g X (movable b dx dy) (image n t dx dy).
Proof.
  intros Sn Fl ty points c M. pose proof (movable_image n t b Sn dx dy c M) as (L & L' & Mv).
  assert (Ge : (3 <= ref_count t 0)%nat) by (destruct Sn; cbn; lia).
  destruct (corner_exists n t b Sn c 0 L ltac:(lia)) as (p & Cp), (corner_exists n t b Sn c 1 L ltac:(lia)) as (q & Cq), (corner_exists n t b Sn c 2 L ltac:(lia)) as (r & Cr).
  destruct (proj1 (Mv 0%nat) p Cp) as (p' & Cp' & Mp), (proj1 (Mv 1%nat) q Cq) as (q' & Cq' & Mq), (proj1 (Mv 2%nat) r Cr) as (r' & Cr' & Mr).
  eapply flat_translated; [apply (Fl ty points c p q r); auto|].
  rewrite <- (moved_position n dx dy p p'), <- (moved_position n dx dy q q'), <- (moved_position n dx dy r r') by auto. now apply Fl.
Qed.
End Translation.

Section Matrices.
Context {T : Type} (Sc : scalar T R) (X : externals R).
Variables (n id wmod : nat) (t : cell_type) (b : builder (nat * nat)) (calls : list setter) (tf sf : family) (test trial : fspace T R) (rt : runtime T).
Hypothesis (Ex : exact Sc) (Ec : exact_cast Sc) (Sn : screen n t b) (Htf : standard tf) (Hsf : standard sf).
Hypothesis (Mt : made_on (built_grid id t b) tf test) (Ms : made_on (built_grid id t b) sf trial).
Hypothesis (Fl : flat_screen n X (built_grid id t b) b) (Pr : proper_rules X) (Re : rules_exist X t (after calls)).
Hypothesis (Bt : (0 < get_batch_size (after calls) < wmod)%nat).
Hypothesis (Cw : (2 * ent_count (built_grid id t b) 2 * ent_count (built_grid id t b) 2 <= wmod)%nat).
Hypothesis (Lr : legal_runtime (s_add Sc) rt).

Lemma screen_dense O : shipped Sc O -> exists deg pts, dense_setting X wmod O (after calls) deg pts t test trial.
Proof. intros Sh. apply (made_dense T R Sc X wmod O calls (built_grid id t b) tf sf); auto. now apply (screen_is_shape n). Qed.

Lemma same_grids : fs_grid trial = fs_grid test.
Proof. now rewrite (mo_grid _ _ _ Mt), (mo_grid _ _ _ Ms). Qed.

Theorem laplace_toeplitz : forall kd (G : @green T R), radial Sc G -> exists m,
  assemble Sc X rt wmod (laplace_operator kd G) (after calls) trial test = Ok m /\ same_when_moved b test trial m.
Proof.
  intros kd G Rd. destruct (screen_dense (laplace_operator kd G) (laplace_shipped Sc kd G)) as (deg & pts & D).
  destruct (laplace_copies Sc X kd G rt wmod (after calls) deg pts t test trial Ex Ec Lr D same_grids) as (m & Em & H).
  exists m. split; [exact Em|]. intros dx dy i j i' j' Fi Fj. assert (Ex' := Ex). destruct Ex' as ((one & RT) & _).
  assert (One : forall x, s_mul Sc one x = x) by (intros x; apply (Rmul_1_l RT)).
  destruct (moved_is_copy n id t b tf test Sn Htf Mt dx dy i i' Fi) as (Di & Ci), (moved_is_copy n id t b sf trial Sn Hsf Ms dx dy j j' Fj) as (Dj & Cj).
  destruct (H (fun y => vadd y (displacement n dx dy)) (unit_matrix Sc one) one one one (movable b dx dy) (image n t dx dy) i j i' j') as (x & X1 & X2); auto.
  - now apply unit_orthogonal.
  - now apply unit_divides.
  - now apply radial_translated.
  - rewrite (mo_grid _ _ _ Mt). now apply screen_copied.
  - rewrite (mo_grid _ _ _ Mt). now apply screen_moved.
  - exists x. split; auto. now rewrite (unit_factor Sc one kd One) in X2.
Qed.

Theorem helmholtz_toeplitz : forall kd (G : R -> @green T R) wavenumber, radial Sc (G wavenumber) -> exists m,
  assemble Sc X rt wmod (helmholtz_operator Sc kd G wavenumber) (after calls) trial test = Ok m /\ same_when_moved b test trial m.
Proof.
  intros kd G wn Rd. destruct (screen_dense (helmholtz_operator Sc kd G wn) (helmholtz_shipped Sc kd G wn)) as (deg & pts & D).
  destruct (helmholtz_copies Sc X kd G wn rt wmod (after calls) deg pts t test trial Ex Ec Lr D same_grids) as (m & Em & H).
  exists m. split; [exact Em|]. intros dx dy i j i' j' Fi Fj. assert (Ex' := Ex). destruct Ex' as ((one & RT) & _).
  assert (One : forall x, s_mul Sc one x = x) by (intros x; apply (Rmul_1_l RT)).
  destruct (moved_is_copy n id t b tf test Sn Htf Mt dx dy i i' Fi) as (Di & Ci), (moved_is_copy n id t b sf trial Sn Hsf Ms dx dy j j' Fj) as (Dj & Cj).
  apply (H (fun y => vadd y (displacement n dx dy)) (unit_matrix Sc one) one (movable b dx dy) (image n t dx dy) i j i' j'); auto.
  - now apply unit_orthogonal.
  - now apply radial_translated.
  - rewrite (mo_grid _ _ _ Mt). now apply screen_copied.
  - rewrite (mo_grid _ _ _ Mt). now apply screen_moved.
Qed.
End Matrices.

(** Which cells can be moved. *)
Theorem cells_move : forall n t b dx dy c, screen n t b -> (c < length (cells_of b))%nat ->
  ((exists c', moved_cell b dx dy c c') <->
   forall k p, corner b c k p -> (0 <= Z.of_nat (fst p) + dx <= Z.of_nat n)%Z /\ (0 <= Z.of_nat (snd p) + dy <= Z.of_nat n)%Z) /\
  (forall c1 c2, moved_cell b dx dy c c1 -> moved_cell b dx dy c c2 -> c1 = c2).
Proof.
  intros n t b dx dy c Sn Hc. split; [split|].
  - intros (c' & L & L' & M) k p Cp. destruct (proj1 (M k) p Cp) as (q & Cq & (E1 & E2)). destruct (corner_vertex n t b Sn c' k q L' Cq) as (_ & A & B & _). lia.
  - intros H. destruct (screen_number n t b Sn c Hc) as (x & y & h & Hx & Hy & Hh & ->).
    exists (number t n (Z.to_nat (Z.of_nat x + dx)) (Z.to_nat (Z.of_nat y + dy)) h). apply (moved_at n t b Sn); auto.
    assert (K : forall k o, nth_error (offsets t h) k = Some o -> (0 <= Z.of_nat (x + fst o) + dx <= Z.of_nat n)%Z /\ (0 <= Z.of_nat (y + snd o) + dy <= Z.of_nat n)%Z).
    { intros k o Eo. apply (H k (x + fst o, y + snd o)%nat). apply (corner_at n t b Sn); auto. now exists o. }
    assert (E0 : nth_error (offsets t h) 0 = Some (0, 0)%nat) by (destruct t, h; reflexivity). specialize (K 0%nat (0, 0)%nat E0) as K0. cbn [fst snd] in K0.
    assert (Z.of_nat x + dx < Z.of_nat n /\ Z.of_nat y + dy < Z.of_nat n)%Z.
    { destruct Sn as [b' _|b' _]; cbn [per] in Hh.
      - destruct h as [|[|h]]; [|  |lia]; [specialize (K 2%nat (1, 1)%nat eq_refl)|specialize (K 1%nat (1, 1)%nat eq_refl)]; cbn [fst snd] in K; lia.
      - assert (h = 0)%nat as -> by lia. specialize (K 3%nat (1, 1)%nat eq_refl). cbn [fst snd] in K. lia. }
    do 2 eexists. repeat split; lia.
  - intros c1 c2 M1 M2. now rewrite <- (image_moved n t b Sn dx dy c c1 M1), <- (image_moved n t b Sn dx dy c c2 M2).
Qed.

(** On a discontinuous space every function moves with its cell. *)
Theorem discontinuous_moves : forall {T R : Type} n id t b dofs (fs : fspace T R) dx dy c c' a i i', screen n t b ->
  (forall u, 0 < dofs u)%nat -> made_on (built_grid id t b) (interior_only dofs) fs -> moved_cell b dx dy c c' ->
  nth_error (dofs_at fs c) a = Some i -> nth_error (dofs_at fs c') a = Some i' -> moved_function b fs dx dy i i'.
Proof.
  intros T R n id t b dofs fs dx dy c c' a i i' Sn Hd Mo M Hi Hi'. pose proof (standard_discontinuous dofs Hd) as Hf.
  assert (E : el_edofs (interior_only dofs t) 2 0 = Some (seq 0 (dofs t))) by (destruct Sn; reflexivity).
  refine (moves_with_cell n id t b _ fs Sn Hf Mo dx dy c c' 2%nat 0%nat (seq 0 (dofs t)) a i i' M E _ (or_introl eq_refl) Hi Hi').
  apply in_seq. assert (L : (a < length (dofs_at fs c))%nat) by (apply nth_error_Some; congruence).
  rewrite dofs_at_dim in L.
  - rewrite (mo_family _ _ _ Mo), (mo_grid _ _ _ Mo) in L. destruct Sn; cbn in L |- *; lia.
  - eapply made_serial; eauto. now apply (screen_is_shape n).
  - rewrite (mo_grid _ _ _ Mo), (screen_cell_count n id t b Sn). apply M.
Qed.
