(** * The isometries of the sphere grid that keep the order of the vertices: proofs *)
From Coq Require Import Reals Lra Psatz Permutation.
From Verif Require Import Base BaseFacts Topology TopologyFacts Shapes SpecShapes SphereFacts SphereSurface SphereResults ShapesResults SpecSphere SphereGeometry SphereTiling NestedResults SpecWidth SpecSymmetry SymmetryResults
  SpecTurns TurnResults SpecWaves SpecCensus CensusResults.

Local Open Scope R_scope.

Section Corners.
Variables (L : nat) (b : builder vec).
Hypothesis E : regular_sphere real_numbers L 1 = Ok b.

Lemma same_number i j p : nth_error (points_of b) i = Some p -> nth_error (points_of b) j = Some p -> i = j.
Proof.
  intros Hi Hj. apply (proj1 (NoDup_nth_error (points_of b)) (sphere_distinct L b E)); [apply nth_error_Some; congruence|congruence].
Qed.

Lemma corners_differ k p q r : corners_of b k p q r -> p <> q /\ q <> r /\ p <> r.
Proof.
  intros (u & v & w & Hk & Hp & Hq & Hr). destruct (sphere_tiling_vec L b E) as (SU & _).
  destruct (su_cell _ _ SU _ (nth_error_In _ _ Hk)) as (x & y & z & Eq & _ & D). injection Eq as <- <- <-.
  repeat split; intros ->; [pose proof (same_number _ _ _ Hp Hq)|pose proof (same_number _ _ _ Hq Hr)|pose proof (same_number _ _ _ Hp Hr)]; tauto.
Qed.

Lemma same_corners_cell k p q r k' p' q' r' : corners_of b k p q r -> corners_of b k' p' q' r' -> incl [p; q; r] [p'; q'; r'] -> p = p' /\ q = q' /\ r = r'.
Proof.
  intros (u & v & w & Hk & Hp & Hq & Hr) (u' & v' & w' & Hk' & Hp' & Hq' & Hr') I. destruct (sphere_tiling_vec L b E) as (SU & _).
  assert (G : forall x s, nth_error (points_of b) x = Some s -> In s [p'; q'; r'] -> In x [u'; v'; w']).
  { intros x s Hx [<-|[<-|[<-|[]]]]; [left|right; left|right; right; left]; eapply same_number; eauto. }
  assert (Ec : [u; v; w] = [u'; v'; w']).
  { apply (su_sets _ _ SU); [exact (nth_error_In _ _ Hk)|exact (nth_error_In _ _ Hk')|]. intros x [<-|[<-|[<-|[]]]]; [apply (G _ p Hp)|apply (G _ q Hq)|apply (G _ r Hr)]; apply I; cbn; auto. }
  injection Ec as <- <- <-. repeat split; congruence.
Qed.
End Corners.

(** The triangles in the middle remember the order. *)
Lemma previous_in_order L (b b' : builder vec) T : regular_sphere real_numbers L 1 = Ok b -> regular_sphere real_numbers (S L) 1 = Ok b' ->
  (forall p q, T (middle p q) = middle (T p) (T q)) -> cells_mapped b T -> mapped_in_order b' T -> mapped_in_order b T.
Proof.
  intros E E' TM Cm H k p q r Hk. destruct (Cm k p q r Hk) as (k' & x & y & z & Hk' & Pm).
  destruct (corners_children L b b' E E' k p q r Hk) as (_ & _ & _ & (j & Hj)). destruct (H j _ _ _ Hj) as (i & Hi). rewrite !TM in Hi.
  destruct (corners_children L b b' E E' k' x y z Hk') as (_ & _ & _ & (j' & Hj')). destruct (corners_differ (S L) b' E' _ _ _ _ Hi) as (D1 & D2 & D3).
  apply perm_three in Pm. destruct Pm as [(-> & -> & ->)|Pm]; [exists k'; exact Hk'|exfalso].
  destruct Pm as [(-> & -> & ->)|[(-> & -> & ->)|[(-> & -> & ->)|[(-> & -> & ->)|(-> & -> & ->)]]]];
    rewrite ?(middle_sym (T q) (T p)), ?(middle_sym (T r) (T p)), ?(middle_sym (T r) (T q)) in *;
    destruct (same_corners_cell (S L) b' E' _ _ _ _ _ _ _ _ Hi Hj') as (F1 & F2 & F3); try (intros s [<-|[<-|[<-|[]]]]; cbn; tauto); congruence.
Qed.

Lemma octahedron_upright (b : builder vec) k s t o : regular_sphere real_numbers 0 1 = Ok b -> mapped_in_order b (octahedral k s t o) -> upright k s t o.
Proof.
  intros E H.
  assert (PC : @points_of vec b = (octahedron_points real_numbers : list vec) /\ @cells_of vec b = octahedron_cells).
  { destruct (sphere_of_levels real_numbers 0 (octahedron_points real_numbers) octahedron_cells eq_refl octahedron_surface) as (b0 & E0 & P & C).
    rewrite E in E0. injection E0 as <-. auto. }
  destruct PC as (P & C).
  destruct (H 0%nat (0, 0, 1) (1, 0, 0) (0, 1, 0)) as (j & u & v & w & Hk & Hp & Hq & Hr).
  { exists 0%nat, 1%nat, 2%nat. rewrite P, C. auto. }
  rewrite P in Hp, Hq, Hr. rewrite C in Hk. unfold octahedral in Hp, Hq, Hr. unfold upright. clear H P C E.
  do 8 (destruct j as [|j]; [injection Hk as <- <- <-; cbn in Hp, Hq, Hr;
    injection Hp as Hp; injection Hq as Hq; injection Hr as Hr;
    destruct k as [|[|[|[|[|k]]]]]; cbn [permuted mirrored] in Hp, Hq, Hr; 
    apply pair_equal_spec in Hp; destruct Hp as (Hp & P3); apply pair_equal_spec in Hp; destruct Hp as (P1 & P2);
    apply pair_equal_spec in Hq; destruct Hq as (Hq & Q3); apply pair_equal_spec in Hq; destruct Hq as (Q1 & Q2);
    apply pair_equal_spec in Hr; destruct Hr as (Hr & R3); apply pair_equal_spec in Hr; destruct Hr as (R1 & R2);
    destruct s, t, o; cbn [xorb]; auto; exfalso; lra|]).
  destruct j; discriminate Hk.
Qed.

Theorem order_upright : forall L (b : builder vec) k s t o, regular_sphere real_numbers L 1 = Ok b -> mapped_in_order b (octahedral k s t o) -> upright k s t o.
Proof.
  induction L as [|L IH]; intros b k s t o E H; [now apply (octahedron_upright b)|].
  destruct (sphere_tiling L) as (b0 & E0 & _). apply (IH b0); auto. apply (previous_in_order L b0 b _ E0 E); auto; [intros; apply octahedral_middle|]. exact (sphere_symmetric L b0 k s t o E0).
Qed.

Theorem order_census : forall L (b : builder vec) T, regular_sphere real_numbers L 1 = Ok b ->
  (rigid T /\ mapped_in_order b T <-> exists k s t o, upright k s t o /\ forall p, T p = octahedral k s t o p).
Proof.
  intros L b T E. split.
  - intros (Rg & H). assert (Cm : cells_mapped b T). { intros k p q r Hk. destruct (H k p q r Hk) as (k' & Hk'). exists k', (T p), (T q), (T r). auto. }
    destruct (octahedral_only L b T E Rg Cm) as (k & s & t & o & F). exists k, s, t, o. split; [|exact F].
    apply (order_upright L b k s t o E). intros c p q r Hc. rewrite <- !F. now apply (H c).
  - intros (k & s & t & o & U & F). split; [intros p q; rewrite !F; apply octahedral_rigid|]. intros c p q r Hc. rewrite !F. exact (sphere_in_order L b k s t o E U c p q r Hc).
Qed.

Lemma order_census_example : forall L, exists b : builder vec, regular_sphere real_numbers L 1 = Ok b /\
  cells_mapped b (octahedral 1 false false false) /\ ~ mapped_in_order b (octahedral 1 false false false) /\
  mapped_in_order b (octahedral 0 false true true) /\ octahedral 0 false true true (1, 2, 3) = (1, - (2), - (3)).
Proof.
  intros L. destruct (sphere_points_differ L) as (b & E & _). exists b. split; [exact E|]. split; [exact (sphere_symmetric L b 1 false false false E)|]. split; [|split; [|reflexivity]].
  - intros H. destruct (order_upright L b _ _ _ _ E H) as [(K & _)|(K & _)]; discriminate K.
  - apply (sphere_in_order L b _ _ _ _ E). left. split; reflexivity.
Qed.
