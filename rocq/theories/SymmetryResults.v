(** * Symmetry of the sphere: proofs *)
From Coq Require Import Reals Lra Psatz Permutation.
From Verif Require Import Base BaseFacts Topology TopologyFacts Shapes SpecShapes SphereFacts SphereSurface SphereResults ShapesResults SpecSphere SphereGeometry SphereTiling NestedResults SpecWidth SpecSymmetry.

Local Open Scope R_scope.

Lemma perm_three {A : Type} (p q r x y z : A) : Permutation [p; q; r] [x; y; z] ->
  (p = x /\ q = y /\ r = z) \/ (p = x /\ q = z /\ r = y) \/ (p = y /\ q = x /\ r = z) \/
  (p = y /\ q = z /\ r = x) \/ (p = z /\ q = x /\ r = y) \/ (p = z /\ q = y /\ r = x).
Proof.
  intros H. assert (I : In p [x; y; z]) by (eapply Permutation_in; [exact H | now left]).
  assert (G : forall a b, Permutation [q; r] [a; b] -> (q = a /\ r = b) \/ (q = b /\ r = a)).
  { intros a b K. apply Permutation_length_2 in K. tauto. }
  destruct I as [<-|[<-|[<-|[]]]].
  - apply Permutation_cons_inv, G in H. tauto.
  - assert (K : Permutation (y :: [q; r]) (y :: [x; z])) by (eapply Permutation_trans; [exact H | apply perm_swap]).
    apply Permutation_cons_inv, G in K. tauto.
  - assert (K : Permutation (z :: [q; r]) (z :: [x; y])).
    { eapply Permutation_trans; [exact H|]. change [x; y; z] with ([x; y] ++ [z]). change (z :: [x; y]) with ([z] ++ [x; y]). apply Permutation_app_comm. }
    apply Permutation_cons_inv, G in K. tauto.
Qed.

Ltac three_in_order :=
  first [ apply Permutation_refl
        | apply perm_skip, perm_swap
        | apply perm_swap
        | eapply perm_trans; [apply perm_swap | apply perm_skip, perm_swap]
        | eapply perm_trans; [apply perm_skip, perm_swap | apply perm_swap]
        | eapply perm_trans; [apply perm_swap | eapply perm_trans; [apply perm_skip, perm_swap | apply perm_swap]] ].

(** The middle of an arc. *)
Definition middle (p q : vec) : vec := vscale (factor p q) (vadd p q).

Lemma middle_sym p q : middle p q = middle q p.
Proof. unfold middle. rewrite factor_sym. f_equal. destruct p as [[? ?] ?], q as [[? ?] ?]. cbn. f_equal; [f_equal|]; ring. Qed.

(** The same statements with vectors for the points. *)
Lemma two_levels_vec L (b b' : builder vec) : regular_sphere real_numbers L 1 = Ok b -> regular_sphere real_numbers (S L) 1 = Ok b' ->
  exists np : list vec, points_of b' = points_of b ++ np /\ surface (length (points_of b)) (cells_of b) /\
    cells_of b' = flat_map (children (mid (length (points_of b)) (grid_edges Triangle (cells_of b)))) (cells_of b) /\
    Forall2 (made_for real_numbers (points_of b)) (grid_edges Triangle (cells_of b)) np.
Proof. exact (two_levels real_numbers L b b'). Qed.

Lemma sphere_tiling_vec L (b : builder vec) : regular_sphere real_numbers L 1 = Ok b ->
  surface (length (points_of b)) (cells_of b) /\ tiling (points_of b) (cells_of b).
Proof.
  intros E. destruct (sphere_tiling L) as (b0 & E0 & _ & _ & _ & _ & SU & TI). rewrite E in E0. injection E0 as <-. auto.
Qed.

Section Level.
Variables (L : nat) (b b' : builder vec).
Hypothesis E : regular_sphere real_numbers L 1 = Ok b.
Hypothesis E' : regular_sphere real_numbers (S L) 1 = Ok b'.

(** The cells of the fine level, by the corners of the coarse one. *)
Lemma child_corners k' p' q' r' : corners_of b' k' p' q' r' ->
  exists k p q r, corners_of b k p q r /\
    ((p' = p /\ q' = middle p q /\ r' = middle p r) \/ (p' = q /\ q' = middle q r /\ r' = middle q p) \/
     (p' = r /\ q' = middle r p /\ r' = middle r q) \/ (p' = middle q r /\ q' = middle r p /\ r' = middle p q)).
Proof.
  intros (x & y & z & Hk & Hp & Hq & Hr).
  destruct (sphere_tiling_vec L b E) as (SU & TI).
  destruct (two_levels_vec L b b' E E') as (np & P & _ & C & MF).
  apply nth_error_In in Hk. rewrite C in Hk. apply in_flat_map in Hk. destruct Hk as (c & Hc & Hch).
  destruct (su_cell _ _ SU c Hc) as (u & v & w & -> & _).
  destruct (In_nth_error _ _ Hc) as (k & Hk).
  assert (Rt : rot [u; v; w] u v w) by (unfold rot; auto).
  destruct (cell_facts _ np _ SU TI MF _ u v w Hc Rt) as ((Bu & Bv & Bw) & _ & _ & (E1 & E2 & E3) & _).
  assert (N : forall i, (i < length (points_of b))%nat -> nth_error (points_of b) i = Some (position (points_of b) i)) by (intros i Hi; unfold position; now apply nth_error_nth').
  exists k, (position (points_of b) u), (position (points_of b) v), (position (points_of b) w).
  split; [exists u, v, w; auto|].
  assert (G : forall i s, nth_error (points_of b') i = Some s -> s = position (points_of b ++ np) i).
  { intros i s Hi. rewrite P in Hi. symmetry. now apply nth_error_nth_Some. }
  apply G in Hp, Hq, Hr. cbn [children] in Hch.
  rewrite (mid_swap (length (points_of b)) (cells_of b) v u), (mid_swap (length (points_of b)) (cells_of b) w u), (mid_swap (length (points_of b)) (cells_of b) w v) in Hch.
  rewrite (middle_sym (position (points_of b) v) (position (points_of b) u)), (middle_sym (position (points_of b) w) (position (points_of b) u)), (middle_sym (position (points_of b) w) (position (points_of b) v)).
  destruct Hch as [Eq|[Eq|[Eq|[Eq|[]]]]]; injection Eq as <- <- <-; rewrite Hp, Hq, Hr, E1, E2, E3 || rewrite Hp, Hq, Hr, ?E1, ?E2, ?E3;
    rewrite ?(old_position _ np u Bu), ?(old_position _ np v Bv), ?(old_position _ np w Bw); unfold middle; tauto.
Qed.

Lemma corners_children k p q r : corners_of b k p q r ->
  (exists k', corners_of b' k' p (middle p q) (middle p r)) /\ (exists k', corners_of b' k' q (middle q r) (middle q p)) /\
  (exists k', corners_of b' k' r (middle r p) (middle r q)) /\ (exists k', corners_of b' k' (middle q r) (middle r p) (middle p q)).
Proof.
  intros (u & v & w & Hk & Hp & Hq & Hr).
  destruct (sphere_tiling_vec L b E) as (SU & TI).
  destruct (two_levels_vec L b b' E E') as (np & P & _ & C & MF).
  pose proof (nth_error_In _ _ Hk) as Hc.
  assert (Rt : rot [u; v; w] u v w) by (unfold rot; auto).
  destruct (cell_facts _ np _ SU TI MF _ u v w Hc Rt) as ((Bu & Bv & Bw) & _ & _ & (E1 & E2 & E3) & _).
  pose proof (mid_lt (length (points_of b)) (cells_of b)) as ML.
  assert (Pp : position (points_of b) u = p) by (apply nth_error_nth_Some; exact Hp).
  assert (Pq : position (points_of b) v = q) by (apply nth_error_nth_Some; exact Hq).
  assert (Pr : position (points_of b) w = r) by (apply nth_error_nth_Some; exact Hr).
  rewrite Pp, Pq, Pr in *.
  assert (Ln : length (points_of b') = (length (points_of b) + length (grid_edges Triangle (cells_of b)))%nat).
  { rewrite P, app_length. f_equal. symmetry. exact (Forall2_same _ _ _ MF). }
  assert (Old : forall i s, nth_error (points_of b) i = Some s -> nth_error (points_of b') i = Some s).
  { intros i s Hi. rewrite P, nth_error_app1; auto. apply nth_error_Some. rewrite Hi. discriminate. }
  assert (New : forall i s, (i < length (points_of b'))%nat -> position (points_of b ++ np) i = s -> nth_error (points_of b') i = Some s).
  { intros i s Hi <-. rewrite P. unfold position. apply nth_error_nth'. now rewrite <- P. }
  set (m := mid (length (points_of b)) (grid_edges Triangle (cells_of b))) in *.
  assert (K1 : nth_error (points_of b') (m u v) = Some (middle p q)).
  { apply New; auto. rewrite Ln. apply ML. exact (keys_edge _ _ SU _ _ _ _ Hc Rt). }
  assert (K2 : nth_error (points_of b') (m v w) = Some (middle q r)).
  { apply New; auto. rewrite Ln. apply ML. exact (keys_edge _ _ SU _ _ _ _ Hc (rot_turn _ _ _ _ Rt)). }
  assert (K3 : nth_error (points_of b') (m u w) = Some (middle p r)).
  { apply New; auto. rewrite Ln. apply ML. exact (keys_edge' _ _ SU _ _ _ _ Hc Rt). }
  rewrite (middle_sym q p), (middle_sym r p), (middle_sym r q).
  assert (Cell : forall ch, In ch (children m [u; v; w]) -> exists k', nth_error (cells_of b') k' = Some ch).
  { intros ch Hch. apply In_nth_error. rewrite C. apply in_flat_map. eauto. }
  cbn [children] in Cell.
  assert (S1 : m v u = m u v) by (apply (mid_swap (length (points_of b)) (cells_of b))).
  assert (S2 : m w u = m u w) by (apply (mid_swap (length (points_of b)) (cells_of b))).
  assert (S3 : m w v = m v w) by (apply (mid_swap (length (points_of b)) (cells_of b))).
  rewrite S1, S2, S3 in Cell.
  split; [|split; [|split]].
  - destruct (Cell [u; m u v; m u w]) as (k' & Hk'); [cbn; auto|]. exists k', u, (m u v), (m u w). auto.
  - destruct (Cell [v; m v w; m u v]) as (k' & Hk'); [cbn; auto|]. exists k', v, (m v w), (m u v). auto.
  - destruct (Cell [w; m u w; m v w]) as (k' & Hk'); [cbn; auto|]. exists k', w, (m u w), (m v w). auto.
  - destruct (Cell [m v w; m u w; m u v]) as (k' & Hk'); [cbn; auto|]. exists k', (m v w), (m u w), (m u v). auto.
Qed.

(** A map that respects middles and maps cells to cells does so on the next level. *)
Lemma next_mapped T : (forall p q, T (middle p q) = middle (T p) (T q)) -> cells_mapped b T -> cells_mapped b' T.
Proof.
  intros TM H k' p' q' r' H'. destruct (child_corners k' p' q' r' H') as (k & p & q & r & Hk & Cs).
  destruct (H k p q r Hk) as (j & x & y & z & Hj & Pm).
  destruct (corners_children j x y z Hj) as ((k1 & C1) & (k2 & C2) & (k3 & C3) & (k4 & C4)).
  apply perm_three in Pm.
  destruct Pm as [(-> & -> & ->)|[(-> & -> & ->)|[(-> & -> & ->)|[(-> & -> & ->)|[(-> & -> & ->)|(-> & -> & ->)]]]]];
    destruct Cs as [(-> & -> & ->)|[(-> & -> & ->)|[(-> & -> & ->)|(-> & -> & ->)]]]; rewrite !TM;
    first
      [ eexists _, _, _, _; split; [exact C1|]; solve [three_in_order]
      | eexists _, _, _, _; split; [exact C2|]; solve [three_in_order]
      | eexists _, _, _, _; split; [exact C3|]; solve [three_in_order]
      | eexists _, _, _, _; split; [exact C4|];
        rewrite ?(middle_sym (T q) (T p)), ?(middle_sym (T r) (T p)), ?(middle_sym (T r) (T q)); solve [three_in_order] ].
Qed.
End Level.

(** ** The symmetries of the octahedron *)

Lemma vec_eq (a b c x y z : R) : a = x -> b = y -> c = z -> (a, b, c) = (x, y, z).
Proof. intros -> -> ->. reflexivity. Qed.

Lemma octahedral_linear k a b c p q : octahedral k a b c (vadd p q) = vadd (octahedral k a b c p) (octahedral k a b c q).
Proof.
  destruct p as [[? ?] ?], q as [[? ?] ?]. unfold octahedral.
  destruct k as [|[|[|[|[|k]]]]], a, b, c; cbn; apply vec_eq; ring.
Qed.

Lemma octahedral_scale k a b c s p : octahedral k a b c (vscale s p) = vscale s (octahedral k a b c p).
Proof.
  destruct p as [[? ?] ?]. unfold octahedral.
  destruct k as [|[|[|[|[|k]]]]], a, b, c; cbn; apply vec_eq; ring.
Qed.

Lemma octahedral_inner k a b c p q : inner (octahedral k a b c p) (octahedral k a b c q) = inner p q.
Proof.
  destruct p as [[? ?] ?], q as [[? ?] ?]. unfold octahedral.
  destruct k as [|[|[|[|[|k]]]]], a, b, c; cbn; ring.
Qed.

Lemma octahedral_middle k a b c p q : octahedral k a b c (middle p q) = middle (octahedral k a b c p) (octahedral k a b c q).
Proof.
  unfold middle. rewrite octahedral_scale, octahedral_linear. f_equal. unfold factor, norm2. rewrite <- octahedral_linear, octahedral_inner. reflexivity.
Qed.

(** Every choice of one point on each axis is a cell of the octahedron. *)
Lemma octahedron_corners (b : builder vec) : regular_sphere real_numbers 0 1 = Ok b -> forall (s t o : bool), exists k p q r,
  corners_of b k p q r /\
  Permutation [p; q; r] [(if s then - (1) else 1, 0, 0); (0, if t then - (1) else 1, 0); (0, 0, if o then - (1) else 1)].
Proof.
  intros E s t o.
  assert (PC : @points_of vec b = (octahedron_points real_numbers : list vec) /\ @cells_of vec b = octahedron_cells).
  { destruct (sphere_of_levels real_numbers 0 (octahedron_points real_numbers) octahedron_cells eq_refl octahedron_surface) as (b0 & E0 & P & C).
    rewrite E in E0. injection E0 as <-. auto. }
  destruct PC as (P & C).
  assert (G : forall k u v w, nth_error octahedron_cells k = Some [u; v; w] -> forall p q r,
    nth_error (octahedron_points real_numbers) u = Some p -> nth_error (octahedron_points real_numbers) v = Some q -> nth_error (octahedron_points real_numbers) w = Some r ->
    corners_of b k p q r).
  { intros k u v w Hk p q r Hp Hq Hr. exists u, v, w. rewrite P, C. auto. }
  destruct s, t, o;
    [ exists 6%nat | exists 2%nat | exists 5%nat | exists 1%nat | exists 7%nat | exists 3%nat | exists 4%nat | exists 0%nat ];
    (eexists _, _, _; split; [eapply G; reflexivity | cbn; three_in_order]).
Qed.

Lemma octahedron_axes (b : builder vec) k p q r : regular_sphere real_numbers 0 1 = Ok b -> corners_of b k p q r -> exists s t o : bool,
  Permutation [p; q; r] [(if s then - (1) else 1, 0, 0); (0, if t then - (1) else 1, 0); (0, 0, if o then - (1) else 1)].
Proof.
  intros E (u & v & w & Hk & Hp & Hq & Hr).
  assert (PC : @points_of vec b = (octahedron_points real_numbers : list vec) /\ @cells_of vec b = octahedron_cells).
  { destruct (sphere_of_levels real_numbers 0 (octahedron_points real_numbers) octahedron_cells eq_refl octahedron_surface) as (b0 & E0 & P & C).
    rewrite E in E0. injection E0 as <-. auto. }
  destruct PC as (P & C). rewrite P in Hp, Hq, Hr. rewrite C in Hk.
  do 8 (destruct k as [|k]; [injection Hk as <- <- <-; cbn in Hp, Hq, Hr; injection Hp as <-; injection Hq as <-; injection Hr as <-;
    first [ exists false, false, false; solve [three_in_order] | exists true, false, false; solve [three_in_order]
          | exists false, true, false; solve [three_in_order] | exists true, true, false; solve [three_in_order]
          | exists false, false, true; solve [three_in_order] | exists true, false, true; solve [three_in_order]
          | exists false, true, true; solve [three_in_order] | exists true, true, true; solve [three_in_order] ] |]).
  destruct k; discriminate Hk.
Qed.

Lemma octahedron_mapped (b : builder vec) k s t o : regular_sphere real_numbers 0 1 = Ok b -> cells_mapped b (octahedral k s t o).
Proof.
  intros E j p q r H. destruct (octahedron_axes b j p q r E H) as (x & y & z & Pm).
  pose proof (Permutation_map (octahedral k s t o) Pm) as Pi. cbn [map] in Pi.
  assert (G : exists x' y' z' : bool, Permutation
    [octahedral k s t o (if x then - (1) else 1, 0, 0); octahedral k s t o (0, if y then - (1) else 1, 0); octahedral k s t o (0, 0, if z then - (1) else 1)]
    [(if x' then - (1) else 1, 0, 0); (0, if y' then - (1) else 1, 0); (0, 0, if z' then - (1) else 1)]).
  { assert (Neg : forall (f g : bool), (if f then - (if g then - (1) else 1) else if g then - (1) else 1) = if xorb f g then - (1) else 1) by (intros [] []; cbn; ring).
    assert (Zero : forall (f : bool), (if f then - 0 else 0) = 0) by (intros []; ring).
    unfold octahedral.
    destruct k as [|[|[|[|[|k]]]]]; cbn [permuted mirrored]; rewrite !Zero, !Neg;
      [ exists (xorb s x), (xorb t y), (xorb o z) | exists (xorb s y), (xorb t z), (xorb o x) | exists (xorb s z), (xorb t x), (xorb o y)
      | exists (xorb s y), (xorb t x), (xorb o z) | exists (xorb s x), (xorb t z), (xorb o y) | exists (xorb s z), (xorb t y), (xorb o x) ];
      three_in_order. }
  destruct G as (x' & y' & z' & Pg). destruct (octahedron_corners b E x' y' z') as (k' & p' & q' & r' & H' & Pm').
  exists k', p', q', r'. split; [exact H'|].
  eapply Permutation_trans; [exact Pm'|]. eapply Permutation_trans; [apply Permutation_sym; exact Pg|]. apply Permutation_sym. exact Pi.
Qed.

Theorem sphere_symmetric : forall L (b : builder vec) k s t o, regular_sphere real_numbers L 1 = Ok b -> cells_mapped b (octahedral k s t o).
Proof.
  intros L b k s t o. revert b. induction L as [|L IH]; intros b E; [now apply octahedron_mapped|].
  destruct (sphere_tiling L) as (b0 & E0 & _). apply (next_mapped L b0 b E0 E); [intros; apply octahedral_middle | auto].
Qed.

(** The images of the points are points. *)
Theorem points_symmetric : forall L (b : builder vec) k s t o p, regular_sphere real_numbers L 1 = Ok b -> In p (points_of b) -> In (octahedral k s t o p) (points_of b).
Proof.
  intros L b k s t o p E Hp. destruct (sphere_tiling_vec L b E) as (SU & TI).
  destruct (In_nth_error _ _ Hp) as (v & Hv).
  destruct (su_used _ _ SU v) as (c & Hc & Hin); [apply nth_error_Some; intros F; rewrite F in Hv; discriminate|].
  assert (G : exists j q r x, corners_of b j q r x /\ In p [q; r; x]).
  { destruct (su_cell _ _ SU c Hc) as (i1 & i2 & i3 & -> & (B1 & B2 & B3) & _). destruct (In_nth_error _ _ Hc) as (j & Hj).
    exists j, (position (points_of b) i1), (position (points_of b) i2), (position (points_of b) i3). split.
    - exists i1, i2, i3. unfold position. split; auto. split; [|split]; now apply nth_error_nth'.
    - assert (position (points_of b) v = p) by (apply nth_error_nth_Some; exact Hv).
      destruct Hin as [<-|[<-|[<-|[]]]]; cbn; auto. }
  destruct G as (j & q & r & x & H & I).
  destruct (sphere_symmetric L b k s t o E j q r x H) as (j' & q' & r' & x' & (i1 & i2 & i3 & _ & H1 & H2 & H3) & Pm).
  apply (in_map (octahedral k s t o)) in I. cbn [map] in I.
  apply (Permutation_in _ (Permutation_sym Pm)) in I.
  apply nth_error_In in H1, H2, H3. destruct I as [<-|[<-|[<-|[]]]]; auto.
Qed.

(** The 48 maps are different, keep distances and can be undone. *)
Theorem octahedral_isometry : forall k s t o p q, inner (octahedral k s t o p) (octahedral k s t o q) = inner p q.
Proof. intros. apply octahedral_inner. Qed.

Theorem octahedral_inverse : forall k s t o, exists k' s' t' o', forall p, octahedral k' s' t' o' (octahedral k s t o p) = p.
Proof.
  intros k s t o. destruct k as [|[|[|[|[|k]]]]];
    [ exists 0%nat, s, t, o | exists 2%nat, o, s, t | exists 1%nat, t, o, s | exists 3%nat, t, s, o | exists 4%nat, s, o, t | exists 5%nat, o, t, s ];
    intros [[x y] z]; destruct s, t, o; unfold octahedral, mirrored, permuted; rewrite ?Ropp_involutive; reflexivity.
Qed.

Theorem octahedral_different : forall k s t o k' s' t' o', (k < 6)%nat -> (k' < 6)%nat ->
  octahedral k s t o (1, 2, 3) = octahedral k' s' t' o' (1, 2, 3) -> k = k' /\ s = s' /\ t = t' /\ o = o'.
Proof.
  intros k s t o k' s' t' o' Hk Hk' E.
  assert (A : forall (f f' : bool) (x y : R), 0 < x -> 0 < y -> (if f then - x else x) = (if f' then - y else y) -> f = f' /\ x = y)
    by (intros [] [] x y Px Py Q; split; auto; try lra).
  destruct k as [|[|[|[|[|[|k]]]]]]; [..|lia]; destruct k' as [|[|[|[|[|[|k']]]]]]; try lia;
    unfold octahedral, mirrored, permuted in E; apply pair_equal_spec in E; destruct E as (E & E3); apply pair_equal_spec in E; destruct E as (E1 & E2);
    apply A in E1; try lra; apply A in E2; try lra; apply A in E3; try lra; intuition lra.
Qed.

Lemma other_map : exists (b : builder vec) p, regular_sphere real_numbers 0 1 = Ok b /\ In p (points_of b) /\ ~ In (turned p) (points_of b).
Proof.
  destruct (sphere_of_levels real_numbers 0 (octahedron_points real_numbers) octahedron_cells eq_refl octahedron_surface) as (b & E & P & _).
  exists b, (1, 0, 0). split; [exact E|].
  assert (P' : @points_of vec b = (octahedron_points real_numbers : list vec)) by exact P.
  rewrite P'. split.
  - cbn. tauto.
  - cbn. intros F. repeat (destruct F as [F|F]; [apply pair_equal_spec in F; destruct F as (F & _); apply pair_equal_spec in F; lra|]). exact F.
Qed.
