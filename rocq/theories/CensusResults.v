(** * The isometries of the sphere grid: proofs *)
From Coq Require Import Reals Lra Psatz Permutation.
From Verif Require Import Base BaseFacts Topology TopologyFacts Shapes SpecShapes SphereFacts SphereSurface SphereResults ShapesResults CountsSphere CountsResults SpecSphere SphereGeometry SphereTiling NestedResults SpecWidth SpecSymmetry SymmetryResults
  SpecRenumber SpecTurns TurnResults SpecWaves SpecCensus.

Lemma images_differ {A : Type} (Q : A -> A -> Prop) l l' : Forall2 Q l l' -> NoDup l -> (forall a b c, In a l -> In b l -> Q a c -> Q b c -> a = b) -> NoDup l'.
Proof.
  induction 1 as [|a c l l' H F IH]; intros N D; [constructor|]. inversion N as [|? ? Na N']; subst. constructor.
  - intros I. apply Na. assert (G : exists b, In b l /\ Q b c).
    { clear -F I. induction F as [|b c' l l' H' F IH]; [destruct I|]. destruct I as [-> |I]; [exists b; split; [now left|exact H']|]. destruct (IH I) as (b' & I' & H2). exists b'. split; [now right|exact H2]. }
    destruct G as (b & Ib & Hb). rewrite (D a b c); auto; [now left|now right].
  - apply IH; auto. intros a' b' c' Ha Hb. apply D; now right.
Qed.

Lemma same_count {A : Type} (Q : A -> A -> Prop) l l' : Forall2 Q l l' -> length l = length l'.
Proof. induction 1; cbn; congruence. Qed.

Lemma list_choice {A : Type} (Q : A -> A -> Prop) l : (forall a, In a l -> exists c, Q a c) -> exists l', Forall2 Q l l'.
Proof.
  induction l as [|a l IH]; intros H; [exists []; constructor|]. destruct (H a (or_introl eq_refl)) as (c & Hc). destruct IH as (l' & F); [intros x Ix; apply H; now right|].
  exists (c :: l'). now constructor.
Qed.

Lemma first_points L (b : builder vec) : regular_sphere real_numbers L 1 = Ok b -> exists rest, points_of b = (octahedron_points real_numbers : list vec) ++ rest.
Proof.
  intros E. destruct (sphere_built real_numbers (fun pts _ => exists rest, pts = (octahedron_points real_numbers : list vec) ++ rest) L) as (b' & E' & _ & _ & _ & _ & _ & H).
  - intros pts cells np _ (rest & ->) _. exists (rest ++ np). now rewrite app_assoc.
  - exists []. now rewrite app_nil_r.
  - rewrite E in E'. injection E' as <-. exact H.
Qed.

Local Open Scope R_scope.

Lemma square_distance p q : SpecWaves.distance p q = sqrt (inner (vsub q p) (vsub q p)).
Proof. destruct p as [[a b] c], q as [[x y] z]. unfold SpecWaves.distance, offset, inner, vsub. cbn. f_equal; ring. Qed.

Lemma inner_self p : 0 <= inner p p.
Proof. destruct p as [[a b] c]. unfold inner. pose proof (Rle_0_sqr a). pose proof (Rle_0_sqr b). pose proof (Rle_0_sqr c). unfold Rsqr in *. lra. Qed.

Lemma rigid_inner T p q : rigid T -> inner (vsub (T p) (T q)) (vsub (T p) (T q)) = inner (vsub p q) (vsub p q).
Proof. intros H. specialize (H q p). rewrite !square_distance in H. apply sqrt_inj in H; auto using inner_self. Qed.

Lemma rigid_injective T p q : rigid T -> T p = T q -> p = q.
Proof.
  intros H E. pose proof (rigid_inner T p q H) as D. rewrite E in D. destruct (T q) as [[x y] z], p as [[a b] c], q as [[a' b'] c']. unfold inner, vsub in D.
  pose proof (Rle_0_sqr (a - a')) as S1. pose proof (Rle_0_sqr (b - b')) as S2. pose proof (Rle_0_sqr (c - c')) as S3. unfold Rsqr in *.
  apply vec_eq; apply Rminus_diag_uniq, Rsqr_0_uniq; unfold Rsqr; lra.
Qed.

Section Maps.
Variables (L : nat) (b : builder vec) (T : vec -> vec).
Hypothesis E : regular_sphere real_numbers L 1 = Ok b.
Hypothesis Rg : rigid T.
Hypothesis Cm : cells_mapped b T.

Lemma vertex_map : exists sigma, (forall v, (v < length (points_of b))%nat -> nth_error (points_of b) (sigma v) = Some (T (position (points_of b) v))) /\
  forall c, In c (cells_of b) -> exists c', In c' (cells_of b) /\ forall x, In x c' <-> In x (map sigma c).
Proof.
  destruct (sphere_tiling_vec L b E) as (SU & _). pose proof (sphere_distinct L b E) as ND.
  assert (DI : forall i j p, nth_error (points_of b) i = Some p -> nth_error (points_of b) j = Some p -> i = j).
  { intros i j p Hi Hj. apply (proj1 (NoDup_nth_error (points_of b)) ND); [apply nth_error_Some; congruence|congruence]. }
  assert (Im : forall c, In c (cells_of b) -> exists x y z x' y' z', c = [x; y; z] /\ In [x'; y'; z'] (cells_of b) /\
    (x < length (points_of b))%nat /\ (y < length (points_of b))%nat /\ (z < length (points_of b))%nat /\
    exists px py pz, nth_error (points_of b) x' = Some px /\ nth_error (points_of b) y' = Some py /\ nth_error (points_of b) z' = Some pz /\
      Permutation [px; py; pz] [T (position (points_of b) x); T (position (points_of b) y); T (position (points_of b) z)]).
  { intros c Hc. destruct (In_nth_error _ _ Hc) as (k & Hk). assert (Lk : (k < length (cells_of b))%nat) by (apply nth_error_Some; congruence).
    destruct (cell_corners L b E k Lk) as (x & y & z & Ec & Hx & Hy & Hz). rewrite Hk in Ec. injection Ec as ->.
    destruct (Cm k _ _ _ (ex_intro _ x (ex_intro _ y (ex_intro _ z (conj Hk (conj Hx (conj Hy Hz))))))) as (k' & p & q & r & (x' & y' & z' & Ek & Hx' & Hy' & Hz') & Pm).
    exists x, y, z, x', y', z'. split; [reflexivity|]. split; [now apply (nth_error_In _ k')|]. do 3 (split; [apply nth_error_Some; congruence|]). exists p, q, r. auto. }
  destruct (finite_choice (length (points_of b)) (fun v v' => nth_error (points_of b) v' = Some (T (position (points_of b) v)))) as (sigma & Hs).
  { intros v Hv. destruct (su_used _ _ SU v Hv) as (c & Hc & Hin). destruct (Im c Hc) as (x & y & z & x' & y' & z' & -> & _ & _ & _ & _ & px & py & pz & H1 & H2 & H3 & Pm).
    apply perm_three in Pm. destruct Hin as [<-|[<-|[<-|[]]]]; destruct Pm as [(-> & -> & ->)|[(-> & -> & ->)|[(-> & -> & ->)|[(-> & -> & ->)|[(-> & -> & ->)|(-> & -> & ->)]]]]]; eauto. }
  exists sigma. split; [exact Hs|]. intros c Hc. destruct (Im c Hc) as (x & y & z & x' & y' & z' & -> & I' & Lx & Ly & Lz & px & py & pz & H1 & H2 & H3 & Pm).
  exists [x'; y'; z']. split; [exact I'|]. intros w. pose proof (Hs x Lx) as Sx. pose proof (Hs y Ly) as Sy. pose proof (Hs z Lz) as Sz.
  apply perm_three in Pm. destruct Pm as [(-> & -> & ->)|[(-> & -> & ->)|[(-> & -> & ->)|[(-> & -> & ->)|[(-> & -> & ->)|(-> & -> & ->)]]]]];
    rewrite ?(DI _ _ _ H1 Sx), ?(DI _ _ _ H1 Sy), ?(DI _ _ _ H1 Sz), ?(DI _ _ _ H2 Sx), ?(DI _ _ _ H2 Sy), ?(DI _ _ _ H2 Sz), ?(DI _ _ _ H3 Sx), ?(DI _ _ _ H3 Sy), ?(DI _ _ _ H3 Sz); cbn; tauto.
Qed.

Lemma six_points i p : (i < 6)%nat -> nth_error (points_of b) i = Some p -> exists j, (j < 6)%nat /\ nth_error (points_of b) j = Some (T p).
Proof.
  destruct vertex_map as (sigma & Hs & Im). destruct (sphere_regular real_numbers L) as (b' & E' & SU & N1 & _ & Re & _). rewrite E in E'. injection E' as <-.
  pose proof (sphere_distinct L b E) as ND. set (n := length (points_of b)) in *.
  assert (Lt : forall v, (v < n)%nat -> (sigma v < n)%nat) by (intros v Hv; apply nth_error_Some; rewrite Hs by exact Hv; discriminate).
  assert (Inj : forall v w, (v < n)%nat -> (w < n)%nat -> sigma v = sigma w -> v = w).
  { intros v w Hv Hw Ev. pose proof (Hs v Hv) as H1. rewrite Ev, (Hs w Hw) in H1. injection H1 as H1. apply (rigid_injective T _ _ Rg) in H1.
    apply (proj1 (NoDup_nth (points_of b) origin) ND); auto. }
  assert (In_lt : forall c x, In c (cells_of b) -> In x c -> (x < n)%nat).
  { intros c x Hc Hx. destruct (su_cell _ _ SU c Hc) as (x1 & x2 & x3 & -> & (B1 & B2 & B3) & _). destruct Hx as [<-|[<-|[<-|[]]]]; assumption. }
  assert (Va : forall v, (v < n)%nat -> (valence (cells_of b) v <= valence (cells_of b) (sigma v))%nat).
  { intros v Hv. destruct (list_choice (fun c c' => In c' (cells_of b) /\ forall x, In x c' <-> In x (map sigma c)) (filter (memb v) (cells_of b))) as (l' & F).
    { intros c Hc. apply filter_In in Hc. destruct (Im c (proj1 Hc)) as (c' & H1 & H2). exists c'. auto. }
    unfold valence at 1, cnt. rewrite (same_count _ _ _ F). apply valence_at_least.
    - eapply images_differ; [exact F|apply NoDup_filter, (su_nodup _ _ SU)|]. intros a a' c Ha Ha' (_ & H1) (_ & H2). apply filter_In in Ha, Ha'.
      apply (su_sets _ _ SU); [apply Ha|apply Ha'|]. intros x Hx. assert (Ix : In (sigma x) (map sigma a')) by (apply H2, H1; now apply in_map).
      apply in_map_iff in Ix. destruct Ix as (y & Ey & Iy). assert (x = y) as ->; [|exact Iy]. apply Inj; [eapply In_lt; [apply Ha|exact Hx]|eapply In_lt; [apply Ha'|exact Iy]|auto].
    - intros c' Hc'. assert (G : exists c, In c (filter (memb v) (cells_of b)) /\ In c' (cells_of b) /\ forall x, In x c' <-> In x (map sigma c)).
      { clear -F Hc'. induction F as [|a a' l l' H F IH]; [destruct Hc'|]. destruct Hc' as [<-|I]; [exists a; split; [now left|exact H]|]. destruct (IH I) as (c & H1 & H2). exists c. split; [now right|exact H2]. }
      destruct G as (c & Ic & Ic' & Hc). split; [exact Ic'|]. apply Hc. apply filter_In in Ic. apply in_map. now apply memb_In. }
  intros Hi Ep. assert (H6 : (6 <= n)%nat) by (rewrite (N1 : n = _); pose proof (Nat.pow_nonzero 4 L ltac:(discriminate)); rewrite Nat.pow_add_r; cbn [Nat.pow]; lia).
  exists (sigma i). split.
  - destruct (Nat.lt_ge_cases (sigma i) 6) as [|G]; [assumption|exfalso].
    assert (Up : forall v, (6 <= v < n)%nat -> (6 <= sigma v < n)%nat).
    { intros v (H1 & H2). split; [|now apply Lt]. pose proof (Va v H2) as V. rewrite !Re in V by auto. destruct (Nat.ltb_spec v 6); [lia|]. destruct (Nat.ltb_spec (sigma v) 6); lia. }
    destruct (injective_renumbering (n - 6) (fun k => sigma (k + 6) - 6)%nat) as (_ & _ & On).
    + intros k Hk. pose proof (Up (k + 6)%nat ltac:(lia)). lia.
    + intros k k' Hk Hk' Ek. pose proof (Up (k + 6)%nat ltac:(lia)). pose proof (Up (k' + 6)%nat ltac:(lia)). assert (k + 6 = k' + 6)%nat by (apply Inj; lia). lia.
    + pose proof (Lt i ltac:(lia)) as Li. destruct (On (sigma i - 6)%nat ltac:(lia)) as (k & Hk & Ek). pose proof (Up (k + 6)%nat ltac:(lia)). assert (k + 6 = i)%nat by (apply Inj; lia). lia.
  - rewrite Hs by lia. unfold position. now rewrite (nth_error_nth _ _ _ Ep).
Qed.

Definition axes : list vec := [(0, 0, 1); (1, 0, 0); (0, 1, 0); (Ropp 1, 0, 0); (0, Ropp 1, 0); (0, 0, Ropp 1)].

Lemma axes_mapped p : In p axes -> In (T p) axes.
Proof.
  destruct (first_points L b E) as (rest & Hp). intros I. assert (EA : (octahedron_points real_numbers : list vec) = axes) by (unfold axes; cbn; reflexivity).
  destruct (In_nth_error _ _ I) as (i & Hi). assert (Li : (i < 6)%nat) by (change 6%nat with (length axes); apply nth_error_Some; congruence).
  destruct (six_points i p Li) as (j & Lj & Hj).
  - rewrite Hp, EA, nth_error_app1 by exact Li. exact Hi.
  - rewrite Hp, EA, nth_error_app1 in Hj by exact Lj. now apply nth_error_In in Hj.
Qed.

Definition opposite (p : vec) : vec := let '(x, y, z) := p in (- x, - y, - z).

Lemma opposite_in p : In p axes -> In (opposite p) axes.
Proof.
  unfold axes, opposite. intros I. cbn [In] in I |- *.
  repeat (destruct I as [<-|I]; [rewrite ?Ropp_0, ?Ropp_involutive; tauto|]). destruct I.
Qed.

Lemma opposite_of p q : In p axes -> In q axes -> inner (vsub p q) (vsub p q) = 4 -> q = opposite p.
Proof.
  unfold axes. intros I J D. cbn [In] in I, J.
  repeat (destruct I as [<-|I]; [repeat (destruct J as [<-|J]; [unfold inner, vsub in D; try lra; unfold opposite; apply vec_eq; lra|]); destruct J|]). destruct I.
Qed.

Lemma opposite_mapped p : In p axes -> T (opposite p) = opposite (T p).
Proof.
  intros I. apply opposite_of; [now apply axes_mapped|now apply axes_mapped, opposite_in|]. rewrite (rigid_inner T _ _ Rg).
  unfold axes in I. cbn [In] in I. repeat (destruct I as [<-|I]; [unfold opposite, inner, vsub; ring|]). destruct I.
Qed.

Lemma kept_inner p e : In e axes -> inner (T p) (T e) = inner p e.
Proof.
  intros I. pose proof (rigid_inner T p e Rg) as H1. pose proof (rigid_inner T p (opposite e) Rg) as H2. rewrite (opposite_mapped e I) in H2.
  destruct (T p) as [[x y] z], (T e) as [[u v] w], p as [[x' y'] z'], e as [[u' v'] w']. unfold inner, vsub, opposite in *. lra.
Qed.

Ltac solve_case := intros x y z x' y' z' <- <- <-; unfold inner, octahedral, mirrored, permuted; solve [apply vec_eq; ring].

Theorem octahedral_only : exists k s t o, forall p, T p = octahedral k s t o p.
Proof.
  assert (I1 : In (1, 0, 0) axes) by (unfold axes; cbn; tauto). assert (I2 : In (0, 1, 0) axes) by (unfold axes; cbn; tauto). assert (I3 : In (0, 0, 1) axes) by (unfold axes; cbn; tauto).
  pose proof (axes_mapped _ I1) as M1. pose proof (axes_mapped _ I2) as M2. pose proof (axes_mapped _ I3) as M3.
  pose proof (fun p => kept_inner p _ I1) as K1. pose proof (fun p => kept_inner p _ I2) as K2. pose proof (fun p => kept_inner p _ I3) as K3.
  pose proof (K1 (0, 1, 0)) as O1. pose proof (K2 (0, 0, 1)) as O2. pose proof (K3 (1, 0, 0)) as O3.
  set (a := T (1, 0, 0)) in *. set (c := T (0, 1, 0)) in *. set (d := T (0, 0, 1)) in *. clearbody a c d.
  assert (G : forall k s t o, (forall x y z x' y' z', inner (x', y', z') a = x -> inner (x', y', z') c = y -> inner (x', y', z') d = z -> (x', y', z') = octahedral k s t o (x, y, z)) -> exists k s t o, forall p, T p = octahedral k s t o p).
  { intros k s t o H. exists k, s, t, o. intros p. specialize (K1 p). specialize (K2 p). specialize (K3 p). destruct (T p) as [[x' y'] z'], p as [[x y] z]. apply H; [rewrite K1|rewrite K2|rewrite K3]; unfold inner; ring. }
  clear K1 K2 K3 I1 I2 I3. unfold axes in M1, M2, M3. cbn [In] in M1, M2, M3.
  repeat (destruct M1 as [<-|M1]; [repeat (destruct M2 as [<-|M2]; [try (exfalso; unfold inner in O1; lra); repeat (destruct M3 as [<-|M3]; [try (exfalso; unfold inner in O2, O3; lra); first [apply (G 0%nat false false false); solve_case | apply (G 0%nat false false true); solve_case | apply (G 0%nat false true false); solve_case | apply (G 0%nat false true true); solve_case | apply (G 0%nat true false false); solve_case | apply (G 0%nat true false true); solve_case | apply (G 0%nat true true false); solve_case | apply (G 0%nat true true true); solve_case | apply (G 1%nat false false false); solve_case | apply (G 1%nat false false true); solve_case | apply (G 1%nat false true false); solve_case | apply (G 1%nat false true true); solve_case | apply (G 1%nat true false false); solve_case | apply (G 1%nat true false true); solve_case | apply (G 1%nat true true false); solve_case | apply (G 1%nat true true true); solve_case | apply (G 2%nat false false false); solve_case | apply (G 2%nat false false true); solve_case | apply (G 2%nat false true false); solve_case | apply (G 2%nat false true true); solve_case | apply (G 2%nat true false false); solve_case | apply (G 2%nat true false true); solve_case | apply (G 2%nat true true false); solve_case | apply (G 2%nat true true true); solve_case | apply (G 3%nat false false false); solve_case | apply (G 3%nat false false true); solve_case | apply (G 3%nat false true false); solve_case | apply (G 3%nat false true true); solve_case | apply (G 3%nat true false false); solve_case | apply (G 3%nat true false true); solve_case | apply (G 3%nat true true false); solve_case | apply (G 3%nat true true true); solve_case | apply (G 4%nat false false false); solve_case | apply (G 4%nat false false true); solve_case | apply (G 4%nat false true false); solve_case | apply (G 4%nat false true true); solve_case | apply (G 4%nat true false false); solve_case | apply (G 4%nat true false true); solve_case | apply (G 4%nat true true false); solve_case | apply (G 4%nat true true true); solve_case | apply (G 5%nat false false false); solve_case | apply (G 5%nat false false true); solve_case | apply (G 5%nat false true false); solve_case | apply (G 5%nat false true true); solve_case | apply (G 5%nat true false false); solve_case | apply (G 5%nat true false true); solve_case | apply (G 5%nat true true false); solve_case | apply (G 5%nat true true true); solve_case]|]); destruct M3|]); destruct M2|]). destruct M1.
Qed.
End Maps.

Lemma octahedral_rigid k s t o : rigid (octahedral k s t o).
Proof.
  intros p q. rewrite !square_distance. f_equal. rewrite turn_sub. apply octahedral_inner.
Qed.

Theorem sphere_census : forall L (b : builder vec) T, regular_sphere real_numbers L 1 = Ok b ->
  (rigid T /\ cells_mapped b T <-> exists k s t o, forall p, T p = octahedral k s t o p).
Proof.
  intros L b T E. split; [intros (H1 & H2); now apply (octahedral_only L b)|]. intros (k & s & t & o & H). split.
  - intros p q. rewrite !H. apply octahedral_rigid.
  - intros c p q r Co. rewrite !H. exact (sphere_symmetric L b k s t o E c p q r Co).
Qed.

(** The maps are counted once. *)
Theorem sphere_count : forall L (b : builder vec) T, regular_sphere real_numbers L 1 = Ok b -> rigid T -> cells_mapped b T ->
  exists k s t o, ((k < 6)%nat /\ forall p, T p = octahedral k s t o p) /\
    forall k' s' t' o', (k' < 6)%nat -> (forall p, T p = octahedral k' s' t' o' p) -> k' = k /\ s' = s /\ t' = t /\ o' = o.
Proof.
  intros L b T E H1 H2. destruct (octahedral_only L b T E H1 H2) as (k & s & t & o & H).
  assert (G : exists k0, (k0 < 6)%nat /\ forall p, T p = octahedral k0 s t o p).
  { destruct (Nat.lt_ge_cases k 6) as [Hk|Hk]; [exists k; auto|]. exists 5%nat. split; [lia|]. intros p. rewrite H. unfold octahedral. f_equal. unfold permuted. now do 6 (destruct k as [|k]; [lia|]). }
  destruct G as (k0 & Hk & G). exists k0, s, t, o. split; [auto|]. intros k' s' t' o' Hk' H'. apply octahedral_different; auto. now rewrite <- G, <- H'.
Qed.

(** A rotation and a translation that map no grid to itself. *)
Lemma turned_rigid : rigid turned.
Proof. intros [[x y] z] [[x' y'] z']. rewrite !square_distance. f_equal. unfold inner, vsub, turned. field. Qed.

Theorem turned_not : forall L (b : builder vec), regular_sphere real_numbers L 1 = Ok b -> rigid turned /\ ~ cells_mapped b turned.
Proof.
  intros L b E. split; [exact turned_rigid|]. intros H. destruct (octahedral_only L b turned E turned_rigid H) as (k & s & t & o & F). specialize (F (1, 0, 0)).
  unfold turned, octahedral in F. destruct k as [|[|[|[|[|k]]]]]; cbn [permuted mirrored] in F; apply pair_equal_spec in F; destruct F as (F & _); apply pair_equal_spec in F; destruct F as (F1 & F2), s, t; lra.
Qed.

Theorem moved_not : forall L (b : builder vec) v, regular_sphere real_numbers L 1 = Ok b -> v <> origin -> rigid (vadd v) /\ ~ cells_mapped b (vadd v).
Proof.
  intros L b v E N. assert (Rv : rigid (vadd v)).
  { intros [[x y] z] [[x' y'] z']. destruct v as [[a c] d]. rewrite !square_distance. f_equal. unfold inner, vsub, vadd. ring. }
  split; [exact Rv|]. intros H. destruct (octahedral_only L b _ E Rv H) as (k & s & t & o & F). specialize (F origin). apply N.
  destruct v as [[a c] d]. unfold vadd, octahedral, origin in F. destruct k as [|[|[|[|[|k]]]]]; cbn [permuted mirrored] in F; apply pair_equal_spec in F; destruct F as (F & F3); apply pair_equal_spec in F; destruct F as (F1 & F2);
    unfold origin; apply vec_eq; destruct s, t, o; lra.
Qed.

Lemma census_example : forall L, exists b : builder vec, regular_sphere real_numbers L 1 = Ok b /\
  rigid (octahedral 1 true false false) /\ cells_mapped b (octahedral 1 true false false) /\ octahedral 1 true false false (1, 2, 3) = (- (2), 3, 1).
Proof.
  intros L. destruct (sphere_points_differ L) as (b & E & _). exists b. split; [exact E|]. split; [apply octahedral_rigid|]. split; [exact (sphere_symmetric L b 1 true false false E)|]. reflexivity.
Qed.
