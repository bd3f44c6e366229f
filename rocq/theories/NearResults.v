(** * The singular part in two arithmetics *)
From Coq Require Import Reals Lra.
From Verif Require Import Base BaseFacts Topology TopologyFacts DofMap SpecDof DofMapFacts Process Space SpecSpace
  Options Adjacency SpecAdjacency AdjacencyFacts AdjacencyResults Scalar Integrand CellPair Operators SpecLocal LocalResults
  Interleave Assembly SpecAssembly AssemblyFacts AssemblyRaces AssemblySingular AssemblyDense AssemblyExact AssemblyResults AlgebraFacts SpecOrder OrderResults
  DistributedResults SpecTransfer TransferResults SpecScalars ScalarsResults SpecRounding GradedResults RoundingResults RoundingModels RoundingPositive SpecNear.
Local Open Scope nat_scope.

(** ** Lists *)
Lemma Forall2_three {A B C : Type} (P : A -> B -> Prop) (Q : A -> C -> Prop) (Z : B -> C -> Prop) ks l l' :
  Forall2 P ks l -> Forall2 Q ks l' -> (forall k x y, In k ks -> P k x -> Q k y -> Z x y) -> Forall2 Z l l'.
Proof.
  intros F. revert l'. induction F as [|k x ks l Px F IH]; intros l' G H; inversion G; subst; constructor.
  - eapply H; eauto. now left.
  - apply IH; auto. intros. eapply H; eauto. now right.
Qed.

Lemma zipped {T T' : Type} (Z : T -> T' -> Prop) (rows cols : list nat) (data : list T) (rows' cols' : list nat) (data' : list T') :
  length rows = length data -> length cols = length data -> length rows' = length data' -> length cols' = length data' ->
  Forall2 (fun x y => fst y = fst x /\ Z (snd x) (snd y)) (combine (combine rows cols) data) (combine (combine rows' cols') data') ->
  rows' = rows /\ cols' = cols /\ Forall2 Z data data'.
Proof.
  revert cols data rows' cols' data'. induction rows as [|r rows IH]; intros [|c cols] [|x data] rows' cols' data' L1 L2 L3 L4 F; cbn in L1, L2; try lia.
  - cbn in F. inversion F as [E|]. destruct rows', cols', data'; cbn in *; try lia; try discriminate. auto.
  - destruct rows' as [|r' rows'], cols' as [|c' cols'], data' as [|x' data']; cbn [combine length] in *; try (now inversion F).
    inversion F as [|? ? ? ? (E & Hz) F']; subst. cbn [fst snd] in *. injection E as -> ->.
    destruct (IH cols data rows' cols' data') as (-> & -> & G); try lia; auto.
Qed.

(** ** The same triplets *)
Section Two.
Context {T R T' R' : Type} (S : scalar T R) (S' : scalar T' R').
Context (X : externals R) (X' : externals R') (wmod wmod' : nat) (O : operator T R) (O' : operator T' R') (o o' : options).
Context (deg : cell_type -> cell_type -> nat).
Context (test trial : fspace T R) (test' trial' : fspace T' R').
Hypothesis (Dt : same_dofs test test') (Ds : same_dofs trial trial').
Hypothesis (D : singular_setting X wmod O o deg test trial) (D' : singular_setting X' wmod' O' o' deg test' trial').

Theorem two_parts_at (rel : nat -> nat -> T -> T' -> Prop) rt rt' : legal_runtime (s_add S) rt -> legal_runtime (s_add S') rt' ->
  (forall t s a b i j r c v v', singular_label test trial ((t, s), (a, b)) ->
     nth_error (dofs_at test t) a = Some i -> nth_error (dofs_at trial s) b = Some j ->
     global_dof_index (fs_space test) i = Ok r -> global_dof_index (fs_space trial) j = Ok c ->
     singular_value S X O deg test trial t s a b v -> singular_value S' X' O' deg test' trial' t s a b v' -> rel r c v v') ->
  exists m m', assemble_singular_part S X rt wmod O o (shape_of test trial) trial test = Ok m /\
    assemble_singular_part S' X' rt' wmod' O' o' (shape_of test' trial') trial' test' = Ok m' /\
    sm_shape m = shape_of test trial /\ sm_shape m' = sm_shape m /\
    length (sm_rows m) = length (sm_data m) /\ length (sm_cols m) = length (sm_data m) /\
    length (sm_rows m') = length (sm_data m') /\ length (sm_cols m') = length (sm_data m') /\
    Forall2 (fun x y => fst y = fst x /\ rel (fst (fst x)) (snd (fst x)) (snd x) (snd y)) (triplets m) (triplets m').
Proof.
  intros L L' H.
  destruct (singular_part_ordered S X rt wmod O o deg test trial L D) as (st & m & Est & Em & K). cbv zeta in K.
  destruct (singular_part_ordered S' X' rt' wmod' O' o' deg test' trial' L' D') as (st' & m' & Est' & Em' & K'). cbv zeta in K'.
  destruct Dt as (G1 & F1 & P1), Ds as (G2 & F2 & P2).
  assert (W := proj1 (member_grid test (sg_test _ _ _ _ _ _ _ D))). assert (Sf := wf_types2_surface _ W).
  assert (Ei : forall (A B : Type) (SS : scalar A B) (Y : externals B) wm (U : operator A B) oo (te tr : fspace A B) stt,
    singular_setting Y wm U oo deg te tr -> fs_grid te = fs_grid test ->
    singular_rules (make_rule Y U tr te) oo (g_types (fs_grid te) 2) = Ok stt -> rs_indices stt = rs_indices (key_table (g_types (fs_grid test) 2))).
  { intros A B SS Y wm U oo te tr stt Z Eg Er. destruct Z as [Mt Ms Sag Sp _ _ _ Pr De Du Co _ _ Hf]. rewrite Eg in Er, De, Du.
    destruct (singular_rules_spec (make_rule Y U tr te) oo _ deg (wf_types2_nodup _ W) Sf De) as (st0 & E0 & I).
    - intros t s p Ht Hs Hp. destruct (duffy_exists Y _ _ t s p Du Sf Ht Hs Hp) as (q' & E'). eexists.
      apply (make_rule_Ok Y U tr te t s p (deg t s) q' Pr); [now rewrite Eg|now rewrite <- Sag, Eg|exact E'].
    - assert (st0 = stt) by congruence. subst st0. exact (proj1 I). }
  assert (E1 := Ei T R S X wmod O o test trial st D eq_refl Est).
  assert (E2 := Ei T' R' S' X' wmod' O' o' test' trial' st' D' (eq_sym G1) Est').
  rewrite (pair_order_indices st' st (fs_grid test')) in K' by congruence. rewrite <- G1 in K'.
  assert (dt : forall c, dofs_at test' c = dofs_at test c) by (intros c; unfold dofs_at; now rewrite P1).
  assert (ds : forall c, dofs_at trial' c = dofs_at trial c) by (intros c; unfold dofs_at; now rewrite P2).
  assert (El : flat_map (pair_labels test' trial') (pair_order st (fs_grid test)) = flat_map (pair_labels test trial) (pair_order st (fs_grid test))).
  { apply flat_map_ext. intros p. unfold pair_labels. now rewrite dt, ds. }
  rewrite El in K'. clear El. set (ks := flat_map (pair_labels test trial) (pair_order st (fs_grid test))) in *.
  destruct K as (A1 & A2 & A3 & A4 & A5 & A6 & A7). destruct K' as (B1 & B2 & B3 & B4 & B5 & B6 & B7).
  exists m, m'. split; [exact Em|]. split; [exact Em'|]. split; [exact A1|].
  split; [rewrite A1, B1; unfold shape_of; now rewrite P1, P2|].
  do 4 (split; [congruence|]).
  refine (Forall2_three _ _ _ ks _ _ A7 B7 _).
  intros [[t s] [a b]] [[r c] v] [[r' c'] v'] Hk (i & j & Hi & Hj & Gi & Gj & V) (i' & j' & Hi' & Hj' & Gi' & Gj' & V'). cbn [fst snd] in *.
  rewrite dt in Hi'. rewrite ds in Hj'. assert (i' = i) by congruence. assert (j' = j) by congruence. subst i' j'. rewrite <- P1 in Gi'. rewrite <- P2 in Gj'.
  split; [congruence|]. apply (H t s a b i j); auto. now apply A6.
Qed.

Theorem two_parts (relT : T -> T' -> Prop) rt rt' : legal_runtime (s_add S) rt -> legal_runtime (s_add S') rt' ->
  (forall t s a b v v', singular_label test trial ((t, s), (a, b)) ->
     singular_value S X O deg test trial t s a b v -> singular_value S' X' O' deg test' trial' t s a b v' -> relT v v') ->
  exists m m', assemble_singular_part S X rt wmod O o (shape_of test trial) trial test = Ok m /\
    assemble_singular_part S' X' rt' wmod' O' o' (shape_of test' trial') trial' test' = Ok m' /\
    sm_shape m = shape_of test trial /\ related_parts relT m m'.
Proof.
  intros L L' H.
  destruct (two_parts_at (fun _ _ => relT) rt rt' L L') as (m & m' & E & E' & E1 & E2 & L1 & L2 & L3 & L4 & F).
  { intros t s a b i j r c v v' Hl _ _ _ _ V V'. now apply (H t s a b). }
  exists m, m'. split; [exact E|]. split; [exact E'|]. split; [exact E1|]. split; [exact E2|]. now apply zipped.
Qed.
End Two.

(** ** Related arithmetics *)
Section Transfer.
Context {T R T' R' : Type} (relT : T -> T' -> Prop) (relR relD relN : R -> R' -> Prop) (relP : list R -> list R' -> Prop).
Context (S : scalar T R) (S' : scalar T' R') (H : related_arithmetic relT relR relD S S').

Theorem near_transfer X X' wmod wmod' O O' o o' deg (test trial : fspace T R) (test' trial' : fspace T' R') rt rt' :
  legal_runtime (s_add S) rt -> legal_runtime (s_add S') rt' ->
  singular_setting X wmod O o deg test trial -> singular_setting X' wmod' O' o' deg test' trial' ->
  same_dofs test test' -> same_dofs trial trial' ->
  near_externals relR relD relN relP X X' -> near_kernel relT X X' O O' deg (fs_grid test) ->
  related_basis relT relP O test test' -> related_basis relT relP O trial trial' ->
  related_integrand relT relD relN S S' (op_integrand O) (op_integrand O') ->
  exists m m', assemble_singular_part S X rt wmod O o (shape_of test trial) trial test = Ok m /\
    assemble_singular_part S' X' rt' wmod' O' o' (shape_of test' trial') trial' test' = Ok m' /\
    sm_shape m = shape_of test trial /\ related_parts relT m m'.
Proof.
  intros L L' D D' Dt Ds HX HK Bt Bs HI. apply (two_parts S S' X X' wmod wmod' O O' o o' deg test trial test' trial' Dt Ds D D' relT rt rt' L L').
  intros t s a b v v' (Ht & Hs & Ho & To & Ha & Hb) V V'.
  destruct Dt as (G1 & F1 & P1). destruct D as [Mt Ms Sag Sp Ct Cs Fo Pr De Du Co _ _ Hf].
  rewrite (dofs_at_length test t Mt Ht) in Ha. rewrite (dofs_at_length trial s Ms), <- Sag in Hb by now rewrite <- Sag.
  destruct Fo as (_ & Fk & Fd). pose proof (deriv_count_mono _ _ Fd) as Fd'.
  unfold singular_value in *. rewrite <- G1 in V'.
  destruct V as (pairs & kind & dim & q & A1 & A2 & A3 & A4 & ->). destruct V' as (pairs' & kind' & dim' & q' & B1 & B2 & B3 & B4 & ->).
  assert (pairs' = pairs) by (eapply adjacency_unique; eauto). assert (dim' = dim) by (eapply shared_dimension_unique; eauto).
  assert (kind' = kind) by congruence. subst pairs' dim' kind'.
  destruct (ne_duffy _ _ _ _ _ _ HX _ _ _ _ _ _ A4 B4) as (E1 & E2 & E3). destruct (pr_duffy _ Pr _ _ _ _ _ A4) as (L1 & L2).
  unfold pairwise_entry. eapply fold_related; [apply (enumerate_related _ _ _ E3)| |apply (ra_zero _ _ _ _ _ H)].
  intros c c' [p w] [p' w'] Hc (Ep & Hp & Hw). cbn [fst snd] in *. subst p'.
  assert (Gt : related_point relD relN (x_geometry X (fs_grid test) (g_ctype (fs_grid test) t) (pq_test q) t)
    (x_geometry X' (fs_grid test) (g_ctype (fs_grid test) t) (pq_test q') t) p) by (apply (ne_geometry _ _ _ _ _ _ HX); auto; lia).
  assert (Gs : related_point relD relN (x_geometry X (fs_grid test) (g_ctype (fs_grid test) s) (pq_trial q) s)
    (x_geometry X' (fs_grid test) (g_ctype (fs_grid test) s) (pq_trial q') s) p) by (apply (ne_geometry _ _ _ _ _ _ HX); auto; lia).
  apply (ra_add _ _ _ _ _ H); auto. apply (ra_mul _ _ _ _ _ H).
  - apply HI; auto.
    + intros n Hn. eapply (HK t s pairs kind dim q q' p n); eauto; lia.
    + intros n Hn. apply Bt; auto; lia.
    + intros n Hn. apply Bs; auto; lia.
  - apply (ra_cast _ _ _ _ _ H), (ra_real_mul _ _ _ _ _ H); auto.
    apply (ra_real_mul _ _ _ _ _ H); apply (ra_denominator _ _ _ _ _ H); [apply Gt|apply Gs].
Qed.
End Transfer.

(** ** Errors that grow *)
Section Graded.
Context {T R R' T' : Type} (relT : nat -> T -> T' -> Prop) (relR relD relN : nat -> R -> R' -> Prop) (relP : list R -> list R' -> Prop).
Context (S : scalar T R) (S' : scalar T' R') (H : graded relT relR relD relN S S').

Theorem near_graded X X' wmod wmod' O O' o o' deg (test trial : fspace T R) (test' trial' : fspace T' R') rt rt' n P :
  legal_runtime (s_add S) rt -> legal_runtime (s_add S') rt' ->
  singular_setting X wmod O o deg test trial -> singular_setting X' wmod' O' o' deg test' trial' ->
  same_dofs test test' -> same_dofs trial trial' ->
  near_externals (relR n) (relD n) (relN n) relP X X' -> near_kernel (relT n) X X' O O' deg (fs_grid test) ->
  related_basis (relT n) relP O test test' -> related_basis (relT n) relP O trial trial' ->
  related_form (relT n) (op_integrand O) (op_integrand O') -> near_points_at_most X deg (g_types (fs_grid test) 2) P ->
  exists m m', assemble_singular_part S X rt wmod O o (shape_of test trial) trial test = Ok m /\
    assemble_singular_part S' X' rt' wmod' O' o' (shape_of test' trial') trial' test' = Ok m' /\
    sm_shape m = shape_of test trial /\ related_parts (relT (roundings n (op_integrand O) + 4 * n + 4 + P)) m m'.
Proof.
  intros L L' D D' Dt Ds HX HK Bt Bs HI HP. apply (two_parts S S' X X' wmod wmod' O O' o o' deg test trial test' trial' Dt Ds D D' _ rt rt' L L').
  intros t s a b v v' (Ht & Hs & Ho & To & Ha & Hb) V V'.
  destruct Dt as (G1 & F1 & P1). destruct D as [Mt Ms Sag Sp Ct Cs Fo Pr De Du Co _ _ Hf].
  rewrite (dofs_at_length test t Mt Ht) in Ha. rewrite (dofs_at_length trial s Ms), <- Sag in Hb by now rewrite <- Sag.
  destruct Fo as (_ & Fk & Fd). pose proof (deriv_count_mono _ _ Fd) as Fd'.
  assert (W := proj1 (member_grid test Mt)).
  set (c0 := roundings n (op_integrand O) + 4 * n + 4).
  unfold singular_value in *. rewrite <- G1 in V'.
  destruct V as (pairs & kind & dim & q & A1 & A2 & A3 & A4 & ->). destruct V' as (pairs' & kind' & dim' & q' & B1 & B2 & B3 & B4 & ->).
  assert (pairs' = pairs) by (eapply adjacency_unique; eauto). assert (dim' = dim) by (eapply shared_dimension_unique; eauto).
  assert (kind' = kind) by congruence. subst pairs' dim' kind'.
  destruct (ne_duffy _ _ _ _ _ _ HX _ _ _ _ _ _ A4 B4) as (E1 & E2 & E3). destruct (pr_duffy _ Pr _ _ _ _ _ A4) as (L1 & L2).
  unfold pairwise_entry. apply (at_level relT relR relD relN S S' H) with (c0 + 1 * length (enumerate (pq_weights q))).
  2:{ unfold enumerate. rewrite combine_length, seq_length, Nat.min_id.
      pose proof (HP _ _ _ _ _ _ (wf_ctype _ W t Ht) (wf_ctype _ W s Hs) A4). lia. }
  refine (fold_graded relT _ _ _ c0 1 _ _ (enumerate_related _ _ _ E3) _ c0 _ _ (le_n _) _).
  2:{ eapply (at_level relT relR relD relN S S' H); [apply (gr_zero _ _ _ _ _ _ H)|lia]. }
  intros m c c' [p w] [p' w'] Hm Hc (Ep & Hp & Hw). cbn [fst snd] in *. subst p'.
  assert (Gt : related_point (relD n) (relN n) (x_geometry X (fs_grid test) (g_ctype (fs_grid test) t) (pq_test q) t)
    (x_geometry X' (fs_grid test) (g_ctype (fs_grid test) t) (pq_test q') t) p) by (apply (ne_geometry _ _ _ _ _ _ HX); auto; lia).
  assert (Gs : related_point (relD n) (relN n) (x_geometry X (fs_grid test) (g_ctype (fs_grid test) s) (pq_trial q) s)
    (x_geometry X' (fs_grid test) (g_ctype (fs_grid test) s) (pq_trial q') s) p) by (apply (ne_geometry _ _ _ _ _ _ HX); auto; lia).
  apply (gr_add _ _ _ _ _ _ H); auto.
  apply (at_level relT relR relD relN S S' H) with (roundings n (op_integrand O) + (n + (n + n + 1) + 1) + 1); [|unfold c0 in Hm; lia].
  apply (gr_mul _ _ _ _ _ _ H).
  - apply (graded_form_value relT relR relD relN S S' H); auto.
    + intros i Hi. eapply (HK t s pairs kind dim q q' p i); eauto; lia.
    + intros i Hi. apply Bt; auto; lia.
    + intros i Hi. apply Bs; auto; lia.
  - apply (gr_cast _ _ _ _ _ _ H), (gr_real_mul _ _ _ _ _ _ H); auto.
    apply (gr_real_mul _ _ _ _ _ _ H); apply (gr_denominator _ _ _ _ _ _ H); [apply Gt|apply Gs].
Qed.
End Graded.

(** ** Other numbers, same formulas *)
Lemma mapped_member {T T' R : Type} (f : T -> T') (fs : fspace T R) (fs' : fspace T' R) : mapped_space f fs fs' -> member fs -> member fs'.
Proof.
  intros [E0 E1 E2 E3 E4 _] (N & all & r & [A1 A2 A3 A4 A5] & Hr & E).
  exists N, (fun q => mkFspace T' R (fs_grid (all q)) (fs_family (all q)) (fs_processes (all q)) (fs_space (all q))
    (if q =? r then fs_components fs' else fs_components (all q))
    (if q =? r then fs_basis fs' else fun t points d p b j => f (fs_basis (all q) t points d p b j))), r.
  split; [constructor; assumption|]. split; [exact Hr|]. rewrite Nat.eqb_refl, E. destruct fs'; cbn in *. now subst.
Qed.

Lemma mapped_singular {T T' R : Type} (f : T -> T') (X : externals R) wmod (O : operator T R) (O' : operator T' R) o deg test trial test' trial' :
  mapped_space f test test' -> mapped_space f trial trial' -> fitting O' ->
  singular_setting X wmod O o deg test trial -> singular_setting X wmod O' o deg test' trial'.
Proof.
  intros Mt Ms Fo [A1 A2 A3 A4 A5 A6 A7 A8 A9 A10 A11 A12 A13 A14].
  pose proof (mapped_member f _ _ Mt A1) as B1. pose proof (mapped_member f _ _ Ms A2) as B2.
  destruct Mt as [_ T2 T3 T4 T5 _], Ms as [_ S2 S3 S4 S5 _].
  constructor; unfold in_space, has_components in *; rewrite ?T2, ?T4, ?S2, ?S4; auto.
Qed.

(** The same formulas with other numbers. *)
Theorem near_scalars {T T' R : Type} (S : scalar T R) (S' : scalar T' R) (f : T -> T') (X : externals R) wmod O O' o deg test trial test' trial' rt rt' :
  scalar_map S S' f -> legal_runtime (s_add S) rt -> legal_runtime (s_add S') rt' ->
  op_integrand O' = map_integrand f (op_integrand O) -> mapped_kernel f O O' -> fitting O' ->
  mapped_space f test test' -> mapped_space f trial trial' -> singular_setting X wmod O o deg test trial ->
  exists m m', assemble_singular_part S X rt wmod O o (shape_of test trial) trial test = Ok m /\
    assemble_singular_part S' X rt' wmod O' o (shape_of test' trial') trial' test' = Ok m' /\
    sm_shape m = shape_of test trial /\ sm_shape m' = sm_shape m /\ sm_rows m' = sm_rows m /\ sm_cols m' = sm_cols m /\ sm_data m' = map f (sm_data m).
Proof.
  intros H L L' Hi Hk Fo Mt Ms D. pose proof (mapped_singular f X wmod O O' o deg test trial test' trial' Mt Ms Fo D) as D'.
  destruct (near_transfer (fun x x' => x' = f x) eq eq eq eq S S' (mapped_arithmetic S S' f H)) with (X := X) (X' := X) (wmod := wmod) (wmod' := wmod) (O := O) (O' := O')
    (o := o) (o' := o) (deg := deg) (test := test) (trial := trial) (test' := test') (trial' := trial') (rt := rt) (rt' := rt') as (m & m' & E & E' & F0 & (F1 & F2 & F3 & F4)); auto.
  - destruct Mt as [_ E1 E2 _ E4 _]. repeat split; congruence.
  - destruct Ms as [_ E1 E2 _ E4 _]. repeat split; congruence.
  - constructor.
    + intros k d p n q q' E1 E2. assert (q' = q) by congruence. subst q'. split; [reflexivity|]. split; [reflexivity|]. now induction (pq_weights q); constructor.
    + intros g t points points' c p <- _ _. repeat split.
  - intros t s pairs kind dim q q' p n tt st _ _ _ _ _ _ _ E1 E2 _ _. assert (q' = q) by congruence. subst. apply Hk.
  - intros t points points' d p b <- _ _ _. apply (mp_basis _ _ _ Mt).
  - intros t points points' d p b <- _ _ _. apply (mp_basis _ _ _ Ms).
  - rewrite Hi. apply (mapped_integrand_value S S' f H).
  - exists m, m'. split; [exact E|]. split; [exact E'|]. split; [assumption|]. split; [exact F1|]. split; [exact F2|]. split; [exact F3|].
    clear - F4. induction F4; cbn; congruence.
Qed.

(** ** Rounding errors *)
Section Errors.
Local Open Scope R_scope.
Context {T : Type} (u : R) (Hu : 0 <= u < 1) (norm : T -> R) (E S : scalar T R) (V : valued E norm) (Q : rounds u norm E S).

Theorem near_rounding_error (X X' : externals R) wmod wmod' (O O' : operator T R) o o' deg (test trial test' trial' : fspace T R) relP rt rt' rt'' n P :
  legal_runtime (s_add S) rt -> legal_runtime (s_add E) rt' -> legal_runtime Rplus rt'' ->
  singular_setting X wmod O o deg test trial -> singular_setting X' wmod' O' o' deg test' trial' ->
  same_dofs test test' -> same_dofs trial trial' ->
  near_externals (real_close u n) (nonzero_close u n) (real_close u n) relP X X' ->
  near_kernel (close u norm E n) X X' O O' deg (fs_grid test) ->
  related_basis (close u norm E n) relP O test test' -> related_basis (close u norm E n) relP O trial trial' ->
  related_form (close u norm E n) (op_integrand O) (op_integrand O') -> near_points_at_most X deg (g_types (fs_grid test) 2) P ->
  exists m e a,
    assemble_singular_part S X rt wmod O o (shape_of test trial) trial test = Ok m /\
    assemble_singular_part E X' rt' wmod' O' o' (shape_of test' trial') trial' test' = Ok e /\
    assemble_singular_part absolute X' rt'' wmod' (absolute_operator norm O') o' (shape_of test' trial')
      (absolute_space norm trial') (absolute_space norm test') = Ok a /\
    related_parts (fun y z => norm y <= z) e a /\
    sm_shape e = sm_shape m /\ sm_rows e = sm_rows m /\ sm_cols e = sm_cols m /\ length (sm_data e) = length (sm_data m) /\
    forall k x y z, nth_error (sm_data m) k = Some x -> nth_error (sm_data e) k = Some y -> nth_error (sm_data a) k = Some z ->
      norm (s_sub E x y) <= (growth u (roundings n (op_integrand O) + 4 * n + 4 + P) - 1) * z.
Proof.
  intros L L' L'' D D' Dt Ds HX HK Bt Bs HI HP.
  assert (Fo := sg_fitting _ _ _ _ _ _ _ D').
  assert (FP : fitting (paired_operator norm O')) by (apply (fitting_map O'); cbn; auto using kernel_used_map, derivs_used_map).
  assert (FA : fitting (absolute_operator norm O')) by (apply (fitting_map O'); cbn; auto using kernel_used_map, derivs_used_map).
  assert (Mw : forall fs, mapped_space (with_bound norm) fs (paired_space norm fs)) by (intros fs; constructor; reflexivity).
  assert (DP : singular_setting X' wmod' (paired_operator norm O') o' deg (paired_space norm test') (paired_space norm trial'))
    by (exact (mapped_singular (with_bound norm) X' wmod' O' (paired_operator norm O') o' deg test' trial' _ _ (Mw test') (Mw trial') FP D')).
  destruct (near_scalars (paired E) E fst X' wmod' (paired_operator norm O') O' o' deg (paired_space norm test') (paired_space norm trial') test' trial'
    (sequential (s_add (paired E))) rt') as (mp & e & E1 & E2 & _ & Q1 & Q2 & Q3 & Q4); auto using sequential_legal.
  { eapply fst_map. exact V. }
  { cbn [paired_operator op_integrand]. rewrite map_map_integrand. symmetry. apply map_id_integrand. }
  { intros i x y. reflexivity. }
  { constructor; reflexivity. } { constructor; reflexivity. }
  destruct (near_scalars (paired E) absolute snd X' wmod' (paired_operator norm O') (absolute_operator norm O') o' deg (paired_space norm test') (paired_space norm trial')
    (absolute_space norm test') (absolute_space norm trial') (sequential (s_add (paired E))) rt'') as (mp' & a & E3 & E4 & _ & R1 & R2 & R3 & R4); auto using snd_map, sequential_legal.
  { cbn [paired_operator absolute_operator op_integrand]. rewrite map_map_integrand. reflexivity. }
  { intros i x y. reflexivity. }
  { constructor; reflexivity. } { constructor; reflexivity. }
  assert (mp' = mp) by congruence. subst mp'.
  destruct (near_graded (error u norm E) (real_close u) (nonzero_close u) (real_close u) relP S (paired E) (error_graded u Hu norm E S V Q)) with (X := X) (X' := X') (wmod := wmod) (wmod' := wmod')
    (O := O) (O' := paired_operator norm O') (o := o) (o' := o') (deg := deg) (n := n) (P := P)
    (test := test) (trial := trial) (test' := paired_space norm test') (trial' := paired_space norm trial') (rt := rt) (rt' := sequential (s_add (paired E)))
    as (m & mp' & F1 & F2 & F3 & (F4 & F5 & F6 & F7)); auto using sequential_legal.
  - intros t s pairs kind dim q q' p i tt st. intros. split; [apply Rle_refl|]. cbn [with_bound fst snd paired_operator op_kernel kn_value].
    eapply (HK t s pairs kind dim q q' p i); eauto.
  - intros t points points' d p b Hr Hp Hd Hb. split; [apply Rle_refl|]. cbn [with_bound fst snd paired_space fs_basis]. now apply Bt.
  - intros t points points' d p b Hr Hp Hd Hb. split; [apply Rle_refl|]. cbn [with_bound fst snd paired_space fs_basis]. now apply Bs.
  - now apply related_with_bound.
  - assert (mp' = mp) by congruence. subst mp'. exists m, e, a.
    split; [exact F1|]. split; [exact E2|]. split; [exact E4|].
    split; [|split; [congruence|split; [congruence|split; [congruence|split]]]].
    + split; [congruence|]. split; [congruence|]. split; [congruence|]. rewrite Q4, R4.
      clear - F7. induction F7 as [|x y l l' (A & _) F IH]; cbn [map]; constructor; auto.
    + rewrite Q4, map_length. symmetry. exact (Forall2_lengths _ _ _ F7).
    + intros k x y z Hx Hy Hz. rewrite Q4, nth_error_map in Hy. rewrite R4, nth_error_map in Hz.
      revert k Hx Hy Hz. clear - F7. induction F7 as [|x0 yz l l' (_ & A) F IH]; intros [|k] Hx Hy Hz; cbn in Hx, Hy, Hz; try discriminate.
      * injection Hx as <-. injection Hy as <-. injection Hz as <-. exact A.
      * apply (IH k); auto.
Qed.
End Errors.

(** ** Without negative data *)
Section Positive.
Local Open Scope R_scope.

Theorem near_positive (X : externals R) wmod (G : green) o deg (test trial : fspace R R) rt rt' :
  legal_runtime Rplus rt -> legal_runtime Rplus rt' -> singular_setting X wmod (laplace_single_layer G) o deg test trial ->
  positive_externals (Rle 0) X -> (forall x y, 0 <= G 0%nat x y) -> positive_basis (Rle 0) X test -> positive_basis (Rle 0) X trial ->
  exists e a, assemble_singular_part reals X rt wmod (laplace_single_layer G) o (shape_of test trial) trial test = Ok e /\
    assemble_singular_part absolute X rt' wmod (absolute_operator Rabs (laplace_single_layer G)) o (shape_of test trial)
      (absolute_space Rabs trial) (absolute_space Rabs test) = Ok a /\
    Forall (Rle 0) (sm_data e) /\ sm_data a = sm_data e.
Proof.
  intros L L' D HX HK Bt Bs.
  set (relP := fun p p' : list R => p = p' /\ rule_points X p).
  assert (FA : fitting (absolute_operator Rabs (laplace_single_layer G))) by (apply (fitting_map (laplace_single_layer G)); auto; apply (sg_fitting _ _ _ _ _ _ _ D)).
  assert (Mw : forall fs, mapped_space Rabs fs (absolute_space Rabs fs)) by (intros fs; constructor; reflexivity).
  pose proof (mapped_singular Rabs X wmod _ (absolute_operator Rabs (laplace_single_layer G)) o deg test trial _ _ (Mw test) (Mw trial) FA D) as DA.
  assert (B : forall fs, positive_basis (Rle 0) X fs -> related_basis same_positive relP (laplace_single_layer G) fs (absolute_space Rabs fs)).
  { intros fs P t points points' d p b (<- & Rp) Hp Hl Hb. change (d < 1)%nat in Hl. replace d with 0%nat by lia. apply same_positive_Rabs. now apply P. }
  destruct (near_transfer same_positive same_positive same_positive (fun _ _ => True) relP reals absolute same_arithmetic) with (X := X) (X' := X) (wmod := wmod) (wmod' := wmod)
    (O := laplace_single_layer G) (O' := absolute_operator Rabs (laplace_single_layer G)) (o := o) (o' := o)
    (deg := deg) (test := test) (trial := trial) (test' := absolute_space Rabs test) (trial' := absolute_space Rabs trial) (rt := rt) (rt' := rt')
    as (m & m' & E & E' & _ & (_ & _ & _ & F)); auto.
  - repeat split.
  - repeat split.
  - constructor.
    + intros k d p n q q' E1 E2. assert (q' = q) by congruence. subst q'. split; [split; [reflexivity|right; eauto 10]|].
      split; [split; [reflexivity|right; eauto 10]|]. apply Forall2_same. eapply (px_duffy _ _ HX); eauto.
    + intros g t points points' c p (<- & Rp) Hp Hc. split; [auto|]. split; [auto|]. split; [reflexivity|now apply (px_geometry _ _ HX)].
  - intros t s pairs kind dim q q' p n tt st _ _ _ _ _ _ _ E1 E2 _ Hn. assert (q' = q) by congruence. subst q'.
    change (n < 1)%nat in Hn. replace n with 0%nat by lia. apply same_positive_Rabs. apply HK.
  - intros k k' phi phi' psi psi' x x' p y y' q Hk0 Hp Hq _ _. cbn [integrand_value laplace_single_layer op_integrand absolute_operator map_integrand] in *.
    change (deriv_count (derivs_used SingleLayer)) with 1%nat in *. change (kernel_used SingleLayer) with 1%nat in *.
    apply (ra_mul _ _ _ _ _ same_arithmetic); [apply (ra_mul _ _ _ _ _ same_arithmetic)|]; auto.
  - exists m, m'. split; [assumption|]. split; [exact E'|].
    clear - F. induction F as [|x x' l l' (<- & Px) F IH]; [split; constructor|]. destruct IH as (IH & ->). split; [constructor; auto|reflexivity].
Qed.

Theorem near_single_layer_accuracy u (Hu : 0 <= u < 1) (S : scalar R R) (Q : rounds u Rabs reals S)
    (X X' : externals R) wmod wmod' (G G' : green) o o' deg (test trial test' trial' : fspace R R) relP rt rt' n P :
  legal_runtime (s_add S) rt -> legal_runtime Rplus rt' ->
  singular_setting X wmod (laplace_single_layer G) o deg test trial -> singular_setting X' wmod' (laplace_single_layer G') o' deg test' trial' ->
  same_dofs test test' -> same_dofs trial trial' ->
  near_externals (real_close u n) (nonzero_close u n) (real_close u n) relP X X' ->
  near_kernel (close u Rabs reals n) X X' (laplace_single_layer G) (laplace_single_layer G') deg (fs_grid test) ->
  related_basis (close u Rabs reals n) relP (laplace_single_layer G) test test' -> related_basis (close u Rabs reals n) relP (laplace_single_layer G) trial trial' ->
  near_points_at_most X deg (g_types (fs_grid test) 2) P ->
  positive_externals (Rle 0) X' -> (forall x y, 0 <= G' 0%nat x y) -> positive_basis (Rle 0) X' test' -> positive_basis (Rle 0) X' trial' ->
  exists m e,
    assemble_singular_part S X rt wmod (laplace_single_layer G) o (shape_of test trial) trial test = Ok m /\
    assemble_singular_part reals X' rt' wmod' (laplace_single_layer G') o' (shape_of test' trial') trial' test' = Ok e /\
    related_parts (fun x y => 0 <= y /\ Rabs (x - y) <= (growth u (7 * n + 6 + P) - 1) * y) m e.
Proof.
  intros L L' D D' Dt Ds HX HK Bt Bs HP PX PG Pt Ps.
  destruct (near_rounding_error u Hu Rabs reals S reals_valued Q X X' wmod wmod' (laplace_single_layer G) (laplace_single_layer G') o o' deg test trial test' trial' relP
    rt rt' rt' n P) as (m & e & a & E1 & E2 & E3 & (_ & _ & _ & Fa) & A1 & A2 & A3 & A4 & A5); auto; [exact I|].
  destruct (near_positive X' wmod' G' o' deg test' trial' rt' rt') as (e' & a' & B1 & B2 & B3 & B4); auto.
  assert (e' = e) by congruence. assert (a' = a) by (cbn [absolute_space] in *; unfold shape_of in *; cbn [fs_space] in *; congruence). subst e' a'.
  exists m, e. split; [exact E1|]. split; [exact E2|]. split; [exact A1|]. split; [exact A2|]. split; [exact A3|].
  rewrite B4 in A5. revert B3 A4 A5. generalize (sm_data m) (sm_data e). intros l l' B3. revert l.
  induction B3 as [|y l' Hy B3 IH]; intros [|x l] Ll A5; cbn in Ll; try discriminate; constructor.
  - split; [assumption|]. specialize (A5 0%nat x y y eq_refl eq_refl eq_refl).
    replace (7 * n + 6 + P)%nat with (roundings n (op_integrand (laplace_single_layer G)) + 4 * n + 4 + P)%nat by (cbn [laplace_single_layer op_integrand roundings]; lia).
    exact A5.
  - apply IH; [lia|]. intros k x0 y0 z H1 H2 H3. exact (A5 (Datatypes.S k) x0 y0 z H1 H2 H3).
Qed.
End Positive.
