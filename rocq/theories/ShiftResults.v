(** * Parts of a grid that look alike: proofs *)
From Coq Require Import Ring_theory.
From Verif Require Import Base BaseFacts Topology TopologyFacts DofMap DofMapFacts SpecDof DofMapResults Process Space SpecSpace
  DofExamples Options Adjacency SpecAdjacency AdjacencyFacts Scalar Integrand CellPair Operators SpecLocal SpecOperators Interleave Assembly SpecAssembly
  AssemblySingular AssemblyDense AssemblyExact AssemblyResults SpecAlgebra AlgebraFacts SpecBroken BrokenResults
  SpecSimilar SimilarResults SpecAutomorphism DistributedResults SpecShift.

(** ** Cells *)

Section Cells.
Variables (g : grid) (D : nat -> Prop) (tau : nat -> nat).
Hypothesis (W : wf_grid g) (Cp : copied g D tau).

Lemma share_vertex c c' k k' : share g c c' 0 k k' <-> coincide g c c' k k'.
Proof. reflexivity. Qed.

Lemma copied_coincide c c' k k' : D c -> D c' -> (coincide g c c' k k' <-> coincide g (tau c) (tau c') k k').
Proof. intros H H'. apply (cp_share _ _ _ Cp c c' 0 k k' H H'). lia. Qed.

Lemma touch_coincide c c' : touch g c c' <-> exists k k', coincide g c c' k k'.
Proof.
  split.
  - intros (v & H & H'). apply In_nth_error in H, H'. destruct H as (k & H), H' as (k' & H'). exists k, k', v. auto.
  - intros (k & k' & v & H & H'). exists v. split; eapply nth_error_In; eauto.
Qed.

Lemma copied_touch c c' : D c -> D c' -> (touch g c c' <-> touch g (tau c) (tau c')).
Proof.
  intros H H'. rewrite !touch_coincide. split; intros (k & k' & E); exists k, k'; now apply (copied_coincide c c').
Qed.

Lemma copied_adjacency c c' p : D c -> D c' -> adjacency g c c' p -> adjacency g (tau c) (tau c') p.
Proof. intros H H' (A & B). split; auto. intros i j. rewrite A. now apply copied_coincide. Qed.

Lemma share_cell c c' : c < ent_count g 2 -> c' < ent_count g 2 -> (share g c c' 2 0 0 <-> c = c').
Proof.
  intros H H'. unfold share. rewrite !(wf_sub_cell g W) by auto. cbn [nth_error]. split; [intros (e & E & E'); congruence|]. intros ->. now exists c'.
Qed.

Lemma copied_equal c c' : D c -> D c' -> (c = c' <-> tau c = tau c').
Proof.
  intros H H'. rewrite <- (share_cell c c'), <- (share_cell (tau c) (tau c')) by ((now apply (cp_cell _ _ _ Cp)) || (now apply (cp_lt _ _ _ Cp))).
  apply (cp_share _ _ _ Cp); auto.
Qed.

(** Common vertices by their places. *)
Lemma common_place c c' v : In v (g_sub g c 0) -> In v (g_sub g c' 0) ->
  exists k k', nth_error (g_sub g c 0) k = Some v /\ nth_error (g_sub g c' 0) k' = Some v.
Proof. intros H H'. apply In_nth_error in H, H'. destruct H as (k & H), H' as (k' & H'). eauto. Qed.

Lemma vertex_place c k k' v : c < ent_count g 2 -> nth_error (g_sub g c 0) k = Some v -> nth_error (g_sub g c 0) k' = Some v -> k = k'.
Proof.
  intros Hc H H'. assert (N := wf_sub_nodup g W c 0 Hc (Nat.le_0_l 2)). rewrite NoDup_nth_error in N. apply N; [|congruence].
  apply nth_error_Some. congruence.
Qed.

Lemma copied_shared c c' d : D c -> D c' -> shared_dimension g c c' d -> shared_dimension g (tau c) (tau c') d.
Proof.
  intros H H'. pose proof (cp_cell _ _ _ Cp c H) as Lc. pose proof (cp_cell _ _ _ Cp c' H') as Lc'.
  pose proof (cp_lt _ _ _ Cp c H) as Lt. pose proof (cp_lt _ _ _ Cp c' H') as Lt'.
  intros [(E & ->)|[(N & -> & v & w & Nv & V & V' & Wc & Wc')|(N & -> & v & U)]].
  - left. split; congruence.
  - right; left. split; [now rewrite <- (copied_equal c c')|]. split; auto.
    destruct (common_place c c' v V V') as (k & k' & Ek & Ek'). destruct (common_place c c' w Wc Wc') as (l & l' & El & El').
    assert (C1 : coincide g (tau c) (tau c') k k') by (apply (copied_coincide c c'); auto; exists v; auto).
    assert (C2 : coincide g (tau c) (tau c') l l') by (apply (copied_coincide c c'); auto; exists w; auto).
    destruct C1 as (x & X1 & X2), C2 as (y & Y1 & Y2). exists x, y. split.
    + intros ->. apply Nv. rewrite (vertex_place (tau c) k l y Lt X1 Y1) in Ek. congruence.
    + repeat split; eapply nth_error_In; eauto.
  - right; right. split; [now rewrite <- (copied_equal c c')|]. split; auto.
    destruct (proj2 (U v) eq_refl) as (V & V'). destruct (common_place c c' v V V') as (k & k' & Ek & Ek').
    assert (C1 : coincide g (tau c) (tau c') k k') by (apply (copied_coincide c c'); auto; exists v; auto).
    destruct C1 as (x & X1 & X2). exists x. intros u. split.
    + intros (Hu & Hu'). destruct (common_place _ _ u Hu Hu') as (l & l' & El & El').
      assert (C2 : coincide g c c' l l') by (apply (copied_coincide c c'); auto; exists u; auto).
      destruct C2 as (y & Y1 & Y2). assert (y = v) as -> by (apply U; split; eapply nth_error_In; eauto).
      rewrite (vertex_place c l k v Lc Y1 Ek) in El. congruence.
    + intros ->. split; eapply nth_error_In; eauto.
Qed.
End Cells.

(** ** DOFs *)

Section Dofs.
Context {T R : Type}.

Lemma same_dof (fs : fspace T R) c c' x x' a a' i i' : serial_space fs ->
  c < ent_count (fs_grid fs) 2 -> c' < ent_count (fs_grid fs) 2 -> x < ent_count (fs_grid fs) 2 -> x' < ent_count (fs_grid fs) 2 ->
  g_ctype (fs_grid fs) x = g_ctype (fs_grid fs) c -> g_ctype (fs_grid fs) x' = g_ctype (fs_grid fs) c' ->
  (forall d k k', d <= 2 -> share (fs_grid fs) c c' d k k' -> share (fs_grid fs) x x' d k k') ->
  nth_error (dofs_at fs c) a = Some i -> nth_error (dofs_at fs c') a' = Some i -> nth_error (dofs_at fs x) a = Some i' ->
  nth_error (dofs_at fs x') a' = Some i'.
Proof.
  intros Sp Lc Lc' Lx Lx' Et Et' Sh. rewrite !dofs_at_row by auto. intros H1 H2 H3.
  assert (W := ss_grid _ Sp). assert (WF := ss_family _ Sp). assert (HA := ss_dofs _ Sp).
  destruct (cell_row_origin 0 _ _ _ W WF HA c a i Lc H1) as (d & k & e & l & s & (_ & Ld & Ek) & El & Es & En).
  destruct (cell_row_origin 0 _ _ _ W WF HA c' a' i Lc' H2) as (d' & k' & e' & l' & s' & (_ & _ & Ek') & El' & Es' & En').
  destruct (edof_unique 0 _ _ _ W WF HA i d e s d' e' s' En En') as (<- & <- & <-).
  destruct (Sh d k k' Ld) as (f & F1 & F2); [now exists e|].
  rewrite <- Et in El. rewrite <- Et' in El'.
  destruct (cell_row_entity 0 _ _ _ W WF HA x d k f l s a (conj Lx (conj Ld F1)) El Es) as (n & N1 & N2).
  destruct (cell_row_entity 0 _ _ _ W WF HA x' d k' f l' s a' (conj Lx' (conj Ld F2)) El' Es') as (n' & N1' & N2').
  congruence.
Qed.

(** The places where a DOF occurs. *)
Definition places (fs : fspace T R) (i : nat) : list (nat * nat) :=
  flat_map (fun c => map (fun ai => (c, fst ai)) (filter (fun ai => snd ai =? i) (enumerate (dofs_at fs c)))) (seq 0 (ent_count (fs_grid fs) 2)).

Lemma In_places fs i c a : In (c, a) (places fs i) <-> c < ent_count (fs_grid fs) 2 /\ nth_error (dofs_at fs c) a = Some i.
Proof.
  unfold places. rewrite in_flat_map. split.
  - intros (c' & Hc & H). apply in_map_iff in H. destruct H as ((a' & i') & E & H). injection E as -> <-. apply filter_In in H. destruct H as (H & E).
    apply in_seq in Hc. apply In_enumerate in H. cbn [snd] in E. apply Nat.eqb_eq in E. subst i'. split; [lia|auto].
  - intros (Hc & H). exists c. split; [apply in_seq; lia|]. apply in_map_iff. exists (a, i). split; auto. apply filter_In.
    split; [now apply In_enumerate|]. cbn [snd]. apply Nat.eqb_refl.
Qed.

Lemma places_NoDup fs i : NoDup (places fs i).
Proof.
  unfold places. apply NoDup_flat_map; [apply seq_NoDup| |].
  - intros c _. apply NoDup_map_inj_in.
    + intros [a k] [a' k'] H H' E. cbn [fst] in E. apply filter_In in H, H'. destruct H as (H & _), H' as (H' & _). apply In_enumerate in H, H'. congruence.
    + apply NoDup_filter. apply (NoDup_map_inv fst). rewrite map_fst_enumerate. apply seq_NoDup.
  - intros c c' [x y] _ _ H H'. apply in_map_iff in H, H'. destruct H as (? & E & _), H' as (? & E' & _). congruence.
Qed.

Section Copy.
Variables (fs : fspace T R) (D : nat -> Prop) (tau : nat -> nat) (i i' : nat).
Hypothesis (Sp : serial_space fs) (Cp : copied (fs_grid fs) D tau) (Di : forall c, lives_on fs i c -> D c) (Ci : copy_of fs tau i i').

Lemma copy_place c a : c < ent_count (fs_grid fs) 2 -> nth_error (dofs_at fs c) a = Some i -> nth_error (dofs_at fs (tau c)) a = Some i'.
Proof.
  intros Lc H. destruct Ci as ((c0 & a0 & L0 & H0 & H0') & _).
  assert (Dc : D c) by (apply Di; split; auto; eapply nth_error_In; eauto).
  assert (D0 : D c0) by (apply Di; split; auto; eapply nth_error_In; eauto).
  apply (same_dof fs c0 c (tau c0) (tau c) a0 a i i' Sp); auto; try (now apply (cp_lt _ _ _ Cp)); try (now apply (cp_type _ _ _ Cp)).
  intros d k k' Ld. now apply (cp_share _ _ _ Cp).
Qed.

Lemma copy_back c a : D c -> nth_error (dofs_at fs (tau c)) a = Some i' -> lives_on fs i c -> nth_error (dofs_at fs c) a = Some i.
Proof.
  intros Dc H (Lc & Hc). apply In_nth_error in Hc. destruct Hc as (a1 & H1). pose proof (copy_place c a1 Lc H1) as H2.
  assert (W := ss_grid _ Sp). assert (WF := ss_family _ Sp). assert (HA := ss_dofs _ Sp).
  assert (E : a = a1); [|congruence]. rewrite dofs_at_row in H, H2 by (auto; now apply (cp_lt _ _ _ Cp)).
  assert (N := cell_row_NoDup 0 _ _ _ W WF HA (tau c) (cp_lt _ _ _ Cp c Dc)). rewrite NoDup_nth_error in N. apply N; [|congruence].
  apply nth_error_Some. congruence.
Qed.

Lemma copy_places : Permutation (places fs i') (map (fun ca => (tau (fst ca), snd ca)) (places fs i)).
Proof.
  apply NoDup_Permutation.
  - apply places_NoDup.
  - apply NoDup_map_inj_in; [|apply places_NoDup]. intros [c a] [c' a'] H H' E. cbn [fst snd] in E. apply In_places in H, H'.
    destruct H as (L & H), H' as (L' & H').
    assert (Dc : D c) by (apply Di; split; auto; eapply nth_error_In; eauto).
    assert (Dc' : D c') by (apply Di; split; auto; eapply nth_error_In; eauto).
    injection E as E <-. f_equal. now apply (copied_equal _ D tau (ss_grid _ Sp) Cp).
  - intros [c' a]. rewrite In_places, in_map_iff. split.
    + intros (L & H). destruct (proj2 Ci c') as (c & Hc & <-); [split; auto; eapply nth_error_In; eauto|].
      exists (c, a). split; auto. apply In_places. split; [apply Hc|]. apply copy_back; auto.
    + intros ((c & b) & E & H). cbn [fst snd] in E. injection E as <- <-. apply In_places in H. destruct H as (L & H). split; [|now apply copy_place].
      apply (cp_lt _ _ _ Cp), Di. split; auto. eapply nth_error_In; eauto.
Qed.
End Copy.
End Dofs.

(** ** Matrices *)

Section Matrices.
Context {T R : Type} (S : scalar T R) (one : T) (RT : ring_theory (s_zero S) one (s_add S) (s_mul S) (s_sub S) (s_neg S) eq) (X : externals R).
Add Ring TRing : RT.

Lemma matrix_places val (test trial : fspace T R) i j :
  matrix_entry S val test trial i j = total S (places test i) (fun ta => total S (places trial j) (fun sb => val (fst ta) (fst sb) (snd ta) (snd sb))).
Proof.
  unfold matrix_entry, places. rewrite (total_flat_map S one RT). apply total_ext. intros t _. rewrite (total_swap S one RT).
  rewrite (total_map S), (total_filter S one RT). apply total_ext. intros [a i'] _. cbn [fst snd].
  rewrite (total_flat_map S one RT). destruct (i' =? i); cbn [andb].
  - apply total_ext. intros s _. rewrite (total_map S), (total_filter S one RT). apply total_ext. intros [b j'] _. reflexivity.
  - apply (total_zero S one RT). intros s _. apply (total_zero S one RT). reflexivity.
Qed.

Section Copies.
Variables (move : R * R * R -> R * R * R) (A : nat -> nat -> T) (scale sign : T) (O : operator T R) (factor : T).
Hypothesis (Hcast : exact_cast S) (Hf : scaled_form S move A scale sign factor (op_integrand O) (op_integrand O) (kn_value (op_kernel O)) (kn_value (op_kernel O))).
Variables (wmod : nat) (o : options) (deg : cell_type -> cell_type -> nat) (pts : cell_type -> nat) (ct : cell_type) (test trial : fspace T R).
Hypothesis (Se : dense_setting X wmod O o deg pts ct test trial) (Same : fs_grid trial = fs_grid test).
Variables (D : nat -> Prop) (tau : nat -> nat).
Hypothesis (Cp : copied (fs_grid test) D tau) (Mv : moved_copies S move A scale sign (fs_grid test) X D tau).

Lemma copied_value t s a b v : D t -> D s -> pair_value S X O deg pts test trial t s a b v ->
  pair_value S X O deg pts test trial (tau t) (tau s) a b (s_mul S factor v).
Proof.
  intros Dt Ds. pose proof (ss_grid _ (dn_test _ _ _ _ _ _ _ _ _ Se)) as W. unfold pair_value, touching. rewrite Same.
  intros [((E & To) & p & k & d & q & A1 & A2 & A3 & A4 & ->)|(To & q & r & A1 & A2 & ->)].
  - left. split; [split; auto; now apply (copied_touch _ _ _ Cp t s)|]. exists p, k, d, q. rewrite !(cp_type _ _ _ Cp) by auto.
    split; [now apply (copied_adjacency _ _ _ Cp)|]. split; [exact A2|]. split; [now apply (copied_shared _ _ _ W Cp)|]. split; [exact A4|].
    symmetry. apply (pairwise_scaled S one RT) with (1 := Hcast) (2 := Hf); now apply Mv.
  - right. split; [now rewrite <- (copied_touch _ _ _ Cp t s)|]. exists q, r. rewrite Same in A2 |- *. rewrite !(cp_type _ _ _ Cp) by auto.
    split; [exact A1|]. split; [exact A2|].
    symmetry. apply (tensor_scaled S one RT) with (1 := Hcast) (2 := Hf); now apply Mv.
Qed.

Lemma copied_entry val i j i' j' :
  (forall t s a b, t < ent_count (fs_grid test) 2 -> s < ent_count (fs_grid trial) 2 -> pair_value S X O deg pts test trial t s a b (val t s a b)) ->
  (forall c, lives_on test i c -> D c) -> (forall c, lives_on trial j c -> D c) -> copy_of test tau i i' -> copy_of trial tau j j' ->
  matrix_entry S val test trial i' j' = s_mul S factor (matrix_entry S val test trial i j).
Proof.
  intros V Di Dj Ci Cj. pose proof (dn_test _ _ _ _ _ _ _ _ _ Se) as St. pose proof (dn_trial _ _ _ _ _ _ _ _ _ Se) as Ss.
  assert (Cp' : copied (fs_grid trial) D tau) by (now rewrite Same).
  rewrite !matrix_places, (total_perm S one RT _ _ _ (copy_places test D tau i i' St Cp Di Ci)), (total_map S), <- (total_mul S one RT).
  apply total_ext. intros [t a] Ht. cbn [fst snd].
  rewrite (total_perm S one RT _ _ _ (copy_places trial D tau j j' Ss Cp' Dj Cj)), (total_map S), <- (total_mul S one RT).
  apply total_ext. intros [s b] Hs. cbn [fst snd]. apply In_places in Ht, Hs. destruct Ht as (Lt & Ht), Hs as (Ls & Hs).
  assert (Dt : D t) by (apply Di; split; auto; eapply nth_error_In; eauto).
  assert (Ds : D s) by (apply Dj; split; auto; eapply nth_error_In; eauto).
  eapply pair_value_unique; [apply V|apply copied_value; auto; apply V; auto].
  - now apply (cp_lt _ _ _ Cp).
  - now apply (cp_lt _ _ _ Cp').
Qed.
End Copies.
End Matrices.

Lemma lives_lt {T R : Type} (fs : fspace T R) i c : serial_space fs -> lives_on fs i c -> i < global_size (fs_space fs).
Proof. intros Sp (H & H'). rewrite (serial_size fs Sp). eapply serial_dofs_lt; eauto. Qed.

Lemma copy_lives {T R : Type} (fs : fspace T R) D tau i i' : copied (fs_grid fs) D tau -> (forall c, lives_on fs i c -> D c) -> copy_of fs tau i i' ->
  (exists c, lives_on fs i c) /\ exists c, lives_on fs i' c.
Proof.
  intros Cp Di ((c & a & L & H & H') & _). assert (Li : lives_on fs i c) by (split; auto; eapply nth_error_In; eauto).
  split; [now exists c|]. exists (tau c). split; [|eapply nth_error_In; eauto]. apply (cp_lt _ _ _ Cp), Di, Li.
Qed.

Section Theorems.
Context {T R : Type} (S : scalar T R) (X : externals R).

Lemma copies_matrix one (RT : ring_theory (s_zero S) one (s_add S) (s_mul S) (s_sub S) (s_neg S) eq) (O : operator T R) rt wmod o deg pts ct (test trial : fspace T R) :
  exact_cast S -> legal_runtime (s_add S) rt -> dense_setting X wmod O o deg pts ct test trial -> fs_grid trial = fs_grid test ->
  exists m, assemble S X rt wmod O o trial test = Ok m /\
    forall move A scale sign factor D tau i j i' j',
      scaled_form S move A scale sign factor (op_integrand O) (op_integrand O) (kn_value (op_kernel O)) (kn_value (op_kernel O)) ->
      copied (fs_grid test) D tau -> moved_copies S move A scale sign (fs_grid test) X D tau ->
      (forall c, lives_on test i c -> D c) -> (forall c, lives_on trial j c -> D c) -> copy_of test tau i i' -> copy_of trial tau j j' ->
      exists x, entry_at (global_size (fs_space test)) m i j = Some x /\ entry_at (global_size (fs_space test)) m i' j' = Some (s_mul S factor x).
Proof.
  intros Hc Lr Se Same. pose proof (dn_test _ _ _ _ _ _ _ _ _ Se) as St. pose proof (dn_trial _ _ _ _ _ _ _ _ _ Se) as Ss.
  destruct (assembled S one RT X rt wmod O o deg pts ct test trial Lr Se) as (m & val & E & _ & V & H).
  exists m. split; auto. intros move A scale sign factor D tau i j i' j' Hf Cp Mv Di Dj Ci Cj.
  assert (Cp' : copied (fs_grid trial) D tau) by (now rewrite Same).
  destruct (copy_lives test D tau i i' Cp Di Ci) as ((c1 & L1) & (c2 & L2)). destruct (copy_lives trial D tau j j' Cp' Dj Cj) as ((c3 & L3) & (c4 & L4)).
  apply lives_lt in L1, L2, L3, L4; auto. exists (matrix_entry S val test trial i j). unfold entry_at. split; [now apply H|].
  rewrite H by auto. f_equal. now apply (copied_entry S one RT X move A scale sign O factor Hc Hf wmod o deg pts ct test trial Se Same D tau).
Qed.

Theorem laplace_copies : forall kd (G : @green T R) rt wmod o deg pts ct (test trial : fspace T R),
  exact S -> exact_cast S -> legal_runtime (s_add S) rt -> dense_setting X wmod (laplace_operator kd G) o deg pts ct test trial -> fs_grid trial = fs_grid test ->
  exists m, assemble S X rt wmod (laplace_operator kd G) o trial test = Ok m /\
    forall move A scale sign mu D tau i j i' j',
      orthogonal S A -> divides_out S scale -> similar_green S move A scale mu G G ->
      copied (fs_grid test) D tau -> moved_copies S move A scale sign (fs_grid test) X D tau ->
      (forall c, lives_on test i c -> D c) -> (forall c, lives_on trial j c -> D c) -> copy_of test tau i i' -> copy_of trial tau j j' ->
      exists x, entry_at (global_size (fs_space test)) m i j = Some x /\
        entry_at (global_size (fs_space test)) m i' j' = Some (s_mul S (similarity_factor S scale sign mu kd) x).
Proof.
  intros kd G rt wmod o deg pts ct test trial ((one & RT) & (inv & Hdiv)) Hc Lr Se Same.
  destruct (copies_matrix one RT (laplace_operator kd G) rt wmod o deg pts ct test trial Hc Lr Se Same) as (m & E & H).
  exists m. split; auto. intros move A scale sign mu D tau i j i' j' Or Out Gr. apply (H move A scale sign). now apply (laplace_scaled S one RT inv Hdiv).
Qed.

Theorem helmholtz_copies : forall kd (G : R -> @green T R) wavenumber rt wmod o deg pts ct (test trial : fspace T R),
  exact S -> exact_cast S -> legal_runtime (s_add S) rt -> dense_setting X wmod (helmholtz_operator S kd G wavenumber) o deg pts ct test trial -> fs_grid trial = fs_grid test ->
  exists m, assemble S X rt wmod (helmholtz_operator S kd G wavenumber) o trial test = Ok m /\
    forall move A one D tau i j i' j',
      orthogonal S A -> (forall x, s_mul S one x = x) -> similar_green S move A one one (G wavenumber) (G wavenumber) ->
      copied (fs_grid test) D tau -> moved_copies S move A one one (fs_grid test) X D tau ->
      (forall c, lives_on test i c -> D c) -> (forall c, lives_on trial j c -> D c) -> copy_of test tau i i' -> copy_of trial tau j j' ->
      exists x, entry_at (global_size (fs_space test)) m i j = Some x /\ entry_at (global_size (fs_space test)) m i' j' = Some x.
Proof.
  intros kd G k rt wmod o deg pts ct test trial Ex Hc Lr Se Same. assert (Ex' := Ex). destruct Ex as ((one & RT) & (inv & Hdiv)).
  destruct (copies_matrix one RT (helmholtz_operator S kd G k) rt wmod o deg pts ct test trial Hc Lr Se Same) as (m & E & H).
  exists m. split; auto. intros move A u D tau i j i' j' Or Hu Gr Cp Mv Di Dj Ci Cj.
  destruct (H move A u u (similarity_factor S u u u kd) D tau i j i' j') as (x & X1 & X2); auto.
  - apply (helmholtz_scaled S one RT inv Hdiv); auto; [now apply unit_divides|intros; now rewrite !Hu].
  - exists x. split; auto. now rewrite (unit_factor S u kd Hu) in X2.
Qed.
End Theorems.
