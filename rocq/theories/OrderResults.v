(** * The order of the additions *)
From Verif Require Import Base BaseFacts Topology TopologyFacts DofMap SpecDof Colouring SpecColour ColouringResults Process Space SpecSpace
  Options Batch SpecBatch BatchFacts BatchResults Adjacency SpecAdjacency AdjacencyFacts AdjacencyResults
  Scalar Integrand CellPair Operators SpecLocal LocalFacts LocalResults Interleave Assembly SpecAssembly InterleaveFacts AssemblyFacts
  AssemblyRaces AssemblyValues AssemblySingular AssemblyDense AssemblyExact AssemblyResults SpecOrder.

(** ** Marked labels *)

(** The labels of a pair of cells with their DOFs. *)
Definition marks (td sd : list nat) (p : nat * nat) : list (nat * nat * label) := entry_list td sd (fun a b => (p, (a, b))).

Lemma entry_list_map {A B : Type} (h : A -> B) td sd (f : nat -> nat -> A) :
  entry_list td sd (fun a b => h (f a b)) = map (fun e => (fst e, h (snd e))) (entry_list td sd f).
Proof.
  unfold entry_list. rewrite map_flat_map. apply flat_map_ext. intros bj. rewrite map_map. reflexivity.
Qed.

Lemma In_marks td sd p i j k : In (i, j, k) (marks td sd p) <->
  fst k = p /\ nth_error td (fst (snd k)) = Some i /\ nth_error sd (snd (snd k)) = Some j.
Proof.
  unfold marks, entry_list. rewrite in_flat_map. split.
  - intros ([b jb] & Hb & H). apply in_map_iff in H. destruct H as ([a ia] & E & Ha). cbn [fst snd] in E. inversion E; subst.
    apply In_enumerate in Ha, Hb. cbn. auto.
  - intros (E & Ha & Hb). exists (snd (snd k), j). split; [now apply In_enumerate|]. apply in_map_iff. exists (fst (snd k), i).
    split; [destruct k as [q [a b]]; cbn in *; now subst|now apply In_enumerate].
Qed.

Lemma NoDup_enumerate {A : Type} (l : list A) : NoDup (enumerate l).
Proof. apply (NoDup_map_inv fst). rewrite map_fst_enumerate. apply seq_NoDup. Qed.

Lemma NoDup_marks td sd p : NoDup (map snd (marks td sd p)).
Proof.
  unfold marks, entry_list. rewrite map_flat_map. apply NoDup_flat_map.
  - apply NoDup_enumerate.
  - intros bj _. rewrite map_map. cbn [snd].
    assert (E : map (fun a => (p, (a, fst bj))) (map fst (enumerate td)) = map (fun x : nat * nat => (p, (fst x, fst bj))) (enumerate td))
      by apply map_map.
    refine (eq_ind _ (@NoDup _) _ _ E). apply FinFun.Injective_map_NoDup.
    + intros x y Exy. now inversion Exy.
    + rewrite map_fst_enumerate. apply seq_NoDup.
  - intros [b j] [b' j'] k Hb Hb' H H'. rewrite map_map in H, H'. apply in_map_iff in H, H'.
    destruct H as (x & <- & _), H' as (x' & E & _). cbn in E. inversion E; subst.
    apply In_enumerate in Hb, Hb'. congruence.
Qed.

Lemma NoDup_map_filter {A B : Type} (f : A -> B) (p : A -> bool) l : NoDup (map f l) -> NoDup (map f (filter p l)).
Proof.
  induction l as [|x l IH]; intros N; cbn; [constructor|]. cbn in N. inversion N as [|? ? Nx Nl]; subst.
  destruct (p x); cbn; auto. constructor; auto. intros H. apply Nx. apply in_map_iff in H. destruct H as (y & E & H).
  apply filter_In in H. apply in_map_iff. exists y. tauto.
Qed.

Lemma Permutation_split {A : Type} (p : A -> bool) l : Permutation (filter (fun x => negb (p x)) l ++ filter p l) l.
Proof.
  induction l as [|x l IH]; cbn; [reflexivity|]. destruct (p x); cbn.
  - rewrite <- Permutation_middle. now constructor.
  - now constructor.
Qed.

Lemma flat_map_filter {A B : Type} (p : A -> bool) (f : A -> list B) l :
  flat_map f (filter p l) = flat_map (fun x => if p x then f x else []) l.
Proof. induction l as [|x l IH]; [reflexivity|]. cbn. destruct (p x); cbn; now rewrite IH. Qed.

Lemma effect_marks {A : Type} (add : A -> A -> A) (val : nat -> nat -> nat -> nat -> A) rows i j (L : list (nat * nat * label)) old :
  (forall a b k, In (a, b, k) L -> a < rows) -> i < rows ->
  effect add (i + rows * j)
    (map (fun e => (fst (fst e) + rows * snd (fst e), val (fst (fst (snd e))) (snd (fst (snd e))) (fst (snd (snd e))) (snd (snd (snd e))))) L) old =
  accumulate add val (map snd (filter (fun e => (fst (fst e) =? i) && (snd (fst e) =? j)) L)) old.
Proof.
  intros B Hi. revert old. induction L as [|[[a b] [[t s] [c d]]] L IH]; intros old; [reflexivity|].
  assert (Ha := B a b _ (or_introl eq_refl)).
  cbn [map filter fst snd]. unfold effect. cbn [fold_left fst snd].
  assert (B' : forall a b k, In (a, b, k) L -> a < rows) by (intros a' b' k' H'; apply (B a' b' k'); now right).
  destruct (Nat.eqb_spec (a + rows * b) (i + rows * j)) as [E|N].
  - apply address_inj in E; auto. destruct E as (-> & ->). rewrite !Nat.eqb_refl. cbn [andb map snd].
    unfold accumulate at 1. cbn [fold_left]. apply IH; auto.
  - destruct (Nat.eqb_spec a i) as [->|Na]; cbn [andb]; [|apply IH; auto].
    destruct (Nat.eqb_spec b j) as [->|Nb]; [congruence|]. apply IH; auto.
Qed.

(** ** The order *)

(** The singular part treats the pairs in an order given by the grid. *)
Definition key_table (types : list cell_type) : rule_state unit :=
  mkRules (combine (all_keys types) (seq 0 (length (all_keys types)))) [] [] [].

Lemma pair_order_indices {D D'} (st : rule_state D) (st' : rule_state D') g : rs_indices st = rs_indices st' -> pair_order st g = pair_order st' g.
Proof.
  intros E. unfold pair_order, indexed, index_in, look_up. rewrite E. reflexivity.
Qed.

Section Order.
Context {T0 R0 : Type} (test0 trial0 : fspace T0 R0).

Definition regular_marks (p : nat * nat) : list (nat * nat * label) :=
  if touchb test0 trial0 (fst p) (snd p) then [] else marks (dofs_at test0 (fst p)) (dofs_at trial0 (snd p)) p.

Definition all_marks (tcl scl : list (list nat)) : list (nat * nat * label) :=
  flat_map (fun c => flat_map regular_marks (list_prod (fst c) (snd c))) (list_prod tcl scl) ++
  (if equal_grids (fs_grid test0) (fs_grid trial0)
   then flat_map (fun p => marks (dofs_at test0 (fst p)) (dofs_at trial0 (snd p)) p)
     (pair_order (key_table (g_types (fs_grid test0) 2)) (fs_grid test0))
   else []).

Definition order (tcl scl : list (list nat)) (i j : nat) : list label :=
  map snd (filter (fun e => (fst (fst e) =? i) && (snd (fst e) =? j)) (all_marks tcl scl)).

Lemma table_order ct : order_setting ct test0 trial0 -> g_id (fs_grid test0) = g_id (fs_grid trial0) ->
  Permutation (pair_order (key_table (g_types (fs_grid test0) 2)) (fs_grid test0))
    (filter (fun p => touchb test0 trial0 (fst p) (snd p))
      (list_prod (seq 0 (ent_count (fs_grid test0) 2)) (seq 0 (ent_count (fs_grid trial0) 2)))).
Proof.
  intros [St Ss Sa Tt Ts Co] Eg. assert (W := ss_grid _ St). assert (Sag := Sa Eg). specialize (Co Eg).
  transitivity (events (fs_grid test0)).
  - apply pair_order_spec; auto. intros t s Hin. apply (In_events _ t s W) in Hin. destruct Hin as (Ht & Hs & Ho & Hto).
    set (g := fs_grid test0) in *.
    assert (Hp : In (pairs_of g (t, s)) (possible_pairs (g_ctype g t) (g_ctype g s)))
      by (apply (conforming_has_rule g t s W Co Ht Hs Hto); now apply pairs_of_adjacency).
    assert (Hk : @In rule_key ((g_ctype g t, g_ctype g s), pairs_of g (t, s)) (all_keys (g_types g 2))).
    { unfold all_keys. apply in_flat_map. exists (g_ctype g t, g_ctype g s). split; [apply in_prod_iff; split; now apply (wf_ctype g W)|].
      unfold keys_for. cbn [fst snd]. apply in_map_iff. eauto. }
    apply In_nth_error in Hk. destruct Hk as (n & Hn). unfold index_in, look_up, key_table. cbn [fst snd rs_indices].
    rewrite (assoc_combine_nth key_eqb (all_keys (g_types g 2)) _ n 0 key_eqb_eq (NoDup_all_keys _ (wf_types2_nodup g W) (wf_types2_surface g W)) Hn).
    cbn [unwrap]. rewrite combine_length, seq_length, Nat.min_id. apply nth_error_Some. cbn. congruence.
  - apply NoDup_Permutation.
    + now apply NoDup_events.
    + apply NoDup_filter, NoDup_list_prod; apply seq_NoDup.
    + intros [t s]. rewrite (In_events _ t s W), filter_In, in_prod_iff, !in_seq. cbn [fst snd]. rewrite touchb_spec by auto. unfold touching.
      rewrite <- Sag. split.
      * intros (C1 & C2 & C3 & C4). repeat split; auto; lia.
      * intros ((C1 & C2) & C3 & C4). repeat split; auto; try lia. apply (ss_owned _ St); lia.
Qed.

Lemma all_marks_once ct tcl scl : order_setting ct test0 trial0 ->
  Permutation (concat tcl) (seq 0 (ent_count (fs_grid test0) 2)) -> Permutation (concat scl) (seq 0 (ent_count (fs_grid trial0) 2)) ->
  Permutation (all_marks tcl scl) (flat_map (fun p => marks (dofs_at test0 (fst p)) (dofs_at trial0 (snd p)) p)
    (list_prod (seq 0 (ent_count (fs_grid test0) 2)) (seq 0 (ent_count (fs_grid trial0) 2)))).
Proof.
  intros D Pt Ps. set (pairs := list_prod (seq 0 (ent_count (fs_grid test0) 2)) (seq 0 (ent_count (fs_grid trial0) 2))).
  set (f := fun p => marks (dofs_at test0 (fst p)) (dofs_at trial0 (snd p)) p).
  rewrite <- (Permutation_flat_map f _ _ (Permutation_split (fun p => touchb test0 trial0 (fst p) (snd p)) pairs)).
  rewrite flat_map_app. unfold all_marks. apply Permutation_app.
  - rewrite flat_map_filter. rewrite <- (flat_map_flat_map regular_marks (fun c => list_prod (fst c) (snd c))).
    rewrite (Permutation_flat_map regular_marks _ pairs).
    + apply Permutation_refl'. apply flat_map_ext. intros p. unfold regular_marks, f. now destruct (touchb _ _ _ _).
    + rewrite tiles_product. now apply Permutation_list_prod.
  - destruct (equal_grids (fs_grid test0) (fs_grid trial0)) eqn:Eg.
    + apply Permutation_flat_map. apply (table_order ct D). now apply Nat.eqb_eq in Eg.
    + replace (filter (fun p => touchb test0 trial0 (fst p) (snd p)) pairs) with (@nil (nat * nat)); [reflexivity|].
      symmetry. unfold touchb. rewrite Eg. cbn [andb]. clear. now induction pairs.
Qed.

Lemma order_spec ct tcl scl i j : order_setting ct test0 trial0 ->
  Permutation (concat tcl) (seq 0 (ent_count (fs_grid test0) 2)) -> Permutation (concat scl) (seq 0 (ent_count (fs_grid trial0) 2)) ->
  NoDup (order tcl scl i j) /\ forall k, In k (order tcl scl i j) <-> contributes test0 trial0 i j k.
Proof.
  intros D Pt Ps. pose proof (all_marks_once ct tcl scl D Pt Ps) as P. split.
  - apply NoDup_map_filter. apply (Permutation_NoDup (Permutation_sym (Permutation_map snd P))).
    rewrite map_flat_map. apply NoDup_flat_map.
    + apply NoDup_list_prod; apply seq_NoDup.
    + intros p _. apply NoDup_marks.
    + intros p p' k _ _ H H'. apply in_map_iff in H, H'. destruct H as ([[a b] k1] & <- & H), H' as ([[a' b'] k2] & E & H').
      cbn [snd] in E. subst k2. apply In_marks in H, H'. destruct H as (<- & _), H' as (<- & _). reflexivity.
  - intros [[t s] [a b]]. unfold order. rewrite in_map_iff. cbn [contributes]. split.
    + intros ([[i' j'] k] & E & H). cbn [snd] in E. subst k. apply filter_In in H. destruct H as (H & Eq).
      cbn [fst snd] in Eq. apply andb_true_iff in Eq. rewrite !Nat.eqb_eq in Eq. destruct Eq as (-> & ->).
      apply (Permutation_in _ P) in H. apply in_flat_map in H. destruct H as ([t' s'] & Hp & H). apply In_marks in H. cbn [fst snd] in H.
      destruct H as (E & H1 & H2). inversion E; subst. apply in_prod_iff in Hp. rewrite !in_seq in Hp. repeat split; auto; lia.
    + intros (Ht & Hs & Ha & Hb). exists (i, j, ((t, s), (a, b))). split; [reflexivity|]. apply filter_In. cbn [fst snd]. rewrite !Nat.eqb_refl. split; auto.
      apply (Permutation_in _ (Permutation_sym P)). apply in_flat_map. exists (t, s). split; [apply in_prod_iff; rewrite !in_seq; lia|].
      apply In_marks. cbn [fst snd]. auto.
Qed.

Lemma all_marks_rows ct tcl scl : order_setting ct test0 trial0 ->
  Permutation (concat tcl) (seq 0 (ent_count (fs_grid test0) 2)) -> Permutation (concat scl) (seq 0 (ent_count (fs_grid trial0) 2)) ->
  forall a b k, In (a, b, k) (all_marks tcl scl) -> a < global_size (fs_space test0).
Proof.
  intros D Pt Ps a b k H. apply (Permutation_in _ (all_marks_once ct tcl scl D Pt Ps)) in H. apply in_flat_map in H.
  destruct H as ([t s] & Hp & H). apply In_marks in H. cbn [fst snd] in H. destruct H as (_ & H & _). apply nth_error_In in H.
  apply in_prod_iff in Hp. rewrite !in_seq in Hp. apply (dofs_at_spec test0 t (od_test _ _ _ D)) in H; auto; lia.
Qed.

(** ** The additions *)

Context {T R : Type} (S : scalar T R) (X : externals R).

Definition mark_op (rows : nat) (val : nat -> nat -> nat -> nat -> T) (e : nat * nat * label) : @op T :=
  (fst (fst e) + rows * snd (fst e), val (fst (fst (snd e))) (snd (fst (snd e))) (fst (snd (snd e))) (snd (snd (snd e)))).

Lemma entry_marks rows td sd t s (f : nat -> nat -> T) (val : nat -> nat -> nat -> nat -> T) :
  (forall a b, f a b = val t s a b) ->
  map (entry_op rows) (entry_list td sd f) = map (mark_op rows val) (marks td sd (t, s)).
Proof.
  intros H. unfold marks, entry_list. rewrite !map_flat_map. apply flat_map_ext. intros bj. rewrite !map_map. apply map_ext.
  intros ai. unfold mark_op. cbn [entry_op fst snd]. now rewrite H.
Qed.

Lemma ops_marks wmod O o deg pts ct (test trial : fspace T R) q tcl scl :
  same_dofs test0 test -> same_dofs trial0 trial -> dense_setting X wmod O o deg pts ct test trial ->
  x_simplex X ct (pts ct) = Some q ->
  all_ops S X O test trial ct q tcl scl ++ map (entry_op (global_size (fs_space test))) (singular_list S X O o deg test trial) =
  map (mark_op (global_size (fs_space test)) (dense_val S X O deg test trial ct q)) (all_marks tcl scl).
Proof.
  intros (G1 & F1 & P1) (G2 & F2 & P2) D Eq. unfold all_marks. rewrite map_app. 
  assert (Dt : forall c, dofs_at test0 c = dofs_at test c) by (intros c; unfold dofs_at; now rewrite P1).
  assert (Ds : forall c, dofs_at trial0 c = dofs_at trial c) by (intros c; unfold dofs_at; now rewrite P2).
  assert (Tb : forall t s, touchb test0 trial0 t s = touchb test trial t s) by (intros t s; unfold touchb; now rewrite G1, G2).
  f_equal.
  - unfold all_ops, phase_ops. rewrite map_flat_map. apply flat_map_ext. intros c. rewrite map_flat_map. apply flat_map_ext. intros [t s].
    unfold regular_ops, pair_ops, regular_marks. cbn [fst snd]. rewrite Tb, Dt, Ds. destruct (touchb test trial t s) eqn:Eb; [reflexivity|].
    apply entry_marks. intros a b. unfold dense_val. rewrite Eb. reflexivity.
  - rewrite G1, G2. unfold singular_list. destruct (equal_grids (fs_grid test) (fs_grid trial)) eqn:Eg; [|reflexivity].
    assert (Eg' := Eg). apply Nat.eqb_eq in Eg'.
    pose proof (dense_singular X wmod O o deg pts ct test trial D Eg') as SS.
    assert (D' := D). destruct D' as [St Ss Sa Tt Ts H1 H2 Ct Cs Fo Pr Si Hb Hw C1 C2 Sg]. assert (Sag := Sa Eg').
    destruct (singular_part_blocks S X wmod O o deg test trial (shape_of test trial) SS) as (st & blocks & Est & Ebl & Eo & _).
    assert (W := ss_grid _ St).
    destruct (blocks_once _ _ _ _ _ _ W Ebl) as (_ & Ev). rewrite Eo in Ev. rewrite Est.
    assert (Ei : rs_indices st = rs_indices (key_table (g_types (fs_grid test) 2))).
    { destruct SS as [Mt Ms _ Sp _ _ _ _ De Du Co _ _ Hf].
      assert (Sf := wf_types2_surface _ W).
      destruct (singular_rules_spec (make_rule X O trial test) o _ deg (wf_types2_nodup _ W) Sf De) as (st' & Est' & I).
      - intros t s p Ht Hs Hp. destruct (duffy_exists X _ _ t s p Du Sf Ht Hs Hp) as (q' & E'). eexists.
        eapply (make_rule_Ok X O trial test t s p); eauto. now rewrite <- Sag.
      - assert (st' = st) by congruence. subst st'. exact (proj1 I). }
    rewrite <- (pair_order_indices st (key_table (g_types (fs_grid test) 2)) (fs_grid test) Ei).
    unfold all_triplets. rewrite !map_flat_map. apply flat_map_ext_in. intros [t s] Hp. apply Ev in Hp. destruct Hp as (Ht & Hs & _ & Hto).
    rewrite touching_entries; auto; [|now apply (dense_rule X wmod O o deg pts ct test trial)]. cbn [fst snd]. rewrite Dt, Ds. apply entry_marks.
    intros a b. unfold dense_val. replace (touchb test trial t s) with true; [reflexivity|]. symmetry. apply touchb_spec; auto. now split.
Qed.
End Order.

Theorem ordered_entries {T0 R0 : Type} ct (test0 trial0 : fspace T0 R0) : order_setting ct test0 trial0 ->
  exists ord : nat -> nat -> list label,
    (forall i j, NoDup (ord i j) /\ forall k, In k (ord i j) <-> contributes test0 trial0 i j k) /\
    forall (T R : Type) (S : scalar T R) (X : externals R) rt wmod O o deg pts (test trial : fspace T R) output,
      same_dofs test0 test -> same_dofs trial0 trial ->
      legal_runtime (s_add S) rt -> dense_setting X wmod O o deg pts ct test trial ->
      length output = global_size (fs_space test) * global_size (fs_space trial) ->
      exists result val,
        assemble_into_memory S X rt wmod O o trial test output = Ran (Ok result) /\
        (forall t s a b, t < ent_count (fs_grid test) 2 -> s < ent_count (fs_grid trial) 2 ->
           pair_value S X O deg pts test trial t s a b (val t s a b)) /\
        length result = length output /\
        forall i j old, i < global_size (fs_space test) -> j < global_size (fs_space trial) ->
          nth_error output (i + global_size (fs_space test) * j) = Some old ->
          nth_error result (i + global_size (fs_space test) * j) = Some (accumulate (s_add S) val (ord i j) old).
Proof.
  intros D0.
  destruct (one_type_classes test0 ct (od_test _ _ _ D0) (od_test_type _ _ _ D0)) as (tcol & tcl & Et & At & _ & Pt).
  destruct (one_type_classes trial0 ct (od_trial _ _ _ D0) (od_trial_type _ _ _ D0)) as (scol & scl & Es & As & _ & Ps).
  exists (order test0 trial0 tcl scl). split; [intros i j; now apply (order_spec test0 trial0 ct)|].
  intros T R S X rt wmod O o deg pts test trial output St Ss L D Lo.
  destruct (into_memory_Ok S X rt wmod O o deg pts ct test trial output L D Lo) as (q & tcol' & scol' & tcl' & scl' & Eq & Et' & At' & Es' & As' & _ & _ & E).
  assert (St' := St). destruct St' as (G1 & F1 & P1). assert (Ss' := Ss). destruct Ss' as (G2 & F2 & P2).
  assert (tcol' = tcol) by congruence. assert (scol' = scol) by congruence. subst tcol' scol'.
  assert (tcl' = tcl) by congruence. assert (scl' = scl) by congruence. subst tcl' scl'.
  rewrite (ops_marks test0 trial0 S X wmod O o deg pts ct test trial q tcl scl St Ss D Eq) in E.
  eexists. exists (dense_val S X O deg test trial ct q). split; [exact E|]. split; [|split].
  - intros t s a b Ht Hs. eapply dense_val_ok; eauto.
  - apply length_after_ops.
  - intros i j old Hi Hj Ho. rewrite nth_error_after_ops, Ho. cbn [option_map]. f_equal.
    apply (effect_marks (s_add S) (dense_val S X O deg test trial ct q) (global_size (fs_space test)) i j); auto.
    rewrite <- P1. intros a b k. now apply (all_marks_rows test0 trial0 ct).
Qed.

Lemma dense_order {T R : Type} (X : externals R) wmod (O : operator T R) o deg pts ct test trial :
  dense_setting X wmod O o deg pts ct test trial -> order_setting ct test trial.
Proof.
  intros D. destruct D as [A1 A2 A3 A4 A5 _ _ _ _ _ _ _ _ _ _ _ A]. constructor; try assumption. intros E. apply (A E).
Qed.
