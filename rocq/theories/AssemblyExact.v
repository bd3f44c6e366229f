(** * The dense matrix in exact arithmetic *)
From Coq Require Import Ring_theory Ring.
From Verif Require Import Base BaseFacts Topology TopologyFacts DofMap SpecDof Colouring SpecColour ColouringResults Process Space SpecSpace
  Options Batch SpecBatch BatchFacts BatchResults Adjacency SpecAdjacency AdjacencyFacts AdjacencyResults
  Scalar Integrand CellPair Operators SpecLocal LocalFacts LocalResults Interleave Assembly SpecAssembly InterleaveFacts AssemblyFacts
  AssemblyRaces AssemblyValues AssemblySingular AssemblyDense.

(** ** Sums *)

Section Sums.
Context {T R : Type} (S : scalar T R) (one : T) (RT : ring_theory (s_zero S) one (s_add S) (s_mul S) (s_sub S) (s_neg S) eq).
Add Ring scalar_ring : RT.

Lemma total_cons {A} (x : A) l f : total S (x :: l) f = s_add S (f x) (total S l f).
Proof. reflexivity. Qed.

Lemma add_zero x : s_add S x (s_zero S) = x.
Proof. ring. Qed.

Lemma total_nil {A} (f : A -> T) : total S [] f = s_zero S.
Proof. reflexivity. Qed.

Lemma total_app {A} (l m : list A) f : total S (l ++ m) f = s_add S (total S l f) (total S m f).
Proof. induction l as [|x l IH]; cbn [app]; rewrite ?total_cons, ?total_nil, ?IH; ring. Qed.

Lemma total_ext {A} (l : list A) f g : (forall x, In x l -> f x = g x) -> total S l f = total S l g.
Proof.
  induction l as [|x l IH]; intros H; [reflexivity|]. rewrite !total_cons, (H x (or_introl eq_refl)), IH; [reflexivity|].
  intros; apply H; now right.
Qed.

Lemma total_zero {A} (l : list A) f : (forall x, In x l -> f x = s_zero S) -> total S l f = s_zero S.
Proof. induction l as [|x l IH]; intros H; [reflexivity|]. rewrite total_cons, (H x (or_introl eq_refl)), IH; [ring|]. intros; apply H; now right. Qed.

Lemma total_add {A} (l : list A) f g : total S l (fun x => s_add S (f x) (g x)) = s_add S (total S l f) (total S l g).
Proof. induction l as [|x l IH]; rewrite ?total_nil, ?total_cons, ?IH; ring. Qed.

Lemma total_mul {A} (l : list A) c f : total S l (fun x => s_mul S c (f x)) = s_mul S c (total S l f).
Proof. induction l as [|x l IH]; rewrite ?total_nil, ?total_cons, ?IH; ring. Qed.

Lemma total_map {A B} (h : A -> B) (l : list A) f : total S (map h l) f = total S l (fun x => f (h x)).
Proof. induction l as [|x l IH]; [reflexivity|]. cbn [map]. now rewrite !total_cons, IH. Qed.

Lemma total_flat_map {A B} (h : A -> list B) (l : list A) f : total S (flat_map h l) f = total S l (fun x => total S (h x) f).
Proof. induction l as [|x l IH]; [reflexivity|]. cbn [flat_map]. now rewrite total_app, total_cons, IH. Qed.

Lemma total_perm {A} (l m : list A) f : Permutation l m -> total S l f = total S m f.
Proof. induction 1; rewrite ?total_cons; try congruence. ring. Qed.

Lemma total_swap {A B} (l : list A) (m : list B) f :
  total S l (fun x => total S m (fun y => f x y)) = total S m (fun y => total S l (fun x => f x y)).
Proof.
  induction l as [|x l IH]; rewrite ?total_nil, ?total_cons.
  - symmetry. apply total_zero. reflexivity.
  - rewrite IH, <- total_add. reflexivity.
Qed.

Lemma total_filter {A} (p : A -> bool) (l : list A) f : total S (filter p l) f = total S l (fun x => if p x then f x else s_zero S).
Proof. induction l as [|x l IH]; [reflexivity|]. cbn [filter]. rewrite total_cons. destruct (p x); rewrite ?total_cons, IH; [reflexivity|ring]. Qed.

Lemma total_list_prod {A B} (l : list A) (m : list B) f : total S (list_prod l m) f = total S l (fun x => total S m (fun y => f (x, y))).
Proof.
  rewrite list_prod_flat_map, total_flat_map. apply total_ext. intros x _. apply total_map.
Qed.

Lemma effect_total x (ops : list (@op T)) v :
  effect (s_add S) x ops v = s_add S v (total S ops (fun o => if fst o =? x then snd o else s_zero S)).
Proof.
  revert v. induction ops as [|o ops IH]; intros v; unfold effect; cbn [fold_left].
  - rewrite total_nil. ring.
  - fold (effect (s_add S) x ops (if fst o =? x then s_add S v (snd o) else v)). rewrite IH, total_cons.
    destruct (fst o =? x); ring.
Qed.

(** ** Cells *)

Variable X : externals R.

(** The sum of the entries of one pair of cells at one address. *)
Lemma total_entries rows td sd (f : nat -> nat -> T) i j :
  (forall x, In x td -> x < rows) -> i < rows ->
  total S (map (entry_op rows) (entry_list td sd f)) (fun o => if fst o =? i + rows * j then snd o else s_zero S) =
  total S (enumerate td) (fun ai => total S (enumerate sd) (fun bj => if (snd ai =? i) && (snd bj =? j) then f (fst ai) (fst bj) else s_zero S)).
Proof.
  intros B Hi. unfold entry_list. rewrite total_map, total_flat_map, total_swap. apply total_ext. intros [b jb] _.
  rewrite total_map. apply total_ext. intros [a ia] Ha. cbn [fst snd entry_op].
  assert (Bi : ia < rows) by (apply B, (nth_error_In td a), In_enumerate, Ha).
  destruct (Nat.eqb_spec ia i) as [->|N]; cbn [andb].
  - destruct (Nat.eqb_spec jb j) as [->|N']; [now rewrite Nat.eqb_refl|].
    destruct (Nat.eqb_spec (i + rows * jb) (i + rows * j)) as [E|]; [|reflexivity]. apply address_inj in E; auto. tauto.
  - destruct (Nat.eqb_spec (ia + rows * jb) (i + rows * j)) as [E|]; [|reflexivity]. apply address_inj in E; auto. tauto.
Qed.

(** The values of the pairs of cells. *)
Definition regular_val (O : operator T R) (test trial : fspace T R) (ct : cell_type) (q : quadrature R) (t s : nat) : nat -> nat -> T :=
  tensor_entry S (op_integrand O) (kn_value (op_kernel O))
    (x_geometry X (fs_grid test) ct (qd_points q) t) (x_geometry X (fs_grid trial) ct (qd_points q) s)
    (fun d p b => fs_basis test ct (qd_points q) d p b 0) (fun d p b => fs_basis trial ct (qd_points q) d p b 0) (qd_weights q) (qd_weights q).

Definition singular_val (O : operator T R) (deg : cell_type -> cell_type -> nat) (test trial : fspace T R) (t s a b : nat) : T :=
  let g := fs_grid test in
  let tt := g_ctype g t in
  let st := g_ctype g s in
  match get_singular_quadrature_rule (x_duffy X) tt st (pairs_of g (t, s)) (deg tt st) with
  | Ok q => pairwise_entry S (op_integrand O) (kn_value (op_kernel O)) (x_geometry X g tt (pq_test q) t) (x_geometry X g st (pq_trial q) s)
      (fun d p i => fs_basis test tt (pq_test q) d p i 0) (fun d p i => fs_basis trial st (pq_trial q) d p i 0) (pq_weights q) a b
  | _ => s_zero S
  end.

Lemma serial_global (fs : fspace T R) c i : serial_space fs -> c < ent_count (fs_grid fs) 2 -> In i (dofs_at fs c) -> global_of fs i = i.
Proof.
  intros SS Hc Hi. destruct (serial_sizes fs SS) as (Eg & G). destruct (dofs_at_spec fs c SS Hc) as (_ & _ & _ & _ & B).
  unfold global_of. rewrite G; auto. rewrite <- Eg. auto.
Qed.

Lemma map_id_in {A : Type} (f : A -> A) l : (forall x, In x l -> f x = x) -> map f l = l.
Proof. induction l as [|x l IH]; intros H; cbn; [reflexivity|]. rewrite H by now left. rewrite IH; auto. intros; apply H; now right. Qed.

Lemma touching_entries O deg test trial t s :
  serial_space test -> serial_space trial -> fs_grid test = fs_grid trial -> t < ent_count (fs_grid test) 2 -> s < ent_count (fs_grid test) 2 ->
  (exists q, get_singular_quadrature_rule (x_duffy X) (g_ctype (fs_grid test) t) (g_ctype (fs_grid test) s) (pairs_of (fs_grid test) (t, s))
     (deg (g_ctype (fs_grid test) t) (g_ctype (fs_grid test) s)) = Ok q) ->
  touching_triplets S X O deg test trial (t, s) = entry_list (dofs_at test t) (dofs_at trial s) (singular_val O deg test trial t s).
Proof.
  intros St Ss Sa Ht Hs (q & Eq). unfold touching_triplets, singular_val. cbn [fst snd]. rewrite Eq. unfold pair_triplets. cbn [fst snd].
  rewrite map_id_in; [reflexivity|]. intros [[i j] v] Hin. apply In_entry_list in Hin. destruct Hin as (Hi & Hj).
  unfold globalise. cbn [fst snd]. rewrite (serial_global test t i), (serial_global trial s j); auto. now rewrite <- Sa.
Qed.

Lemma Permutation_list_prod {A B : Type} (l l' : list A) (m m' : list B) :
  Permutation l l' -> Permutation m m' -> Permutation (list_prod l m) (list_prod l' m').
Proof.
  intros P Q. transitivity (list_prod l' m).
  - rewrite !list_prod_flat_map. now apply Permutation_flat_map.
  - rewrite (Permutation_list_prod_swap l' m), (Permutation_list_prod_swap l' m'). now apply Permutation_flat_map.
Qed.

Lemma if_total {A} (b : bool) (l : list A) f : (if b then total S l f else s_zero S) = total S l (fun x => if b then f x else s_zero S).
Proof. destruct b; [reflexivity|]. symmetry. now apply total_zero. Qed.

Lemma dense_rule wmod (O : operator T R) o deg pts ct test trial t s : dense_setting X wmod O o deg pts ct test trial ->
  t < ent_count (fs_grid test) 2 -> s < ent_count (fs_grid test) 2 -> g_id (fs_grid test) = g_id (fs_grid trial) ->
  touch (fs_grid test) t s ->
  exists q, get_singular_quadrature_rule (x_duffy X) (g_ctype (fs_grid test) t) (g_ctype (fs_grid test) s) (pairs_of (fs_grid test) (t, s))
   (deg (g_ctype (fs_grid test) t) (g_ctype (fs_grid test) s)) = Ok q.
Proof.
  intros [St Ss Sa Tt Ts G1 G2 Ct Cs Fo Pr Si Hb Hw H1 H2 Sg] Ht Hs Eg Hto. assert (Wt := ss_grid _ St).
  destruct (Sg Eg) as (_ & Du & Co & _). rewrite <- Tt in Du.
  apply (duffy_exists X _ _ _ _ _ Du (wf_types2_surface _ Wt)).
  - now apply (wf_ctype _ Wt).
  - now apply (wf_ctype _ Wt).
  - apply (conforming_has_rule _ t s Wt Co Ht Hs Hto). now apply pairs_of_adjacency.
Qed.

Definition dense_val (O : operator T R) deg (test trial : fspace T R) ct q (t s a b : nat) : T :=
  if touchb test trial t s then singular_val O deg test trial t s a b else regular_val O test trial ct q t s a b.

Lemma dense_val_ok wmod O o deg pts ct test trial q t s a b : dense_setting X wmod O o deg pts ct test trial ->
  x_simplex X ct (pts ct) = Some q ->
  t < ent_count (fs_grid test) 2 -> s < ent_count (fs_grid trial) 2 ->
  pair_value S X O deg pts test trial t s a b (dense_val O deg test trial ct q t s a b).
Proof.
  intros D Eq Ht Hs. assert (D' := D). destruct D' as [St Ss Sa Tt Ts G1 G2 Ct Cs Fo Pr Si Hb Hw H1 H2 Sg].
  assert (Wt := ss_grid _ St). assert (Ws := ss_grid _ Ss).
  assert (ctest : g_ctype (fs_grid test) t = ct).
  { assert (H := wf_ctype _ Wt t Ht). rewrite Tt in H. destruct H as [H|[]]. auto. }
  assert (ctrial : g_ctype (fs_grid trial) s = ct).
  { assert (H := wf_ctype _ Ws s Hs). rewrite Ts in H. destruct H as [H|[]]. auto. }
  unfold dense_val. destruct (touchb test trial t s) eqn:Eb.
  - left. apply touchb_spec in Eb; auto. split; auto. destruct Eb as (Eg & Hto). assert (Eg' := Sa Eg).
    assert (Hs' : s < ent_count (fs_grid test) 2) by now rewrite Eg'.
    destruct (Sg Eg) as (_ & Du & Co & _).
    destruct (dense_rule _ _ _ _ _ _ _ _ t s D Ht Hs' Eg Hto) as (qq & Eqq).
    destruct (duffy_choice (x_duffy X) (fs_grid test) t s (pairs_of (fs_grid test) (t, s))
      (deg (g_ctype (fs_grid test) t) (g_ctype (fs_grid test) s)) Wt Co Ht Hs' Hto (pairs_of_adjacency _ t s Wt Ht)) as (kind & dim & Ek & Ed & Er).
    exists (pairs_of (fs_grid test) (t, s)), kind, dim, qq. split; [now apply pairs_of_adjacency|]. split; auto. split; auto. split.
    { rewrite Eqq in Er. destruct (x_duffy X kind dim _ _) eqn:Ex; cbn [unwrap] in Er; congruence. }
    unfold singular_val. rewrite Eqq. reflexivity.
  - right. split; [intros H; apply touchb_spec in H; auto; congruence|]. exists q, q. rewrite ctest, ctrial. auto.
Qed.

(** A sum over the triplets of the singular part. *)
Lemma singular_list_total wmod O o deg pts ct test trial (h : nat * nat * T -> T) : dense_setting X wmod O o deg pts ct test trial ->
  total S (singular_list S X O o deg test trial) h =
  total S (seq 0 (ent_count (fs_grid test) 2)) (fun t => total S (seq 0 (ent_count (fs_grid trial) 2)) (fun s =>
    if touchb test trial t s then total S (entry_list (dofs_at test t) (dofs_at trial s) (singular_val O deg test trial t s)) h
    else s_zero S)).
Proof.
  intros D. assert (D' := D). destruct D' as [St Ss Sa Tt Ts G1 G2 Ct Cs Fo Pr Si Hb Hw H1 H2 Sg].
  assert (Wt := ss_grid _ St). assert (Ws := ss_grid _ Ss).
  unfold singular_list. destruct (equal_grids (fs_grid test) (fs_grid trial)) eqn:Eg.
  - assert (Eg' := Eg). apply Nat.eqb_eq in Eg'. assert (Sag := Sa Eg').
    pose proof (dense_singular X wmod O o deg pts ct test trial D Eg') as SS.
    destruct (singular_part_blocks S X wmod O o deg test trial (shape_of test trial) SS) as (st & blocks & Est & Ebl & Eo & _).
    destruct (blocks_once _ _ _ _ _ _ Wt Ebl) as (Nd & Ev). rewrite Eo in Nd, Ev.
    rewrite Est. unfold all_triplets. rewrite total_flat_map.
    rewrite (total_perm (pair_order st (fs_grid test)) (filter (fun p => touchb test trial (fst p) (snd p))
      (list_prod (seq 0 (ent_count (fs_grid test) 2)) (seq 0 (ent_count (fs_grid trial) 2))))).
    + rewrite total_filter, total_list_prod. apply total_ext. intros t Ht. apply total_ext. intros s Hs. cbn [fst snd].
      destruct (touchb test trial t s) eqn:Eb; [|reflexivity]. apply in_seq in Ht, Hs. apply touchb_spec in Eb; auto. destruct Eb as (_ & Hto).
      rewrite touching_entries; auto; try lia; try (rewrite Sag; lia).
      apply (dense_rule wmod O o deg pts ct test trial); auto; try lia. rewrite Sag. lia.
    + apply NoDup_Permutation; auto.
      * apply NoDup_filter, NoDup_list_prod; apply seq_NoDup.
      * intros [t s]. rewrite (Ev t s), filter_In, in_prod_iff, !in_seq. cbn [fst snd]. rewrite touchb_spec by auto. unfold touching.
        rewrite <- Sag. split.
        -- intros (C1 & C2 & C3 & C4). repeat split; auto; lia.
        -- intros ((C1 & C2) & C3 & C4). repeat split; auto; try lia. apply (ss_owned _ St); lia.
  - rewrite total_nil. symmetry. apply total_zero. intros t _. apply total_zero. intros s _.
    unfold touchb. now rewrite Eg.
Qed.

Theorem dense_entries rt wmod O o deg pts ct test trial output :
  legal_runtime (s_add S) rt -> dense_setting X wmod O o deg pts ct test trial ->
  length output = global_size (fs_space test) * global_size (fs_space trial) ->
  exists result val,
    assemble_into_memory S X rt wmod O o trial test output = Ran (Ok result) /\
    (forall t s a b, t < ent_count (fs_grid test) 2 -> s < ent_count (fs_grid trial) 2 -> pair_value S X O deg pts test trial t s a b (val t s a b)) /\
    length result = length output /\
    forall i j old, i < global_size (fs_space test) -> j < global_size (fs_space trial) ->
      nth_error output (i + global_size (fs_space test) * j) = Some old ->
      nth_error result (i + global_size (fs_space test) * j) = Some (s_add S old (matrix_entry S val test trial i j)).
Proof.
  intros L D Lo.
  destruct (into_memory_Ok S X rt wmod O o deg pts ct test trial output L D Lo) as (q & tcol & scol & tcl & scl & Eq & Et & At & Es & As & Pt & Ps & E).
  eexists. exists (dense_val O deg test trial ct q). split; [exact E|]. split; [|split].
  - intros t s a b Ht Hs. eapply dense_val_ok; eauto.
  - apply length_after_ops.
  - intros i j old Hi Hj Ho. rewrite nth_error_after_ops, Ho. cbn [option_map]. f_equal.
    set (rows := global_size (fs_space test)) in *.
    rewrite effect_total, total_app. f_equal.
    set (at_x := fun o : @op T => if fst o =? i + rows * j then snd o else s_zero S).
    (* regular pairs *)
    assert (A : total S (all_ops S X O test trial ct q tcl scl) at_x =
      total S (seq 0 (ent_count (fs_grid test) 2)) (fun t => total S (seq 0 (ent_count (fs_grid trial) 2)) (fun s =>
        total S (regular_ops S X O test trial ct q (t, s)) at_x))).
    { unfold all_ops, phase_ops.
      rewrite <- (flat_map_flat_map (regular_ops S X O test trial ct q) (fun c => list_prod (fst c) (snd c))).
      rewrite total_flat_map.
      rewrite (total_perm _ (list_prod (seq 0 (ent_count (fs_grid test) 2)) (seq 0 (ent_count (fs_grid trial) 2)))).
      - apply total_list_prod.
      - rewrite tiles_product. now apply Permutation_list_prod. }
    rewrite A. clear A.
    (* touching pairs *)
    rewrite total_map, (singular_list_total wmod O o deg pts ct test trial _ D).
    rewrite <- total_add. unfold matrix_entry. apply total_ext. intros t Ht.
    rewrite <- total_add. apply total_ext. intros s Hs. apply in_seq in Ht, Hs.
    unfold regular_ops, pair_ops. cbn [fst snd].
    assert (Bd : forall x, In x (dofs_at test t) -> x < rows)
      by (intros x Hx; apply (dofs_at_spec test t (dn_test _ _ _ _ _ _ _ _ _ D)); auto; lia).
    unfold dense_val. destruct (touchb test trial t s).
    + rewrite total_nil, <- total_map. unfold at_x. rewrite total_entries by auto. ring.
    + unfold at_x. rewrite total_entries by auto. apply add_zero.
Qed.

(** The triplets of the singular part are the touching pairs. *)
Lemma total_triplets td sd (f : nat -> nat -> T) i j :
  total S (entry_list td sd f) (fun x => if (fst (fst x) =? i) && (snd (fst x) =? j) then snd x else s_zero S) =
  total S (enumerate td) (fun ai => total S (enumerate sd) (fun bj => if (snd ai =? i) && (snd bj =? j) then f (fst ai) (fst bj) else s_zero S)).
Proof.
  unfold entry_list. rewrite total_flat_map, total_swap. apply total_ext. intros bj _. rewrite total_map. reflexivity.
Qed.

Theorem near_entries rt wmod O o deg pts ct test trial :
  legal_runtime (s_add S) rt -> dense_setting X wmod O o deg pts ct test trial ->
  exists m val, assemble_singular_part S X rt wmod O o (shape_of test trial) trial test = Ok m /\
    (forall t s a b, t < ent_count (fs_grid test) 2 -> s < ent_count (fs_grid trial) 2 -> pair_value S X O deg pts test trial t s a b (val t s a b)) /\
    forall i j, total S (triplets m) (fun x => if (fst (fst x) =? i) && (snd (fst x) =? j) then snd x else s_zero S) =
      matrix_entry S (fun t s a b => if touchb test trial t s then val t s a b else s_zero S) test trial i j.
Proof.
  intros L D. destruct (singular_list_Ok S X rt wmod O o deg pts ct test trial L D) as (m & Em & El & _).
  destruct (dn_simplex _ _ _ _ _ _ _ _ _ D ct (or_introl eq_refl)) as (_ & q & Eq).
  exists m, (dense_val O deg test trial ct q). split; auto. split; [intros; eapply dense_val_ok; eauto|].
  intros i j. unfold triplets. rewrite El, (singular_list_total wmod O o deg pts ct test trial _ D).
  unfold matrix_entry. apply total_ext. intros t _. apply total_ext. intros s _. unfold dense_val. destruct (touchb test trial t s).
  - apply total_triplets.
  - symmetry. apply total_zero. intros ai _. apply total_zero. intros bj _. now destruct (_ && _).
Qed.

End Sums.
