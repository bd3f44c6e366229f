(** * The singular part of the matrix *)
From Verif Require Import Base BaseFacts Topology TopologyFacts DofMap SpecDof DofMapFacts DofMapResults DofExamples Colouring Process Space SpecSpace
  SpaceScript SpaceFacts SpaceResults Options Batch SpecBatch BatchFacts BatchResults
  Adjacency SpecAdjacency AdjacencyFacts AdjacencyResults
  Scalar Integrand CellPair Operators SpecLocal LocalFacts LocalResults Interleave Assembly SpecAssembly InterleaveFacts AssemblyFacts
  AssemblyRaces AssemblyValues.

Section SingularPart.
Context {T R : Type} (S : scalar T R) (X : externals R).

(** ** Spaces *)

Lemma serial_member (fs : fspace T R) : serial_space fs -> member fs.
Proof.
  intros [W F P Ow D (eager & sp & C & E) Np]. exists 1, (fun _ => fs), 0. split; [|split; [lia|reflexivity]].
  constructor; auto.
  - constructor; auto. intros r c d i e p x Hr (Hc & Hd & Hi) Hg. rewrite Ow in Hg; [discriminate|lia|].
    apply (wf_sub_lt _ W c d e Hc Hd). eapply nth_error_In; eauto.
  - intros r Hr. assert (r = 0) by lia. subst. exact D.
  - exists eager, sp. split; auto. intros r Hr. assert (r = 0) by lia. now subst.
Qed.

Lemma created_number N (g : nat -> grid) fam dm eager sp r i :
  wf_dist N g fam -> dofmaps N g fam dm -> creates N eager dm sp -> r < N -> i < dm_size (dm r) ->
  exists n, global_dof_index (sp r) i = Ok n /\ n < global_size (sp r).
Proof.
  intros WD HD HC Hr Hi.
  assert (E := creates_unique N g fam dm WD HD eager sp HC).
  assert (G : exists n, global_dof_index (sp r) i = Ok n).
  { exists (final_number dm r i). rewrite (E r Hr). eapply final_number_ok; eauto. }
  destruct G as (n & G). exists n. split; auto.
  assert (DM : sp_dofmap (sp r) = dm r) by (rewrite (E r Hr); reflexivity).
  destruct (local_numbers_bijective r (g r) fam (dm r) (wd_grid _ _ _ WD r Hr) (wd_fam _ _ _ WD r Hr) (HD r Hr)) as (B & _).
  destruct (proj1 (B i) Hi) as (d & e & k & Hl).
  destruct (global_size_agreed N g fam dm eager sp WD HD HC) as (_ & A).
  rewrite <- DM in Hl. destruct (A r d e k i Hr Hl) as (A1 & A2).
  destruct (global_numbers N g fam dm eager sp WD HD HC) as (Lt & _).
  destruct (g_own (g r) d e) as [| |p x] eqn:Eo.
  - apply (Lt r i n Hr); auto. split; auto. apply A1. intros p x. congruence.
  - apply (Lt r i n Hr); auto. split; auto. apply A1. intros p x. congruence.
  - destruct (proj2 (A2 p) (ex_intro _ x eq_refl)) as (l & Hg).
    destruct (ghosts_agree N g fam dm eager sp r i p l WD HD HC Hr Hg) as (Hp & _ & Ow & (n' & G1 & G2) & _).
    assert (n' = n) by congruence. subst n'. apply (Lt p l n Hp); auto. split; auto.
Qed.

Lemma member_grid (fs : fspace T R) : member fs -> wf_grid (fs_grid fs) /\ wf_family (g_types (fs_grid fs) 2) (fs_family fs).
Proof.
  intros (N & all & r & [WD Fa HD HC Np] & Hr & <-). split.
  - apply (wd_grid _ _ _ WD r Hr).
  - rewrite (Fa r Hr). apply (wd_fam _ _ _ WD r Hr).
Qed.

Lemma member_dofs (fs : fspace T R) c : member fs -> c < ent_count (fs_grid fs) 2 ->
  cells_ok fs (el_dim (fs_family fs (g_ctype (fs_grid fs) c))) c /\ NoDup (dofs_at fs c) /\
  (forall i, In i (dofs_at fs c) -> dof_known fs i /\ global_of fs i < global_size (fs_space fs)).
Proof.
  intros M Hc. destruct (member_grid fs M) as (W & WF). destruct M as (N & all & r & [WD Fa HD (eager & sp & HC & Es) Np] & Hr & <-).
  assert (HA := HD r Hr). cbn beta in HA. rewrite <- (Fa r Hr) in HA.
  destruct (cell_dofs_distinct_in_range _ _ _ _ c W WF HA Hc) as (l & H & L & Nd & B).
  assert (Ed : dofs_at (all r) c = l) by (unfold dofs_at; unfold has_cell_dofs in H; now rewrite H).
  rewrite Ed. split; [|split; auto].
  - unfold cells_ok. rewrite Ed. split; auto. unfold has_cell_dofs, cell_dofs in H. destruct (c <? _); [|discriminate].
    apply bind_Ok_inv in H. destruct H as (x & Ex & E). inversion E; subst. exact Ex.
  - intros i Hi. destruct (created_number N _ _ _ eager sp r i WD HD HC Hr (B i Hi)) as (n & E & Ln).
    rewrite (Es r Hr) in E, Ln. unfold dof_known, global_of. rewrite E. auto.
Qed.

(** ** Rules *)

Lemma copy_points_Ok n (points : list R) : length points = 2 * n -> copy_points n points = Ok points.
Proof.
  intros L. unfold copy_points. rewrite <- L. clear L.
  assert (G : forall pre, mapM (vget (pre ++ points)) (seq (length pre) (length points)) = Ok points).
  { induction points as [|x l IH]; intros pre; cbn [length seq mapM]; [reflexivity|].
    assert (E : vget (pre ++ x :: l) (length pre) = Ok x) by (apply vget_Ok; rewrite nth_error_app2, Nat.sub_diag; auto).
    rewrite E. cbn [bind]. specialize (IH (pre ++ [x])). rewrite <- app_assoc, app_length in IH. cbn [app length] in IH.
    replace (length pre + 1) with (Datatypes.S (length pre)) in IH by lia. rewrite IH. reflexivity. }
  exact (G []).
Qed.

Lemma fs_element_Ok (fs : fspace T R) t : In t (g_types (fs_grid fs) 2) -> fs_element fs t = Ok (fs_family fs t).
Proof. intros H. unfold fs_element. rewrite (assoc_map ct_eqb (fs_family fs) t _ ct_eqb_eq H). reflexivity. Qed.

Lemma tabulate_Ok (fs : fspace T R) t derivs n points : In t (g_types (fs_grid fs) 2) -> length points = 2 * n ->
  tabulate fs t derivs n points = Ok (tabulated derivs n (el_dim (fs_family fs t)) (fs_components fs t) (fs_basis fs t points)).
Proof. intros H L. unfold tabulate. rewrite (fs_element_Ok fs t H). cbn [bind]. rewrite L, Nat.eqb_refl. reflexivity. Qed.

Definition rule_of (O : operator T R) (trial test : fspace T R) (t s : cell_type) (q : pair_quadrature R) : rule :=
  mkRule (pq_weights q)
    (pq_trial q) (tabulated (op_table_derivs O) (length (pq_weights q)) (el_dim (fs_family trial s)) (fs_components trial s) (fs_basis trial s (pq_trial q)))
    (pq_test q) (tabulated (op_table_derivs O) (length (pq_weights q)) (el_dim (fs_family test t)) (fs_components test t) (fs_basis test t (pq_test q))).

Lemma make_rule_Ok O trial test t s p n q : proper_rules X ->
  In t (g_types (fs_grid test) 2) -> In s (g_types (fs_grid trial) 2) ->
  get_singular_quadrature_rule (x_duffy X) t s p n = Ok q ->
  (length (pq_test q) = 2 * length (pq_weights q) /\ length (pq_trial q) = 2 * length (pq_weights q)) /\
  make_rule X O trial test t s p n = Ok (rule_of O trial test t s q).
Proof.
  intros PR Ht Hs E.
  assert (L : length (pq_test q) = 2 * length (pq_weights q) /\ length (pq_trial q) = 2 * length (pq_weights q)).
  { unfold get_singular_quadrature_rule in E. destruct p; [discriminate|].
    destruct t, s; try discriminate; (destruct (x_duffy _ _ _ _ _) eqn:Ed in E; cbn [unwrap] in E; [|discriminate]; inversion E; subst;
      eapply (pr_duffy _ PR); eauto). }
  split; auto. destruct L as (L1 & L2). unfold make_rule. rewrite E. cbn [bind].
  rewrite copy_points_Ok by auto. cbn [bind]. rewrite tabulate_Ok by auto. cbn [bind].
  rewrite copy_points_Ok by auto. cbn [bind]. rewrite tabulate_Ok by auto. reflexivity.
Qed.

Lemma possible_nonempty t s p : surface_type t -> surface_type s -> In p (possible_pairs t s) -> p <> [].
Proof.
  intros Ht Hs H ->. assert (G : forallb (fun p => negb (length p =? 0)) (possible_pairs t s) = true).
  { destruct Ht as [-> | ->], Hs as [-> | ->]; vm_compute; reflexivity. }
  rewrite forallb_forall in G. apply G in H. discriminate.
Qed.

Lemma duffy_exists types deg t s p : has_duffy X types deg -> (forall t, In t types -> surface_type t) ->
  In t types -> In s types -> In p (possible_pairs t s) ->
  exists q, get_singular_quadrature_rule (x_duffy X) t s p (deg t s) = Ok q.
Proof.
  intros H Sf Ht Hs Hp. assert (Ne := possible_nonempty t s p (Sf _ Ht) (Sf _ Hs) Hp).
  assert (K : exists k, duffy_for t s = Some k) by (destruct (Sf _ Ht) as [-> | ->], (Sf _ Hs) as [-> | ->]; cbn; eauto).
  destruct K as (k & K). destruct (H t s p k Ht Hs Hp K) as (q & E). exists q.
  unfold get_singular_quadrature_rule. destruct p; [congruence|].
  destruct (Sf _ Ht) as [-> | ->], (Sf _ Hs) as [-> | ->]; cbn [duffy_for] in K; inversion K; subst k; now rewrite E.
Qed.

(** ** Blocks *)

(** The index of the rule of a pair of cells. *)
Definition index_in {D : Type} (st : rule_state D) (g : grid) (p : nat * nat) : nat :=
  match look_up st (g_ctype g (fst p)) (g_ctype g (snd p)) (pairs_of g p) with Ok i => i | _ => 0 end.

(** The pairs in the order in which they are treated. *)
Definition pair_order {D : Type} (st : rule_state D) (g : grid) : list (nat * nat) :=
  map snd (indexed (index_in st g) (length (rs_indices st)) (events g)).

Lemma right_blocks {D} (make : cell_type -> cell_type -> vpairs -> nat -> res D) wmod o g deg st :
  wf_grid g -> has_degrees o (g_types g 2) deg ->
  (forall t s p, In t (g_types g 2) -> In s (g_types g 2) -> In p (possible_pairs t s) ->
     exists d, make t s p (deg t s) = Ok d) ->
  (forall t s, t < ent_count g 2 -> s < ent_count g 2 -> g_own g 2 t = Owned -> touch g t s -> has_rule g t s) ->
  0 < get_batch_size o -> get_batch_size o < wmod -> pairs_fit wmod g ->
  singular_rules make o (g_types g 2) = Ok st ->
  exists blocks, singular_blocks wmod st o g = Ok blocks /\
    flat_map snd blocks = pair_order st g /\
    (forall i cells, In (i, cells) blocks -> 0 < length cells <= get_batch_size o /\
      forall t s, In (t, s) cells -> exists d,
        t < ent_count g 2 /\ s < ent_count g 2 /\ g_own g 2 t = Owned /\ touch g t s /\
        nth_error (rs_test st) i = Some (g_ctype g t) /\ nth_error (rs_trial st) i = Some (g_ctype g s) /\
        nth_error (rs_data st) i = Some d /\
        In (pairs_of g (t, s)) (possible_pairs (g_ctype g t) (g_ctype g s)) /\
        make (g_ctype g t) (g_ctype g s) (pairs_of g (t, s)) (deg (g_ctype g t) (g_ctype g s)) = Ok d).
Proof.
  intros W Hd Hm Hr Hb Hw Hf Est.
  destruct (singular_rules_spec make o (g_types g 2) deg (wf_types2_nodup g W) (wf_types2_surface g W) Hd Hm) as (st' & Est' & I).
  assert (st' = st) by congruence. subst st'.
  assert (Hl : forall t s, In (t, s) (events g) -> exists i d,
    look_up st (g_ctype g t) (g_ctype g s) (pairs_of g (t, s)) = Ok i /\ i < length (rs_indices st) /\
    nth_error (rs_test st) i = Some (g_ctype g t) /\ nth_error (rs_trial st) i = Some (g_ctype g s) /\
    nth_error (rs_data st) i = Some d /\ In (pairs_of g (t, s)) (possible_pairs (g_ctype g t) (g_ctype g s)) /\
    make (g_ctype g t) (g_ctype g s) (pairs_of g (t, s)) (deg (g_ctype g t) (g_ctype g s)) = Ok d).
  { intros t s Hin. apply (In_events g t s W) in Hin. destruct Hin as (Ht & Hs & Ho & Hto).
    assert (Hp : In (pairs_of g (t, s)) (possible_pairs (g_ctype g t) (g_ctype g s)))
      by (apply (Hr t s Ht Hs Ho Hto); now apply pairs_of_adjacency).
    destruct (touching_pairs_have_rules make deg st g t s W I Ht Hs Hp) as (i & d & A). exists i, d. tauto. }
  assert (Hidx : forall t s, In (t, s) (events g) -> index_in st g (t, s) < length (rs_indices st) /\
       look_up st (g_ctype g t) (g_ctype g s) (pairs_of g (t, s)) = Ok (index_in st g (t, s))).
  { intros t s Hin. destruct (Hl t s Hin) as (i & d & E & Hi & _). unfold index_in. cbn [fst snd]. rewrite E. auto. }
  assert (Ec := collect_pairs_spec (look_up st) (length (rs_indices st)) g (index_in st g) W Hidx).
  destruct (batches_tile (nat * nat) wmod (o_batch_size o) Hb Hw) as [Bt _].
  destruct (Bt (rows_of (index_in st g) (length (rs_indices st)) (events g))) with
    (fuel := Datatypes.S (sum_list (map (@length _) (rows_of (index_in st g) (length (rs_indices st)) (events g))))) as (blocks & Eb & Hsz & Hc).
  { intros c Hcin. eapply events_fit; eauto. }
  { intros c Hcin. apply length_le_sum in Hcin. lia. }
  exists blocks. split; [|split].
  - unfold singular_blocks, make_cell_blocks. rewrite Ec. cbn [bind]. exact Eb.
  - unfold pair_order, indexed. rewrite <- Hc. now rewrite snd_indexed.
  - intros i cells Hin. split; [exact (proj2 (Hsz _ Hin))|]. intros t s Hts.
    assert (Hind : In (i, (t, s)) (indexed (index_in st g) (length (rs_indices st)) (events g))).
    { unfold indexed. rewrite <- Hc. apply in_flat_map. exists (i, cells). split; auto. cbn. apply in_map_iff. eauto. }
    apply In_indexed in Hind; [|intros [x y] Hp; now apply Hidx].
    destruct Hind as [Hev Hi]. destruct (Hl t s Hev) as (j & d & E & _ & H1 & H2 & H3 & H4).
    assert (Eij : i = j). { rewrite Hi. unfold index_in. cbn [fst snd]. now rewrite E. }
    subst j. exists d. apply (In_events g t s W) in Hev. tauto.
Qed.

Lemma pair_order_spec {D} (st : rule_state D) g : wf_grid g ->
  (forall t s, In (t, s) (events g) -> index_in st g (t, s) < length (rs_indices st)) ->
  Permutation (pair_order st g) (events g).
Proof.
  intros W H. unfold pair_order, indexed. rewrite snd_indexed, flat_map_snd_concat, map_snd_enumerate.
  apply Permutation_rows. intros [t s] Hp. now apply H.
Qed.

(** ** Values *)

(** The labels of a pair of cells, in the order of the triplets. *)
Definition pair_labels (test trial : fspace T R) (p : nat * nat) : list ((nat * nat) * (nat * nat)) :=
  flat_map (fun b => map (fun a => (p, (a, b))) (seq 0 (length (dofs_at test (fst p))))) (seq 0 (length (dofs_at trial (snd p)))).

Lemma In_pair_labels test trial p k : In k (pair_labels test trial p) <->
  fst k = p /\ fst (snd k) < length (dofs_at test (fst p)) /\ snd (snd k) < length (dofs_at trial (snd p)).
Proof.
  unfold pair_labels. rewrite in_flat_map. split.
  - intros (b & Hb & H). apply in_map_iff in H. destruct H as (a & <- & Ha). apply in_seq in Ha, Hb. cbn [fst snd]. split; [reflexivity|lia].
  - intros (E & Ha & Hb). exists (snd (snd k)). split; [apply in_seq; lia|]. apply in_map_iff. exists (fst (snd k)).
    split; [destruct k as [q [a b]]; cbn in *; now subst|apply in_seq; lia].
Qed.

Lemma NoDup_pair_labels test trial p : NoDup (pair_labels test trial p).
Proof.
  unfold pair_labels. apply NoDup_flat_map.
  - apply seq_NoDup.
  - intros b _. apply FinFun.Injective_map_NoDup; [|apply seq_NoDup]. intros x y E. now inversion E.
  - intros b b' k _ _ H H'. apply in_map_iff in H, H'. destruct H as (a & <- & _). destruct H' as (a' & E & _). now inversion E.
Qed.

Lemma entry_list_labels test trial p (f : nat -> nat -> T) :
  Forall2 (fun k e => nth_error (dofs_at test (fst p)) (fst (snd k)) = Some (fst (fst e)) /\
      nth_error (dofs_at trial (snd p)) (snd (snd k)) = Some (snd (fst e)) /\ snd e = f (fst (snd k)) (snd (snd k)))
    (pair_labels test trial p) (entry_list (dofs_at test (fst p)) (dofs_at trial (snd p)) f).
Proof.
  unfold pair_labels, entry_list.
  assert (G : forall (A : Type) (l : list A) (Q : nat -> nat * A -> Prop),
    (forall i x, nth_error l i = Some x -> Q i (i, x)) -> Forall2 Q (seq 0 (length l)) (enumerate l)).
  { intros A l Q H. unfold enumerate.
    assert (G : forall pre, (forall i x, nth_error (pre ++ l) i = Some x -> Q i (i, x)) ->
      Forall2 Q (seq (length pre) (length l)) (combine (seq (length pre) (length l)) l)).
    { clear H. induction l as [|x l IH]; intros pre H; cbn [length seq combine]; constructor.
      - apply H. rewrite nth_error_app2, Nat.sub_diag; auto.
      - specialize (IH (pre ++ [x])). rewrite app_length in IH. cbn [length] in IH.
        replace (length pre + 1) with (Datatypes.S (length pre)) in IH by lia. apply IH. intros i y Hy. apply H.
        now rewrite <- app_assoc in Hy. }
    exact (G [] H). }
  assert (FM : forall (A B C D : Type) (Q : A -> B -> Prop) (P : C -> D -> Prop) (f : A -> list C) (g : B -> list D) l m,
    Forall2 Q l m -> (forall a b, Q a b -> Forall2 P (f a) (g b)) -> Forall2 P (flat_map f l) (flat_map g m)).
  { intros A B C D Q P f0 g l m H K. induction H; cbn; auto using Forall2_app. }
  assert (MM : forall (A B C D : Type) (Q : A -> B -> Prop) (P : C -> D -> Prop) (f : A -> C) (g : B -> D) l m,
    Forall2 Q l m -> (forall a b, Q a b -> P (f a) (g b)) -> Forall2 P (map f l) (map g m)).
  { intros A B C D Q P f0 g l m H K. induction H; cbn; auto. }
  eapply FM; [apply (G _ (dofs_at trial (snd p)) (fun b bj => fst bj = b /\ nth_error (dofs_at trial (snd p)) b = Some (snd bj)))|].
  { intros i x H. cbn. auto. }
  intros b [b' j] (Eb & Hb). cbn [fst snd] in *. subst b'.
  eapply MM; [apply (G _ (dofs_at test (fst p)) (fun a ai => fst ai = a /\ nth_error (dofs_at test (fst p)) a = Some (snd ai)))|].
  { intros i x H. cbn. auto. }
  intros a [a' i] (Ea & Ha). cbn [fst snd] in *. subst a'. auto.
Qed.

(** The triplets of a pair of touching cells. *)
Definition touching_triplets (O : operator T R) (deg : cell_type -> cell_type -> nat) (test trial : fspace T R) (p : nat * nat)
  : list (nat * nat * T) :=
  let g := fs_grid test in
  let tt := g_ctype g (fst p) in
  let st := g_ctype g (snd p) in
  match get_singular_quadrature_rule (x_duffy X) tt st (pairs_of g p) (deg tt st) with
  | Ok q => pair_triplets S O (fs_basis test tt (pq_test q)) (fs_basis trial st (pq_trial q))
      (geometry_map X g tt (pq_test q)) (geometry_map X g st (pq_trial q)) (pq_weights q) test trial p
  | _ => []
  end.

Definition triplet_matrix (shape : nat * nat) (reserved : nat) (L : list (nat * nat * T)) : sparse T :=
  extend (sparse_known shape reserved) L.

Lemma flat_map_rows (Ls : list (nat * list (nat * nat * T))) shape :
  flat_map sm_rows (map (fun L => triplet_matrix shape (fst L) (snd L)) Ls) = map (fun e => fst (fst e)) (flat_map snd Ls).
Proof. induction Ls; cbn; [reflexivity|]. now rewrite map_app, IHLs. Qed.
Lemma flat_map_cols (Ls : list (nat * list (nat * nat * T))) shape :
  flat_map sm_cols (map (fun L => triplet_matrix shape (fst L) (snd L)) Ls) = map (fun e => snd (fst e)) (flat_map snd Ls).
Proof. induction Ls; cbn; [reflexivity|]. now rewrite map_app, IHLs. Qed.
Lemma flat_map_data (Ls : list (nat * list (nat * nat * T))) shape :
  flat_map sm_data (map (fun L => triplet_matrix shape (fst L) (snd L)) Ls) = map snd (flat_map snd Ls).
Proof. induction Ls; cbn; [reflexivity|]. now rewrite map_app, IHLs. Qed.

(** One block. *)
Definition block_matrix (O : operator T R) (deg : cell_type -> cell_type -> nat) (shape : nat * nat) (test trial : fspace T R)
    (block : nat * list (nat * nat)) : sparse T :=
  triplet_matrix shape (length (flat_map (touching_triplets O deg test trial) (snd block)))
    (flat_map (touching_triplets O deg test trial) (snd block)).

Lemma length_flat_map_const {A B : Type} (f : A -> list B) n l : (forall x, In x l -> length (f x) = n) -> length (flat_map f l) = length l * n.
Proof. intros H. rewrite (length_blocks f n) by auto. lia. Qed.

Theorem singular_part_blocks wmod O o deg test trial shape : singular_setting X wmod O o deg test trial ->
  exists st blocks, singular_rules (make_rule X O trial test) o (g_types (fs_grid test) 2) = Ok st /\
    singular_blocks wmod st o (fs_grid test) = Ok blocks /\
    flat_map snd blocks = pair_order st (fs_grid test) /\
    mapM (singular_block S X O shape trial test st) blocks = Ok (map (block_matrix O deg shape test trial) blocks).
Proof.
  intros [Mt Ms Sa Sp Ct Cs Fo Pr De Du Co Hb Hw Hf].
  destruct (member_grid test Mt) as (W & _).
  assert (Sf := wf_types2_surface _ W).
  assert (Sa2 : g_types (fs_grid trial) 2 = g_types (fs_grid test) 2) by now rewrite Sa.
  assert (Hm : forall t s p, In t (g_types (fs_grid test) 2) -> In s (g_types (fs_grid test) 2) -> In p (possible_pairs t s) ->
    exists d, make_rule X O trial test t s p (deg t s) = Ok d).
  { intros t s p Ht Hs Hp. destruct (duffy_exists _ _ t s p Du Sf Ht Hs Hp) as (q & E). eexists.
    eapply (make_rule_Ok O trial test t s p); eauto. now rewrite Sa2. }
  destruct (singular_rules_spec (make_rule X O trial test) o _ deg (wf_types2_nodup _ W) Sf De Hm) as (st & Est & I).
  destruct (right_blocks (make_rule X O trial test) wmod o (fs_grid test) deg st W De Hm) as (blocks & Eb & Eo & Hbl); auto.
  { intros t s Ht Hs _ Hto. now apply conforming_has_rule. }
  exists st, blocks. split; auto. split; auto. split; auto.
  apply mapM_Ok_all. intros [i cells] Hin. destruct (Hbl i cells Hin) as ((Hne & _) & Hcells).
  destruct cells as [|[t0 s0] rest]; [cbn in Hne; lia|].
  destruct (Hcells t0 s0 (or_introl eq_refl)) as (d0 & Ht0 & Hs0 & Ho0 & Hto0 & E1 & E2 & E3 & Hp0 & E4).
  set (cells := (t0, s0) :: rest) in *.
  unfold singular_block. cbn [fst snd].
  rewrite (proj2 (vget_Ok _ _ _) E2). cbn [bind]. rewrite (proj2 (vget_Ok _ _ _) E1). cbn [bind]. rewrite (proj2 (vget_Ok _ _ _) E3). cbn [bind].
  set (g := fs_grid test) in *.
  assert (It : In (g_ctype g t0) (g_types g 2)) by now apply (wf_ctype g W).
  assert (Is : In (g_ctype g s0) (g_types g 2)) by now apply (wf_ctype g W).
  destruct (duffy_exists _ _ _ _ _ Du Sf It Is Hp0) as (q & Eq).
  assert (Is' : In (g_ctype g s0) (g_types (fs_grid trial) 2)) by now rewrite Sa2.
  destruct (make_rule_Ok O trial test _ _ _ _ q Pr It Is' Eq) as ((L1 & L2) & EM).
  assert (d0 = rule_of O trial test (g_ctype g t0) (g_ctype g s0) q) by congruence. subst d0.
  (* the pairs of the block have the same types and the same rule *)
  assert (Same : forall t s, In (t, s) cells -> t < ent_count g 2 /\ s < ent_count g 2 /\ g_ctype g t = g_ctype g t0 /\ g_ctype g s = g_ctype g s0 /\
    pairs_of g (t, s) = pairs_of g (t0, s0)).
  { intros t s Hts. destruct (Hcells t s Hts) as (d & Ht & Hs & Ho & Hto & F1 & F2 & F3 & Hp & F4).
    assert (Ett : g_ctype g t = g_ctype g t0) by congruence. assert (Ess : g_ctype g s = g_ctype g s0) by congruence.
    repeat (split; [assumption|]).
    assert (Hind : forall t s, In (t, s) cells -> i = index_in st g (t, s) /\ look_up st (g_ctype g t) (g_ctype g s) (pairs_of g (t, s)) = Ok i).
    { clear - W I Hcells Hin Eb Co. intros t s Hts. destruct (Hcells t s Hts) as (d & Ht & Hs & Ho & Hto & F1 & F2 & F3 & Hp & F4).
      destruct (blocks_spec _ _ _ _ _ _ W Eb) as (idx & Hidx & E).
      assert (Hi : In (i, (t, s)) (indexed idx (length (rs_indices st)) (events g))).
      { rewrite <- E. apply in_flat_map. exists (i, cells). split; auto. cbn [fst snd]. apply in_map_iff. eauto. }
      apply In_indexed in Hi; [|intros [x y] Hx; now apply Hidx]. destruct Hi as (Hev & ->).
      destruct (Hidx t s Hev) as (_ & El). split; auto. unfold index_in. cbn [fst snd]. now rewrite El. }
    destruct (Hind t s Hts) as (_ & El). destruct (Hind t0 s0 (or_introl eq_refl)) as (_ & El0).
    rewrite Ett, Ess in El. unfold look_up in El, El0.
    destruct (assoc _ _ _) as [x|] eqn:A1 in El; cbn [unwrap] in El; [|discriminate].
    destruct (assoc _ _ _) as [x0|] eqn:A0 in El0; cbn [unwrap] in El0; [|discriminate].
    inversion El; inversion El0; subst x x0.
    apply (assoc_Some_In _ _ _ _ key_eqb_eq) in A1, A0.
    destruct I as (I1 & _). rewrite I1 in A1, A0.
    assert (K : forall k, In (k, i) (combine (all_keys (g_types g 2)) (seq 0 (length (all_keys (g_types g 2))))) ->
      nth_error (all_keys (g_types g 2)) i = Some k).
    { intros k Hk. rewrite combine_swap in Hk. apply in_map_iff in Hk. destruct Hk as ([j k'] & Ek & Hk). cbn in Ek. inversion Ek; subst.
      apply (In_enumerate (all_keys (g_types g 2))) in Hk. exact Hk. }
    apply K in A1, A0. congruence. }
  unfold rule_of. rewrite (batch_singular_values S X O shape (g_ctype g s0) (g_ctype g t0) trial test cells (pq_weights q) (pq_test q) (pq_trial q)
    (fs_components test (g_ctype g t0)) (fs_components trial (g_ctype g s0))
    (fs_basis test (g_ctype g t0) (pq_test q)) (fs_basis trial (g_ctype g s0) (pq_trial q))
    (fs_family test (g_ctype g t0)) (fs_family trial (g_ctype g s0))); auto.
  - unfold block_matrix, triplet_matrix. cbn [snd].
    assert (Eft : forall p, In p cells ->
      pair_triplets S O (fs_basis test (g_ctype g t0) (pq_test q)) (fs_basis trial (g_ctype g s0) (pq_trial q))
        (geometry_map X g (g_ctype g t0) (pq_test q)) (geometry_map X g (g_ctype g s0) (pq_trial q)) (pq_weights q) test trial p =
      touching_triplets O deg test trial p).
    { intros [t s] Hp. destruct (Same t s Hp) as (_ & _ & Ett & Ess & Ep). unfold touching_triplets. cbn [fst snd].
      fold g. rewrite Ett, Ess, Ep, Eq. reflexivity. }
    assert (El : length (flat_map (touching_triplets O deg test trial) cells) =
      length cells * el_dim (fs_family trial (g_ctype g s0)) * el_dim (fs_family test (g_ctype g t0))).
    { rewrite (length_flat_map_const _ (el_dim (fs_family test (g_ctype g t0)) * el_dim (fs_family trial (g_ctype g s0)))); [lia|].
      intros [t s] Hp. rewrite <- Eft by auto. unfold pair_triplets. rewrite map_length, length_entry_list. cbn [fst snd].
      destruct (Same t s Hp) as (Ht & Hs & Ett & Ess & _).
      destruct (member_dofs test t Mt Ht) as ((_ & Lt) & _). fold g in Lt. rewrite Ett in Lt.
      assert (Hs' : s < ent_count (fs_grid trial) 2) by (now rewrite <- Sa).
      destruct (member_dofs trial s Ms Hs') as ((_ & Ls) & _). rewrite <- Sa in Ls. fold g in Ls. rewrite Ess in Ls.
      now rewrite Lt, Ls. }
    rewrite El. f_equal. f_equal. apply flat_map_ext_in. exact Eft.
  - apply (wf_tdim _ W).
  - now apply fs_element_Ok.
  - now apply fs_element_Ok.
  - intros t s Hp. destruct (Same t s Hp) as (Ht & Hs & Ett & Ess & _). split.
    + rewrite <- Ett. now apply member_dofs.
    + rewrite <- Ess. rewrite Sa. apply member_dofs; auto. now rewrite <- Sa.
  - intros t s i0 Hp Hi. destruct (Same t s Hp) as (Ht & Hs & _). now apply (member_dofs test t Mt Ht).
  - intros t s i0 Hp Hi. destruct (Same t s Hp) as (Ht & Hs & _). apply (member_dofs trial s Ms); auto. now rewrite <- Sa.
Qed.

Definition shape_of (test trial : fspace T R) : nat * nat := (global_size (fs_space test), global_size (fs_space trial)).

(** All triplets, in order. *)
Definition all_triplets (O : operator T R) (deg : cell_type -> cell_type -> nat) (test trial : fspace T R) (st : rule_state (@rule T R))
  : list (nat * nat * T) :=
  flat_map (touching_triplets O deg test trial) (pair_order st (fs_grid test)).

Theorem singular_part_values rt wmod O o deg test trial : legal_runtime (s_add S) rt -> singular_setting X wmod O o deg test trial ->
  exists st m, singular_rules (make_rule X O trial test) o (g_types (fs_grid test) 2) = Ok st /\
    assemble_singular_part S X rt wmod O o (shape_of test trial) trial test = Ok m /\
    sm_rows m = map (fun e => fst (fst e)) (all_triplets O deg test trial st) /\
    sm_cols m = map (fun e => snd (fst e)) (all_triplets O deg test trial st) /\
    sm_data m = map snd (all_triplets O deg test trial st) /\
    sm_shape m = shape_of test trial.
Proof.
  intros (_ & Lr) SS. destruct (singular_part_blocks wmod O o deg test trial (shape_of test trial) SS) as (st & blocks & Est & Eb & Eo & Ep).
  exists st. eexists. split; [exact Est|]. unfold assemble_singular_part.
  assert (Eg : equal_grids (fs_grid test) (fs_grid trial) = true).
  { rewrite (sg_same _ _ _ _ _ _ _ SS). unfold equal_grids. apply Nat.eqb_refl. }
  rewrite Eg. cbn [negb]. cbn [shape_of fst snd] in *. rewrite !Nat.eqb_refl. cbn [andb negb]. fold (shape_of test trial) in *.
  rewrite Est. cbn [bind]. rewrite Eb. cbn [bind]. rewrite Ep. cbn [bind]. split; [reflexivity|].
  set (parts := map _ blocks).
  pose proof (reduces_sparse (shape_of test trial) parts (rt_reduce rt (sparse_new (shape_of test trial)) sparse_add parts)) as Hs. unfold seen in Hs.
  assert (Hp : forall p, In p parts -> sm_shape p = shape_of test trial).
  { intros p Hp. apply in_map_iff in Hp. destruct Hp as (b & <- & _). reflexivity. }
  specialize (Hs Hp (Lr _ _ _ _)). injection Hs as E1 E2 E3 E4.
  assert (Epp : parts = map (fun L => triplet_matrix (shape_of test trial) (fst L) (snd L))
    (map (fun b => (length (flat_map (touching_triplets O deg test trial) (snd b)), flat_map (touching_triplets O deg test trial) (snd b))) blocks)).
  { unfold parts. rewrite map_map. reflexivity. }
  assert (Ef : flat_map snd (map (fun b : nat * list (nat * nat) => (length (flat_map (touching_triplets O deg test trial) (snd b)),
      flat_map (touching_triplets O deg test trial) (snd b))) blocks) = all_triplets O deg test trial st).
  { unfold all_triplets. rewrite <- Eo, flat_map_flat_map, flat_map_map. reflexivity. }
  refine (conj (eq_trans E1 _) (conj (eq_trans E2 _) (conj (eq_trans E3 _) E4))); rewrite Epp, ?flat_map_rows, ?flat_map_cols, ?flat_map_data, Ef;
    reflexivity.
Qed.

Lemma combine_maps (L : list (nat * nat * T)) :
  combine (combine (map (fun e => fst (fst e)) L) (map (fun e => snd (fst e)) L)) (map snd L) = L.
Proof. induction L as [|[[i j] v] L IH]; cbn; f_equal; auto. Qed.

Lemma Forall2_flat_map_same {A B C : Type} (P : B -> C -> Prop) (f : A -> list B) (g : A -> list C) l :
  (forall x, In x l -> Forall2 P (f x) (g x)) -> Forall2 P (flat_map f l) (flat_map g l).
Proof. induction l as [|x l IH]; intros H; cbn; [constructor|]. apply Forall2_app; [apply H; now left|]. apply IH. intros; apply H; now right. Qed.

Lemma Forall2_same_length {A B : Type} (P : A -> B -> Prop) l m : Forall2 P l m -> length l = length m.
Proof. induction 1; cbn; congruence. Qed.

Lemma Forall2_map_r {A B C : Type} (P : A -> C -> Prop) (f : B -> C) l m : Forall2 (fun x y => P x (f y)) l m -> Forall2 P l (map f m).
Proof. induction 1; cbn; auto. Qed.

Lemma Forall2_impl_in {A B : Type} (P Q : A -> B -> Prop) l m : (forall x y, In x l -> In y m -> P x y -> Q x y) -> Forall2 P l m -> Forall2 Q l m.
Proof.
  intros H F. induction F as [|x y l m Hp F IH]; constructor.
  - apply H; auto; now left.
  - apply IH. intros; apply H; auto; now right.
Qed.

(** The triplets are those of the touching pairs, each once, in the order of the pairs. *)
Theorem singular_part_ordered rt wmod O o deg test trial : legal_runtime (s_add S) rt -> singular_setting X wmod O o deg test trial ->
  exists st m, singular_rules (make_rule X O trial test) o (g_types (fs_grid test) 2) = Ok st /\
    assemble_singular_part S X rt wmod O o (shape_of test trial) trial test = Ok m /\
    (let ks := flat_map (pair_labels test trial) (pair_order st (fs_grid test)) in
    sm_shape m = shape_of test trial /\
    length (sm_rows m) = length ks /\ length (sm_cols m) = length ks /\ length (sm_data m) = length ks /\
    NoDup ks /\ (forall k, In k ks <-> singular_label test trial k) /\
    Forall2 (fun k x => triplet_of test trial (singular_value S X O deg test trial) (fst (fst k)) (snd (fst k)) (fst (snd k)) (snd (snd k)) x)
      ks (triplets m)).
Proof.
  intros L SS. destruct (singular_part_values rt wmod O o deg test trial L SS) as (st & m & Est & Em & E1 & E2 & E3 & E4).
  destruct (singular_part_blocks wmod O o deg test trial (shape_of test trial) SS) as (st' & blocks & Est' & Eb & Eo & Ep).
  assert (st' = st) by congruence. subst st'.
  pose proof SS as SS'. destruct SS' as [Mt Ms Sa Sp Ct Cs Fo Pr De Du Co Hb Hw Hf].
  destruct (member_grid test Mt) as (W & _).
  destruct (blocks_once _ _ _ _ _ _ W Eb) as (Nd & Ev). rewrite Eo in Nd, Ev.
  exists st, m. split; [exact Est|]. split; [exact Em|]. cbv zeta.
  assert (F : Forall2 (fun k x => triplet_of test trial (singular_value S X O deg test trial) (fst (fst k)) (snd (fst k)) (fst (snd k)) (snd (snd k)) x)
    (flat_map (pair_labels test trial) (pair_order st (fs_grid test))) (all_triplets O deg test trial st)).
  { apply Forall2_flat_map_same. intros [t s] Hts. apply Ev in Hts. destruct Hts as (Ht & Hs & Ho & Hto).
    unfold touching_triplets. cbn [fst snd].
    destruct (duffy_choice (x_duffy X) (fs_grid test) t s (pairs_of (fs_grid test) (t, s))
      (deg (g_ctype (fs_grid test) t) (g_ctype (fs_grid test) s)) W Co Ht Hs Hto (pairs_of_adjacency _ t s W Ht)) as (kind & dim & Ek & Ed & Er).
    destruct (duffy_exists _ _ (g_ctype (fs_grid test) t) (g_ctype (fs_grid test) s) (pairs_of (fs_grid test) (t, s)) Du (wf_types2_surface _ W)) as (q & Eq).
    { now apply (wf_ctype _ W). }
    { now apply (wf_ctype _ W). }
    { apply (conforming_has_rule _ t s W Co Ht Hs Hto). now apply pairs_of_adjacency. }
    rewrite Eq. rewrite Eq in Er. unfold pair_triplets. apply Forall2_map_r. cbn [fst snd].
    eapply Forall2_impl_in; [|apply (entry_list_labels test trial (t, s))].
    intros k [[i j] v] Hk _ (Hi & Hj & Hv). cbn [fst snd] in Hi, Hj, Hv. apply In_pair_labels in Hk. destruct Hk as (Ek1 & _ & _).
    rewrite Ek1. cbn [fst snd]. exists i, j. split; auto. split; auto. cbn [globalise fst snd].
    split; [apply (member_dofs test t Mt Ht); eapply nth_error_In; eauto|].
    split; [apply (member_dofs trial s Ms); [now rewrite <- Sa|]; eapply nth_error_In; eauto|].
    exists (pairs_of (fs_grid test) (t, s)), kind, dim, q. split; [now apply pairs_of_adjacency|]. split; auto. split; auto. split.
    { destruct (x_duffy X kind dim _ _) eqn:Ex; cbn [unwrap] in Er; congruence. }
    rewrite Hv. reflexivity. }
  assert (Ll := Forall2_same_length _ _ _ F).
  split; auto. split; [rewrite E1, map_length; auto|]. split; [rewrite E2, map_length; auto|]. split; [rewrite E3, map_length; auto|].
  split; [|split].
  - apply NoDup_flat_map; auto.
    + intros p _. apply NoDup_pair_labels.
    + intros p p' k _ _ H H'. apply In_pair_labels in H, H'. destruct H as (<- & _), H' as (<- & _). reflexivity.
  - intros [[t s] [a b]]. rewrite in_flat_map. cbn [singular_label]. split.
    + intros (p & Hp & Hk). apply In_pair_labels in Hk. cbn [fst snd] in Hk. destruct Hk as (<- & Ha & Hb'). cbn [fst snd] in *.
      apply Ev in Hp. tauto.
    + intros (Ht & Hs & Ho & Hto & Ha & Hb'). exists (t, s). split; [now apply Ev|]. now apply In_pair_labels.
  - unfold triplets. rewrite E1, E2, E3, combine_maps. exact F.
Qed.

Theorem singular_part_labels rt wmod O o deg test trial : legal_runtime (s_add S) rt -> singular_setting X wmod O o deg test trial ->
  exists m ks, assemble_singular_part S X rt wmod O o (shape_of test trial) trial test = Ok m /\
    sm_shape m = shape_of test trial /\
    length (sm_rows m) = length ks /\ length (sm_cols m) = length ks /\ length (sm_data m) = length ks /\
    NoDup ks /\ (forall k, In k ks <-> singular_label test trial k) /\
    Forall2 (fun k x => triplet_of test trial (singular_value S X O deg test trial) (fst (fst k)) (snd (fst k)) (fst (snd k)) (snd (snd k)) x)
      ks (triplets m).
Proof.
  intros L SS. destruct (singular_part_ordered rt wmod O o deg test trial L SS) as (st & m & _ & Em & H). exists m. eexists. split; [exact Em|exact H].
Qed.

(** The rows and columns are inside the matrix. *)
Theorem singular_part_inside rt wmod O o deg test trial : legal_runtime (s_add S) rt -> singular_setting X wmod O o deg test trial ->
  exists m, assemble_singular_part S X rt wmod O o (shape_of test trial) trial test = Ok m /\
    (forall i, In i (sm_rows m) -> i < global_size (fs_space test)) /\
    (forall j, In j (sm_cols m) -> j < global_size (fs_space trial)) /\
    length (sm_rows m) = length (sm_data m) /\ length (sm_cols m) = length (sm_data m).
Proof.
  intros L SS. destruct (singular_part_labels rt wmod O o deg test trial L SS) as (m & ks & Em & Es & L1 & L2 & L3 & Nd & Lab & F).
  exists m. split; auto.
  destruct SS as [Mt Ms Sa Sp Ct Cs Fo Pr De Du Co Hb Hw Hf].
  assert (G : forall x, In x (triplets m) -> fst (fst x) < global_size (fs_space test) /\ snd (fst x) < global_size (fs_space trial)).
  { intros x Hx. apply In_nth_error in Hx. destruct Hx as (n & Hn).
    assert (K : exists k, nth_error ks n = Some k).
    { destruct (nth_error ks n) eqn:Ek; eauto. apply nth_error_None in Ek. rewrite (Forall2_same_length _ _ _ F) in Ek.
      assert (n < length (triplets m)) by (apply nth_error_Some; congruence). lia. }
    destruct K as (k & Hk).
    assert (P : triplet_of test trial (singular_value S X O deg test trial) (fst (fst k)) (snd (fst k)) (fst (snd k)) (snd (snd k)) x).
    { clear - F Hn Hk. revert n Hn Hk. induction F; intros [|n] Hn Hk; cbn in *; try discriminate; [inversion Hn; inversion Hk; now subst|eauto]. }
    apply nth_error_In, Lab in Hk. destruct k as [[t s] [a b]]. cbn [singular_label fst snd] in *.
    destruct Hk as (Ht & Hs & _). destruct P as (i & j & Hi & Hj & Gi & Gj & _).
    assert (Hs' : s < ent_count (fs_grid trial) 2) by now rewrite <- Sa.
    apply nth_error_In in Hi, Hj.
    destruct (member_dofs test t Mt Ht) as (_ & _ & Dt). destruct (Dt i Hi) as (Ki & Li).
    destruct (member_dofs trial s Ms Hs') as (_ & _ & Dj). destruct (Dj j Hj) as (Kj & Lj).
    unfold dof_known in Ki, Kj. split; congruence. }
  assert (Er : sm_rows m = map (fun e => fst (fst e)) (triplets m)).
  { unfold triplets. assert (A : length (sm_rows m) = length (sm_cols m)) by congruence. assert (B : length (sm_cols m) = length (sm_data m)) by congruence.
    revert A B. generalize (sm_rows m) (sm_cols m) (sm_data m). induction l as [|x l IH]; intros [|y l'] [|z l'']; cbn; try discriminate; auto.
    intros A B. f_equal. apply IH; congruence. }
  assert (Ec : sm_cols m = map (fun e => snd (fst e)) (triplets m)).
  { unfold triplets. assert (A : length (sm_rows m) = length (sm_cols m)) by congruence. assert (B : length (sm_cols m) = length (sm_data m)) by congruence.
    revert A B. generalize (sm_rows m) (sm_cols m) (sm_data m). induction l as [|x l IH]; intros [|y l'] [|z l'']; cbn; try discriminate; auto.
    intros A B. f_equal. apply IH; congruence. }
  split; [|split; [|split; congruence]].
  - intros i Hi. rewrite Er in Hi. apply in_map_iff in Hi. destruct Hi as (x & <- & Hx). now apply G.
  - intros i Hi. rewrite Ec in Hi. apply in_map_iff in Hi. destruct Hi as (x & <- & Hx). now apply G.
Qed.

(** The capacity reserved for a block. *)
Theorem block_capacity wmod O o deg test trial : singular_setting X wmod O o deg test trial ->
  exists st blocks, singular_rules (make_rule X O trial test) o (g_types (fs_grid test) 2) = Ok st /\
    singular_blocks wmod st o (fs_grid test) = Ok blocks /\
    forall block, In block blocks -> exists part, singular_block S X O (shape_of test trial) trial test st block = Ok part /\
      length (sm_data part) = sm_reserved part /\ length (sm_rows part) = sm_reserved part /\ length (sm_cols part) = sm_reserved part.
Proof.
  intros SS. destruct (singular_part_blocks wmod O o deg test trial (shape_of test trial) SS) as (st & blocks & Est & Eb & Eo & Ep).
  exists st, blocks. split; auto. split; auto. intros block Hin.
  apply In_nth_error in Hin. destruct Hin as (n & Hn).
  destruct (mapM_Ok_nth _ _ _ Ep n block Hn) as (part & Hpart & E). exists part. split; auto.
  rewrite (map_nth_error _ _ _ Hn) in Hpart. inversion Hpart; subst part. unfold block_matrix, triplet_matrix, extend.
  cbn [sm_data sm_rows sm_cols sm_reserved sparse_known app]. rewrite !map_length. auto.
Qed.

(** ** Every schedule *)

Lemma block_shape O shape trial_t test_t trial test pairs ru m :
  assemble_batch_singular S X O shape trial_t test_t trial test pairs ru = Ok m ->
  sm_shape m = shape /\ length (sm_rows m) = length (sm_data m) /\ length (sm_cols m) = length (sm_data m).
Proof.
  unfold assemble_batch_singular. intros H. apply bind_Ok_inv in H. destruct H as (es & _ & H). apply bind_Ok_inv in H. destruct H as (et & _ & H).
  destruct (negb _) in H; [discriminate|]. apply bind_Ok_inv in H. destruct H as (s & H & E). inversion E; subst m. clear E.
  refine (foldM_Ok_inv _ (fun _ s => sm_shape (snd s) = shape /\ length (sm_rows (snd s)) = length (sm_data (snd s)) /\
    length (sm_cols (snd s)) = length (sm_data (snd s))) _ _ _ _ _ H); [cbn; auto|].
  intros pre p post [[a m] out] s1 _ I E. unfold singular_pair in E.
  apply bind_Ok_inv in E. destruct E as (a1 & _ & E). apply bind_Ok_inv in E. destruct E as (a2 & _ & E).
  apply bind_Ok_inv in E. destruct E as ([a3 m3] & _ & E). apply bind_Ok_inv in E. destruct E as (td & _ & E).
  apply bind_Ok_inv in E. destruct E as (sd & _ & E). apply bind_Ok_inv in E. destruct E as (out' & Eo & E). inversion E; subst s1. cbn [snd] in *.
  refine (foldM_Ok_inv _ (fun _ out => sm_shape out = shape /\ length (sm_rows out) = length (sm_data out) /\
    length (sm_cols out) = length (sm_data out)) _ _ _ I _ Eo).
  intros _ [[i j] v] _ o1 o2 _ (A & B & C) Ep. unfold push_entry in Ep. apply bind_Ok_inv in Ep. destruct Ep as (gi & _ & Ep).
  apply bind_Ok_inv in Ep. destruct Ep as (gj & _ & Ep). inversion Ep; subst. cbn [sm_shape sm_rows sm_cols sm_data].
  rewrite !app_length. cbn [length]. repeat split; auto; lia.
Qed.

(** What a run gives, for any spaces. *)
Lemma part_any wmod O o shape trial test :
  (exists parts, (forall p, In p parts -> sm_shape p = shape /\ length (sm_rows p) = length (sm_data p) /\ length (sm_cols p) = length (sm_data p)) /\
    forall rt, assemble_singular_part S X rt wmod O o shape trial test = Ok (rt_reduce rt (sparse_new shape) sparse_add parts)) \/
  (exists r, (forall rt, assemble_singular_part S X rt wmod O o shape trial test = r) /\ forall m, r = Ok m -> m = sparse_new shape).
Proof.
  unfold assemble_singular_part. destruct (negb (equal_grids _ _)).
  { right. eexists. split; [reflexivity|]. intros m E. now inversion E. }
  destruct (negb _); [right; eexists; split; [reflexivity|discriminate]|].
  destruct (singular_rules _ _ _) as [st| | |]; cbn [bind]; try (right; eexists; split; [reflexivity|discriminate]).
  destruct (singular_blocks _ _ _ _) as [blocks| | |]; cbn [bind]; try (right; eexists; split; [reflexivity|discriminate]).
  destruct (mapM _ blocks) as [parts| | |] eqn:Ep; cbn [bind]; try (right; eexists; split; [reflexivity|discriminate]).
  left. exists parts. split; [|auto]. intros p Hp. destruct (mapM_In _ _ _ _ Ep Hp) as ([i cells] & _ & E).
  unfold singular_block in E. apply bind_Ok_inv in E. destruct E as (a & _ & E). apply bind_Ok_inv in E. destruct E as (b & _ & E).
  apply bind_Ok_inv in E. destruct E as (c & _ & E). eapply block_shape; eauto.
Qed.

(** The lists do not depend on the schedule. *)
Theorem singular_part_schedule rt rt' wmod O o shape trial test m : legal_runtime (s_add S) rt -> legal_runtime (s_add S) rt' ->
  assemble_singular_part S X rt wmod O o shape trial test = Ok m ->
  length (sm_rows m) = length (sm_data m) /\ length (sm_cols m) = length (sm_data m) /\
  exists m', assemble_singular_part S X rt' wmod O o shape trial test = Ok m' /\
    sm_rows m' = sm_rows m /\ sm_cols m' = sm_cols m /\ sm_data m' = sm_data m /\ sm_shape m' = sm_shape m.
Proof.
  intros L L' H. destruct (part_any wmod O o shape trial test) as [(parts & Hp & E)|(r & E & Hr)].
  - rewrite E in H. inversion H. clear H.
    assert (Hs : forall p, In p parts -> sm_shape p = shape) by (intros; now apply Hp).
    pose proof (reduces_sparse shape parts _ Hs (proj2 L _ (sparse_new shape) sparse_add parts)) as A. unfold seen in A.
    pose proof (reduces_sparse shape parts _ Hs (proj2 L' _ (sparse_new shape) sparse_add parts)) as A'. unfold seen in A'.
    injection A as A1 A2 A3 A4. injection A' as B1 B2 B3 B4.
    assert (Eq : length (flat_map sm_rows parts) = length (flat_map sm_data parts) /\ length (flat_map sm_cols parts) = length (flat_map sm_data parts)).
    { clear - Hp. induction parts as [|p parts IH]; cbn; auto. rewrite !app_length. destruct (Hp p (or_introl eq_refl)) as (_ & -> & ->).
      destruct IH as (-> & ->); auto. intros; apply Hp; now right. }
    rewrite A1, A2, A3, A4. split; [tauto|]. split; [tauto|].
    eexists. split; [apply E|]. rewrite B1, B2, B3, B4. auto.
  - rewrite E in H. rewrite (Hr m H). split; [reflexivity|]. split; [reflexivity|]. eexists. split; [rewrite E, H, (Hr m H); reflexivity|]. auto.
Qed.

End SingularPart.
