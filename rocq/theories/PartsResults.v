(** * Matrices on a part of a grid *)
From Coq Require Import Ring_theory Ring.
From Verif Require Import Base BaseFacts Topology TopologyFacts DofMap DofMapFacts SpecDof DofMapResults DofExamples Process Space SpecSpace SpaceResults Options Batch SpecBatch
  Adjacency SpecAdjacency Scalar Integrand CellPair Operators SpecLocal LocalFacts LocalResults Interleave Assembly SpecAssembly
  AssemblyFacts AssemblySingular AssemblyDense AssemblyExact AssemblyResults SpecAlgebra AlgebraFacts AlgebraResults
  SpecDistributed DistributedFacts DistributedResults SpecRenumber RenumberResults SpecBroken BrokenResults SpecParts.

Section Parts.
Context {T R : Type} (S : scalar T R) (X : externals R).

Section One.
Variables (whole part : fspace T R) (L : nat -> nat -> nat).
Hypothesis (Sw : serial_space whole) (Sp : serial_space part) (PO : part_of X whole part L).

Let PT := po_inside _ _ _ _ PO.
Lemma part_wf : forall r, r < 1 -> wf_grid (fs_grid part). Proof. intros; exact (ss_grid _ Sp). Qed.

Lemma part_dofs : exists f, embeds whole part L f.
Proof.
  assert (W := ss_grid _ Sw). assert (WF := ss_family _ Sw). assert (HA := ss_dofs _ Sw).
  assert (W' := ss_grid _ Sp). assert (WF' := ss_family _ Sp). assert (HA' := ss_dofs _ Sp).
  set (P := fun i n => exists c d j e k, sub_at (fs_grid part) c d j e /\ listed (sp_dofmap (fs_space part)) d e k i /\
    listed (sp_dofmap (fs_space whole)) d (L d e) k n).
  assert (Tr : forall c a i, c < ent_count (fs_grid part) 2 -> nth_error (dofs_at part c) a = Some i ->
    exists d j e k n, sub_at (fs_grid part) c d j e /\ listed (sp_dofmap (fs_space part)) d e k i /\
      listed (sp_dofmap (fs_space whole)) d (L d e) k n /\ nth_error (dofs_at whole (L 2 c)) a = Some n).
  { intros c a i Hc Ha. rewrite dofs_at_row in Ha by auto.
    destruct (cell_row_origin 0 _ _ _ W' WF' HA' c a i Hc Ha) as (d & j & e & l & k & Hs & El & Ek & En).
    assert (Hs' := part_sub_at 1 _ _ _ PT part_wf 0 c d j e (le_n 1) Hs). cbn beta in Hs'.
    rewrite (po_family _ _ _ _ PO), <- (pt_ctype _ _ _ _ PT 0 c (le_n 1) Hc) in El.
    destruct (cell_row_entity 0 _ _ _ W WF HA _ d j _ l k a Hs' El Ek) as (n & H1 & H2).
    exists d, j, e, k, n. split; auto. split; [now apply (listed_edof 0 _ _ _ W' WF' HA')|]. split; [now apply (listed_edof 0 _ _ _ W WF HA)|].
    rewrite dofs_at_row; auto. apply (pt_lt _ _ _ _ PT 0 2 c); auto. }
  destruct (finite_choice P (dm_size (sp_dofmap (fs_space part)))) as (f & Hf).
  { intros i Hi. destruct (dof_in_cell part i Sp Hi) as (c & a & Hc & Ha).
    destruct (Tr c a i Hc Ha) as (d & j & e & k & n & Hs & H1 & H2 & _). exists n, c, d, j, e, k. auto. }
  exists f. unfold embeds. rewrite !serial_size by auto. split; [|split].
  - intros c Hc. assert (HC : L 2 c < ent_count (fs_grid whole) 2) by (apply (pt_lt _ _ _ _ PT 0 2 c); auto).
    apply nth_error_ext. intros a. rewrite nth_error_map. destruct (nth_error (dofs_at part c) a) as [i|] eqn:Ei; cbn [option_map].
    + destruct (Tr c a i Hc Ei) as (d & j & e & k & n & Hs & H1 & H2 & H3). rewrite H3. f_equal.
      assert (Hi : i < dm_size (sp_dofmap (fs_space part))) by (apply (listed_lt_iff 0 _ _ _ W' WF' HA'); eauto).
      destruct (Hf i Hi) as (c' & d' & j' & e' & k' & Hs' & H1' & H2').
      destruct (listed_unique 0 _ _ _ W' WF' HA' _ _ _ _ _ _ _ H1 H1') as (<- & <- & <-).
      apply (listed_edof 0 _ _ _ W WF HA) in H2, H2'. congruence.
    + apply nth_error_None in Ei. apply nth_error_None. rewrite dofs_at_dim in * by auto.
      rewrite (pt_ctype _ _ _ _ PT 0 c (le_n 1) Hc), <- (po_family _ _ _ _ PO). exact Ei.
  - intros i Hi. destruct (Hf i Hi) as (c & d & j & e & k & _ & _ & H). apply (listed_lt_iff 0 _ _ _ W WF HA). eauto.
  - intros i i' Hi Hi' E. destruct (Hf i Hi) as (c & d & j & e & k & Hs & H1 & H2). destruct (Hf i' Hi') as (c' & d' & j' & e' & k' & Hs' & H1' & H2').
    rewrite E in H2. destruct (listed_unique 0 _ _ _ W WF HA _ _ _ _ _ _ _ H2 H2') as (<- & El & <-).
    destruct Hs as (Hc & Hd & Hj). destruct Hs' as (Hc' & _ & Hj').
    apply (pt_inj _ _ _ _ PT 0 d) in El; auto.
    + subst e'. apply (listed_edof 0 _ _ _ W' WF' HA') in H1, H1'. congruence.
    + apply (wf_sub_lt _ W' c); auto. eapply nth_error_In; eauto.
    + apply (wf_sub_lt _ W' c'); auto. eapply nth_error_In; eauto.
Qed.

Lemma part_count : ent_count (fs_grid part) 2 <= ent_count (fs_grid whole) 2.
Proof.
  rewrite <- (seq_length (ent_count (fs_grid part) 2) 0), <- (map_length (L 2)), <- (seq_length (ent_count (fs_grid whole) 2) 0).
  apply NoDup_incl_length.
  - apply NoDup_map_inj_in; [|apply seq_NoDup]. intros x y Hx Hy E. apply in_seq in Hx, Hy. apply (pt_inj _ _ _ _ PT 0 2); auto; lia.
  - intros x Hx. apply in_map_iff in Hx. destruct Hx as (y & <- & Hy). apply in_seq in Hy. apply in_seq. split; [lia|].
    apply (pt_lt _ _ _ _ PT 0 2 y); auto; lia.
Qed.

(** With discontinuous functions every DOF is supported. *)
Lemma interior_supported f i : interior_family (g_types (fs_grid whole) 2) (fs_family whole) -> embeds whole part L f ->
  i < global_size (fs_space part) -> supported whole part L (f i).
Proof.
  intros HI (M & _) Hi C HC H. rewrite serial_size in Hi by auto. destruct (dof_in_cell part i Sp Hi) as (c & a & Hc & Ha).
  exists c. split; auto. assert (HL : L 2 c < ent_count (fs_grid whole) 2) by (apply (pt_lt _ _ _ _ PT 0 2 c); auto).
  apply (interior_disjoint 0 _ _ _ (ss_grid _ Sw) (ss_family _ Sw) (ss_dofs _ Sw) (L 2 c) C (f i)); auto; rewrite <- dofs_at_row by auto; auto.
  rewrite M by auto. apply in_map. eapply nth_error_In; eauto.
Qed.
End One.

Section Two.
Variables (wmod : nat) (O : operator T R) (o : options) (deg : cell_type -> cell_type -> nat) (pts : cell_type -> nat) (ct : cell_type).
Variables (test trial wtest wtrial : fspace T R) (L M : nat -> nat -> nat).
Hypothesis DW : dense_setting X wmod O o deg pts ct wtest wtrial.
Hypothesis (St : serial_space test) (Ss : serial_space trial) (Sa : same_object test trial).
Hypothesis (Pt : part_of X wtest test L) (Ps : part_of X wtrial trial M).
Hypothesis Al : placed wtest wtrial test trial L M.

Lemma parts_setting : dense_setting X wmod O o deg pts ct test trial.
Proof.
  pose proof (part_count wtest test L Pt) as K1. pose proof (part_count wtrial trial M Ps) as K2.
  destruct DW as [Wt Ws Sm Tt Ts G1 G2 Ct Cs Fo Pr Si Hb Hw H1 H2 Sg]. destruct Pt as [It Yt F1 C1 B1 _]. destruct Ps as [Is Ys F2 C2 B2 _].
  constructor; auto.
  - now rewrite Yt.
  - now rewrite Ys.
  - unfold in_space in *. now rewrite (pt_gdim _ _ _ _ It 0 (le_n 1)).
  - unfold in_space in *. now rewrite (pt_gdim _ _ _ _ Is 0 (le_n 1)).
  - intros t Ht. rewrite C1. apply Ct. now rewrite <- Yt.
  - intros t Ht. rewrite C2. apply Cs. now rewrite <- Ys.
  - lia.
  - lia.
  - intros E. destruct Al as [(_ & E' & _)|(N & _)]; [|contradiction]. destruct (Sg E') as (A1 & A2 & A3 & A4). split; auto. split; auto.
    assert (Wg : forall r, r < 1 -> wf_grid (fs_grid test)) by (intros; exact (ss_grid _ St)).
    split; [exact (part_conforming 1 _ _ _ It Wg 0 (le_n 1) A3)|exact (part_pairs_fit 1 _ _ _ It Wg wmod 0 (le_n 1) A4)].
Qed.

Lemma parts_touching t s : t < ent_count (fs_grid test) 2 -> s < ent_count (fs_grid trial) 2 ->
  (touching test trial t s <-> touching wtest wtrial (L 2 t) (M 2 s)).
Proof.
  intros Ht Hs. pose proof (po_inside _ _ _ _ Pt) as PT.
  assert (Wg : forall r, r < 1 -> wf_grid (fs_grid test)) by (intros; exact (ss_grid _ St)).
  destruct Al as [(E & E' & Eq)|(N & Nt)].
  - rewrite (Sa E) in Eq. unfold touching. rewrite Eq by auto. rewrite (part_touch 1 _ _ _ PT Wg 0 t s); auto; [|now rewrite (Sa E)].
    split; intros (_ & H); auto.
  - split; [intros (E & _); contradiction|]. intros H. exfalso. now apply (Nt t s).
Qed.

Lemma parts_value t s a b v : t < ent_count (fs_grid test) 2 -> s < ent_count (fs_grid trial) 2 ->
  pair_value S X O deg pts test trial t s a b v -> pair_value S X O deg pts wtest wtrial (L 2 t) (M 2 s) a b v.
Proof.
  intros Ht Hs [(To & V)|(To & V)].
  - left. split; [now apply parts_touching|]. pose proof (po_inside _ _ _ _ Pt) as PT.
    assert (Wg : forall r, r < 1 -> wf_grid (fs_grid test)) by (intros; exact (ss_grid _ St)).
    destruct Al as [(E & E' & Eq)|(N & _)]; [|destruct To as (E & _); contradiction].
    assert (Hs' : s < ent_count (fs_grid test) 2) by (now rewrite (Sa E)). rewrite (Eq s Hs').
    destruct V as (p & k & d & q & A & K & D & Q & Ev). exists p, k, d, q.
    rewrite !(pt_ctype _ _ _ _ PT 0) by auto.
    split; [exact (part_adjacency 1 _ _ _ PT Wg 0 t s p (le_n 1) Ht Hs' A)|]. split; auto.
    split; [exact (part_shared 1 _ _ _ PT Wg 0 t s d (le_n 1) Ht Hs' D)|]. split; auto.
    rewrite Ev, <- !(po_geometry _ _ _ _ Pt) by auto. now rewrite (po_basis _ _ _ _ Pt), (po_basis _ _ _ _ Ps).
  - right. split; [now rewrite <- parts_touching|]. destruct V as (qt & qs & Q1 & Q2 & E). exists qt, qs.
    rewrite (pt_ctype _ _ _ _ (po_inside _ _ _ _ Pt) 0 t (le_n 1) Ht), (pt_ctype _ _ _ _ (po_inside _ _ _ _ Ps) 0 s (le_n 1) Hs).
    split; auto. split; auto. rewrite E, <- (po_geometry _ _ _ _ Pt), <- (po_geometry _ _ _ _ Ps) by auto.
    now rewrite (po_basis _ _ _ _ Pt), (po_basis _ _ _ _ Ps).
Qed.

Section Ring.
Variables (one : T) (RT : ring_theory (s_zero S) one (s_add S) (s_mul S) (s_sub S) (s_neg S) eq).

(** A sum in which only some terms are not zero. *)
Lemma total_image n N (F : nat -> T) (K : nat -> nat) :
  (forall x, x < n -> K x < N) -> (forall x y, x < n -> y < n -> K x = K y -> x = y) ->
  (forall y, y < N -> (exists x, x < n /\ K x = y) \/ F y = s_zero S) ->
  total S (seq 0 N) F = total S (seq 0 n) (fun x => F (K x)).
Proof.
  intros Kl Ki Z. rewrite <- (total_map S K).
  transitivity (total S (filter (fun y => memb y (map K (seq 0 n))) (seq 0 N)) F).
  - rewrite (total_filter S one RT). apply total_ext. intros y Hy. apply in_seq in Hy. destruct (memb y _) eqn:E; [reflexivity|].
    destruct (Z y) as [(x & Hx & <-)|Hz]; [lia| |exact Hz]. exfalso.
    assert (memb (K x) (map K (seq 0 n)) = true) by (apply memb_In, in_map, in_seq; lia). congruence.
  - apply (total_perm S one RT). apply NoDup_Permutation.
    + apply NoDup_filter, seq_NoDup.
    + apply NoDup_map_inj_in; [|apply seq_NoDup]. intros x y Hx Hy. apply in_seq in Hx, Hy. apply Ki; lia.
    + intros y. rewrite filter_In, memb_In, in_seq. split; [tauto|]. intros H. split; auto.
      apply in_map_iff in H. destruct H as (x & <- & Hx). apply in_seq in Hx. split; [lia|]. apply Kl. lia.
Qed.

Lemma parts_entry val val' f h i j :
  (forall t s a b, t < ent_count (fs_grid test) 2 -> s < ent_count (fs_grid trial) 2 -> val' t s a b = val (L 2 t) (M 2 s) a b) ->
  embeds wtest test L f -> embeds wtrial trial M h ->
  i < global_size (fs_space test) -> j < global_size (fs_space trial) ->
  supported wtest test L (f i) -> supported wtrial trial M (h j) ->
  matrix_entry S val wtest wtrial (f i) (h j) = matrix_entry S val' test trial i j.
Proof.
  intros V (Df & _ & If) (Dh & _ & Ih) Hi Hj Si Sj. unfold matrix_entry.
  pose proof (po_inside _ _ _ _ Pt) as PT. pose proof (po_inside _ _ _ _ Ps) as PS.
  assert (Miss : forall l n, ~ In n l -> forall x : nat * nat, In x (enumerate l) -> (snd x =? n) = false).
  { intros l n Hn [a x] Hx. cbn [snd]. apply Nat.eqb_neq. intros ->. apply Hn. apply in_combine_r in Hx. exact Hx. }
  rewrite (total_image (ent_count (fs_grid test) 2) _ _ (L 2)).
  2:{ intros x Hx. apply (pt_lt _ _ _ _ PT 0 2 x); auto. }
  2:{ intros x y Hx Hy. apply (pt_inj _ _ _ _ PT 0 2); auto. }
  2:{ intros C HC. destruct (in_dec Nat.eq_dec (f i) (dofs_at wtest C)) as [H|H]; [left; now apply Si|right].
      apply (total_zero S one RT). intros s _. apply (total_zero S one RT). intros ai Ha. apply (total_zero S one RT). intros bj _.
      now rewrite (Miss _ _ H ai Ha). }
  apply total_ext. intros t Ht. apply in_seq in Ht. assert (Ht' : t < ent_count (fs_grid test) 2) by lia.
  rewrite (total_image (ent_count (fs_grid trial) 2) _ _ (M 2)).
  2:{ intros x Hx. apply (pt_lt _ _ _ _ PS 0 2 x); auto. }
  2:{ intros x y Hx Hy. apply (pt_inj _ _ _ _ PS 0 2); auto. }
  2:{ intros C HC. destruct (in_dec Nat.eq_dec (h j) (dofs_at wtrial C)) as [H|H]; [left; now apply Sj|right].
      apply (total_zero S one RT). intros ai Ha. apply (total_zero S one RT). intros bj Hb.
      now rewrite (Miss _ _ H bj Hb), andb_false_r. }
  apply total_ext. intros s Hs. apply in_seq in Hs. assert (Hs' : s < ent_count (fs_grid trial) 2) by lia.
  rewrite (Df t Ht'), (Dh s Hs'), !enumerate_map, (total_map S). apply total_ext. intros [a i'] Ha. rewrite (total_map S). apply total_ext. intros [b j'] Hb.
  cbn [fst snd].
  assert (Hi' : i' < global_size (fs_space test)) by (apply (serial_lt test St t); auto; apply in_combine_r in Ha; exact Ha).
  assert (Hj' : j' < global_size (fs_space trial)) by (apply (serial_lt trial Ss s); auto; apply in_combine_r in Hb; exact Hb).
  assert (E1 : (f i' =? f i) = (i' =? i)).
  { destruct (Nat.eqb_spec i' i) as [->|N]; [apply Nat.eqb_refl|]. apply Nat.eqb_neq. intros E. apply N. now apply If. }
  assert (E2 : (h j' =? h j) = (j' =? j)).
  { destruct (Nat.eqb_spec j' j) as [->|N]; [apply Nat.eqb_refl|]. apply Nat.eqb_neq. intros E. apply N. now apply Ih. }
  rewrite E1, E2. destruct (_ && _); [|reflexivity]. symmetry. now apply V.
Qed.
End Ring.

(** Entries of the matrix of the part are entries of the matrix of the whole grid. *)
Theorem parts_matrix rt rt' : exact S -> legal_runtime (s_add S) rt -> legal_runtime (s_add S) rt' ->
  exists m m' f h,
    assemble S X rt wmod O o wtrial wtest = Ok m /\ assemble S X rt' wmod O o trial test = Ok m' /\
    embeds wtest test L f /\ embeds wtrial trial M h /\
    forall i j, i < global_size (fs_space test) -> j < global_size (fs_space trial) ->
      supported wtest test L (f i) -> supported wtrial trial M (h j) ->
      exists x, nth_error m (f i + global_size (fs_space wtest) * h j) = Some x /\
        nth_error m' (i + global_size (fs_space test) * j) = Some x.
Proof.
  intros ((one & RT) & _) Lr Lr'.
  destruct (assembled S one RT X rt wmod O o deg pts ct wtest wtrial Lr DW) as (m & val & E & _ & V & H).
  destruct (assembled S one RT X rt' wmod O o deg pts ct test trial Lr' parts_setting) as (m' & val' & E' & _ & V' & H').
  destruct (part_dofs wtest test L (dn_test _ _ _ _ _ _ _ _ _ DW) St Pt) as (f & Ef).
  destruct (part_dofs wtrial trial M (dn_trial _ _ _ _ _ _ _ _ _ DW) Ss Ps) as (h & Eh).
  exists m, m', f, h. do 4 (split; [assumption|]). intros i j Hi Hj Si Sj.
  eexists. split; [apply H; [now apply Ef|now apply Eh]|]. rewrite (H' i j Hi Hj). f_equal. symmetry.
  apply (parts_entry one RT); auto. intros t s a b Ht Hs.
  apply (pair_value_unique S X O deg pts wtest wtrial (L 2 t) (M 2 s) a b); [now apply parts_value; auto|].
  apply V; [apply (pt_lt _ _ _ _ (po_inside _ _ _ _ Pt) 0 2 t); auto|apply (pt_lt _ _ _ _ (po_inside _ _ _ _ Ps) 0 2 s); auto].
Qed.

(** If the functions are discontinuous, all of them. *)
Theorem parts_matrix_discontinuous rt rt' : exact S -> legal_runtime (s_add S) rt -> legal_runtime (s_add S) rt' ->
  interior_family (g_types (fs_grid wtest) 2) (fs_family wtest) -> interior_family (g_types (fs_grid wtrial) 2) (fs_family wtrial) ->
  exists m m' f h,
    assemble S X rt wmod O o wtrial wtest = Ok m /\ assemble S X rt' wmod O o trial test = Ok m' /\
    embeds wtest test L f /\ embeds wtrial trial M h /\
    forall i j, i < global_size (fs_space test) -> j < global_size (fs_space trial) ->
      exists x, nth_error m (f i + global_size (fs_space wtest) * h j) = Some x /\
        nth_error m' (i + global_size (fs_space test) * j) = Some x.
Proof.
  intros Ex Lr Lr' It Is. destruct (parts_matrix rt rt' Ex Lr Lr') as (m & m' & f & h & E & E' & Ef & Eh & H).
  exists m, m', f, h. do 4 (split; [assumption|]). intros i j Hi Hj. apply H; auto.
  - apply interior_supported; auto. exact (dn_test _ _ _ _ _ _ _ _ _ DW).
  - apply interior_supported; auto. exact (dn_trial _ _ _ _ _ _ _ _ _ DW).
Qed.
End Two.
End Parts.
