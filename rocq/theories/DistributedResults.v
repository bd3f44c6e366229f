(** * Results on distributed assembly *)
From Verif Require Import Base BaseFacts Topology TopologyFacts DofMap DofMapFacts SpecDof DofMapResults Process Space SpecSpace
  DofExamples SpaceScript SpaceResults Options Adjacency SpecAdjacency AdjacencyFacts Scalar Integrand CellPair Operators SpecLocal Interleave Assembly SpecAssembly
  AssemblySingular AssemblyResults SpecDistributed DistributedFacts.

(** The numbering of a distributed space is that of the space on the whole grid,
    renumbered. *)
Lemma distributed_numbering : forall N G g L fam dm eager sp sdm,
  partition N G g L -> wf_grid G -> wf_family (g_types G 2) fam -> wf_dist N g fam -> dofmaps N g fam dm ->
  creates N eager dm sp -> assign_dofs 0 G fam = Ok sdm ->
  exists number, renumbering (dm_size sdm) number /\ (forall r, r < N -> global_size (sp r) = dm_size sdm) /\
    forall r c l l0, r < N -> has_cell_dofs (dm r) c l -> has_cell_dofs sdm (L r 2 c) l0 ->
      mapM (global_dof_index (sp r)) l = Ok (map number l0).
Proof.
  intros N G g L fam dm eager sp sdm PT WG WF WD HD HC HS.
  exact (numbering N G g L PT WG (wd_grid _ _ _ WD) fam dm eager sp 0 sdm WF WD HD HC HS PT).
Qed.

Lemma Permutation_images {A B : Type} (P : A -> B -> Prop) (l l' : list A) (m : list B) :
  Permutation l l' -> Forall2 P l m -> exists m', Forall2 P l' m' /\ Permutation m m'.
Proof.
  intros Pm. revert m. induction Pm as [|x l l' Pm IH|x y l|l l' l'' P1 IH1 P2 IH2]; intros m H.
  - inversion H. exists []. auto.
  - inversion H as [|? b ? m0 Hx H0]; subst. destruct (IH _ H0) as (m' & F & Q). exists (b :: m'). auto.
  - inversion H as [|? b ? m0 Hy H0]; subst. inversion H0 as [|? b' ? m1 Hx H1]; subst. exists (b' :: b :: m1).
    split; [auto|constructor].
  - destruct (IH1 _ H) as (m' & F & Q). destruct (IH2 _ F) as (m'' & F' & Q'). exists m''. split; auto. now transitivity m'.
Qed.

Lemma Forall2_functional {A B : Type} (P : A -> B -> Prop) l m m' : (forall x y y', P x y -> P x y' -> y = y') ->
  Forall2 P l m -> Forall2 P l m' -> m = m'.
Proof.
  intros F H. revert m'. induction H as [|x y l m Hxy H IH]; intros m' H'; inversion H'; subst; [reflexivity|].
  f_equal; eauto.
Qed.

Lemma Permutation_related {A B : Type} (P : A -> B -> Prop) (l l' : list A) (m m' : list B) :
  (forall x y y', P x y -> P x y' -> y = y') -> Permutation l l' -> Forall2 P l m -> Forall2 P l' m' -> Permutation m m'.
Proof.
  intros F Pm H H'. destruct (Permutation_images P l l' m Pm H) as (n & Hn & Q).
  now rewrite (Forall2_functional P l' m' n F H' Hn).
Qed.

Lemma Forall2_map_l {A B C : Type} (P : B -> C -> Prop) (f : A -> B) l m : Forall2 (fun x y => P (f x) y) l m -> Forall2 P (map f l) m.
Proof. induction 1; cbn; auto. Qed.

Lemma partition_ext N G g g' L : (forall r, r < N -> g r = g' r) -> partition N G g L -> partition N G g' L.
Proof.
  intros E [[P1 P2 P3 P4 P5 P6] P7 P8 P9]. constructor; [constructor| | |].
  - intros r d e Hr. rewrite <- (E r Hr). now apply P1.
  - intros r d e e' Hr. rewrite <- (E r Hr). now apply P2.
  - intros r Hr. rewrite <- (E r Hr). now apply P3.
  - intros r Hr. rewrite <- (E r Hr). now apply P4.
  - intros r c Hr. rewrite <- (E r Hr). now apply P5.
  - intros r c d Hr. rewrite <- (E r Hr). now apply P6.
  - intros r d e Hr Hd He. rewrite <- (E r Hr) in He |- *. destruct (P7 r d e Hr Hd He) as [H|(p & x & Hp & Hx & H)]; [now left|].
    right. exists p, x. now rewrite <- (E p Hp).
  - intros r r' d e e' Hr Hr'. rewrite <- (E r Hr), <- (E r' Hr'). now apply P8.
  - intros C HC. destruct (P9 C HC) as (r & c & Hr & Hc & H). exists r, c. now rewrite <- (E r Hr).
Qed.

Lemma bounded_choice {A : Type} (d : A) (P : nat -> A -> Prop) n : (forall r, r < n -> exists a, P r a) -> exists f, forall r, r < n -> P r (f r).
Proof.
  induction n as [|n IH]; intros H.
  - exists (fun _ => d). intros; lia.
  - destruct IH as (f & Hf); [intros; apply H; lia|]. destruct (H n) as (m & Hm); [lia|].
    exists (fun i => if i =? n then m else f i). intros i Hi. destruct (Nat.eqb_spec i n); [now subst|]. apply Hf. lia.
Qed.

Section Distributed.
Context {T R : Type} (S : scalar T R) (X : externals R).

Lemma singular_value_unique O deg test trial t s a b v w :
  singular_value S X O deg test trial t s a b v -> singular_value S X O deg test trial t s a b w -> v = w.
Proof.
  intros (p & k & d & q & A & K & D & Q & ->) (p' & k' & d' & q' & A' & K' & D' & Q' & ->).
  assert (p = p') by (eapply adjacency_unique; eauto). subst p'. assert (d = d') by (eapply shared_dimension_unique; eauto). subst d'.
  rewrite K in K'. inversion K'; subst k'. rewrite Q in Q'. now inversion Q'.
Qed.

Lemma serial_index (fs : fspace T R) i : serial_space fs -> i < dm_size (sp_dofmap (fs_space fs)) ->
  global_dof_index (fs_space fs) i = Ok i.
Proof.
  intros [W F P Ow D (eager & sp & C & E) Np] Hi.
  destruct (serial_identity (fs_grid fs) (fs_family fs) (sp_dofmap (fs_space fs)) eager sp W F) as (_ & _ & Ls & H & _); auto.
  - intros c d j e p x (Hc & Hd & Hj). rewrite Ow; [discriminate|auto|].
    apply (wf_sub_lt _ W c d e Hc Hd). eapply nth_error_In; eauto.
  - rewrite <- E. apply H. now rewrite Ls.
Qed.

Lemma serial_dofs_lt (fs : fspace T R) : serial_space fs -> forall c i, c < ent_count (fs_grid fs) 2 -> In i (dofs_at fs c) ->
  i < dm_size (sp_dofmap (fs_space fs)).
Proof.
  intros [W F P Ow D _ _] c i Hc Hi. destruct (cell_dofs_distinct_in_range _ _ _ _ c W F D Hc) as (l & Hl & _ & _ & H).
  apply H. unfold dofs_at in Hi. unfold has_cell_dofs in Hl. now rewrite Hl in Hi.
Qed.

Lemma serial_size (fs : fspace T R) : serial_space fs -> global_size (fs_space fs) = dm_size (sp_dofmap (fs_space fs)).
Proof.
  intros [W F P Ow D (eager & sp & C & E) Np].
  destruct (serial_identity (fs_grid fs) (fs_family fs) (sp_dofmap (fs_space fs)) eager sp W F) as (_ & Gs & Ls & H & _); auto.
  - intros c d j e p x (Hc & Hd & Hj). rewrite Ow; [discriminate|auto|].
    apply (wf_sub_lt _ W c d e Hc Hd). eapply nth_error_In; eauto.
  - now rewrite <- E, Gs, Ls.
Qed.

(** The spaces of the processes and the one on the whole grid. *)
Lemma spaces_numbering N (L : nat -> nat -> nat -> nat) (fs : nat -> fspace T R) (whole : fspace T R) :
  distributed_space N fs -> serial_space whole -> same_elements N fs whole ->
  partition N (fs_grid whole) (fun r => fs_grid (fs r)) L ->
  exists number, renumbering (global_size (fs_space whole)) number /\
    (forall r, r < N -> global_size (fs_space (fs r)) = global_size (fs_space whole)) /\
    forall r c, r < N -> c < ent_count (fs_grid (fs r)) 2 ->
      mapM (global_dof_index (fs_space (fs r))) (dofs_at (fs r) c) = Ok (map number (dofs_at whole (L r 2 c))).
Proof.
  intros DS SW [Ef _ _] PT. assert (Sz := serial_size whole SW).
  destruct DS as [WD Fa HD (eager & sp & HC & Es) Np].
  pose proof SW as SW'. destruct SW' as [W F P Ow D Cr Np'].
  destruct (le_lt_dec N 0) as [H0|H0].
  { exists (fun i => i). split; [|split; intros; lia]. split; [auto|]. split; [auto|eauto]. }
  assert (Efam : fs_family (fs 0) = fs_family whole) by (apply Ef; lia).
  destruct (distributed_numbering N (fs_grid whole) (fun r => fs_grid (fs r)) L (fs_family (fs 0)) (fun r => sp_dofmap (fs_space (fs r))) eager sp
    (sp_dofmap (fs_space whole)) PT W) as (number & Rn & Gs & Hn); auto; try (now rewrite Efam).
  exists number. rewrite Sz. split; auto. split.
  - intros r Hr. rewrite <- (Es r Hr). now apply Gs.
  - intros r c Hr Hc. rewrite <- (Es r Hr). apply (Hn r c); auto.
    + unfold dofs_at. destruct (cell_dofs_distinct_in_range _ _ _ _ c (wd_grid _ _ _ WD r Hr) (wd_fam _ _ _ WD r Hr) (HD r Hr) Hc) as (l & Hl & _).
      unfold has_cell_dofs in *. now rewrite Hl.
    + unfold dofs_at. destruct (cell_dofs_distinct_in_range _ _ _ _ (L r 2 c) W F D) as (l & Hl & _); [now apply (pt_lt _ _ _ _ PT)|].
      unfold has_cell_dofs in *. now rewrite Hl.
Qed.

Lemma dofs_at_length (fs : fspace T R) c : member fs -> c < ent_count (fs_grid fs) 2 ->
  length (dofs_at fs c) = el_dim (fs_family fs (g_ctype (fs_grid fs) c)).
Proof.
  intros M Hc. destruct (member_dofs fs c M Hc) as (Ck & _ & _). apply Ck.
Qed.

Section Setting.
Variables (wmod : nat) (O : operator T R) (o : options) (deg : cell_type -> cell_type -> nat) (N : nat) (L : nat -> nat -> nat -> nat).
Variables (test trial : nat -> fspace T R) (wtest wtrial : fspace T R).
Hypothesis DS : distributed_setting X wmod O o deg N L test trial wtest wtrial.

Notation G := (fs_grid wtest).
Notation g := (fun r => fs_grid (test r)).

Lemma setting_PT : partition N G g L. Proof. exact (dd_partition _ _ _ _ _ _ _ _ _ _ _ DS). Qed.
Lemma setting_WG : wf_grid G. Proof. exact (ss_grid _ (dd_wtest _ _ _ _ _ _ _ _ _ _ _ DS)). Qed.
Lemma setting_Wg r : r < N -> wf_grid (fs_grid (test r)).
Proof. exact (wd_grid _ _ _ (ds_dist _ _ (dd_test _ _ _ _ _ _ _ _ _ _ _ DS)) r). Qed.
Lemma setting_wsame : fs_grid wtrial = G. Proof. symmetry. exact (sg_same _ _ _ _ _ _ _ (dd_whole _ _ _ _ _ _ _ _ _ _ _ DS)). Qed.

Lemma setting_member_test r : r < N -> member (test r).
Proof. intros Hr. exists N, test, r. split; [exact (dd_test _ _ _ _ _ _ _ _ _ _ _ DS)|auto]. Qed.
Lemma setting_member_trial r : r < N -> member (trial r).
Proof. intros Hr. exists N, trial, r. split; [exact (dd_trial _ _ _ _ _ _ _ _ _ _ _ DS)|auto]. Qed.

(** The parts inherit what singular assembly needs. *)
Lemma part_setting r : r < N -> singular_setting X wmod O o deg (test r) (trial r).
Proof.
  intros Hr. pose proof setting_PT as PT. pose proof setting_WG as WG. pose proof setting_Wg as Wg.
  pose proof (dd_same _ _ _ _ _ _ _ _ _ _ _ DS r Hr) as Sm.
  pose proof (dd_test_elements _ _ _ _ _ _ _ _ _ _ _ DS) as Et. pose proof (dd_trial_elements _ _ _ _ _ _ _ _ _ _ _ DS) as Es.
  pose proof setting_wsame as Ws.
  destruct (dd_whole _ _ _ _ _ _ _ _ _ _ _ DS) as [Mt Ms Sa Sp Ct Cs Fo Pr De Du Co Hb Hw Hf].
  pose proof (pt_types _ _ _ _ PT r Hr) as Ty.
  constructor; auto.
  - now apply setting_member_test.
  - now apply setting_member_trial.
  - unfold in_space in *. rewrite (pt_gdim _ _ _ _ PT r Hr). exact Sp.
  - intros t Ht. rewrite (se_components _ _ _ Et r Hr). apply Ct, Ty, Ht.
  - intros t Ht. rewrite (se_components _ _ _ Es r Hr). apply Cs. rewrite Ws. apply Ty. now rewrite Sm.
  - intros t s Ht Hs. apply De; now apply Ty.
  - intros t s p kind Ht Hs. apply Du; now apply Ty.
  - apply (part_conforming N G g L PT Wg r Hr Co).
  - apply (part_pairs_fit N G g L PT Wg wmod r Hr Hf).
Qed.

(** The number of functions of a cell. *)
Lemma part_functions_test r c : r < N -> c < ent_count (fs_grid (test r)) 2 -> length (dofs_at (test r) c) = length (dofs_at wtest (L r 2 c)).
Proof.
  intros Hr Hc. pose proof setting_PT as PT.
  rewrite (dofs_at_length (test r) c (setting_member_test r Hr) Hc).
  rewrite (dofs_at_length wtest) by (auto using serial_member, (dd_wtest _ _ _ _ _ _ _ _ _ _ _ DS); now apply (pt_lt _ _ _ _ PT)).
  rewrite (pt_ctype _ _ _ _ PT r c Hr Hc), (se_family _ _ _ (dd_test_elements _ _ _ _ _ _ _ _ _ _ _ DS) r Hr). reflexivity.
Qed.
Lemma part_functions_trial r c : r < N -> c < ent_count (fs_grid (test r)) 2 -> length (dofs_at (trial r) c) = length (dofs_at wtrial (L r 2 c)).
Proof.
  intros Hr Hc. pose proof setting_PT as PT. pose proof (dd_same _ _ _ _ _ _ _ _ _ _ _ DS r Hr) as Sm. pose proof setting_wsame as Ws.
  rewrite (dofs_at_length (trial r) c (setting_member_trial r Hr)) by congruence.
  rewrite (dofs_at_length wtrial) by (auto using serial_member, (dd_wtrial _ _ _ _ _ _ _ _ _ _ _ DS); rewrite Ws; now apply (pt_lt _ _ _ _ PT)).
  rewrite Ws, <- Sm, (pt_ctype _ _ _ _ PT r c Hr Hc), (se_family _ _ _ (dd_trial_elements _ _ _ _ _ _ _ _ _ _ _ DS) r Hr). reflexivity.
Qed.

(** The values are those of the whole grid. *)
Lemma part_value r t s a b v : r < N -> t < ent_count (fs_grid (test r)) 2 -> s < ent_count (fs_grid (test r)) 2 ->
  singular_value S X O deg (test r) (trial r) t s a b v -> singular_value S X O deg wtest wtrial (L r 2 t) (L r 2 s) a b v.
Proof.
  intros Hr Ht Hs (p & k & d & q & A & K & D & Q & E). pose proof setting_PT as PT. pose proof setting_Wg as Wg.
  exists p, k, d, q. rewrite !(pt_ctype _ _ _ _ PT r) by auto.
  split; [exact (part_adjacency N G g L PT Wg r t s p Hr Ht Hs A)|]. split; auto.
  split; [exact (part_shared N G g L PT Wg r t s d Hr Ht Hs D)|]. split; auto.
  rewrite E. pose proof (dd_geometry _ _ _ _ _ _ _ _ _ _ _ DS) as Ge.
  rewrite <- !(Ge r) by auto.
  now rewrite (se_basis _ _ _ (dd_test_elements _ _ _ _ _ _ _ _ _ _ _ DS) r Hr), (se_basis _ _ _ (dd_trial_elements _ _ _ _ _ _ _ _ _ _ _ DS) r Hr).
Qed.

(** Labels of the processes. *)
Definition part_label (K : (nat * nat) * (nat * nat)) : Prop :=
  touch G (fst (fst K)) (snd (fst K)) /\
  (exists r, r < N /\ owned_cell g L r (fst (fst K)) /\ stored g L r (snd (fst K))) /\
  fst (snd K) < length (dofs_at wtest (fst (fst K))) /\ snd (snd K) < length (dofs_at wtrial (snd (fst K))).

Lemma whole_label_iff ks : (forall r, r < N -> forall k, In k (ks r) <-> singular_label (test r) (trial r) k) ->
  forall K, In K (flat_map (fun r => map (whole_label L r) (ks r)) (seq 0 N)) <-> part_label K.
Proof.
  intros Hk [[C C'] [a b]]. pose proof setting_PT as PT. pose proof setting_Wg as Wg. unfold part_label. cbn [fst snd]. rewrite in_flat_map. split.
  - intros (r & Hr & H). apply in_seq in Hr. assert (Hr' : r < N) by lia. apply in_map_iff in H. destruct H as ([[t s] [a' b']] & E & H).
    unfold whole_label in E. cbn [fst snd] in E. inversion E; subst. apply (Hk r Hr') in H. destruct H as (Ht & Hs & Ho & To & Ha & Hb).
    split; [now apply (part_touch N G g L PT Wg)|].
    split; [exists r; repeat split; auto; [exists t; auto|exists s; auto]|].
    rewrite <- part_functions_test, <- part_functions_trial; auto.
  - intros (To & (r & Hr & (t & Ht & Et & Ho) & (s & Hs & Es)) & Ha & Hb). subst C C'.
    exists r. split; [apply in_seq; lia|]. apply in_map_iff. exists ((t, s), (a, b)). split; [reflexivity|].
    apply (Hk r Hr). split; auto. split; auto. split; auto.
    split; [now apply (part_touch N G g L PT Wg) in To|]. rewrite part_functions_test, part_functions_trial; auto.
Qed.

Lemma whole_label_once ks : (forall r, r < N -> NoDup (ks r) /\ forall k, In k (ks r) <-> singular_label (test r) (trial r) k) ->
  NoDup (flat_map (fun r => map (whole_label L r) (ks r)) (seq 0 N)).
Proof.
  intros Hk. pose proof setting_PT as PT. apply NoDup_flat_map.
  - apply seq_NoDup.
  - intros r Hr. apply in_seq in Hr. assert (Hr' : r < N) by lia. destruct (Hk r Hr') as (Nd & Hi). clear Hk.
    assert (Hl : forall k, In k (ks r) -> singular_label (test r) (trial r) k) by (intros k Hin; now apply Hi). clear Hi.
    induction Nd as [|k l Hn Nd IH]; cbn; constructor.
    + intros H. apply in_map_iff in H. destruct H as (k' & E & H).
      pose proof (Hl k (or_introl eq_refl)) as H1. pose proof (Hl k' (or_intror H)) as H2. destruct k as [[t s] [a b]], k' as [[t' s'] [a' b']].
      unfold whole_label in E. cbn [fst snd] in E. inversion E as [[E1 E2 E3 E4]].
      destruct H1 as (Ht & Hs & _). destruct H2 as (Ht' & Hs' & _).
      apply (pt_inj _ _ _ _ PT r 2) in E1; auto. apply (pt_inj _ _ _ _ PT r 2) in E2; auto. now subst.
    + apply IH. intros; apply Hl; now right.
  - intros r r' K Hr Hr' H H'. apply in_seq in Hr, Hr'. assert (A : r < N) by lia. assert (A' : r' < N) by lia.
    apply in_map_iff in H, H'. destruct H as ([[t s] [a b]] & E & H). destruct H' as ([[t' s'] [a' b']] & E' & H').
    apply (Hk r A) in H. apply (Hk r' A') in H'. destruct H as (Ht & _ & Ho & _). destruct H' as (Ht' & _ & Ho' & _).
    rewrite <- E' in E. unfold whole_label in E. cbn [fst snd] in E. inversion E as [[E1 E2 E3 E4]].
    apply (pt_once _ _ _ _ PT r r' 2 t t'); auto.
Qed.

Lemma trial_partition : partition N (fs_grid wtrial) (fun r => fs_grid (trial r)) L.
Proof. rewrite setting_wsame. exact (partition_ext N G g _ L (dd_same _ _ _ _ _ _ _ _ _ _ _ DS) setting_PT). Qed.

Lemma test_numbering : exists number, renumbering (global_size (fs_space wtest)) number /\
    (forall r, r < N -> global_size (fs_space (test r)) = global_size (fs_space wtest)) /\
    forall r c, r < N -> c < ent_count (fs_grid (test r)) 2 ->
      mapM (global_dof_index (fs_space (test r))) (dofs_at (test r) c) = Ok (map number (dofs_at wtest (L r 2 c))).
Proof.
  exact (spaces_numbering N L test wtest (dd_test _ _ _ _ _ _ _ _ _ _ _ DS) (dd_wtest _ _ _ _ _ _ _ _ _ _ _ DS)
    (dd_test_elements _ _ _ _ _ _ _ _ _ _ _ DS) setting_PT).
Qed.

Lemma trial_numbering : exists number, renumbering (global_size (fs_space wtrial)) number /\
    (forall r, r < N -> global_size (fs_space (trial r)) = global_size (fs_space wtrial)) /\
    forall r c, r < N -> c < ent_count (fs_grid (test r)) 2 ->
      mapM (global_dof_index (fs_space (trial r))) (dofs_at (trial r) c) = Ok (map number (dofs_at wtrial (L r 2 c))).
Proof.
  destruct (spaces_numbering N L trial wtrial (dd_trial _ _ _ _ _ _ _ _ _ _ _ DS) (dd_wtrial _ _ _ _ _ _ _ _ _ _ _ DS)
    (dd_trial_elements _ _ _ _ _ _ _ _ _ _ _ DS) trial_partition) as (h & H1 & H2 & H3).
  exists h. split; auto. split; auto. intros r c Hr Hc. apply H3; auto. now rewrite <- (dd_same _ _ _ _ _ _ _ _ _ _ _ DS r Hr).
Qed.

(** The contribution of a process with its labels. *)
Definition contribution (rt : runtime T) (r : nat) (m : sparse T) (ks : list ((nat * nat) * (nat * nat))) : Prop :=
  assemble_singular_part S X rt wmod O o (global_size (fs_space (test r)), global_size (fs_space (trial r))) (trial r) (test r) = Ok m /\
  sm_shape m = (global_size (fs_space wtest), global_size (fs_space wtrial)) /\ NoDup ks /\
  (forall k, In k ks <-> singular_label (test r) (trial r) k) /\
  Forall2 (fun k x => triplet_of (test r) (trial r) (singular_value S X O deg (test r) (trial r))
             (fst (fst k)) (snd (fst k)) (fst (snd k)) (snd (snd k)) x) ks (triplets m).

Lemma contributions (rt : nat -> runtime T) : (forall r, r < N -> legal_runtime (s_add S) (rt r)) ->
  exists ms ks, forall r, r < N -> contribution (rt r) r (ms r) (ks r).
Proof.
  intros Lr. destruct test_numbering as (_ & _ & Gt & _). destruct trial_numbering as (_ & _ & Gs & _).
  destruct (bounded_choice (sparse_new (0, 0), []) (fun r mk => contribution (rt r) r (fst mk) (snd mk)) N) as (f & Hf).
  - intros r Hr. destruct (singular_part_labels S X (rt r) wmod O o deg (test r) (trial r) (Lr r Hr) (part_setting r Hr)) as (m & ks & E & Sh & _ & _ & _ & Nd & Hi & F).
    exists (m, ks). unfold contribution. cbn [fst snd]. rewrite <- (Gt r Hr), <- (Gs r Hr). auto.
  - exists (fun r => fst (f r)), (fun r => snd (f r)). exact Hf.
Qed.

(** Every process assembles, and every pair of an owned test cell and a stored trial
    cell that touch occurs on one process, once for each pair of functions. *)
Theorem distributed_pairs (rt : nat -> runtime T) : (forall r, r < N -> legal_runtime (s_add S) (rt r)) ->
  exists ms ks,
    (forall r, r < N ->
      assemble_singular_part S X (rt r) wmod O o (global_size (fs_space (test r)), global_size (fs_space (trial r))) (trial r) (test r) = Ok (ms r) /\
      sm_shape (ms r) = (global_size (fs_space wtest), global_size (fs_space wtrial)) /\
      Forall2 (fun k x => triplet_of (test r) (trial r) (singular_value S X O deg (test r) (trial r))
                 (fst (fst k)) (snd (fst k)) (fst (snd k)) (snd (snd k)) x) (ks r) (triplets (ms r))) /\
    NoDup (flat_map (fun r => map (whole_label L r) (ks r)) (seq 0 N)) /\
    (forall C C' a b, In ((C, C'), (a, b)) (flat_map (fun r => map (whole_label L r) (ks r)) (seq 0 N)) <->
       touch G C C' /\ (exists r, r < N /\ owned_cell g L r C /\ stored g L r C') /\
       a < length (dofs_at wtest C) /\ b < length (dofs_at wtrial C')).
Proof.
  intros Lr. destruct (contributions rt Lr) as (ms & ks & H). exists ms, ks. split; [|split].
  - intros r Hr. destruct (H r Hr) as (E & Sh & _ & _ & F). auto.
  - apply whole_label_once. intros r Hr. destruct (H r Hr) as (_ & _ & Nd & Hi & _). auto.
  - intros C C' a b. apply (whole_label_iff ks). intros r Hr. destruct (H r Hr) as (_ & _ & _ & Hi & _). exact Hi.
Qed.

(** The triplet of a label of the whole grid, with the numbers of the processes. *)
Definition whole_triplet (f h : nat -> nat) (K : (nat * nat) * (nat * nat)) (x : nat * nat * T) : Prop :=
  exists y, triplet_of wtest wtrial (singular_value S X O deg wtest wtrial) (fst (fst K)) (snd (fst K)) (fst (snd K)) (snd (snd K)) y /\
    x = renumber f h y.

Lemma whole_triplet_fun f h K x x' : whole_triplet f h K x -> whole_triplet f h K x' -> x = x'.
Proof.
  intros (y & (i & j & H1 & H2 & H3 & H4 & H5) & ->) (y' & (i' & j' & H1' & H2' & H3' & H4' & H5') & ->).
  assert (i = i') by congruence. assert (j = j') by congruence. subst i' j'.
  assert (E := singular_value_unique _ _ _ _ _ _ _ _ _ _ H5 H5'). destruct y as [[p q] v], y' as [[p' q'] v']. cbn [fst snd] in *. congruence.
Qed.

Lemma mapM_nth {A B : Type} (f : A -> res B) l ys x a : mapM f l = Ok ys -> nth_error l x = Some a ->
  exists b, nth_error ys x = Some b /\ f a = Ok b.
Proof.
  revert ys x. induction l as [|c l IH]; intros ys x H Hx; [now destruct x|]. cbn [mapM] in H.
  apply bind_Ok_inv in H. destruct H as (y & Ey & H). apply bind_Ok_inv in H. destruct H as (zs & Ez & H). inversion H; subst.
  destruct x as [|x]; cbn in *; [inversion Hx; subst; eauto|eauto].
Qed.

(** The processes together assemble what one process with the whole grid assembles. *)
Theorem distributed_serial (rt : nat -> runtime T) (wrt : runtime T) :
  (forall r, r < N -> legal_runtime (s_add S) (rt r)) -> legal_runtime (s_add S) wrt -> vertex_layer N G g L ->
  exists ms m f h,
    (forall r, r < N ->
      assemble_singular_part S X (rt r) wmod O o (global_size (fs_space (test r)), global_size (fs_space (trial r))) (trial r) (test r) = Ok (ms r) /\
      sm_shape (ms r) = sm_shape m) /\
    assemble_singular_part S X wrt wmod O o (global_size (fs_space wtest), global_size (fs_space wtrial)) wtrial wtest = Ok m /\
    renumbering (global_size (fs_space wtest)) f /\ renumbering (global_size (fs_space wtrial)) h /\
    (forall r c, r < N -> c < ent_count (fs_grid (test r)) 2 ->
      mapM (global_dof_index (fs_space (test r))) (dofs_at (test r) c) = Ok (map f (dofs_at wtest (L r 2 c))) /\
      mapM (global_dof_index (fs_space (trial r))) (dofs_at (trial r) c) = Ok (map h (dofs_at wtrial (L r 2 c)))) /\
    Permutation (flat_map (fun r => triplets (ms r)) (seq 0 N)) (map (renumber f h) (triplets m)).
Proof.
  intros Lr Lw VL. destruct (contributions rt Lr) as (ms & ks & H).
  destruct test_numbering as (f & Rf & _ & Nf). destruct trial_numbering as (h & Rh & _ & Nh).
  pose proof setting_PT as PT. pose proof setting_Wg as Wg. pose proof setting_wsame as Ws.
  pose proof (dd_wtest _ _ _ _ _ _ _ _ _ _ _ DS) as St. pose proof (dd_wtrial _ _ _ _ _ _ _ _ _ _ _ DS) as Ss.
  destruct (singular_part_labels S X wrt wmod O o deg wtest wtrial Lw (dd_whole _ _ _ _ _ _ _ _ _ _ _ DS)) as (m & k0 & E & Sh & _ & _ & _ & Nd & Hi & F).
  exists ms, m, f, h. split; [|split; [exact E|split; [exact Rf|split; [exact Rh|split]]]].
  - intros r Hr. destruct (H r Hr) as (E1 & Sh1 & _). split; auto. now rewrite Sh1, Sh.
  - intros r c Hr Hc. auto.
  - apply (Permutation_related (whole_triplet f h) (flat_map (fun r => map (whole_label L r) (ks r)) (seq 0 N)) k0 _ _ (whole_triplet_fun f h)).
    + apply NoDup_Permutation; auto.
      * apply whole_label_once. intros r Hr. destruct (H r Hr) as (_ & _ & Nd' & Hi' & _). auto.
      * intros K. rewrite (whole_label_iff ks) by (intros r Hr; now destruct (H r Hr) as (_ & _ & _ & Hi' & _)).
        rewrite Hi. destruct K as [[C C'] [a b]]. unfold part_label, singular_label. cbn [fst snd]. split.
        -- intros (To & (r & Hr & (t & Ht & Et & Ho) & (s & Hs & Es)) & Ha & Hb). subst C C'.
           split; [now apply (pt_lt _ _ _ _ PT)|]. split; [now apply (pt_lt _ _ _ _ PT)|].
           split; [apply (ss_owned _ St); auto; now apply (pt_lt _ _ _ _ PT)|]. auto.
        -- intros (HC & HC' & _ & To & Ha & Hb). split; auto. split; auto.
           destruct (part_owner N G g L C PT HC) as (r & Hr & Ho). exists r. split; auto. split; auto. apply (VL r C); auto.
    + apply Forall2_flat_map_same. intros r Hr. apply in_seq in Hr. assert (Hr' : r < N) by lia. destruct (H r Hr') as (_ & _ & _ & Hi' & F').
      apply Forall2_map_l. revert F'. apply Forall2_impl_in. intros k [[p q] v] Hk _ (i & j & H1 & H2 & H3 & H4 & H5).
      apply Hi' in Hk. destruct k as [[t s] [a b]]. destruct Hk as (Ht & Hs & _). cbn [fst snd] in *.
      destruct (mapM_nth _ _ _ a i (Nf r t Hr' Ht) H1) as (f' & Ef & Ef'). destruct (mapM_nth _ _ _ b j (Nh r s Hr' Hs) H2) as (h' & Eh & Eh').
      rewrite nth_error_map in Ef, Eh.
      destruct (nth_error (dofs_at wtest (L r 2 t)) a) as [i0|] eqn:Ei; [|discriminate]. destruct (nth_error (dofs_at wtrial (L r 2 s)) b) as [j0|] eqn:Ej; [|discriminate].
      inversion Ef; inversion Eh; subst f' h'. exists ((i0, j0), v). unfold whole_label, renumber. cbn [fst snd]. split.
      * exists i0, j0. cbn [fst snd]. split; auto. split; auto. split; [|split].
        -- apply serial_index; auto. apply (serial_dofs_lt wtest St (L r 2 t)); [now apply (pt_lt _ _ _ _ PT)|]. eapply nth_error_In; eauto.
        -- apply serial_index; auto. apply (serial_dofs_lt wtrial Ss (L r 2 s)); [rewrite Ws; now apply (pt_lt _ _ _ _ PT)|]. eapply nth_error_In; eauto.
        -- now apply part_value.
      * congruence.
    + apply Forall2_map_r. revert F. apply Forall2_impl_in. intros k x _ _ Hx. exists x. auto.
Qed.
End Setting.
End Distributed.
