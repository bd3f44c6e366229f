(** * Spaces that contain the surface curls and the normals of the functions of a space *)
From Coq Require Import Ring_theory Ring.
From Verif Require Import Base BaseFacts Topology TopologyFacts DofMap DofMapFacts SpecDof DofMapResults DofExamples Process Space SpecSpace Options Batch SpecBatch
  Adjacency SpecAdjacency Scalar Integrand CellPair Operators SpecLocal LocalFacts LocalResults Interleave Assembly SpecAssembly
  AssemblyFacts AssemblySingular AssemblyDense AssemblyExact AssemblyResults SpecAlgebra AlgebraFacts AlgebraResults
  SpecDistributed DistributedFacts DistributedResults SpecBroken BrokenResults SpecGalerkin GalerkinResults SpecCurls CurlResults.

Section Spaces.
Context {T R : Type} (S : scalar T R) (one : T) (RT : ring_theory (s_zero S) one (s_add S) (s_mul S) (s_sub S) (s_neg S) eq).
Add Ring scalar_ring : RT.
Local Notation "a +! b" := (s_add S a b) (at level 50, left associativity).
Local Notation "a *! b" := (s_mul S a b) (at level 40, left associativity).

(** ** Basis functions on a cell *)

Lemma restricted_at (fs : fspace T R) c a i points d p : NoDup (dofs_at fs c) -> nth_error (dofs_at fs c) a = Some i ->
  restricted S fs c i points d p = fs_basis fs (g_ctype (fs_grid fs) c) points d p a 0.
Proof.
  intros Nd Ha. unfold restricted.
  rewrite (total_ext S _ _ (fun ai => if fst ai =? a then fs_basis fs (g_ctype (fs_grid fs) c) points d p (fst ai) 0 else s_zero S)).
  - rewrite (total_enumerate S (dofs_at fs c) (fun b => if b =? a then fs_basis fs (g_ctype (fs_grid fs) c) points d p b 0 else s_zero S)).
    rewrite <- (total_pick S one RT (length (dofs_at fs c)) a (fs_basis fs (g_ctype (fs_grid fs) c) points d p a 0)).
    + apply total_ext. intros b _. rewrite (Nat.eqb_sym a b). destruct (Nat.eqb_spec b a) as [->|]; reflexivity.
    + apply nth_error_Some. congruence.
  - intros [b k] H. cbn [fst snd]. apply In_enumerate in H. cbn [fst snd] in H.
    destruct (Nat.eqb_spec k i) as [->|N], (Nat.eqb_spec b a) as [->|N']; try reflexivity; exfalso.
    + apply N'. apply (proj1 (NoDup_nth_error _) Nd); [apply nth_error_Some|]; congruence.
    + congruence.
Qed.

Lemma restricted_off (fs : fspace T R) c i points d p : ~ In i (dofs_at fs c) -> restricted S fs c i points d p = s_zero S.
Proof.
  intros N. unfold restricted. apply (total_zero S one RT). intros [b k] H. cbn [fst snd]. apply In_enumerate in H. cbn [fst snd] in H.
  destruct (Nat.eqb_spec k i) as [->|]; [|reflexivity]. exfalso. apply N. eapply nth_error_In; eauto.
Qed.

(** The number of the cell of a DOF in the interior of a cell: a sum with one term. *)
Lemma cell_sum (fine : fspace T R) c k (U : nat -> T) : serial_space fine -> interior_family (g_types (fs_grid fine) 2) (fs_family fine) ->
  c < ent_count (fs_grid fine) 2 -> In k (dofs_at fine c) ->
  total S (seq 0 (ent_count (fs_grid fine) 2)) (fun c' => if memb k (dofs_at fine c') then U c' else s_zero S) = U c.
Proof.
  intros Sf If Hc Hk. rewrite <- (total_pick S one RT (ent_count (fs_grid fine) 2) c (U c)) by auto.
  apply total_ext. intros c' Hc'. apply in_seq in Hc'. destruct (memb k (dofs_at fine c')) eqn:E.
  - apply memb_In in E. assert (c' = c) as -> by (apply (serial_disjoint fine c' c k); auto; lia). now rewrite Nat.eqb_refl.
  - destruct (Nat.eqb_spec c c') as [->|]; [|reflexivity]. apply memb_In in Hk. congruence.
Qed.

(** Functions that are constant on the cells, in spaces whose functions add up to one. *)
Lemma ones_span u (fs fine : fspace T R) (U : nat -> nat -> nat -> T) :
  serial_space fine -> fs_grid fine = fs_grid fs -> interior_family (g_types (fs_grid fine) 2) (fs_family fine) -> adds_to_one S one fine ->
  (forall c i points n p, c < ent_count (fs_grid fs) 2 -> i < global_size (fs_space fs) -> n < 3 -> 2 * (p + 1) <= length points -> u fs c i points n p = U c n i) ->
  exists C, spanned S u fs fine C /\ forall c k n i, c < ent_count (fs_grid fs) 2 -> In k (dofs_at fine c) -> C n k i = U c n i.
Proof.
  intros Sf Eg If Ad H.
  exists (fun n k i => total S (seq 0 (ent_count (fs_grid fine) 2)) (fun c => if memb k (dofs_at fine c) then U c n i else s_zero S)).
  split.
  - split; [exact Eg|]. intros c i points n p Hc Hi Hn Hp. rewrite (H c i points n p) by auto. assert (Hc' : c < ent_count (fs_grid fine) 2) by now rewrite Eg.
    rewrite (restricted_sum S one RT fine c (fun k => total S (seq 0 (ent_count (fs_grid fine) 2)) (fun c' => if memb k (dofs_at fine c') then U c' n i else s_zero S)))
      by (intros k Hk; now apply (serial_lt fine Sf c k)).
    rewrite (total_ext S _ _ (fun ak => U c n i *! fs_basis fine (g_ctype (fs_grid fine) c) points 0 p (fst ak) 0)).
    + rewrite (total_mul S one RT), (total_enumerate S (dofs_at fine c) (fun a => fs_basis fine (g_ctype (fs_grid fine) c) points 0 p a 0)), (dofs_at_dim fine c Sf Hc').
      rewrite (proj1 (Ad (g_ctype (fs_grid fine) c) points p (wf_ctype (fs_grid fine) (ss_grid _ Sf) c Hc'))). ring.
    + intros [a k] Ha. cbn [fst snd]. apply In_enumerate in Ha. cbn [fst snd] in Ha. now rewrite (cell_sum fine c k (fun c' => U c' n i) Sf If Hc' (nth_error_In _ _ Ha)).
  - intros c k n i Hc Hk. apply (cell_sum fine c k (fun c' => U c' n i)); auto. now rewrite Eg.
Qed.

(** The normals of flat cells times the functions of a space: the space of the functions
    cell by cell. *)
Lemma normals_broken X (fs disc : fspace T R) (U : nat -> nat -> T) : serial_space fs -> serial_space disc -> broken fs disc ->
  (forall c points n p, c < ent_count (fs_grid fs) 2 -> n < 3 -> 2 * (p + 1) <= length points -> normal S (cell_of X fs c points) p n = U c n) ->
  exists N, spanned S (normal_times S X) fs disc N /\
    forall c a a' k i n, c < ent_count (fs_grid fs) 2 -> nth_error (dofs_at disc c) a = Some k -> nth_error (dofs_at fs c) a' = Some i ->
      N n k i = if a =? a' then U c n else s_zero S.
Proof.
  intros Sc Sd B H. destruct (glue_exists fs disc Sc Sd B) as (g & G). assert (Eg := bk_grid _ _ B).
  assert (If : interior_family (g_types (fs_grid disc) 2) (fs_family disc)) by (rewrite Eg; apply (bk_interior _ _ B)).
  exists (fun n k i => total S (seq 0 (ent_count (fs_grid disc) 2)) (fun c => if memb k (dofs_at disc c) then U c n else s_zero S) *! (if g k =? i then one else s_zero S)).
  split.
  - split; [exact Eg|]. intros c i points n p Hc Hi Hn Hp. assert (Hc' : c < ent_count (fs_grid disc) 2) by now rewrite Eg.
    unfold normal_times. rewrite H by auto. destruct (broken_contained S one RT fs disc g Sd B G) as (_ & Ct). rewrite (Ct c i points 0 p) by (auto; lia).
    rewrite <- (total_mul S one RT). apply total_ext. intros k _.
    destruct (in_dec Nat.eq_dec k (dofs_at disc c)) as [Hk|Hk].
    + rewrite (cell_sum disc c k (fun c' => U c' n)) by auto. ring.
    + rewrite (restricted_off disc c k) by auto. ring.
  - intros c a a' k i n Hc Ha Ha'. assert (Hc' : c < ent_count (fs_grid disc) 2) by now rewrite Eg.
    rewrite (cell_sum disc c k (fun c' => U c' n)) by (auto; eapply nth_error_In; eauto).
    assert (Eg' : nth_error (dofs_at fs c) a = Some (g k)) by (rewrite (proj1 G c Hc); now apply map_nth_error).
    destruct (Nat.eqb_spec a a') as [->|N].
    + replace (g k) with i by congruence. rewrite Nat.eqb_refl. ring.
    + destruct (Nat.eqb_spec (g k) i) as [E|]; [|ring]. exfalso. apply N.
      apply (proj1 (NoDup_nth_error _) (serial_distinct fs c Sc Hc)); [apply nth_error_Some|]; congruence.
Qed.

End Spaces.

Theorem exact_spaces : forall (T R : Type) (S : scalar T R) (X : externals R), exact S -> exists one, (forall x, s_mul S one x = x) /\
  (forall (fs fine : fspace T R) (U : nat -> nat -> nat -> T),
    serial_space fine -> fs_grid fine = fs_grid fs -> interior_family (g_types (fs_grid fine) 2) (fs_family fine) -> adds_to_one S one fine ->
    (forall c i points n p, c < ent_count (fs_grid fs) 2 -> i < global_size (fs_space fs) -> n < 3 -> 2 * (p + 1) <= length points ->
       surface_curl S X fs c i points n p = U c n i) ->
    exists C, spanned S (surface_curl S X) fs fine C /\ forall c k n i, c < ent_count (fs_grid fs) 2 -> In k (dofs_at fine c) -> C n k i = U c n i) /\
  (forall (fs disc : fspace T R) (U : nat -> nat -> T), serial_space fs -> serial_space disc -> broken fs disc ->
    (forall c points n p, c < ent_count (fs_grid fs) 2 -> n < 3 -> 2 * (p + 1) <= length points -> normal S (cell_of X fs c points) p n = U c n) ->
    exists N, spanned S (normal_times S X) fs disc N /\
      forall c a a' k i n, c < ent_count (fs_grid fs) 2 -> nth_error (dofs_at disc c) a = Some k -> nth_error (dofs_at fs c) a' = Some i ->
        N n k i = if a =? a' then U c n else s_zero S).
Proof.
  intros T R S X ((one & RT) & _). exists one. split; [apply (Rmul_1_l RT)|]. split.
  - exact (ones_span S one RT (surface_curl S X)).
  - exact (normals_broken S one RT X).
Qed.

(** One constant function on each cell adds up to one. *)
Lemma constants_add {T R : Type} (S : scalar T R) one (RT : ring_theory (s_zero S) one (s_add S) (s_mul S) (s_sub S) (s_neg S) eq) (fs : fspace T R) :
  constants S one fs -> adds_to_one S one fs.
Proof.
  intros [D V Z] t points p Ht. rewrite (D t Ht). cbn [seq]. split; [|intros d Hd]; rewrite total_cons, total_nil, ?V, ?Z by auto.
  - rewrite (Radd_comm RT). apply (Radd_0_l RT).
  - apply (Radd_0_l RT).
Qed.
