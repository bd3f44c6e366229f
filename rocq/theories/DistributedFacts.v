(** * Facts about the parts of a grid *)
From Verif Require Import Base BaseFacts Topology TopologyFacts DofMap DofMapFacts SpecDof DofMapResults Process Space SpecSpace
  SpaceScript SpaceResults Options Adjacency SpecAdjacency Scalar Integrand CellPair Operators SpecLocal Interleave Assembly SpecAssembly
  AssemblySingular SpecDistributed.

(** ** Numbers *)

Lemma finite_choice (P : nat -> nat -> Prop) n : (forall i, i < n -> exists m, P i m) ->
  exists f, forall i, i < n -> P i (f i).
Proof.
  induction n as [|n IH]; intros H.
  - exists (fun _ => 0). intros; lia.
  - destruct IH as (f & Hf); [intros; apply H; lia|]. destruct (H n) as (m & Hm); [lia|].
    exists (fun i => if i =? n then m else f i). intros i Hi. destruct (Nat.eqb_spec i n); [now subst|]. apply Hf. lia.
Qed.

(** A relation that is one to one between [0..a) and [0..b). *)
Lemma matching (P : nat -> nat -> Prop) a b :
  (forall n, n < a -> exists m, m < b /\ P n m) ->
  (forall m, m < b -> exists n, n < a /\ P n m) ->
  (forall n m m', P n m -> P n m' -> m = m') ->
  (forall n n' m, P n m -> P n' m -> n = n') ->
  a = b /\ exists f, renumbering a f /\ forall n, n < a -> P n (f n).
Proof.
  intros T U F I.
  destruct (finite_choice (fun n m => m < b /\ P n m) a T) as (f & Hf).
  destruct (finite_choice (fun m n => n < a /\ P n m) b U) as (h & Hh).
  assert (Ia : forall i j, i < a -> j < a -> f i = f j -> i = j).
  { intros i j Hi Hj E. apply (I i j (f i)); [now apply Hf|]. rewrite E. now apply Hf. }
  assert (Ib : forall i j, i < b -> j < b -> h i = h j -> i = j).
  { intros i j Hi Hj E. apply (F (h i) i j); [now apply Hh|]. rewrite E. now apply Hh. }
  assert (B : forall x y (k : nat -> nat), (forall i, i < x -> k i < y) -> (forall i j, i < x -> j < x -> k i = k j -> i = j) -> x <= y).
  { intros x y k Hk Hi. rewrite <- (seq_length x 0), <- (map_length k), <- (seq_length y 0). apply NoDup_incl_length.
    - apply NoDup_nth_error. rewrite map_length, seq_length. intros i j Hlt E.
      assert (Hj : j < x).
      { destruct (le_lt_dec x j) as [G|G]; auto. rewrite (proj2 (nth_error_None (map k (seq 0 x)) j)) in E by now rewrite map_length, seq_length.
        apply nth_error_None in E. rewrite map_length, seq_length in E. lia. }
      rewrite !nth_error_map, !nth_error_seq in E by auto. cbn in E. inversion E. auto.
    - intros m Hm. apply in_map_iff in Hm. destruct Hm as (i & <- & Hi'). apply in_seq in Hi'. apply in_seq. split; [lia|]. apply Hk. lia. }
  assert (E : a = b).
  { apply Nat.le_antisymm; [apply (B a b f); auto|apply (B b a h); auto]; intros; [apply Hf|apply Hh]; auto. }
  split; auto. subst b. exists f. split.
  - split; [intros; now apply Hf|]. split; auto. intros j Hj. exists (h j). split; [now apply Hh|].
    apply (F (h j)); [apply Hf|]; now apply Hh.
  - intros; now apply Hf.
Qed.

Lemma mapM_pointwise {A B : Type} (f : A -> res B) l ys : length l = length ys ->
  (forall x a b, nth_error l x = Some a -> nth_error ys x = Some b -> f a = Ok b) -> mapM f l = Ok ys.
Proof.
  revert ys. induction l as [|a l IH]; intros [|b ys] E H; cbn in E; try discriminate; [reflexivity|].
  cbn [mapM]. rewrite (H 0 a b) by reflexivity. cbn [bind]. rewrite (IH ys); [reflexivity|congruence|].
  intros x a' b' Ha Hb. exact (H (S x) a' b' Ha Hb).
Qed.

(** ** Touching cells *)

Section Parts.
Variables (N : nat) (G : grid) (g : nat -> grid) (L : nat -> nat -> nat -> nat).
Hypothesis PT : inside N G g L.
Hypothesis WG : wf_grid G.
Hypothesis Wg : forall r, r < N -> wf_grid (g r).

Lemma part_In r c d e : r < N -> c < ent_count (g r) 2 -> d <= 2 -> e < ent_count (g r) d ->
  (In (L r d e) (g_sub G (L r 2 c) d) <-> In e (g_sub (g r) c d)).
Proof.
  intros Hr Hc Hd He. rewrite (pt_sub _ _ _ _ PT r c d Hr Hc Hd), in_map_iff. split.
  - intros (x & E & Hx). assert (Hx' := wf_sub_lt _ (Wg r Hr) c d x Hc Hd Hx).
    rewrite <- (pt_inj _ _ _ _ PT r d x e Hr Hd Hx' He E). exact Hx.
  - intros H. now exists e.
Qed.

Lemma part_In_inv r c d E : r < N -> c < ent_count (g r) 2 -> d <= 2 -> In E (g_sub G (L r 2 c) d) ->
  exists e, e < ent_count (g r) d /\ In e (g_sub (g r) c d) /\ L r d e = E.
Proof.
  intros Hr Hc Hd H. rewrite (pt_sub _ _ _ _ PT r c d Hr Hc Hd), in_map_iff in H. destruct H as (e & H & He).
  exists e. repeat split; auto. eapply wf_sub_lt; eauto.
Qed.

Lemma part_nth r c d i e : r < N -> c < ent_count (g r) 2 -> d <= 2 -> e < ent_count (g r) d ->
  (nth_error (g_sub G (L r 2 c) d) i = Some (L r d e) <-> nth_error (g_sub (g r) c d) i = Some e).
Proof.
  intros Hr Hc Hd He. rewrite (pt_sub _ _ _ _ PT r c d Hr Hc Hd), nth_error_map.
  destruct (nth_error (g_sub (g r) c d) i) as [x|] eqn:E; cbn; [|split; discriminate].
  assert (Hx := wf_sub_lt _ (Wg r Hr) c d x Hc Hd (nth_error_In _ _ E)). split; intros H; injection H as H'; f_equal; [|now rewrite H'].
  exact (pt_inj _ _ _ _ PT r d x e Hr Hd Hx He H').
Qed.

Lemma part_nth_inv r c d i E : r < N -> c < ent_count (g r) 2 -> d <= 2 -> nth_error (g_sub G (L r 2 c) d) i = Some E ->
  exists e, e < ent_count (g r) d /\ nth_error (g_sub (g r) c d) i = Some e /\ L r d e = E.
Proof.
  intros Hr Hc Hd H. rewrite (pt_sub _ _ _ _ PT r c d Hr Hc Hd), nth_error_map in H.
  destruct (nth_error (g_sub (g r) c d) i) as [e|] eqn:He; [|discriminate]. inversion H. exists e. repeat split; auto.
  eapply wf_sub_lt; eauto. eapply nth_error_In; eauto.
Qed.

Lemma part_sub_at r c d i e : r < N -> sub_at (g r) c d i e -> sub_at G (L r 2 c) d i (L r d e).
Proof.
  intros Hr (Hc & Hd & H). split; [now apply (pt_lt _ _ _ _ PT)|]. split; auto.
  apply part_nth; auto. eapply wf_sub_lt; eauto. eapply nth_error_In; eauto.
Qed.

Lemma part_touch r c c' : r < N -> c < ent_count (g r) 2 -> c' < ent_count (g r) 2 ->
  (touch G (L r 2 c) (L r 2 c') <-> touch (g r) c c').
Proof.
  intros Hr Hc Hc'. split.
  - intros (V & H & H'). destruct (part_In_inv r c 0 V Hr Hc) as (v & Hv & Hi & <-); [lia|assumption|].
    exists v. split; auto. apply (part_In r c' 0 v); auto; lia.
  - intros (v & H & H'). assert (Hv := wf_sub_lt _ (Wg r Hr) c 0 v Hc ltac:(lia) H). exists (L r 0 v).
    split; apply part_In; auto; lia.
Qed.

Lemma part_coincide r c c' i j : r < N -> c < ent_count (g r) 2 -> c' < ent_count (g r) 2 ->
  (coincide G (L r 2 c) (L r 2 c') i j <-> coincide (g r) c c' i j).
Proof.
  intros Hr Hc Hc'. split.
  - intros (V & H & H'). destruct (part_nth_inv r c 0 i V Hr Hc) as (v & Hv & Hi & <-); [lia|assumption|].
    exists v. split; auto. apply (part_nth r c' 0 j v); auto; lia.
  - intros (v & H & H'). assert (Hv := wf_sub_lt _ (Wg r Hr) c 0 v Hc ltac:(lia) (nth_error_In _ _ H)). exists (L r 0 v).
    split; apply part_nth; auto; lia.
Qed.

Lemma part_adjacency r c c' pairs : r < N -> c < ent_count (g r) 2 -> c' < ent_count (g r) 2 ->
  adjacency (g r) c c' pairs -> adjacency G (L r 2 c) (L r 2 c') pairs.
Proof.
  intros Hr Hc Hc' (H & St). split; auto. intros i j. rewrite H. symmetry. now apply part_coincide.
Qed.

Lemma part_same r c c' : r < N -> c < ent_count (g r) 2 -> c' < ent_count (g r) 2 -> (L r 2 c = L r 2 c' <-> c = c').
Proof. intros Hr Hc Hc'. split; [|congruence]. apply (pt_inj _ _ _ _ PT); auto. Qed.

Lemma part_shared r c c' d : r < N -> c < ent_count (g r) 2 -> c' < ent_count (g r) 2 ->
  shared_dimension (g r) c c' d -> shared_dimension G (L r 2 c) (L r 2 c') d.
Proof.
  intros Hr Hc Hc' [(-> & ->)|[(Hn & -> & v & w & Hvw & H1 & H2 & H3 & H4)|(Hn & -> & v & H)]].
  - now left.
  - right. left. rewrite part_same by auto. split; auto. split; auto.
    assert (Hv := wf_sub_lt _ (Wg r Hr) c 0 v Hc ltac:(lia) H1). assert (Hw := wf_sub_lt _ (Wg r Hr) c 0 w Hc ltac:(lia) H3).
    exists (L r 0 v), (L r 0 w). rewrite !part_In by (auto; lia). repeat split; auto.
    intros E. apply Hvw. apply (pt_inj _ _ _ _ PT r 0); auto; lia.
  - right. right. rewrite part_same by auto. split; auto. split; auto.
    destruct (proj2 (H v) eq_refl) as (Hv1 & Hv2). assert (Hv := wf_sub_lt _ (Wg r Hr) c 0 v Hc ltac:(lia) Hv1).
    exists (L r 0 v). intros U. split.
    + intros (H1 & H2). destruct (part_In_inv r c 0 U Hr Hc) as (u & Hu & Hi & <-); [lia|assumption|].
      f_equal. apply H. split; auto. apply (part_In r c' 0 u); auto; lia.
    + intros ->. rewrite !part_In by (auto; lia). auto.
Qed.

Lemma part_edge_of r c v w : r < N -> c < ent_count (g r) 2 -> v < ent_count (g r) 0 -> w < ent_count (g r) 0 ->
  edge_of G (L r 2 c) (L r 0 v) (L r 0 w) -> edge_of (g r) c v w.
Proof.
  intros Hr Hc Hv Hw (a & b & Hab & H). rewrite (pt_ctype _ _ _ _ PT) in Hab by auto. exists a, b. split; auto.
  destruct H as [(H1 & H2)|(H1 & H2)]; [left|right]; split; now apply (part_nth r c 0) in H1, H2; auto; lia.
Qed.

Lemma part_conforming r : r < N -> conforming G -> conforming (g r).
Proof.
  intros Hr Co c c' v w Hc Hc' Hn Hvw H1 H2 H3 H4.
  assert (Hv := wf_sub_lt _ (Wg r Hr) c 0 v Hc ltac:(lia) H1). assert (Hw := wf_sub_lt _ (Wg r Hr) c 0 w Hc ltac:(lia) H3).
  destruct (Co (L r 2 c) (L r 2 c') (L r 0 v) (L r 0 w)) as (E1 & E2 & E3); try (now apply part_In; auto; lia).
  - now apply (pt_lt _ _ _ _ PT).
  - now apply (pt_lt _ _ _ _ PT).
  - now rewrite part_same.
  - intros E. apply Hvw. apply (pt_inj _ _ _ _ PT r 0); auto; lia.
  - split; [now apply part_edge_of|]. split; [now apply part_edge_of|].
    intros u Hu Hu'. assert (Hul := wf_sub_lt _ (Wg r Hr) c 0 u Hc ltac:(lia) Hu).
    destruct (E3 (L r 0 u)) as [E|E]; try (now apply part_In; auto; lia); [left|right]; apply (pt_inj _ _ _ _ PT r 0); auto; lia.
Qed.

Lemma part_pairs_fit wmod r : r < N -> pairs_fit wmod G -> pairs_fit wmod (g r).
Proof.
  intros Hr Pf l Nd H. rewrite <- (map_length (fun p => (L r 2 (fst p), L r 2 (snd p))) l). apply Pf.
  - clear Pf. induction Nd as [|[c c'] l Hn Nd IH]; cbn; constructor.
    + intros Hi. apply in_map_iff in Hi. destruct Hi as ([x y] & E & Hi). cbn [fst snd] in E. inversion E as [[E1 E2]].
      destruct (H c c') as (A1 & A2 & _); [now left|]. destruct (H x y) as (B1 & B2 & _); [now right|].
      apply Hn. apply (part_same r x c) in E1; auto. apply (part_same r y c') in E2; auto. now subst.
    + apply IH. intros x y Hi. apply H. now right.
  - intros C C' Hi. apply in_map_iff in Hi. destruct Hi as ([x y] & E & Hi). inversion E; subst. cbn [fst snd].
    destruct (H x y Hi) as (B1 & B2 & B3). split; [now apply (pt_lt _ _ _ _ PT)|]. split; [now apply (pt_lt _ _ _ _ PT)|]. now apply part_touch.
Qed.

(** Every cell has an owner. *)
(** ** The numbers of the DOFs *)
Section Dofs.
Variables (fam : family) (dm : nat -> dofmap) (eager : msg -> bool) (sp : nat -> space) (rank : nat) (sdm : dofmap).
Hypothesis WF : wf_family (g_types G 2) fam.
Hypothesis WD : wf_dist N g fam.
Hypothesis HD : dofmaps N g fam dm.
Hypothesis HC : creates N eager dm sp.
Hypothesis HS : assign_dofs rank G fam = Ok sdm.

Lemma sp_dm r : r < N -> sp_dofmap (sp r) = dm r.
Proof. intros Hr. now rewrite (creates_unique N g fam dm WD HD eager sp HC r Hr). Qed.

Lemma listed_sub r d e k i : r < N -> listed (dm r) d e k i -> d <= 2 /\ e < ent_count (g r) d /\ exists c j, sub_at (g r) c d j e.
Proof.
  intros Hr H. assert (WFr := wd_fam _ _ _ WD r Hr). assert (HA := HD r Hr).
  apply (listed_edof r (g r) fam (dm r) (Wg r Hr) WFr HA) in H.
  destruct (the_inv r (g r) fam (dm r) (Wg r Hr) WFr HA) as (tags & I).
  destruct (inv_from _ _ _ _ _ _ _ I d e) as (c & j & l & (Hc & Hd & Hs) & _).
  { intros E. rewrite E in H. now destruct k. }
  split; auto. split; [|exists c, j; repeat split; auto].
  eapply wf_sub_lt; eauto. eapply nth_error_In; eauto.
Qed.

Lemma whole_sub d E k n : listed sdm d E k n -> exists C j, sub_at G C d j E.
Proof.
  intros H. apply (listed_edof rank G fam sdm WG WF HS) in H.
  destruct (the_inv rank G fam sdm WG WF HS) as (tags & I).
  destruct (inv_from _ _ _ _ _ _ _ I d E) as (c & j & l & Hs & _).
  { intros E'. rewrite E' in H. now destruct k. }
  eauto.
Qed.

(** An entity of a part has as many DOFs as in the whole grid. *)
Lemma listed_both r c d j e k : r < N -> sub_at (g r) c d j e ->
  ((exists i, listed (dm r) d e k i) <-> (exists n, listed sdm d (L r d e) k n)).
Proof.
  intros Hr Hs. assert (WFr := wd_fam _ _ _ WD r Hr). assert (HA := HD r Hr).
  assert (Hs' := part_sub_at r c d j e Hr Hs).
  assert (E1 := edof_length r (g r) fam (dm r) (Wg r Hr) WFr HA c d j e Hs).
  assert (E2 := edof_length rank G fam sdm WG WF HS _ d j _ Hs').
  rewrite (pt_ctype _ _ _ _ PT r c Hr (proj1 Hs)) in E2.
  split; intros (x & H).
  - apply (listed_edof r (g r) fam (dm r) (Wg r Hr) WFr HA) in H.
    assert (k < length (edof sdm d (L r d e))) as Hk by (rewrite E2, <- E1; apply nth_error_Some; congruence).
    destruct (nth_error (edof sdm d (L r d e)) k) as [n|] eqn:En; [|apply nth_error_None in En; lia].
    exists n. now apply (listed_edof rank G fam sdm WG WF HS).
  - apply (listed_edof rank G fam sdm WG WF HS) in H.
    assert (k < length (edof (dm r) d e)) as Hk by (rewrite E1, <- E2; apply nth_error_Some; congruence).
    destruct (nth_error (edof (dm r) d e) k) as [n|] eqn:En; [|apply nth_error_None in En; lia].
    exists n. now apply (listed_edof r (g r) fam (dm r) (Wg r Hr) WFr HA).
Qed.

Hypothesis PA : partition N G g L.

(** Number [n] in the whole grid is number [m] on the processes. *)
Definition corresponds (n m : nat) : Prop :=
  exists r d e k i, r < N /\ listed (dm r) d e k i /\ listed sdm d (L r d e) k n /\ owned_as sp r i m.

Lemma corresponds_at r d e k i n : r < N -> listed (dm r) d e k i -> listed sdm d (L r d e) k n ->
  exists m, global_dof_index (sp r) i = Ok m /\ corresponds n m.
Proof.
  intros Hr Hl Hn. destruct (listed_sub r d e k i Hr Hl) as (Hd & He & _).
  destruct (global_size_agreed N g fam dm eager sp WD HD HC) as (_ & Ow).
  assert (Hl' := Hl). rewrite <- (sp_dm r Hr) in Hl'. destruct (Ow r d e k i Hr Hl') as (Ow1 & Ow2).
  destruct (pt_own _ _ _ _ PA r d e Hr Hd He) as [Ho|(p & x & Hp & Hx & Hg & Ho & Ex)].
  - assert (Oi : ownership_of (sp r) i = Ok Owned) by (apply Ow1; intros p x; congruence).
    destruct (created_number N g fam dm eager sp r i WD HD HC Hr) as (m & Hm & _); auto.
    { apply (listed_lt_iff r (g r) fam (dm r) (Wg r Hr) (wd_fam _ _ _ WD r Hr) (HD r Hr)). eauto. }
    exists m. split; auto. exists r, d, e, k, i. repeat split; auto.
  - destruct (proj2 (Ow2 p)) as (l & Hgh); [eauto|].
    destruct (ghosts_agree N g fam dm eager sp r i p l WD HD HC Hr Hgh) as (_ & _ & Op & (m & Hm1 & Hm2) & d' & e' & k' & x' & H1 & H2 & H3).
    rewrite sp_dm in H1, H3 by auto.
    destruct (listed_unique r (g r) fam (dm r) (Wg r Hr) (wd_fam _ _ _ WD r Hr) (HD r Hr) i d e k d' e' k' Hl H1) as (<- & <- & <-).
    rewrite Hg in H2. inversion H2; subst x'. exists m. split; auto.
    exists p, d, x, k, l. split; auto. split; auto. split; [now rewrite Ex|]. split; auto.
Qed.

Lemma owned_listed r d e k i m : r < N -> listed (dm r) d e k i -> owned_as sp r i m -> g_own (g r) d e = Owned.
Proof.
  intros Hr Hl (Ho & _). destruct (listed_sub r d e k i Hr Hl) as (Hd & He & _).
  destruct (global_size_agreed N g fam dm eager sp WD HD HC) as (_ & Ow).
  rewrite <- (sp_dm r Hr) in Hl. destruct (Ow r d e k i Hr Hl) as (Ow1 & _).
  destruct (pt_own _ _ _ _ PA r d e Hr Hd He) as [H|(p & x & _ & _ & Hg & _)]; auto.
  apply Ow1 in Ho. now destruct (Ho p x).
Qed.

Lemma corresponds_fun n m m' : corresponds n m -> corresponds n m' -> m = m'.
Proof.
  intros (r & d & e & k & i & Hr & Hl & Hn & Ho) (r' & d' & e' & k' & i' & Hr' & Hl' & Hn' & Ho').
  destruct (listed_unique rank G fam sdm WG WF HS n _ _ _ _ _ _ Hn Hn') as (<- & E & <-).
  destruct (listed_sub r d e k i Hr Hl) as (Hd & He & _). destruct (listed_sub r' d e' k i' Hr' Hl') as (_ & He' & _).
  assert (O := owned_listed r d e k i m Hr Hl Ho). assert (O' := owned_listed r' d e' k i' m' Hr' Hl' Ho').
  assert (r = r') by (apply (pt_once _ _ _ _ PA r r' d e e'); auto). subst r'.
  assert (e = e') by (apply (pt_inj _ _ _ _ PT r d); auto). subst e'.
  destruct Hl as (l & A & B). destruct Hl' as (l' & A' & B'). assert (i = i') by congruence. subst i'.
  destruct Ho as (_ & Ho). destruct Ho' as (_ & Ho'). congruence.
Qed.

Lemma corresponds_inj n n' m : corresponds n m -> corresponds n' m -> n = n'.
Proof.
  intros (r & d & e & k & i & Hr & Hl & Hn & Ho) (r' & d' & e' & k' & i' & Hr' & Hl' & Hn' & Ho').
  destruct (global_numbers N g fam dm eager sp WD HD HC) as (_ & _ & U & _).
  destruct (U r r' i i' m Hr Hr' Ho Ho') as (<- & <-).
  destruct (listed_unique r (g r) fam (dm r) (Wg r Hr) (wd_fam _ _ _ WD r Hr) (HD r Hr) i _ _ _ _ _ _ Hl Hl') as (<- & <- & <-).
  destruct Hn as (l & A & B). destruct Hn' as (l' & A' & B'). congruence.
Qed.

Lemma corresponds_total n : n < dm_size sdm -> exists r m, r < N /\ m < global_size (sp r) /\ corresponds n m.
Proof.
  intros Hn. apply (listed_lt_iff rank G fam sdm WG WF HS) in Hn. destruct Hn as (d & E & k & Hn).
  destruct (whole_sub d E k n Hn) as (C & j & HCs & Hd & Hs).
  destruct (pt_all _ _ _ _ PA C HCs) as (r & c & Hr & Hc & <-).
  destruct (part_nth_inv r c d j E Hr Hc Hd Hs) as (e & He & Hj & <-).
  assert (Sa : sub_at (g r) c d j e) by (repeat split; auto).
  destruct (proj2 (listed_both r c d j e k Hr Sa)) as (i & Hi); [eauto|].
  destruct (corresponds_at r d e k i n Hr Hi Hn) as (m & Hm & Co).
  exists r, m. split; auto. split; auto. destruct Co as (q & d' & e' & k' & i' & Hq & _ & _ & Ho).
  destruct (global_numbers N g fam dm eager sp WD HD HC) as (Lt & _). apply (Lt q i' m Hq Ho r Hr).
Qed.

Lemma corresponds_onto r m : r < N -> m < global_size (sp r) -> exists n, n < dm_size sdm /\ corresponds n m.
Proof.
  intros Hr Hm. destruct (global_numbers N g fam dm eager sp WD HD HC) as (_ & On & _).
  destruct (On m r Hr Hm) as (q & i & Hq & Ho).
  assert (Hi : i < dm_size (dm q)).
  { destruct Ho as (Ho & _). rewrite (creates_unique N g fam dm WD HD eager sp HC q Hq) in Ho.
    eapply ownership_bound; eauto. }
  apply (listed_lt_iff q (g q) fam (dm q) (Wg q Hq) (wd_fam _ _ _ WD q Hq) (HD q Hq)) in Hi. destruct Hi as (d & e & k & Hl).
  destruct (listed_sub q d e k i Hq Hl) as (Hd & He & c & j & Hs).
  destruct (proj1 (listed_both q c d j e k Hq Hs)) as (n & Hn); [eauto|].
  exists n. split; [apply (listed_lt_iff rank G fam sdm WG WF HS); eauto|].
  exists q, d, e, k, i. auto.
Qed.

Theorem numbering : exists number,
  renumbering (dm_size sdm) number /\ (forall r, r < N -> global_size (sp r) = dm_size sdm) /\
  forall r c l l0, r < N -> has_cell_dofs (dm r) c l -> has_cell_dofs sdm (L r 2 c) l0 ->
    mapM (global_dof_index (sp r)) l = Ok (map number l0).
Proof.
  destruct (global_size_agreed N g fam dm eager sp WD HD HC) as (Eq & _).
  destruct (matching corresponds (dm_size sdm) (sum_list (map (fun q => owned_count (sp q)) (seq 0 N)))) as (Es & number & Rn & Hn).
  - intros n Hn. destruct (corresponds_total n Hn) as (r & m & Hr & Hm & Co). exists m. rewrite (Eq r Hr) in Hm. auto.
  - intros m Hm. destruct (le_lt_dec N 0) as [H0|H0].
    + assert (N = 0) as E0 by lia. rewrite E0 in Hm. cbn in Hm. lia.
    + rewrite <- (Eq 0 H0) in Hm. exact (corresponds_onto 0 m H0 Hm).
  - exact corresponds_fun.
  - exact corresponds_inj.
  - exists number. split; auto. split; [intros r Hr; now rewrite (Eq r Hr)|].
    intros r c l l0 Hr Hl Hl0.
    assert (WFr := wd_fam _ _ _ WD r Hr). assert (HA := HD r Hr).
    apply (has_cell_dofs_iff r (g r) fam (dm r) (Wg r Hr) WFr HA) in Hl. destruct Hl as (Hc & ->).
    apply (has_cell_dofs_iff rank G fam sdm WG WF HS) in Hl0. destruct Hl0 as (HC0 & ->).
    assert (Len : length (nth c (dm_cells (dm r)) []) = length (nth (L r 2 c) (dm_cells sdm) [])).
    { rewrite (cell_row_length r (g r) fam (dm r) (Wg r Hr) WFr HA c Hc), (cell_row_length rank G fam sdm WG WF HS _ HC0).
      now rewrite (pt_ctype _ _ _ _ PT r c Hr Hc). }
    apply mapM_pointwise; [now rewrite map_length|].
    intros x i m Hx Hm. rewrite nth_error_map in Hm.
    destruct (nth_error (nth (L r 2 c) (dm_cells sdm) []) x) as [n|] eqn:En; [|discriminate]. inversion Hm; subst m. clear Hm.
    destruct (cell_row_origin r (g r) fam (dm r) (Wg r Hr) WFr HA c x i Hc Hx) as (d & j & e & le & k & Hs & El & Ek & Ei).
    assert (Hs' := part_sub_at r c d j e Hr Hs).
    rewrite <- (pt_ctype _ _ _ _ PT r c Hr Hc) in El.
    destruct (cell_row_entity rank G fam sdm WG WF HS (L r 2 c) d j (L r d e) le k x Hs' El Ek) as (n' & En' & Ed').
    assert (n' = n) by congruence. subst n'.
    apply (listed_edof r (g r) fam (dm r) (Wg r Hr) WFr HA) in Ei.
    assert (Ln : listed sdm d (L r d e) k n) by now apply (listed_edof rank G fam sdm WG WF HS).
    destruct (corresponds_at r d e k i n Hr Ei Ln) as (m & Hm & Co). rewrite Hm. f_equal.
    apply (corresponds_fun n); auto. apply Hn. apply (listed_lt_iff rank G fam sdm WG WF HS). eauto.
Qed.
End Dofs.
End Parts.

(** Every cell has an owner. *)
Lemma part_owner N G g L C : partition N G g L -> C < ent_count G 2 -> exists r, r < N /\ owned_cell g L r C.
Proof.
  intros PA HC. destruct (pt_all _ _ _ _ PA C HC) as (r & c & Hr & Hc & E).
  destruct (pt_own _ _ _ _ PA r 2 c Hr ltac:(lia) Hc) as [Ho|(p & x & Hp & Hx & _ & Ho & Ex)].
  - exists r. split; auto. exists c. auto.
  - exists p. split; auto. exists x. repeat split; auto. congruence.
Qed.


