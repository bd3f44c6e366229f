(** * Matrices of kernels that do not depend on the points *)
From Coq Require Import Ring_theory Ring.
From Verif Require Import Base BaseFacts Topology TopologyFacts DofMap DofMapFacts SpecDof DofMapResults Process Space SpecSpace Options
  Adjacency SpecAdjacency Scalar Integrand CellPair Operators SpecLocal LocalFacts LocalResults Interleave Assembly SpecAssembly
  AssemblyFacts AssemblySingular AssemblyDense AssemblyExact AssemblyResults SpecAlgebra AlgebraFacts AlgebraResults
  SpecBroken BrokenResults SpecGalerkin GalerkinResults SpecMeasure.

Section Measure.
Context {T R : Type} (S : scalar T R) (one : T) (RT : ring_theory (s_zero S) one (s_add S) (s_mul S) (s_sub S) (s_neg S) eq).
Context (inv : T -> T) (Hdiv : forall a b, s_div S a b = s_mul S a (inv b)) (Ec : exact_cast S).
Context (X : externals R).
Add Ring scalar_ring : RT.
Local Notation "a +! b" := (s_add S a b) (at level 50, left associativity).
Local Notation "a *! b" := (s_mul S a b) (at level 40, left associativity).

Lemma integrand_ones f k k' (phi psi : nat -> T) (x : cell_map R) p (y : cell_map R) q n n' :
  (forall i, i < kernel_used f -> k i = k' i) -> (forall i, i < 3 -> s_cast S (cm_normal x p i) = n i) -> (forall i, i < 3 -> s_cast S (cm_normal y q i) = n' i) ->
  phi 0 = one -> phi 1 = s_zero S -> phi 2 = s_zero S -> psi 0 = one -> psi 1 = s_zero S -> psi 2 = s_zero S ->
  integrand_value S f k phi psi x p y q = face_value S f k' n n'.
Proof.
  intros Hk Hn Hn' P0 P1 P2 Q0 Q1 Q2. induction f; cbn [integrand_value face_value kernel_used] in *; rewrite ?Hdiv; unfold dot, normal, curl;
    rewrite ?P0, ?P1, ?P2, ?Q0, ?Q1, ?Q2.
  - rewrite Hk by lia. ring.
  - rewrite !Hk, !Hn' by lia. ring.
  - rewrite !Hk, !Hn by lia. ring.
  - ring.
  - rewrite Hk, !Hn, !Hn' by lia. ring.
  - rewrite IHf1, IHf2; auto; intros i Hi; apply Hk; lia.
  - rewrite IHf; auto.
Qed.

Lemma In_weights (w : list R) pw : In pw (enumerate w) -> fst pw < length w.
Proof. destruct pw as [a b]. intros H. apply In_enumerate in H. apply nth_error_Some. cbn in *. congruence. Qed.

Lemma total_weights (w : list R) c : total S (enumerate w) (fun pw => s_cast S (snd pw) *! c) = total S w (s_cast S) *! c.
Proof.
  rewrite (total_mul_r S one RT). f_equal. unfold enumerate. generalize 0. induction w as [|x w IH]; intros n; cbn [length seq combine]; [reflexivity|].
  rewrite !total_cons, IH. reflexivity.
Qed.

(** The functions that are one everywhere. *)
Definition ones (fs : fspace T R) : fspace T R :=
  mkFspace T R (fs_grid fs) (fs_family fs) (fs_processes fs) (fs_space fs) (fs_components fs)
    (fun t points d p a j => match d with 0 => one | _ => s_zero S end).

Section Pairs.
Context (O : operator T R) (deg : cell_type -> cell_type -> nat) (pts : cell_type -> nat) (ct : cell_type) (test trial : fspace T R).
Context (mu : T) (k : nat -> T) (det det' : nat -> T) (n n' : nat -> nat -> T).
Context (Pr : proper_rules X) (Sa : same_object test trial).
Context (Ct : forall c, c < ent_count (fs_grid test) 2 -> g_ctype (fs_grid test) c = ct).
Context (Cs : forall c, c < ent_count (fs_grid trial) 2 -> g_ctype (fs_grid trial) c = ct).
Context (Ft : flat_faces S X (fs_grid test) ct det n) (Fs : flat_faces S X (fs_grid trial) ct det' n').
Context (W : full_weights S X ct deg pts mu) (K : constant_kernel O k).
Local Notation contribution t s := (measure S O k (mu *! det t) (mu *! det' s) (n t) (n' s)).

Lemma ones_pair t s a b v : t < ent_count (fs_grid test) 2 -> s < ent_count (fs_grid trial) 2 ->
  pair_value S X O deg pts (ones test) (ones trial) t s a b v -> v = contribution t s.
Proof.
  destruct Ec as (Ecm & _). destruct W as (W1 & W2).
  intros Ht Hs [(C & p & kd & d & q & A1 & A2 & A3 & A4 & ->)|(C & q & r & A1 & A2 & ->)]; unfold measure; cbn [ones fs_grid fs_basis] in *.
  - assert (Eg : fs_grid test = fs_grid trial) by (apply Sa, C).
    assert (Cs' : g_ctype (fs_grid test) s = ct) by (rewrite Eg; auto). rewrite Ct, Cs' in * by auto.
    destruct (pr_duffy _ Pr _ _ _ _ _ A4) as (L1 & L2). rewrite (pairwise_total S one RT).
    rewrite (total_ext S _ _ (fun pw => s_cast S (snd pw) *! (det t *! det' s *! face_value S (op_integrand O) k (n t) (n' s)))).
    + rewrite total_weights, (W2 _ _ _ _ A2 A4). ring.
    + intros pw Hpw. apply In_weights in Hpw. unfold pairwise_term. rewrite !Ecm.
      assert (Hs' : s < ent_count (fs_grid test) 2) by now rewrite Eg. assert (Fs' : flat_faces S X (fs_grid test) ct det' n') by now rewrite Eg.
      destruct (Ft (pq_test q) t (fst pw) Ht) as (D1 & N1); [lia|]. destruct (Fs' (pq_trial q) s (fst pw) Hs') as (D2 & N2); [lia|].
      rewrite (integrand_ones _ _ k _ _ _ _ _ _ (n t) (n' s)); auto. rewrite D1, D2. ring.
  - rewrite Ct, Cs in * by auto. rewrite A1 in A2. injection A2 as <-.
    destruct (pr_simplex _ Pr _ _ _ A1) as (L1 & L1'). rewrite (tensor_total S one RT).
    rewrite (total_ext S _ _ (fun pw => s_cast S (snd pw) *! (mu *! (det t *! det' s *! face_value S (op_integrand O) k (n t) (n' s))))).
    + rewrite total_weights, (W1 _ A1). ring.
    + intros pw Hpw. apply In_weights in Hpw.
      rewrite (total_ext S _ _ (fun qw => s_cast S (snd qw) *! (s_cast S (snd pw) *! (det t *! det' s *! face_value S (op_integrand O) k (n t) (n' s))))).
      * rewrite total_weights, (W1 _ A1). ring.
      * intros qw Hqw. apply In_weights in Hqw. unfold tensor_term. rewrite !Ecm.
        destruct (Ft (qd_points q) t (fst pw) Ht) as (D1 & N1); [lia|]. destruct (Fs (qd_points q) s (fst qw) Hs) as (D2 & N2); [lia|].
        rewrite (integrand_ones _ _ k _ _ _ _ _ _ (n t) (n' s)); auto. rewrite D1, D2. ring.
Qed.

(** Bilinear forms of cells in which functions add up to one. *)
Definition covers (fs : fspace T R) (c : nat) : Prop := forall points p,
  total S (seq 0 (length (dofs_at fs c))) (fun b => fs_basis fs (g_ctype (fs_grid fs) c) points 0 p b 0) = one /\
  forall d, d = 1 \/ d = 2 -> total S (seq 0 (length (dofs_at fs c))) (fun b => fs_basis fs (g_ctype (fs_grid fs) c) points d p b 0) = s_zero S.

Lemma covers_combination fs c : covers fs c -> combination S (seq 0 (length (dofs_at fs c))) (fun _ => one) (fun a => place fs c a) (place (ones fs) c 0).
Proof.
  intros H points d p Hd Hp. destruct (H points p) as (H0 & H1). unfold place. cbn [ones fs_basis fs_grid].
  destruct d as [|d].
  - etransitivity; [symmetry; exact H0|]. apply total_ext. intros. ring.
  - etransitivity; [symmetry; apply (H1 (Datatypes.S d)); lia|]. apply total_ext. intros. ring.
Qed.

Lemma cell_sum t s (val : nat -> nat -> T) : t < ent_count (fs_grid test) 2 -> s < ent_count (fs_grid trial) 2 ->
  (forall a b, pair_value S X O deg pts test trial t s a b (val a b)) -> covers test t -> covers trial s ->
  total S (seq 0 (length (dofs_at test t))) (fun a => total S (seq 0 (length (dofs_at trial s))) (fun b => val a b)) = contribution t s.
Proof.
  intros Ht Hs V Vt Vs. destruct (pair_form S one RT inv Hdiv X O deg pts test trial t s 0 0 _ Pr Sa (V 0 0)) as (B & Bi & H).
  rewrite <- (ones_pair t s 0 0 _ Ht Hs (H (ones test) (ones trial) 0 0 eq_refl eq_refl)).
  rewrite (bi_test S B Bi _ _ _ _ _ _ (covers_combination test t Vt)). apply total_ext. intros a _.
  rewrite (bi_trial S B Bi _ _ _ _ _ _ (covers_combination trial s Vs)).
  rewrite <- (total_mul S one RT). apply total_ext. intros b _.
  rewrite (pair_value_unique S X O deg pts test trial t s a b _ _ (V a b) (H test trial a b eq_refl eq_refl)). ring.
Qed.
End Pairs.

(** ** Sums of entries *)

(** Coefficients [u] of functions that are equal to [U c] on cell [c]. *)
Lemma weighted_sum val (test trial : fspace T R) (u w : nat -> T) :
  (forall t i, t < ent_count (fs_grid test) 2 -> In i (dofs_at test t) -> i < global_size (fs_space test)) ->
  (forall s j, s < ent_count (fs_grid trial) 2 -> In j (dofs_at trial s) -> j < global_size (fs_space trial)) ->
  total S (seq 0 (global_size (fs_space test))) (fun i => total S (seq 0 (global_size (fs_space trial))) (fun j => u i *! matrix_entry S val test trial i j *! w j)) =
  total S (seq 0 (ent_count (fs_grid test) 2)) (fun t => total S (seq 0 (ent_count (fs_grid trial) 2)) (fun s =>
    total S (enumerate (dofs_at test t)) (fun ai => total S (enumerate (dofs_at trial s)) (fun bj => u (snd ai) *! val t s (fst ai) (fst bj) *! w (snd bj))))).
Proof.
  intros B B'.
  transitivity (total S (seq 0 (global_size (fs_space test))) (fun i => total S (seq 0 (global_size (fs_space trial))) (fun j =>
    total S (seq 0 (ent_count (fs_grid test) 2)) (fun t => total S (seq 0 (ent_count (fs_grid trial) 2)) (fun s =>
      total S (enumerate (dofs_at test t)) (fun ai => total S (enumerate (dofs_at trial s)) (fun bj =>
        if snd ai =? i then if snd bj =? j then u (snd ai) *! val t s (fst ai) (fst bj) *! w (snd bj) else s_zero S else s_zero S))))))).
  { apply total_ext. intros i _. apply total_ext. intros j _. unfold matrix_entry.
    rewrite <- (total_mul S one RT), <- (total_mul_r S one RT). apply total_ext. intros t _.
    rewrite <- (total_mul S one RT), <- (total_mul_r S one RT). apply total_ext. intros s _.
    rewrite <- (total_mul S one RT), <- (total_mul_r S one RT). apply total_ext. intros ai _.
    rewrite <- (total_mul S one RT), <- (total_mul_r S one RT). apply total_ext. intros bj _.
    destruct (Nat.eqb_spec (snd ai) i) as [<-|]; [|cbn [andb]; ring]. destruct (Nat.eqb_spec (snd bj) j) as [<-|]; cbn [andb]; ring. }
  rewrite (total_swap3 S one RT). apply total_ext. intros t Ht. rewrite (total_swap3 S one RT). apply total_ext. intros s Hs.
  rewrite (total_swap3 S one RT). apply total_ext. intros ai Ha. rewrite (total_swap3 S one RT). apply total_ext. intros bj Hb.
  apply in_seq in Ht, Hs. destruct ai as [a i], bj as [b j]. apply In_enumerate in Ha, Hb. cbn [fst snd].
  transitivity (total S (seq 0 (global_size (fs_space test))) (fun i' => if i =? i' then u i *! val t s a b *! w j else s_zero S)).
  - apply total_ext. intros i' _. destruct (i =? i').
    + apply (total_pick S one RT). apply (B' s); [lia|]. eapply nth_error_In; eauto.
    + now apply (total_zero S one RT).
  - apply (total_pick S one RT). apply (B t); [lia|]. eapply nth_error_In; eauto.
Qed.

Theorem measured_form rt wmod (O : operator T R) o deg pts ct (test trial : fspace T R) mu k det det' n n' :
  legal_runtime (s_add S) rt -> dense_setting X wmod O o deg pts ct test trial ->
  adds_to_one S one test -> adds_to_one S one trial -> flat_faces S X (fs_grid test) ct det n -> flat_faces S X (fs_grid trial) ct det' n' ->
  full_weights S X ct deg pts mu -> constant_kernel O k ->
  exists m e, assemble S X rt wmod O o trial test = Ok m /\
    (forall i j, i < global_size (fs_space test) -> j < global_size (fs_space trial) -> nth_error m (i + global_size (fs_space test) * j) = Some (e i j)) /\
    forall u w U W, piecewise test u U -> piecewise trial w W ->
      total S (seq 0 (global_size (fs_space test))) (fun i => total S (seq 0 (global_size (fs_space trial))) (fun j => u i *! e i j *! w j)) =
      total S (seq 0 (ent_count (fs_grid test) 2)) (fun t => total S (seq 0 (ent_count (fs_grid trial) 2)) (fun s =>
        U t *! measure S O k (mu *! det t) (mu *! det' s) (n t) (n' s) *! W s)).
Proof.
  intros L D At As Ft Fs Fw K.
  destruct (assembled S one RT X rt wmod O o deg pts ct test trial L D) as (m & val & E & _ & V & H).
  exists m, (matrix_entry S val test trial). split; [exact E|]. split; [exact H|]. intros u w U W Pu Pw.
  pose proof (dn_test _ _ _ _ _ _ _ _ _ D) as St. pose proof (dn_trial _ _ _ _ _ _ _ _ _ D) as Ss.
  assert (Cov : forall (fs : fspace T R) c, serial_space fs -> adds_to_one S one fs -> c < ent_count (fs_grid fs) 2 -> covers fs c).
  { intros fs c Sf Af Hc points p. rewrite (dofs_at_dim fs c Sf Hc). apply Af. apply wf_ctype; [apply Sf|auto]. }
  assert (Ty : forall (fs : fspace T R) c, serial_space fs -> g_types (fs_grid fs) 2 = [ct] -> c < ent_count (fs_grid fs) 2 -> g_ctype (fs_grid fs) c = ct).
  { intros fs c Sf Ef Hc. pose proof (wf_ctype _ (ss_grid _ Sf) c Hc) as I. rewrite Ef in I. now destruct I as [->|[]]. }
  rewrite weighted_sum; [|intros; now apply (serial_lt test St t)|intros; now apply (serial_lt trial Ss s)].
  apply total_ext. intros t Ht. apply total_ext. intros s Hs. apply in_seq in Ht, Hs.
  rewrite <- (cell_sum O deg pts ct test trial mu k det det' n n' (dn_proper _ _ _ _ _ _ _ _ _ D) (dn_same _ _ _ _ _ _ _ _ _ D)
    (fun c => Ty test c St (dn_test_type _ _ _ _ _ _ _ _ _ D)) (fun c => Ty trial c Ss (dn_trial_type _ _ _ _ _ _ _ _ _ D)) Ft Fs Fw K t s (val t s)); try lia.
  - rewrite <- (total_mul S one RT), <- (total_mul_r S one RT). rewrite <- (total_enumerate S (dofs_at test t)). apply total_ext. intros [a i] Ha. cbn [fst snd].
    rewrite <- (total_mul S one RT), <- (total_mul_r S one RT). rewrite <- (total_enumerate S (dofs_at trial s)). apply total_ext. intros [b j] Hb. cbn [fst snd].
    apply In_enumerate in Ha, Hb. rewrite (Pu t i), (Pw s j); try lia; try (eapply nth_error_In; eauto). reflexivity.
  - intros a b. apply V; lia.
  - apply Cov; auto. lia.
  - apply Cov; auto. lia.
Qed.

(** Constants. *)
Lemma constants_add_to_one (fs : fspace T R) : constants S one fs -> adds_to_one S one fs.
Proof.
  intros [C1 C2 C3] t points p Ht. rewrite C1 by auto. cbn [seq]. rewrite total_cons, total_nil, C2. split; [ring|].
  intros d Hd. rewrite total_cons, total_nil, C3 by auto. ring.
Qed.

Lemma indicator_piecewise (fs : fspace T R) t i : serial_space fs -> interior_family (g_types (fs_grid fs) 2) (fs_family fs) -> constants S one fs ->
  t < ent_count (fs_grid fs) 2 -> In i (dofs_at fs t) ->
  piecewise fs (fun x => if i =? x then one else s_zero S) (fun c => if t =? c then one else s_zero S).
Proof.
  intros Sf If Co Ht Hi c x Hc Hx. destruct (Nat.eqb_spec t c) as [<-|N].
  - pose proof (dofs_at_dim fs t Sf Ht) as L1. rewrite (co_dim _ _ _ Co) in L1 by (apply wf_ctype; [apply Sf|auto]).
    destruct (dofs_at fs t) as [|y [|? ?]]; cbn in L1; try discriminate. destruct Hi as [->|[]], Hx as [->|[]]. now rewrite Nat.eqb_refl.
  - destruct (Nat.eqb_spec i x) as [<-|]; [|reflexivity]. exfalso. apply N. now apply (serial_disjoint fs t c i).
Qed.

Lemma total_indicator n m i j (f : nat -> nat -> T) : i < n -> j < m ->
  total S (seq 0 n) (fun a => total S (seq 0 m) (fun b => (if i =? a then one else s_zero S) *! f a b *! (if j =? b then one else s_zero S))) = f i j.
Proof.
  intros Hi Hj. rewrite (total_ext S _ _ (fun a => if i =? a then f i j else s_zero S)).
  - now apply (total_pick S one RT).
  - intros a _. destruct (Nat.eqb_spec i a) as [<-|].
    + rewrite (total_ext S _ _ (fun b => if j =? b then f i j else s_zero S)); [now apply (total_pick S one RT)|].
      intros b _. destruct (Nat.eqb_spec j b) as [<-|]; ring.
    + apply (total_zero S one RT). intros. ring.
Qed.

Theorem measured_entries rt wmod (O : operator T R) o deg pts ct (test trial : fspace T R) mu k det det' n n' :
  legal_runtime (s_add S) rt -> dense_setting X wmod O o deg pts ct test trial ->
  constants S one test -> constants S one trial ->
  interior_family (g_types (fs_grid test) 2) (fs_family test) -> interior_family (g_types (fs_grid trial) 2) (fs_family trial) ->
  flat_faces S X (fs_grid test) ct det n -> flat_faces S X (fs_grid trial) ct det' n' ->
  full_weights S X ct deg pts mu -> constant_kernel O k ->
  exists m, assemble S X rt wmod O o trial test = Ok m /\
    forall t s i j, t < ent_count (fs_grid test) 2 -> s < ent_count (fs_grid trial) 2 -> In i (dofs_at test t) -> In j (dofs_at trial s) ->
      nth_error m (i + global_size (fs_space test) * j) = Some (measure S O k (mu *! det t) (mu *! det' s) (n t) (n' s)).
Proof.
  intros L D Ct Cs It Is Ft Fs Fw K.
  destruct (measured_form rt wmod O o deg pts ct test trial mu k det det' n n' L D (constants_add_to_one _ Ct) (constants_add_to_one _ Cs) Ft Fs Fw K) as (m & e & E & H & F).
  pose proof (dn_test _ _ _ _ _ _ _ _ _ D) as St. pose proof (dn_trial _ _ _ _ _ _ _ _ _ D) as Ss.
  exists m. split; [exact E|]. intros t s i j Ht Hs Hi Hj.
  assert (Li : i < global_size (fs_space test)) by now apply (serial_lt test St t). assert (Lj : j < global_size (fs_space trial)) by now apply (serial_lt trial Ss s).
  rewrite H by auto. f_equal.
  specialize (F _ _ _ _ (indicator_piecewise test t i St It Ct Ht Hi) (indicator_piecewise trial s j Ss Is Cs Hs Hj)). cbv beta in F.
  rewrite (total_indicator _ _ i j e Li Lj) in F. rewrite F. now rewrite (total_indicator _ _ t s (fun t s => measure S O k (mu *! det t) (mu *! det' s) (n t) (n' s))).
Qed.
End Measure.

Lemma unit_unique {T R : Type} (S : scalar T R) one x : ring_theory (s_zero S) x (s_add S) (s_mul S) (s_sub S) (s_neg S) eq -> (forall y, s_mul S one y = y) -> one = x.
Proof. intros RT One. rewrite <- (One x). symmetry. rewrite (Rmul_comm RT). apply (Rmul_1_l RT). Qed.

Theorem exact_measured : forall (T R : Type) (S : scalar T R) (X : externals R) rt wmod (O : operator T R) o deg pts ct (test trial : fspace T R) one mu k det det' n n',
  exact S -> exact_cast S -> (forall x, s_mul S one x = x) -> legal_runtime (s_add S) rt -> dense_setting X wmod O o deg pts ct test trial ->
  adds_to_one S one test -> adds_to_one S one trial -> flat_faces S X (fs_grid test) ct det n -> flat_faces S X (fs_grid trial) ct det' n' ->
  full_weights S X ct deg pts mu -> constant_kernel O k ->
  exists m e, assemble S X rt wmod O o trial test = Ok m /\
    (forall i j, i < global_size (fs_space test) -> j < global_size (fs_space trial) -> nth_error m (i + global_size (fs_space test) * j) = Some (e i j)) /\
    forall u w U W, piecewise test u U -> piecewise trial w W ->
      total S (seq 0 (global_size (fs_space test))) (fun i => total S (seq 0 (global_size (fs_space trial))) (fun j => s_mul S (s_mul S (u i) (e i j)) (w j))) =
      total S (seq 0 (ent_count (fs_grid test) 2)) (fun t => total S (seq 0 (ent_count (fs_grid trial) 2)) (fun s =>
        s_mul S (s_mul S (U t) (measure S O k (s_mul S mu (det t)) (s_mul S mu (det' s)) (n t) (n' s))) (W s))).
Proof.
  intros T R S X rt wmod O o deg pts ct test trial one mu k det det' n n' ((x & RT) & (inv & Hdiv)) Ec One.
  rewrite (unit_unique S one x RT One). exact (measured_form S x RT inv Hdiv Ec X rt wmod O o deg pts ct test trial mu k det det' n n').
Qed.

Theorem exact_measured_entries : forall (T R : Type) (S : scalar T R) (X : externals R) rt wmod (O : operator T R) o deg pts ct (test trial : fspace T R) one mu k det det' n n',
  exact S -> exact_cast S -> (forall x, s_mul S one x = x) -> legal_runtime (s_add S) rt -> dense_setting X wmod O o deg pts ct test trial ->
  constants S one test -> constants S one trial ->
  interior_family (g_types (fs_grid test) 2) (fs_family test) -> interior_family (g_types (fs_grid trial) 2) (fs_family trial) ->
  flat_faces S X (fs_grid test) ct det n -> flat_faces S X (fs_grid trial) ct det' n' ->
  full_weights S X ct deg pts mu -> constant_kernel O k ->
  exists m, assemble S X rt wmod O o trial test = Ok m /\
    forall t s i j, t < ent_count (fs_grid test) 2 -> s < ent_count (fs_grid trial) 2 -> In i (dofs_at test t) -> In j (dofs_at trial s) ->
      nth_error m (i + global_size (fs_space test) * j) = Some (measure S O k (s_mul S mu (det t)) (s_mul S mu (det' s)) (n t) (n' s)).
Proof.
  intros T R S X rt wmod O o deg pts ct test trial one mu k det det' n n' ((x & RT) & (inv & Hdiv)) Ec One.
  rewrite (unit_unique S one x RT One). exact (measured_entries S x RT inv Hdiv Ec X rt wmod O o deg pts ct test trial mu k det det' n n').
Qed.
