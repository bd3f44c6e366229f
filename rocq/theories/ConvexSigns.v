(** * Signs of the entries of double layer matrices *)
From Coq Require Import Reals Lra.
From Verif Require Import Base BaseFacts Topology TopologyFacts DofMap DofMapFacts SpecDof DofMapResults Process Space SpecSpace Options
  Adjacency SpecAdjacency Scalar Integrand CellPair Operators SpecLocal LocalFacts LocalResults Interleave Assembly SpecAssembly
  AssemblyFacts AssemblySingular AssemblyDense AssemblyExact AssemblyResults SpecOrder OrderResults
  SpecBroken BrokenResults SpecTransfer SpecOperators SpecDigits SpecTurns SpecPlanes PlaneResults SpecConvex.
Local Open Scope nat_scope.

Section Signs.
Context {T R : Type} (S : scalar T R) (neg below pos above : T -> Prop) (Z : signs S neg below pos above).
Context (X : externals R) (kd : kind) (G : @green T R) (Hk : kd = Double \/ kd = Adjoint).
Context (deg : cell_type -> cell_type -> nat) (pts : cell_type -> nat) (test trial : fspace T R).
Context (Hx : proper_rules X).

Lemma fold_neg {A : Type} (f : A -> T) l acc : neg acc -> (forall a, In a l -> neg (f a)) -> neg (fold_left (fun acc a => s_add S acc (f a)) l acc).
Proof.
  revert acc. induction l as [|a l IH]; intros acc Ha H; cbn; [exact Ha|].
  apply IH; [apply (sg_add _ _ _ _ _ Z); [exact Ha|apply H; now left]|intros; apply H; now right].
Qed.

Lemma fold_stays {A : Type} (f : A -> T) l acc : below acc -> (forall a, In a l -> neg (f a)) -> below (fold_left (fun acc a => s_add S acc (f a)) l acc).
Proof.
  revert acc. induction l as [|a l IH]; intros acc Ha H; cbn; [exact Ha|].
  apply IH; [apply (sg_left _ _ _ _ _ Z); [exact Ha|apply H; now left]|intros; apply H; now right].
Qed.

Lemma fold_below {A : Type} (f : A -> T) l acc : neg acc -> (forall a, In a l -> neg (f a)) -> (exists a, In a l /\ below (f a)) ->
  below (fold_left (fun acc a => s_add S acc (f a)) l acc).
Proof.
  revert acc. induction l as [|a l IH]; intros acc Ha H (b & Hb & B); [contradiction|]. cbn.
  destruct Hb as [<-|Hb].
  - apply fold_stays; [apply (sg_right _ _ _ _ _ Z); auto|intros; apply H; now right].
  - apply IH; [apply (sg_add _ _ _ _ _ Z); [exact Ha|apply H; now left]|intros; apply H; now right|eauto].
Qed.

Lemma fold_pairs {A B : Type} (f : A -> B -> T) l m acc :
  fold_left (fun acc a => fold_left (fun acc b => s_add S acc (f a b)) m acc) l acc = fold_left (fun acc ab => s_add S acc (f (fst ab) (snd ab))) (list_prod l m) acc.
Proof.
  revert acc. induction l as [|a l IH]; intros acc; [reflexivity|]. cbn [fold_left list_prod]. rewrite fold_left_app, <- IH.
  assert (Q : forall acc, fold_left (fun acc b => s_add S acc (f a b)) m acc = fold_left (fun acc ab => s_add S acc (f (fst ab) (snd ab))) (map (fun y => (a, y)) m) acc).
  { clear. induction m as [|b m IHm]; intros acc; [reflexivity|]. cbn. apply IHm. }
  now rewrite Q.
Qed.

(** The integrand at one pair of points. *)
Lemma value_in (P Q : T -> Prop) (phi psi : nat -> T) x p y q : (forall u v, P u -> Q v -> P (s_mul S u v)) -> P (normal_derivative S kd G x p y q) -> Q (phi 0) -> Q (psi 0) ->
  P (integrand_value S (op_integrand (laplace_operator kd G)) (fun i => G i (SpecLocal.position x p) (SpecLocal.position y q)) phi psi x p y q).
Proof.
  intros M H A B. destruct Hk as [-> | ->]; cbn [laplace_operator laplace_double_layer laplace_adjoint_double_layer op_integrand integrand_value]; apply M; auto.
Qed.

Lemma singular_in (P Q : T -> Prop) t s a b v : t < ent_count (fs_grid test) 2 -> s < ent_count (fs_grid test) 2 ->
  a < el_dim (fs_family test (g_ctype (fs_grid test) t)) -> b < el_dim (fs_family trial (g_ctype (fs_grid test) s)) -> touching test trial t s ->
  (forall u w, P u -> Q w -> P (s_mul S u w)) -> data_in S Q X test trial -> derivative_in S P X kd G deg pts test trial t s ->
  singular_value S X (laplace_operator kd G) deg test trial t s a b v ->
  exists (l : list (nat * R)) (f : nat * R -> T), v = fold_left (fun acc a => s_add S acc (f a)) l (s_zero S) /\ (forall k, In k l -> P (f k)) /\
    exists k d pr n q, x_duffy X k d pr n = Some q /\ l = enumerate (pq_weights q).
Proof.
  intros Ht Hs Ha Hb C M F N (p & k & d & q & A1 & A2 & A3 & A4 & ->). destruct Hx as [P1 P2]. destruct (P2 _ _ _ _ _ A4) as (L1 & L2).
  unfold pairwise_entry. eexists _, _. split; [reflexivity|]. split; [|eauto 10]. intros [n w] Hw. apply In_enumerate in Hw. cbn [fst snd] in *.
  assert (Hn : n < length (pq_weights q)) by (apply nth_error_Some; congruence).
  apply M.
  - rewrite (kernel_of kd G Hk). apply (value_in P Q); auto.
    + apply N. eapply used_touching; eauto.
    + apply (di_basis _ _ _ _ _ F); [now left|right; do 5 eexists; split; [exact A4|now left]|lia|exact Ha].
    + apply (di_basis _ _ _ _ _ F); [now right|right; do 5 eexists; split; [exact A4|now right]|lia|exact Hb].
  - eapply (di_duffy _ _ _ _ _ F); eauto.
Qed.

Lemma pair_in (P Q : T -> Prop) t s a b v : t < ent_count (fs_grid test) 2 -> s < ent_count (fs_grid trial) 2 -> same_object test trial ->
  a < el_dim (fs_family test (g_ctype (fs_grid test) t)) -> b < el_dim (fs_family trial (g_ctype (fs_grid trial) s)) ->
  (forall u w, P u -> Q w -> P (s_mul S u w)) -> data_in S Q X test trial -> derivative_in S P X kd G deg pts test trial t s ->
  pair_value S X (laplace_operator kd G) deg pts test trial t s a b v ->
  exists (A : Type) (l : list A) (f : A -> T), v = fold_left (fun acc a => s_add S acc (f a)) l (s_zero S) /\ (forall k, In k l -> P (f k)) /\ (some_points X -> l <> []).
Proof.
  intros Ht Hs So Ha Hb M F N [(C & V)|(C & q & r & A1 & A2 & ->)].
  - assert (E : fs_grid test = fs_grid trial) by (apply So, C). rewrite <- E in Hs, Hb.
    destruct (singular_in P Q t s a b v Ht Hs Ha Hb C M F N V) as (l & f & Ev & H & k & d & pr & n & q & Eq & ->).
    exists (nat * R)%type, (enumerate (pq_weights q)), f. split; [exact Ev|]. split; [exact H|]. intros (_ & Sp) El. apply (Sp _ _ _ _ _ Eq).
    destruct (pq_weights q); [reflexivity|discriminate].
  - destruct Hx as [P1 P2]. destruct (P1 _ _ _ A1) as (L1 & L2), (P1 _ _ _ A2) as (L3 & L4).
    unfold tensor_entry.
    exists ((nat * R) * (nat * R))%type, (list_prod (enumerate (qd_weights q)) (enumerate (qd_weights r))). eexists. split; [apply (fold_pairs (fun pw qw => _))|]. split.
    + intros [[n w] [n' w']] Hp. apply in_prod_iff in Hp. destruct Hp as (Hw & Hw'). apply In_enumerate in Hw, Hw'. cbn [fst snd] in *.
      assert (Hn : n < length (qd_weights q)) by (apply nth_error_Some; congruence). assert (Hn' : n' < length (qd_weights r)) by (apply nth_error_Some; congruence).
      apply M; [apply M|].
      * rewrite (kernel_of kd G Hk). apply (value_in P Q); auto.
        -- apply N. eapply used_distant; eauto.
        -- apply (di_basis _ _ _ _ _ F); [now left|left; eauto 10|lia|exact Ha].
        -- apply (di_basis _ _ _ _ _ F); [now right|left; eauto 10|lia|exact Hb].
      * eapply (di_simplex _ _ _ _ _ F); [now right|exact A2|exact Hw'|exact Hs].
      * eapply (di_simplex _ _ _ _ _ F); [now left|exact A1|exact Hw|exact Ht].
    + intros (Sp & _) El. pose proof (Sp _ _ _ A1) as N1. pose proof (Sp _ _ _ A2) as N2. destruct (qd_weights q); [now apply N1|]. destruct (qd_weights r); [now apply N2|]. discriminate.
Qed.

(** An entry all of whose pairs of cells have derivatives in [neg]; it is in [below] if
    those of some pair are. *)
Theorem signed_entries wmod o ct rt : legal_runtime (s_add S) rt -> dense_setting X wmod (laplace_operator kd G) o deg pts ct test trial -> data_in S pos X test trial ->
  exists m, assemble S X rt wmod (laplace_operator kd G) o trial test = Ok m /\
  length m = global_size (fs_space test) * global_size (fs_space trial) /\
  forall i j, i < global_size (fs_space test) -> j < global_size (fs_space trial) ->
    (forall t s, carried test i t -> carried trial j s -> derivative_in S neg X kd G deg pts test trial t s) ->
    exists v, nth_error m (i + global_size (fs_space test) * j) = Some v /\ neg v /\
      (some_points X -> data_in S above X test trial ->
       (exists t s, carried test i t /\ carried trial j s /\ derivative_in S below X kd G deg pts test trial t s) -> below v).
Proof.
  intros L D F. destruct (ordered_entries ct test trial (dense_order _ _ _ _ _ _ _ _ _ D)) as (ord & Ho & H).
  destruct (H T R S X rt wmod (laplace_operator kd G) o deg pts test trial (repeat (s_zero S) (global_size (fs_space test) * global_size (fs_space trial)))
    ltac:(repeat split) ltac:(repeat split) L D (repeat_length _ _)) as (m & val & E & V & Ln & K).
  rewrite (assemble_on_zeros S X rt wmod _ o trial test (ss_processes _ (dn_test _ _ _ _ _ _ _ _ _ D)) (ss_processes _ (dn_trial _ _ _ _ _ _ _ _ _ D))) in E.
  exists m. split; [now injection E|]. split; [now rewrite Ln, repeat_length|]. intros i j Hi Hj N.
  assert (Rg : forall t s a b, contributes test trial i j ((t, s), (a, b)) -> t < ent_count (fs_grid test) 2 /\ s < ent_count (fs_grid trial) 2 /\
    a < el_dim (fs_family test (g_ctype (fs_grid test) t)) /\ b < el_dim (fs_family trial (g_ctype (fs_grid trial) s)) /\ carried test i t /\ carried trial j s).
  { intros t s a b (Ht & Hs & Ea & Eb). cbn [fst snd] in *. split; [exact Ht|]. split; [exact Hs|]. split; [|split].
    - rewrite <- (dofs_at_dim test t) by (auto; apply D). apply nth_error_Some. congruence.
    - rewrite <- (dofs_at_dim trial s) by (auto; apply D). apply nth_error_Some. congruence.
    - split; split; auto; eapply nth_error_In; eauto. }
  assert (Tn : forall k, In k (ord i j) -> neg (val (fst (fst k)) (snd (fst k)) (fst (snd k)) (snd (snd k)))).
  { intros [[t s] [a b]] Hin. apply Ho in Hin. destruct (Rg t s a b Hin) as (Ht & Hs & Ha & Hb & Ct & Cs). cbn [fst snd].
    destruct (pair_in neg pos t s a b (val t s a b)) as (A & l & f & -> & P & _); auto; [apply D|apply Z|]. apply fold_neg; [apply Z|exact P]. }
  eexists. split; [apply (K i j (s_zero S)); auto; apply nth_error_repeat; nia|].
  assert (Ac : forall l acc, accumulate (s_add S) val l acc = fold_left (fun acc k => s_add S acc (val (fst (fst k)) (snd (fst k)) (fst (snd k)) (snd (snd k)))) l acc).
  { clear. intros l. unfold accumulate. induction l as [|[[t s] [a b]] l IH]; intros acc; [reflexivity|]. cbn [fold_left fst snd]. apply IH. }
  rewrite Ac. split; [apply fold_neg; [apply Z|exact Tn]|]. intros Sp Fa (t & s & Ct & Cs & Bd).
  apply fold_below; [apply Z|exact Tn|].
  destruct Ct as (Ht & Hit), Cs as (Hs & Hjs). apply In_nth_error in Hit, Hjs. destruct Hit as (a & Ea), Hjs as (b & Eb).
  assert (C : contributes test trial i j ((t, s), (a, b))) by (repeat split; auto).
  exists ((t, s), (a, b)). split; [now apply Ho|]. cbn [fst snd]. destruct (Rg t s a b C) as (_ & _ & Ha & Hb & _).
  destruct (pair_in below above t s a b (val t s a b)) as (A & l & f & -> & P & Ne); auto; [apply D|apply Z|].
  destruct l as [|k l]; [now elim (Ne Sp)|]. apply fold_below; [apply Z|intros; apply (sg_below _ _ _ _ _ Z); auto|]. exists k. split; [now left|apply P; now left].
Qed.

(** The values of the singular part. *)
Theorem signed_singular wmod o ct rt : legal_runtime (s_add S) rt -> dense_setting X wmod (laplace_operator kd G) o deg pts ct test trial -> data_in S pos X test trial ->
  g_id (fs_grid test) = g_id (fs_grid trial) ->
  (forall t s, t < ent_count (fs_grid test) 2 -> s < ent_count (fs_grid trial) 2 -> derivative_in S neg X kd G deg pts test trial t s) ->
  exists m, assemble_singular_part S X rt wmod (laplace_operator kd G) o (shape_of test trial) trial test = Ok m /\ Forall neg (sm_data m).
Proof.
  intros L D F E N.
  pose proof (dense_singular X wmod _ o deg pts ct test trial D E) as SS. pose proof (dn_same _ _ _ _ _ _ _ _ _ D E) as Eg.
  destruct (singular_part_labels S X rt wmod _ o deg test trial L SS) as (m & ks & Em & Es & L1 & L2 & L3 & _ & Hl & Hv).
  exists m. split; [exact Em|]. apply Forall_forall. intros v Hin.
  apply In_nth_error in Hin. destruct Hin as (n & Hn).
  assert (Tn : exists x, nth_error (triplets m) n = Some x /\ snd x = v).
  { unfold triplets. assert (Ln : n < length (sm_data m)) by (apply nth_error_Some; congruence).
    destruct (nth_error (combine (sm_rows m) (sm_cols m)) n) as [rc|] eqn:Erc.
    - exists (rc, v). split; [|reflexivity]. clear - Erc Hn. revert n Erc Hn. generalize (combine (sm_rows m) (sm_cols m)) as l. generalize (sm_data m) as d.
      induction d as [|y d IH]; intros [|e l] [|n]; cbn; try discriminate; [congruence|]. apply IH.
    - apply nth_error_None in Erc. rewrite combine_length in Erc. lia. }
  destruct Tn as (x & Ex & <-).
  assert (Kn : exists k, nth_error ks n = Some k /\ In k ks /\ triplet_of test trial (singular_value S X (laplace_operator kd G) deg test trial) (fst (fst k)) (snd (fst k)) (fst (snd k)) (snd (snd k)) x).
  { clear - Hv Ex. revert n Ex. induction Hv as [|k y ks ys Hh Hr IH]; intros [|n] Ex; cbn in Ex; try discriminate.
    - injection Ex as <-. exists k. split; [reflexivity|]. split; [now left|exact Hh].
    - destruct (IH n Ex) as (k' & A & B & C). exists k'. split; [exact A|]. split; [now right|exact C]. }
  destruct Kn as ([[t s] [a b]] & _ & Hin & (i & j & Ea & Eb & _ & _ & V)). cbn [fst snd] in *.
  apply Hl in Hin. destruct Hin as (Ht & Hs & _ & Tc & La & Lb).
  destruct (singular_in neg pos t s a b (snd x) Ht Hs) as (l & f & -> & P & _); auto.
  - rewrite <- (dofs_at_dim test t) by (auto; apply D). exact La.
  - rewrite Eg in *. rewrite <- (dofs_at_dim trial s (dn_trial _ _ _ _ _ _ _ _ _ D) Hs). exact Lb.
  - split; auto.
  - apply Z.
  - apply N; [exact Ht|now rewrite <- Eg].
  - apply fold_neg; [apply Z|exact P].
Qed.
End Signs.
