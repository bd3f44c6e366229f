(** * Double layer matrices of cells in one plane *)
From Coq Require Import Reals Lra.
From Verif Require Import Base BaseFacts Topology TopologyFacts DofMap DofMapFacts SpecDof DofMapResults Process Space SpecSpace Options
  Adjacency SpecAdjacency Scalar Integrand CellPair Operators SpecLocal LocalFacts LocalResults Interleave Assembly SpecAssembly
  AssemblyFacts AssemblySingular AssemblyDense AssemblyExact AssemblyResults SpecOrder OrderResults
  SpecBroken BrokenResults SpecTransfer SpecOperators SpecDigits SpecPlanes.

Section Zeros.
Context {T R : Type} (S : scalar T R) (zero fin : T -> Prop) (Z : zeros S zero fin).
Context (X : externals R) (kd : kind) (G : @green T R) (Hk : kd = Double \/ kd = Adjoint).
Context (deg : cell_type -> cell_type -> nat) (pts : cell_type -> nat) (test trial : fspace T R).
Context (Hx : proper_rules X) (F : finite_data S fin X test trial).

Lemma fold_zero {A : Type} (f : A -> T) l acc : zero acc -> (forall a, In a l -> zero (f a)) -> zero (fold_left (fun acc a => s_add S acc (f a)) l acc).
Proof.
  revert acc. induction l as [|a l IH]; intros acc Ha H; cbn; [exact Ha|].
  apply IH; [apply (zr_add _ _ _ Z); [exact Ha|apply H; now left]|intros; apply H; now right].
Qed.

Lemma fold_inner {A B : Type} (f : A -> B -> T) l m acc : zero acc -> (forall a b, In a l -> In b m -> zero (f a b)) ->
  zero (fold_left (fun acc a => fold_left (fun acc b => s_add S acc (f a b)) m acc) l acc).
Proof.
  revert acc. induction l as [|a l IH]; intros acc Ha H; cbn; [exact Ha|].
  apply IH; [|intros; apply H; auto; now right]. apply fold_zero; [exact Ha|]. intros b Hb. apply H; auto. now left.
Qed.

(** The integrand at one pair of points. *)
Lemma value_zero (phi psi : nat -> T) x p y q :
  zero (dot S (fun i => G (1 + i) (SpecLocal.position x p) (SpecLocal.position y q)) (match kd with Adjoint => SpecLocal.normal S x p | _ => SpecLocal.normal S y q end)) ->
  fin (phi 0) -> fin (psi 0) ->
  zero (integrand_value S (op_integrand (laplace_operator kd G)) (fun i => G i (SpecLocal.position x p) (SpecLocal.position y q)) phi psi x p y q).
Proof.
  intros H P Q. destruct Hk as [-> | ->]; cbn [laplace_operator laplace_double_layer laplace_adjoint_double_layer op_integrand integrand_value].
  - apply (zr_left _ _ _ Z); [|exact Q]. apply (zr_left _ _ _ Z); [exact H|exact P].
  - apply (zr_left _ _ _ Z); [|exact Q]. apply (zr_left _ _ _ Z); [|exact P]. apply (zr_neg _ _ _ Z), H.
Qed.

Lemma kernel_of : kn_value (op_kernel (laplace_operator kd G)) = G.
Proof. destruct Hk as [-> | ->]; reflexivity. Qed.

Lemma singular_zero t s a b v : t < ent_count (fs_grid test) 2 -> s < ent_count (fs_grid test) 2 ->
  a < el_dim (fs_family test (g_ctype (fs_grid test) t)) -> b < el_dim (fs_family trial (g_ctype (fs_grid test) s)) ->
  no_normal_derivative S zero X kd G deg pts test trial t s -> touching test trial t s ->
  singular_value S X (laplace_operator kd G) deg test trial t s a b v -> zero v.
Proof.
  intros Ht Hs Ha Hb N C (p & k & d & q & A1 & A2 & A3 & A4 & ->). destruct Hx as [P1 P2]. destruct (P2 _ _ _ _ _ A4) as (L1 & L2).
  unfold pairwise_entry. apply fold_zero; [apply Z|]. intros [n w] Hw. apply In_enumerate in Hw. cbn [fst snd] in *.
  assert (Hn : n < length (pq_weights q)) by (apply nth_error_Some; congruence).
  apply (zr_left _ _ _ Z).
  - rewrite kernel_of. apply value_zero.
    + apply N. eapply used_touching; eauto.
    + apply (fd_basis _ _ _ _ _ F); [now left|right; do 5 eexists; split; [exact A4|now left]|lia|exact Ha].
    + apply (fd_basis _ _ _ _ _ F); [now right|right; do 5 eexists; split; [exact A4|now right]|lia|exact Hb].
  - eapply (fd_duffy _ _ _ _ _ F); eauto.
Qed.

Lemma pair_zero t s a b v : t < ent_count (fs_grid test) 2 -> s < ent_count (fs_grid trial) 2 -> same_object test trial ->
  a < el_dim (fs_family test (g_ctype (fs_grid test) t)) -> b < el_dim (fs_family trial (g_ctype (fs_grid trial) s)) ->
  no_normal_derivative S zero X kd G deg pts test trial t s ->
  pair_value S X (laplace_operator kd G) deg pts test trial t s a b v -> zero v.
Proof.
  intros Ht Hs So Ha Hb N [(C & V)|(C & q & r & A1 & A2 & ->)].
  - assert (E : fs_grid test = fs_grid trial) by (apply So, C). rewrite <- E in Hs, Hb. eapply (singular_zero t s a b v); eauto.
  - destruct Hx as [P1 P2]. destruct (P1 _ _ _ A1) as (L1 & L2), (P1 _ _ _ A2) as (L3 & L4).
    unfold tensor_entry. apply fold_inner; [apply Z|]. intros [n w] [n' w'] Hw Hw'. apply In_enumerate in Hw, Hw'. cbn [fst snd] in *.
    assert (Hn : n < length (qd_weights q)) by (apply nth_error_Some; congruence). assert (Hn' : n' < length (qd_weights r)) by (apply nth_error_Some; congruence).
    apply (zr_left _ _ _ Z); [apply (zr_left _ _ _ Z)|].
    + rewrite kernel_of. apply value_zero.
      * apply N. eapply used_distant; eauto.
      * apply (fd_basis _ _ _ _ _ F); [now left|left; eauto 10|lia|exact Ha].
      * apply (fd_basis _ _ _ _ _ F); [now right|left; eauto 10|lia|exact Hb].
    + eapply (fd_simplex _ _ _ _ _ F); [now right|exact A2|exact Hw'|exact Hs].
    + eapply (fd_simplex _ _ _ _ _ F); [now left|exact A1|exact Hw|exact Ht].
Qed.

Theorem zero_entries rt wmod o ct : legal_runtime (s_add S) rt -> dense_setting X wmod (laplace_operator kd G) o deg pts ct test trial ->
  exists m, assemble S X rt wmod (laplace_operator kd G) o trial test = Ok m /\
  forall i j, i < global_size (fs_space test) -> j < global_size (fs_space trial) ->
    (forall t s, carried test i t -> carried trial j s -> no_normal_derivative S zero X kd G deg pts test trial t s) ->
    exists v, nth_error m (i + global_size (fs_space test) * j) = Some v /\ zero v.
Proof.
  intros L D. destruct (ordered_entries ct test trial (dense_order _ _ _ _ _ _ _ _ _ D)) as (ord & Ho & H).
  destruct (H T R S X rt wmod (laplace_operator kd G) o deg pts test trial (repeat (s_zero S) (global_size (fs_space test) * global_size (fs_space trial)))
    ltac:(repeat split) ltac:(repeat split) L D (repeat_length _ _)) as (m & val & E & V & _ & K).
  rewrite (assemble_on_zeros S X rt wmod _ o trial test (ss_processes _ (dn_test _ _ _ _ _ _ _ _ _ D)) (ss_processes _ (dn_trial _ _ _ _ _ _ _ _ _ D))) in E.
  exists m. split; [now injection E|]. intros i j Hi Hj N.
  eexists. split; [apply (K i j (s_zero S)); auto; apply nth_error_repeat; nia|].
  unfold accumulate. assert (Q : forall k, In k (ord i j) -> contributes test trial i j k) by (intros; now apply Ho).
  assert (Z0 := zr_zero _ _ _ Z). revert Z0. generalize (s_zero S) as acc. induction (ord i j) as [|[[t s] [a b]] l IH]; intros acc Z0; cbn [fold_left]; [exact Z0|].
  apply IH; [intros; apply Q; now right|]. apply (zr_add _ _ _ Z); [exact Z0|].
  destruct (Q _ (or_introl eq_refl)) as (Ht & Hs & Ea & Eb).
  apply (pair_zero t s a b); auto.
  - apply D.
  - rewrite <- (dofs_at_dim test t) by (auto; apply D). apply nth_error_Some. congruence.
  - rewrite <- (dofs_at_dim trial s) by (auto; apply D). apply nth_error_Some. congruence.
  - apply N; split; auto; eapply nth_error_In; eauto.
Qed.
End Zeros.

Section Level.
Context {T R : Type} (S : scalar T R) (zero fin : T -> Prop) (Z : zeros S zero fin).
Context (X : externals R) (kd : kind) (G : @green T R) (Hk : kd = Double \/ kd = Adjoint).
Context (deg : cell_type -> cell_type -> nat) (pts : cell_type -> nat) (ct : cell_type) (test trial : fspace T R) (wmod : nat) (o : options).
Context (D : dense_setting X wmod (laplace_operator kd G) o deg pts ct test trial) (F : finite_data S fin X test trial).

Theorem zero_matrix rt : legal_runtime (s_add S) rt ->
  (forall t s, t < ent_count (fs_grid test) 2 -> s < ent_count (fs_grid trial) 2 -> no_normal_derivative S zero X kd G deg pts test trial t s) ->
  exists m, assemble S X rt wmod (laplace_operator kd G) o trial test = Ok m /\
    length m = global_size (fs_space test) * global_size (fs_space trial) /\ Forall zero m.
Proof.
  intros L N. destruct (zero_entries S zero fin Z X kd G Hk deg pts test trial (dn_proper _ _ _ _ _ _ _ _ _ D) F rt wmod o ct L D) as (m & E & H).
  assert (Ln : length m = global_size (fs_space test) * global_size (fs_space trial)).
  { destruct (ordered_entries ct test trial (dense_order _ _ _ _ _ _ _ _ _ D)) as (ord & _ & K).
    destruct (K T R S X rt wmod (laplace_operator kd G) o deg pts test trial (repeat (s_zero S) (global_size (fs_space test) * global_size (fs_space trial)))
      ltac:(repeat split) ltac:(repeat split) L D (repeat_length _ _)) as (m' & val & E' & _ & L' & _).
    rewrite (assemble_on_zeros S X rt wmod _ o trial test (ss_processes _ (dn_test _ _ _ _ _ _ _ _ _ D)) (ss_processes _ (dn_trial _ _ _ _ _ _ _ _ _ D))) in E'.
    rewrite repeat_length in L'. congruence. }
  exists m. split; [exact E|]. split; [exact Ln|]. apply Forall_forall. intros v Hv. apply In_nth_error in Hv. destruct Hv as (k & Hk').
  assert (Kl : k < length m) by (apply nth_error_Some; congruence). rewrite Ln in Kl.
  set (n := global_size (fs_space test)) in *. assert (Hn : n <> 0) by (intros E0; rewrite E0 in Kl; lia).
  destruct (H (k mod n) (k / n)) as (w & Ew & Zw).
  - now apply Nat.mod_upper_bound.
  - apply Nat.div_lt_upper_bound; auto.
  - intros t s (Ht & _) (Hs & _). now apply N.
  - fold n in Ew. replace (k mod n + n * (k / n)) with k in Ew by (pose proof (Nat.div_mod k n Hn); lia). congruence.
Qed.

Theorem zero_singular rt : legal_runtime (s_add S) rt -> (forall v, zero v -> s_large S v = false) ->
  (forall t s, t < ent_count (fs_grid test) 2 -> s < ent_count (fs_grid trial) 2 -> no_normal_derivative S zero X kd G deg pts test trial t s) ->
  assemble_singular S X rt wmod (laplace_operator kd G) o trial test = Ok (CsrEmpty (global_size (fs_space test), global_size (fs_space trial))).
Proof.
  intros L Small N. destruct (Nat.eq_dec (g_id (fs_grid test)) (g_id (fs_grid trial))) as [E|E]; [|now apply other_grid_no_singular].
  pose proof (dense_singular X wmod _ o deg pts ct test trial D E) as SS. pose proof (dn_same _ _ _ _ _ _ _ _ _ D E) as Eg.
  destruct (singular_part_labels S X rt wmod _ o deg test trial L SS) as (m & ks & Em & Es & L1 & L2 & L3 & _ & Hl & Hv).
  replace (global_size (fs_space test), global_size (fs_space trial)) with (sm_shape m) by exact Es.
  apply (singular_threshold S X rt wmod _ o trial test m Em). intros v Hin. apply Small.
  apply In_nth_error in Hin. destruct Hin as (n & Hn).
  assert (Tn : exists x, nth_error (triplets m) n = Some x /\ snd x = v).
  { unfold triplets. assert (Ln : n < length (sm_data m)) by (apply nth_error_Some; congruence).
    destruct (nth_error (combine (sm_rows m) (sm_cols m)) n) as [rc|] eqn:Erc.
    - exists (rc, v). split; [|reflexivity]. clear - Erc Hn. revert n Erc Hn. generalize (combine (sm_rows m) (sm_cols m)) as l. generalize (sm_data m) as d.
      induction d as [|y d IH]; intros [|e l] [|n]; cbn; try discriminate; [congruence|]. apply IH.
    - apply nth_error_None in Erc. rewrite combine_length in Erc. lia. }
  destruct Tn as (x & Ex & <-).
  assert (Kn : exists k, nth_error ks n = Some k /\ In k ks /\ triplet_of test trial (singular_value S X (laplace_operator kd G) deg test trial) (fst (fst k)) (snd (fst k)) (fst (snd k)) (snd (snd k)) x).
  { clear - Hv Ex. revert n Ex. induction Hv as [|k y ks ys Hh Hr IH]; intros [|n] Ex; cbn in Ex; try discriminate.
    - injection Ex as <-. exists k. split; [reflexivity|]. split; [now left|exact Hh].
    - destruct (IH n Ex) as (k' & A & B & C). exists k'. split; [exact A|]. split; [now right|exact C]. }
  destruct Kn as ([[t s] [a b]] & _ & Hin & (i & j & Ea & Eb & _ & _ & V)). cbn [fst snd] in *.
  apply Hl in Hin. destruct Hin as (Ht & Hs & _ & Tc & La & Lb).
  eapply (singular_zero S zero fin Z X kd G Hk deg pts test trial (dn_proper _ _ _ _ _ _ _ _ _ D) F t s a b); auto.
  - rewrite <- (dofs_at_dim test t) by (auto; apply D). exact La.
  - rewrite Eg in *. rewrite <- (dofs_at_dim trial s (dn_trial _ _ _ _ _ _ _ _ _ D) Hs). exact Lb.
  - apply N; [exact Ht|now rewrite <- Eg].
  - split; auto.
Qed.

Lemma used_rules t s x p y q : used_points X deg pts test trial t s x p y q ->
  exists t' points points', rule_points X points /\ rule_points X points' /\ 2 * p < length points /\ 2 * q < length points' /\
    x = x_geometry X (fs_grid test) t' points t /\ exists s', y = x_geometry X (fs_grid trial) s' points' s.
Proof.
  pose proof (dn_proper _ _ _ _ _ _ _ _ _ D) as [P1 P2]. intros [pairs k d r n C A1 A2 A3 A4 Hn|qt qs n n' C A1 A2 Hn Hn'].
  - destruct (P2 _ _ _ _ _ A4) as (L1 & L2). assert (E : fs_grid test = fs_grid trial) by (apply (dn_same _ _ _ _ _ _ _ _ _ D), C).
    exists (g_ctype (fs_grid test) t), (pq_test r), (pq_trial r).
    split; [right; do 5 eexists; split; [exact A4|now left]|]. split; [right; do 5 eexists; split; [exact A4|now right]|].
    split; [lia|]. split; [lia|]. split; [reflexivity|]. exists (g_ctype (fs_grid test) s). now rewrite <- E.
  - destruct (P1 _ _ _ A1) as (L1 & L2), (P1 _ _ _ A2) as (L3 & L4).
    exists (g_ctype (fs_grid test) t), (qd_points qt), (qd_points qs).
    split; [left; eauto 10|]. split; [left; eauto 10|]. split; [lia|]. split; [lia|]. split; [reflexivity|]. eauto.
Qed.

Lemma level_derivative h t s : level_grid S zero fin X (fs_grid test) h -> level_grid S zero fin X (fs_grid trial) h -> level_kernel zero fin X G deg pts test trial ->
  t < ent_count (fs_grid test) 2 -> s < ent_count (fs_grid trial) 2 -> no_normal_derivative S zero X kd G deg pts test trial t s.
Proof.
  intros Lt Ls K Ht Hs x p y q U. destruct (K t s x p y q Ht Hs U) as (G1 & G2 & G3).
  destruct (used_rules _ _ _ _ _ _ U) as (t' & ps & ps' & R1 & R2 & Lp & Lq & -> & s' & ->).
  destruct (Lt t' ps t p Ht R1 Lp) as (H1 & N0 & N1 & N2), (Ls s' ps' s q Hs R2 Lq) as (H2 & M0 & M1 & M2).
  specialize (G3 (eq_trans H1 (eq_sym H2))). unfold dot.
  destruct Hk as [-> | ->]; apply (zr_add _ _ _ Z); [apply (zr_add _ _ _ Z)| |apply (zr_add _ _ _ Z)|];
    solve [apply (zr_right _ _ _ Z); assumption | apply (zr_left _ _ _ Z); assumption].
Qed.

Theorem level_zero rt h : legal_runtime (s_add S) rt -> level_grid S zero fin X (fs_grid test) h -> level_grid S zero fin X (fs_grid trial) h ->
  level_kernel zero fin X G deg pts test trial ->
  exists m, assemble S X rt wmod (laplace_operator kd G) o trial test = Ok m /\
    length m = global_size (fs_space test) * global_size (fs_space trial) /\ Forall zero m /\
    ((forall v, zero v -> s_large S v = false) ->
      assemble_singular S X rt wmod (laplace_operator kd G) o trial test = Ok (CsrEmpty (global_size (fs_space test), global_size (fs_space trial)))).
Proof.
  intros L Lt Ls K. destruct (zero_matrix rt L) as (m & E & Ln & H); [intros; eapply level_derivative; eauto|].
  exists m. repeat (split; [assumption|]). intros Small. apply zero_singular; auto. intros; eapply level_derivative; eauto.
Qed.
End Level.
