(** * Results about options in the Python layer *)
From Verif Require Import Base BaseFacts Topology Options SpecOptions OptionsResults Python SpecPython.
From Coq Require Import ZArith.

Lemma values_same : forall s i s' i', values s i = values s' i' -> same_values s i s' i'.
Proof.
  intros s i s' i' H. unfold values in H. unfold same_values, py_regular_degree, py_singular_degree, py_batch_size.
  destruct (nth_error (se_options s) i) as [p|], (nth_error (se_options s') i') as [p'|]; try rewrite H; auto.
  - rewrite <- H. auto.
Qed.

(** Python options [i] holds native options [i]; assemblers refer to the native
    options of their options, which are read only. *)
Record wired (s : session) : Prop := mkWired {
  wi_length : length (se_native s) = length (se_options s);
  wi_handle : forall i p, nth_error (se_options s) i = Some p -> po_handle p = i;
  wi_assembler : forall a, In a (se_assemblers s) -> pa_native a = pa_options a /\
    exists p, nth_error (se_options s) (pa_options a) = Some p /\ po_read_only p = true;
  wi_default : 0 < length (se_options s) /\ nth_error (se_native s) 0 = Some default_options;
  wi_keys : forall o, In o (se_native s) -> map fst (o_quadrature_degrees o) = map fst (o_quadrature_degrees default_options) /\
    map fst (o_singular_degrees o) = map fst (o_singular_degrees default_options);
  wi_read_only : forall i p, nth_error (se_options s) i = Some p -> po_read_only p = true -> given s i
}.

Lemma set_nth_length' : forall (A : Type) (l : list A) i x, length (set_nth l i x) = length l.
Proof. induction l as [|y l IH]; intros [|i] x; cbn; auto. Qed.

Lemma set_nth_get : forall (A : Type) (l : list A) i x j, nth_error (set_nth l i x) j = if j =? i then (if i <? length l then Some x else None) else nth_error l j.
Proof.
  induction l as [|y l IH]; intros i x j; cbn [set_nth].
  - destruct (Nat.eqb_spec j i) as [->|]; [|reflexivity]. destruct i; reflexivity.
  - destruct i as [|i], j as [|j]; try reflexivity. cbn [nth_error]. rewrite IH. reflexivity.
Qed.

Lemma wired_loaded : wired loaded.
Proof.
  constructor; cbn.
  - reflexivity.
  - intros [|i] p H; [injection H as <-; reflexivity|]. destruct i; discriminate.
  - intros a [].
  - split; [lia|reflexivity].
  - intros o [<-|[]]. split; reflexivity.
  - intros [|i] p H R; [injection H as <-; discriminate|]. destruct i; discriminate.
Qed.

Lemma and_modify_keys : forall (K V : Type) (eqb : K -> K -> bool) (k : K) (v : V) m, map fst (and_modify eqb k v m) = map fst m.
Proof. intros. unfold and_modify. rewrite map_map. apply map_ext. intros [k' v']. cbn. destruct (eqb k k'); reflexivity. Qed.

Lemma in_set_nth : forall (A : Type) (l : list A) i x y, In y (set_nth l i x) -> y = x \/ In y l.
Proof.
  induction l as [|z l IH]; intros [|i] x y; cbn; auto.
  - intros [->|H]; auto.
  - intros [->|H]; auto. destruct (IH _ _ _ H); auto.
Qed.

(** A setter raises without any effect or changes one entry of options that are
    not read only. *)
Inductive set_result (i : nat) (s : session) (known : options -> bool) (v : Z) (set : nat -> options -> options) : result -> Prop :=
| set_raised : ((exists p, nth_error (se_options s) i = Some p /\ po_read_only p = true) \/ nth_error (se_options s) i = None \/
      (exists o, values s i = Some o /\ known o = false) \/ to_usize v = None) -> set_result i s known v set (Raised s)
| set_done : forall o n, nth_error (se_options s) i = Some (mkPyOptions false i) -> values s i = Some o -> known o = true -> to_usize v = Some n ->
    set_result i s known v set (Done (mkSession (set_nth (se_native s) i (set n o)) (se_options s) (se_assemblers s))).

Lemma py_setter_spec : forall i known v set s, wired s -> set_result i s known v set (py_setter i known v set s).
Proof.
  intros i known v set s W. unfold py_setter. destruct (nth_error (se_options s) i) as [p|] eqn:P.
  2:{ apply set_raised. auto. }
  destruct (po_read_only p) eqn:R. { apply set_raised. left. eauto. }
  pose proof (wi_handle _ W _ _ P) as H. rewrite H.
  assert (L : i < length (se_native s)). { rewrite (wi_length _ W). apply nth_error_Some. congruence. }
  assert (V : values s i = nth_error (se_native s) i). { unfold values. now rewrite P, H. }
  destruct (nth_error (se_native s) i) as [o|] eqn:N. 2:{ apply nth_error_None in N. lia. }
  destruct (known o) eqn:K; cbn [negb]. 2:{ apply set_raised. right. right. left. eauto. }
  destruct (to_usize v) as [n|] eqn:U. 2:{ apply set_raised. auto. }
  apply set_done; try assumption. rewrite P. destruct p as [r h]. cbn in *. congruence.
Qed.

(** The setter of a call: which values it knows and what it does. *)
Definition call_set (c : call) : option (nat * (options -> bool) * Z * (nat -> options -> options)) :=
  match c with
  | SetRegularDegree i t v => Some (i, (fun o => is_some (get_regular_quadrature_degree t o)), v, fun n => set_regular_quadrature_degree t n)
  | SetSingularDegree i t0 t1 v => Some (i, (fun o => is_some (get_singular_quadrature_degree (t0, t1) o)), v, fun n => set_singular_quadrature_degree (t0, t1) n)
  | SetBatchSize i v => Some (i, (fun _ => true), v, set_batch_size)
  | _ => None
  end.

Inductive step_result (s : session) (c : call) : result -> Prop :=
| step_raised : step_result s c (Raised s)
| step_aborted : step_result s c Aborted
| step_new : c = NewOptions -> step_result s c (Done (new_options s))
| step_set : forall i known v set o n, call_set c = Some (i, known, v, set) -> setter_of c = Some i ->
    nth_error (se_options s) i = Some (mkPyOptions false i) -> values s i = Some o -> known o = true -> to_usize v = Some n ->
    step_result s c (Done (mkSession (set_nth (se_native s) i (set n o)) (se_options s) (se_assemblers s)))
| step_assembler : forall o op d i r, c = CreateLaplaceAssembler o op d -> i = match o with Some i => i | None => 0 end ->
    nth_error (se_options s) i = Some (mkPyOptions r i) ->
    step_result s c (Done (mkSession (se_native s) (set_nth (se_options s) i (mkPyOptions true i)) (se_assemblers s ++ [mkPyAssembler i i]))).

Lemma execute_spec : forall c s, wired s -> step_result s c (execute c s).
Proof.
  intros c s W. destruct c as [|i t v|i t0 t1 v|i v|o op d]; cbn [execute].
  - now apply step_new.
  - destruct (py_setter_spec i (fun o => is_some (get_regular_quadrature_degree t o)) v (fun n => set_regular_quadrature_degree t n) s W) as [?|o n ? ? ? ?].
    + apply step_raised.
    + exact (step_set s (SetRegularDegree i t v) i (fun o => is_some (get_regular_quadrature_degree t o)) v (fun n => set_regular_quadrature_degree t n) o n eq_refl eq_refl ltac:(assumption) ltac:(assumption) ltac:(first [assumption|reflexivity]) ltac:(assumption)).
  - destruct (py_setter_spec i (fun o => is_some (get_singular_quadrature_degree (t0, t1) o)) v (fun n => set_singular_quadrature_degree (t0, t1) n) s W) as [?|o n ? ? ? ?].
    + apply step_raised.
    + exact (step_set s (SetSingularDegree i t0 t1 v) i (fun o => is_some (get_singular_quadrature_degree (t0, t1) o)) v (fun n => set_singular_quadrature_degree (t0, t1) n) o n eq_refl eq_refl ltac:(assumption) ltac:(assumption) ltac:(first [assumption|reflexivity]) ltac:(assumption)).
  - destruct (py_setter_spec i (fun _ => true) v set_batch_size s W) as [?|o n ? ? ? ?].
    + apply step_raised.
    + exact (step_set s (SetBatchSize i v) i (fun _ => true) v set_batch_size o n eq_refl eq_refl ltac:(assumption) ltac:(assumption) ltac:(first [assumption|reflexivity]) ltac:(assumption)).
  - unfold create_laplace_assembler. set (i := match o with Some i => i | None => 0 end).
    destruct (nth_error (se_options s) i) as [p|] eqn:P; [|apply step_raised].
    pose proof (wi_handle _ W _ _ P) as H. destruct p as [r h]. cbn in H. subst h. cbn [po_handle].
    destruct d; try apply step_raised; (destruct (laplace_accepts op _); [|apply step_aborted]);
      (eapply step_assembler; [reflexivity|reflexivity|exact P]).
Qed.

(** Every step keeps the wiring, the assemblers and what is frozen. *)
Lemma step_keeps : forall c s s', wired s -> accessible s c ->
  (execute c s = Done s' \/ execute c s = Raised s') ->
  wired s' /\ (exists new, se_assemblers s' = se_assemblers s ++ new) /\
  (forall i o, values s i = Some o -> (forall p, nth_error (se_options s) i = Some p -> po_read_only p = true) \/ setter_of c <> Some i -> values s' i = Some o) /\
  (forall i p, nth_error (se_options s) i = Some p -> exists p', nth_error (se_options s') i = Some p' /\ (po_read_only p = true -> po_read_only p' = true)).
Proof.
  intros c s s' W NoSet X. pose proof (execute_spec c s W) as K.
  assert (V0 : forall i p, nth_error (se_options s) i = Some p -> values s i = nth_error (se_native s) i).
  { intros i p P. unfold values. now rewrite P, (wi_handle _ W _ _ P). }
  inversion K as [E|E|C E|i known v set o n C1 C2 P V Kn U E|o op d i r C I P E]; rewrite <- E in X; destruct X as [X|X]; try discriminate X; injection X as <-.
  - split; [assumption|]. split; [exists []; now rewrite app_nil_r|]. split; [auto|]. intros i p P. exists p. auto.
  - (* new options *)
    assert (L := wi_length _ W).
    assert (N : forall i p, nth_error (se_options s) i = Some p -> nth_error (se_options (new_options s)) i = Some p).
    { intros i p P. cbn. rewrite nth_error_app1; [assumption|]. apply nth_error_Some. congruence. }
    split; [|split; [exists []; cbn; now rewrite app_nil_r|split]].
    + constructor; cbn.
      * rewrite !app_length. cbn. lia.
      * intros i p P. destruct (Nat.lt_ge_cases i (length (se_options s))).
        -- rewrite nth_error_app1 in P by assumption. exact (wi_handle _ W _ _ P).
        -- rewrite nth_error_app2 in P by assumption. destruct (i - length (se_options s)) as [|k] eqn:D; [|destruct k; discriminate].
           cbn in P. injection P as <-. cbn. lia.
      * intros a A. destruct (wi_assembler _ W a A) as (H & p & P & R). split; [assumption|]. exists p. split; [|assumption]. exact (N _ _ P).
      * destruct (wi_default _ W) as [D1 D2]. split; [rewrite app_length; lia|]. destruct (se_native s); [discriminate|exact D2].
      * intros o I. apply in_app_or in I. destruct I as [I|[<-|[]]]; [exact (wi_keys _ W o I)|split; reflexivity].
      * intros i p P R. destruct (Nat.lt_ge_cases i (length (se_options s))).
        -- rewrite nth_error_app1 in P by assumption. exact (wi_read_only _ W _ _ P R).
        -- rewrite nth_error_app2 in P by assumption. destruct (i - length (se_options s)) as [|k] eqn:D; [|destruct k; discriminate].
           cbn in P. injection P as <-. discriminate R.
    + intros i o V _. unfold values in *. destruct (nth_error (se_options s) i) as [p|] eqn:P; [|discriminate].
      rewrite (N _ _ P). cbn. rewrite nth_error_app1; [assumption|]. apply nth_error_Some. congruence.
    + intros i p P. exists p. split; [exact (N _ _ P)|auto].
  - (* a setter *)
    assert (i <> 0).
    { intros ->. destruct (NoSet C2) as (a & A & A0). destruct (wi_assembler _ W a A) as (_ & p & Pa & R). rewrite A0, P in Pa. injection Pa as <-. discriminate R. }
    assert (Li : i < length (se_native s)). { rewrite (wi_length _ W). apply nth_error_Some. congruence. }
    split; [|split; [exists []; cbn; now rewrite app_nil_r|split]].
    + destruct W as [W1 W2 W3 W4 W5 W6]. constructor; cbn [se_native se_options se_assemblers]; try assumption.
      * now rewrite set_nth_length'.
      * destruct W4 as [D1 D2]. split; [assumption|]. rewrite set_nth_get. destruct (Nat.eqb_spec 0 i); [congruence|assumption].
      * intros o' I. apply in_set_nth in I. destruct I as [->|I]; [|exact (W5 o' I)].
        assert (Io : In o (se_native s)). { unfold values in V. rewrite P in V. exact (nth_error_In _ _ V). }
        destruct (W5 o Io) as [Q1 Q2].
        destruct c as [|j t u|j t0 t1 u|j u|]; try discriminate C1; cbn in C1; injection C1 as <- <- <- <-; cbn; rewrite ?and_modify_keys; auto.
    + intros j o' V' H'. unfold values in *. cbn. destruct (nth_error (se_options s) j) as [p|] eqn:Pj; [|discriminate].
      rewrite (wi_handle _ W _ _ Pj) in *. rewrite set_nth_get. destruct (Nat.eqb_spec j i) as [->|]; [|assumption].
      exfalso. destruct H' as [H'|H']; [|now apply H']. assert (p = mkPyOptions false i) by congruence. subst p. specialize (H' _ eq_refl). discriminate.
    + intros j p Pj. exists p. auto.
  - (* an assembler *)
    assert (Li : i < length (se_options s)) by (apply nth_error_Some; congruence).
    assert (N : forall j p, nth_error (se_options s) j = Some p -> exists p', nth_error (set_nth (se_options s) i (mkPyOptions true i)) j = Some p' /\ po_handle p' = j /\ (po_read_only p = true -> po_read_only p' = true) /\ (j = i -> po_read_only p' = true)).
    { intros j p Pj. rewrite set_nth_get. pose proof (wi_handle _ W _ _ Pj). destruct (Nat.eqb_spec j i) as [->|].
      - apply Nat.ltb_lt in Li. rewrite Li. eexists. split; [reflexivity|]. cbn. auto.
      - exists p. repeat split; try assumption; [auto|congruence]. }
    split; [|split; [cbn; eauto|split]].
    + constructor; cbn.
      * rewrite set_nth_length'. apply (wi_length _ W).
      * intros j p Pj. rewrite set_nth_get in Pj. destruct (Nat.eqb_spec j i) as [->|].
        -- destruct (i <? length (se_options s)); [|discriminate]. injection Pj as <-. reflexivity.
        -- exact (wi_handle _ W _ _ Pj).
      * intros a A. apply in_app_or in A. destruct A as [A|[<-|[]]].
        -- destruct (wi_assembler _ W a A) as (H & p & Pa & R). split; [assumption|]. destruct (N _ _ Pa) as (p' & ? & ? & ? & ?). exists p'. auto.
        -- cbn. split; [reflexivity|]. destruct (N _ _ P) as (p' & ? & ? & ? & ?). exists p'. auto.
      * rewrite set_nth_length'. apply (wi_default _ W).
      * apply (wi_keys _ W).
      * intros j p Pj R. rewrite set_nth_get in Pj. destruct (Nat.eqb_spec j i) as [->|].
        -- exists (mkPyAssembler i i). split; [cbn; apply in_or_app; right; now left|reflexivity].
        -- destruct (wi_read_only _ W _ _ Pj R) as (a & A & Ea). exists a. split; [cbn; apply in_or_app; now left|assumption].
    + intros j o' V' _. unfold values in *. cbn. destruct (nth_error (se_options s) j) as [p|] eqn:Pj; [|discriminate].
      destruct (N _ _ Pj) as (p' & -> & -> & _). now rewrite (wi_handle _ W _ _ Pj) in V'.
    + intros j p Pj. destruct (N _ _ Pj) as (p' & ? & ? & ? & ?). exists p'. auto.
Qed.

Lemma leads_keeps : forall cs s s', leads_to s cs s' -> wired s ->
  wired s' /\ (exists new, se_assemblers s' = se_assemblers s ++ new) /\
  (forall i o p, values s i = Some o -> nth_error (se_options s) i = Some p -> po_read_only p = true -> values s' i = Some o).
Proof.
  intros cs s s' L. induction L as [s|s c s' cs s'' A X L IH|s c s' cs s'' A X L IH]; intros W.
  - split; [assumption|]. split; [exists []; now rewrite app_nil_r|auto].
  - destruct (step_keeps c s s' W A (or_introl X)) as (W' & (n1 & E1) & K1 & K2). destruct (IH W') as (W'' & (n2 & E2) & K3).
    split; [assumption|]. split; [exists (n1 ++ n2); now rewrite E2, E1, app_assoc|].
    intros i o p V P R. destruct (K2 i p P) as (p' & P' & R'). apply (K3 i o p'); [|assumption|auto].
    apply K1; [assumption|]. left. intros q Q. congruence.
  - destruct (step_keeps c s s' W A (or_intror X)) as (W' & (n1 & E1) & K1 & K2). destruct (IH W') as (W'' & (n2 & E2) & K3).
    split; [assumption|]. split; [exists (n1 ++ n2); now rewrite E2, E1, app_assoc|].
    intros i o p V P R. destruct (K2 i p P) as (p' & P' & R'). apply (K3 i o p'); [|assumption|auto].
    apply K1; [assumption|]. left. intros q Q. congruence.
Qed.

Lemma wired_values : forall s i p, wired s -> nth_error (se_options s) i = Some p -> exists o, values s i = Some o /\ nth_error (se_native s) i = Some o.
Proof.
  intros s i p W P. unfold values. rewrite P, (wi_handle _ W _ _ P).
  destruct (nth_error (se_native s) i) as [o|] eqn:N; [eauto|]. apply nth_error_None in N. rewrite (wi_length _ W) in N.
  assert (i < length (se_options s)) by (apply nth_error_Some; congruence). lia.
Qed.

(** ** Frozen options *)

Theorem options_frozen : forall cs s cs' s' i, leads_to loaded cs s -> given s i -> leads_to s cs' s' ->
  same_values s i s' i /\ (forall c, setter_of c = Some i -> execute c s' = Raised s').
Proof.
  intros cs s cs' s' i L (a & A & <-) L'. destruct (leads_keeps _ _ _ L wired_loaded) as (W & _).
  destruct (leads_keeps _ _ _ L' W) as (W' & (new & As) & K).
  destruct (wi_assembler _ W a A) as (_ & p & P & R). destruct (wired_values _ _ _ W P) as (o & V & _).
  split.
  - apply values_same. rewrite V. symmetry. exact (K _ _ _ V P R).
  - intros c C. assert (A' : In a (se_assemblers s')) by (rewrite As; apply in_or_app; now left).
    destruct (wi_assembler _ W' a A') as (_ & p' & P' & R').
    destruct c as [|j t v|j t0 t1 v|j v|]; try discriminate C; cbn in C; injection C as ->; cbn [execute]; unfold py_setter; now rewrite P', R'.
Qed.

(** The native options an assembler refers to, now and when it was made. *)
Theorem assembler_options : forall cs s o op d s1 cs' s' a, leads_to loaded cs s ->
  execute (CreateLaplaceAssembler o op d) s = Done s1 -> se_assemblers s1 = se_assemblers s ++ [a] -> leads_to s1 cs' s' ->
  exists v, nth_error (se_native s') (pa_native a) = Some v /\ values s (pa_options a) = Some v /\
    pa_options a = match o with Some i => i | None => 0 end.
Proof.
  intros cs s o op d s1 cs' s' a L X EA L'. destruct (leads_keeps _ _ _ L wired_loaded) as (W & _).
  assert (Acc : accessible s (CreateLaplaceAssembler o op d)) by (intros H; discriminate H).
  destruct (step_keeps _ _ _ W Acc (or_introl X)) as (W1 & _ & K1 & K2).
  destruct (leads_keeps _ _ _ L' W1) as (W' & (new & As) & K).
  pose proof (execute_spec (CreateLaplaceAssembler o op d) s W) as Y. rewrite X in Y.
  inversion Y as [| |C E|i known v set o' n C1 C2 P V Kn U E|o' op' d' i r C I P E]; subst; try discriminate.
  injection C as <- <- <-. cbn in EA. apply app_inv_head in EA. injection EA as <-. cbn [pa_options pa_native].
  destruct (wired_values _ _ _ W P) as (v & V & _). exists v. split; [|split; [assumption|reflexivity]].
  set (i := match o with Some i => i | None => 0 end) in *.
  assert (V1 : values (mkSession (se_native s) (set_nth (se_options s) i (mkPyOptions true i)) (se_assemblers s ++ [mkPyAssembler i i])) i = Some v).
  { apply K1; [assumption|]. right. discriminate. }
  destruct (wi_assembler _ W1 (mkPyAssembler i i)) as (_ & p1 & P1 & R1). { cbn. apply in_or_app. right. now left. }
  cbn [pa_options] in P1. pose proof (K _ _ _ V1 P1 R1) as V'.
  destruct (wi_assembler _ W' (mkPyAssembler i i)) as (_ & p2 & P2 & R2). { rewrite As. cbn. apply in_or_app. left. apply in_or_app. right. now left. }
  cbn [pa_options] in P2. destruct (wired_values _ _ _ W' P2) as (v' & V2 & N2). congruence.
Qed.

Theorem default_assembler : forall cs s op d s1 cs' s' a, leads_to loaded cs s ->
  execute (CreateLaplaceAssembler None op d) s = Done s1 -> se_assemblers s1 = se_assemblers s ++ [a] -> leads_to s1 cs' s' ->
  nth_error (se_native s') (pa_native a) = Some default_options.
Proof.
  intros cs s op d s1 cs' s' a L X EA L'. destruct (assembler_options _ _ _ _ _ _ _ _ _ L X EA L') as (v & N & V & O).
  destruct (leads_keeps _ _ _ L wired_loaded) as (W & _). rewrite O in V.
  destruct (wi_default _ W) as [D1 D2]. unfold values in V. destruct (nth_error (se_options s) 0) as [p|] eqn:P; [|discriminate].
  rewrite (wi_handle _ W _ _ P) in V. congruence.
Qed.

(** ** Setters *)

Lemma to_usize_fits : forall v n, to_usize v = Some n -> (0 <= v < 2 ^ 64)%Z /\ n = Z.to_nat v.
Proof.
  unfold to_usize. intros v n. destruct ((0 <=? v) && (v <? 2 ^ 64))%Z eqn:F; [|discriminate]. apply andb_prop in F. destruct F as [F1 F2].
  intros H. injection H as <-. split; [|reflexivity]. apply Z.leb_le in F1. apply Z.ltb_lt in F2. lia.
Qed.

Theorem setters_raise : forall cs s c i, leads_to loaded cs s -> setter_of c = Some i ->
  (match c with
   | SetRegularDegree _ t v => py_regular_degree s i t = None \/ (v < 0)%Z \/ (2 ^ 64 <= v)%Z
   | SetSingularDegree _ t0 t1 v => py_singular_degree s i t0 t1 = None \/ (v < 0)%Z \/ (2 ^ 64 <= v)%Z
   | SetBatchSize _ v => (v < 0)%Z \/ (2 ^ 64 <= v)%Z
   | _ => False
   end) -> execute c s = Raised s.
Proof.
  intros cs s c i L C H. destruct (leads_keeps _ _ _ L wired_loaded) as (W & _).
  assert (Fit : forall v n, (v < 0)%Z \/ (2 ^ 64 <= v)%Z -> to_usize v = Some n -> False).
  { intros v n F U. apply to_usize_fits in U. lia. }
  assert (Val : forall i o, nth_error (se_options s) i = Some (mkPyOptions false i) -> values s i = Some o -> nth_error (se_native s) i = Some o).
  { intros j o P V. unfold values in V. now rewrite P in V. }
  destruct c as [|j t v|j t0 t1 v|j v|]; try discriminate C; cbn in C; injection C as ->.
  - pose proof (py_setter_spec i (fun o => is_some (get_regular_quadrature_degree t o)) v (fun n => set_regular_quadrature_degree t n) s W) as K.
    cbn [execute]. inversion K as [_u E|o n P V Kn U E]; [reflexivity|exfalso]. destruct H as [H|H]; [|exact (Fit _ _ H U)].
    unfold py_regular_degree in H. rewrite P in H. cbn [po_handle] in H. rewrite (Val _ _ P V) in H. rewrite H in Kn. discriminate.
  - pose proof (py_setter_spec i (fun o => is_some (get_singular_quadrature_degree (t0, t1) o)) v (fun n => set_singular_quadrature_degree (t0, t1) n) s W) as K.
    cbn [execute]. inversion K as [_u E|o n P V Kn U E]; [reflexivity|exfalso]. destruct H as [H|H]; [|exact (Fit _ _ H U)].
    unfold py_singular_degree in H. rewrite P in H. cbn [po_handle] in H. rewrite (Val _ _ P V) in H. rewrite H in Kn. discriminate.
  - pose proof (py_setter_spec i (fun _ => true) v set_batch_size s W) as K.
    cbn [execute]. inversion K as [_u E|o n P V Kn U E]; [reflexivity|exfalso]. exact (Fit _ _ H U).
Qed.

(** No call changes the values of another options object. *)
Theorem raising_changes_nothing : forall cs s c, leads_to loaded cs s ->
  (forall s', execute c s = Raised s' -> s' = s) /\
  (setter_of c <> None -> execute c s = Raised s \/ exists s', execute c s = Done s').
Proof.
  intros cs s c L. destruct (leads_keeps _ _ _ L wired_loaded) as (W & _). pose proof (execute_spec c s W) as K. split.
  - intros s' X. rewrite X in K. now inversion K.
  - intros H. destruct c as [|i t v|i t0 t1 v|i v|o op d]; cbn [setter_of] in H; try congruence; cbn [execute];
      match goal with |- py_setter ?i ?k ?v ?f s = _ \/ _ => destruct (py_setter_spec i k v f s W); [left; reflexivity|right; eauto] end.
Qed.

Theorem others_unchanged : forall cs s c s' i, leads_to loaded cs s -> accessible s c -> (execute c s = Done s' \/ execute c s = Raised s') ->
  i < length (se_options s) -> setter_of c <> Some i -> same_values s i s' i.
Proof.
  intros cs s c s' i L A X I N. destruct (leads_keeps _ _ _ L wired_loaded) as (W & _).
  destruct (step_keeps c s s' W A X) as (W' & _ & K1 & _). apply values_same.
  destruct (nth_error (se_options s) i) as [p|] eqn:P; [|apply nth_error_None in P; lia].
  destruct (wired_values _ _ _ W P) as (o & V & _). rewrite V. symmetry. apply K1; auto.
Qed.

Lemma assoc_and_modify_hit : forall (K V : Type) (eqb : K -> K -> bool) (k : K) (v : V) m, (forall a b, eqb a b = true <-> a = b) ->
  is_some (assoc eqb k m) = true -> assoc eqb k (and_modify eqb k v m) = Some v.
Proof.
  intros K V eqb k v m H. unfold and_modify. induction m as [|[k' v'] m IH]; cbn; [discriminate|].
  destruct (eqb k k') eqn:E; cbn; rewrite E; auto.
Qed.

Lemma assoc_and_modify_miss : forall (K V : Type) (eqb : K -> K -> bool) (k k0 : K) (v : V) m, (forall a b, eqb a b = true <-> a = b) ->
  k0 <> k -> assoc eqb k0 (and_modify eqb k v m) = assoc eqb k0 m.
Proof.
  intros K V eqb k k0 v m H N. unfold and_modify. induction m as [|[k' v'] m IH]; cbn; [reflexivity|].
  destruct (eqb k k') eqn:E; cbn.
  - destruct (eqb k0 k') eqn:E'; [|exact IH]. apply H in E, E'. congruence.
  - destruct (eqb k0 k') eqn:E'; [reflexivity|exact IH].
Qed.

Lemma ct_eqb_iff : forall a b, ct_eqb a b = true <-> a = b.
Proof. intros a b. destruct a, b; cbn; split; congruence. Qed.
Lemma ctp_eqb_iff : forall a b, ctp_eqb a b = true <-> a = b.
Proof.
  intros [a a'] [b b']. unfold ctp_eqb. cbn. rewrite andb_true_iff, !ct_eqb_iff. split; [intros [-> ->]; reflexivity|]. intros H. injection H. auto.
Qed.

(** What a setter that returns has done. *)
Theorem setter_effect : forall cs s c s' i, leads_to loaded cs s -> setter_of c = Some i -> execute c s = Done s' ->
  match c with
  | SetRegularDegree _ t v => (0 <= v)%Z /\ py_regular_degree s' i t = Some (Z.to_nat v) /\
      (forall t', t' <> t -> py_regular_degree s' i t' = py_regular_degree s i t') /\
      (forall t0 t1, py_singular_degree s' i t0 t1 = py_singular_degree s i t0 t1) /\ py_batch_size s' i = py_batch_size s i
  | SetSingularDegree _ t0 t1 v => (0 <= v)%Z /\ py_singular_degree s' i t0 t1 = Some (Z.to_nat v) /\
      (forall t0' t1', (t0', t1') <> (t0, t1) -> py_singular_degree s' i t0' t1' = py_singular_degree s i t0' t1') /\
      (forall t, py_regular_degree s' i t = py_regular_degree s i t) /\ py_batch_size s' i = py_batch_size s i
  | SetBatchSize _ v => (0 <= v)%Z /\ py_batch_size s' i = Some (Z.to_nat v) /\
      (forall t, py_regular_degree s' i t = py_regular_degree s i t) /\
      (forall t0 t1, py_singular_degree s' i t0 t1 = py_singular_degree s i t0 t1)
  | _ => False
  end.
Proof.
  intros cs s c s' i L C X. destruct (leads_keeps _ _ _ L wired_loaded) as (W & _).
  assert (Get : forall o n (set : nat -> options -> options), nth_error (se_options s) i = Some (mkPyOptions false i) -> values s i = Some o ->
    nth_error (se_native s) i = Some o /\ nth_error (set_nth (se_native s) i (set n o)) i = Some (set n o)).
  { intros o n set P V. unfold values in V. rewrite P in V. cbn [po_handle] in V. split; [assumption|].
    rewrite set_nth_get, Nat.eqb_refl. assert (i < length (se_native s)) by (apply nth_error_Some; congruence).
    apply Nat.ltb_lt in H. now rewrite H. }
  destruct c as [|j t v|j t0 t1 v|j v|]; try discriminate C; cbn in C; injection C as ->; cbn [execute] in X.
  - pose proof (py_setter_spec i (fun o => is_some (get_regular_quadrature_degree t o)) v (fun n => set_regular_quadrature_degree t n) s W) as K.
    rewrite X in K. inversion K as [_u E|o n P V Kn U E]. clear E K. destruct (Get o n (fun n => set_regular_quadrature_degree t n) P V) as [G1 G2]. apply to_usize_fits in U. destruct U as [U ->].
    split; [lia|]. unfold py_regular_degree, py_singular_degree, py_batch_size. cbn [se_options se_native]. rewrite P. cbn [po_handle]. rewrite G1, G2.
    unfold get_regular_quadrature_degree in Kn. repeat split.
    + apply (assoc_and_modify_hit _ _ _ _ _ _ ct_eqb_iff). exact Kn.
    + intros t' N. apply (assoc_and_modify_miss _ _ _ _ _ _ _ ct_eqb_iff N).
  - pose proof (py_setter_spec i (fun o => is_some (get_singular_quadrature_degree (t0, t1) o)) v (fun n => set_singular_quadrature_degree (t0, t1) n) s W) as K.
    rewrite X in K. inversion K as [_u E|o n P V Kn U E]. clear E K. destruct (Get o n (fun n => set_singular_quadrature_degree (t0, t1) n) P V) as [G1 G2]. apply to_usize_fits in U. destruct U as [U ->].
    split; [lia|]. unfold py_regular_degree, py_singular_degree, py_batch_size. cbn [se_options se_native]. rewrite P. cbn [po_handle]. rewrite G1, G2.
    unfold get_singular_quadrature_degree in Kn. repeat split.
    + apply (assoc_and_modify_hit _ _ _ _ _ _ ctp_eqb_iff). exact Kn.
    + intros t0' t1' N. apply (assoc_and_modify_miss _ _ _ _ _ _ _ ctp_eqb_iff N).
  - pose proof (py_setter_spec i (fun _ => true) v set_batch_size s W) as K.
    rewrite X in K. inversion K as [_u E|o n P V Kn U E]. clear E K. destruct (Get o n set_batch_size P V) as [G1 G2]. apply to_usize_fits in U. destruct U as [U ->].
    split; [lia|]. unfold py_regular_degree, py_singular_degree, py_batch_size. cbn [se_options se_native]. rewrite P. cbn [po_handle]. rewrite G1, G2.
    repeat split.
Qed.

(** ** Setters that are allowed succeed *)

Lemma assoc_keys : forall (K V : Type) (eqb : K -> K -> bool) (k : K) (m m' : list (K * V)), map fst m = map fst m' ->
  is_some (assoc eqb k m) = is_some (assoc eqb k m').
Proof.
  induction m as [|[a b] m IH]; intros [|[a' b'] m'] H; try discriminate H; [reflexivity|].
  cbn in H. injection H as <- H. cbn. destruct (eqb k a); [reflexivity|auto].
Qed.

Theorem setters_succeed : forall cs s c i, leads_to loaded cs s -> setter_of c = Some i -> i < length (se_options s) -> ~ given s i ->
  (match c with
   | SetRegularDegree _ t v => supported t /\ (0 <= v < 2 ^ 64)%Z
   | SetSingularDegree _ t0 t1 v => supported t0 /\ supported t1 /\ (0 <= v < 2 ^ 64)%Z
   | SetBatchSize _ v => (0 <= v < 2 ^ 64)%Z
   | _ => False
   end) -> exists s', execute c s = Done s'.
Proof.
  intros cs s c i L C I NG H. destruct (leads_keeps _ _ _ L wired_loaded) as (W & _).
  assert (Fit : forall v, (0 <= v < 2 ^ 64)%Z -> to_usize v <> None).
  { intros v F. unfold to_usize. destruct F as [F1 F2]. apply Z.leb_le in F1. apply Z.ltb_lt in F2. rewrite F1, F2. discriminate. }
  assert (Nz : nth_error (se_options s) i <> None) by (apply nth_error_Some; assumption).
  assert (Ro : ~ exists p, nth_error (se_options s) i = Some p /\ po_read_only p = true).
  { intros (p & P & R). exact (NG (wi_read_only _ W _ _ P R)). }
  assert (Kn : forall o, values s i = Some o -> map fst (o_quadrature_degrees o) = map fst (o_quadrature_degrees default_options) /\
    map fst (o_singular_degrees o) = map fst (o_singular_degrees default_options)).
  { intros o V. apply (wi_keys _ W). unfold values in V. destruct (nth_error (se_options s) i); [|discriminate]. exact (nth_error_In _ _ V). }
  destruct c as [|j t v|j t0 t1 v|j v|]; try discriminate C; cbn in C; injection C as ->; cbn [execute].
  - destruct H as [St F].
    destruct (py_setter_spec i (fun o => is_some (get_regular_quadrature_degree t o)) v (fun n => set_regular_quadrature_degree t n) s W) as [D|o n ? ? ? ?]; [exfalso|eauto].
    destruct D as [D|[D|[(o & V & K)|D]]]; [exact (Ro D)|exact (Nz D)| |exact (Fit v F D)].
    unfold get_regular_quadrature_degree in K. rewrite (assoc_keys _ _ ct_eqb t _ _ (proj1 (Kn o V))) in K.
    destruct St as [-> | ->]; discriminate K.
  - destruct H as [S0 [S1 F]].
    destruct (py_setter_spec i (fun o => is_some (get_singular_quadrature_degree (t0, t1) o)) v (fun n => set_singular_quadrature_degree (t0, t1) n) s W) as [D|o n ? ? ? ?]; [exfalso|eauto].
    destruct D as [D|[D|[(o & V & K)|D]]]; [exact (Ro D)|exact (Nz D)| |exact (Fit v F D)].
    unfold get_singular_quadrature_degree in K. rewrite (assoc_keys _ _ ctp_eqb (t0, t1) _ _ (proj2 (Kn o V))) in K.
    destruct S0 as [-> | ->], S1 as [-> | ->]; discriminate K.
  - destruct (py_setter_spec i (fun _ => true) v set_batch_size s W) as [D|o n ? ? ? ?]; [exfalso|eauto].
    destruct D as [D|[D|[(o & V & K)|D]]]; [exact (Ro D)|exact (Nz D)|discriminate K|exact (Fit v H D)].
Qed.

(** Setting a degree of another cell type raises. *)
Theorem unknown_types_raise : forall cs s i t v, leads_to loaded cs s -> ~ supported t -> execute (SetRegularDegree i t v) s = Raised s.
Proof.
  intros cs s i t v L NS. apply (setters_raise cs s (SetRegularDegree i t v) i L eq_refl). left. destruct (leads_keeps _ _ _ L wired_loaded) as (W & _).
  unfold py_regular_degree. destruct (nth_error (se_options s) i) as [p|]; [|reflexivity].
  destruct (nth_error (se_native s) (po_handle p)) as [o|] eqn:N; [|reflexivity].
  pose proof (assoc_keys _ _ ct_eqb t _ _ (proj1 (wi_keys _ W o (nth_error_In _ _ N)))) as K. unfold get_regular_quadrature_degree.
  destruct (assoc ct_eqb t (o_quadrature_degrees o)); [|reflexivity]. exfalso. apply NS. unfold supported.
  destruct t; try discriminate K; auto.
Qed.

Theorem unknown_pairs_raise : forall cs s i t0 t1 v, leads_to loaded cs s -> ~ (supported t0 /\ supported t1) -> execute (SetSingularDegree i t0 t1 v) s = Raised s.
Proof.
  intros cs s i t0 t1 v L NS. apply (setters_raise cs s (SetSingularDegree i t0 t1 v) i L eq_refl). left. destruct (leads_keeps _ _ _ L wired_loaded) as (W & _).
  unfold py_singular_degree. destruct (nth_error (se_options s) i) as [p|]; [|reflexivity].
  destruct (nth_error (se_native s) (po_handle p)) as [o|] eqn:N; [|reflexivity].
  pose proof (assoc_keys _ _ ctp_eqb (t0, t1) _ _ (proj2 (wi_keys _ W o (nth_error_In _ _ N)))) as K. unfold get_singular_quadrature_degree.
  destruct (assoc ctp_eqb (t0, t1) (o_singular_degrees o)); [|reflexivity]. exfalso. apply NS. unfold supported.
  destruct t0, t1; try discriminate K; auto.
Qed.

Lemma leads_options : forall cs s s', leads_to s cs s' -> wired s -> forall i p, nth_error (se_options s) i = Some p ->
  exists p', nth_error (se_options s') i = Some p'.
Proof.
  intros cs s s' L. induction L as [s|s c s' cs s'' A X L IH|s c s' cs s'' A X L IH]; intros W i p P; [eauto| |].
  - destruct (step_keeps c s s' W A (or_introl X)) as (W' & _ & _ & K2). destruct (K2 i p P) as (p' & P' & _). exact (IH W' i p' P').
  - destruct (step_keeps c s s' W A (or_intror X)) as (W' & _ & _ & K2). destruct (K2 i p P) as (p' & P' & _). exact (IH W' i p' P').
Qed.

(** What [create_laplace_assembler] does. *)
Theorem creation_outcome : forall cs s o op d, leads_to loaded cs s ->
  (match o with Some i => i < length (se_options s) | None => True end) ->
  (execute (CreateLaplaceAssembler o op d) s = Raised s <-> d = OtherDtype) /\
  ((exists s', execute (CreateLaplaceAssembler o op d) s = Done s') <->
     (d = F32 \/ d = F64) /\ In op [SingleLayerOp; DoubleLayerOp; AdjointDoubleLayerOp; HypersingularOp]) /\
  (execute (CreateLaplaceAssembler o op d) s = Aborted <->
     d = C32 \/ d = C64 \/ (d = F32 \/ d = F64) /\ (op = ElectricFieldOp \/ op = MagneticFieldOp)).
Proof.
  intros cs s o op d L I.
  cbn [execute]. unfold create_laplace_assembler. set (i := match o with Some i => i | None => 0 end).
  assert (exists p, nth_error (se_options s) i = Some p) as (p & P).
  { destruct o as [j|]; unfold i.
    - destruct (nth_error (se_options s) j) eqn:E; [eauto|]. apply nth_error_None in E. lia.
    - exact (leads_options _ _ _ L wired_loaded 0 (mkPyOptions false 0) eq_refl). }
  rewrite P. clear.
  split; [split|split; [split|split]]; intros H.
  - destruct d, op; try reflexivity; discriminate H.
  - now subst d.
  - destruct H as (s' & H). destruct d, op; cbn in *; try discriminate H; auto 10.
  - destruct H as [[-> | ->] H]; cbn in H; repeat (destruct H as [<-|H]; [eexists; reflexivity|]); destruct H.
  - destruct d, op; try discriminate H; auto 6.
  - destruct H as [-> |[-> |[[-> | ->] [-> | ->]]]]; try destruct op; reflexivity.
Qed.

(** No other call ends the interpreter. *)
Theorem only_creation_aborts : forall cs s c, leads_to loaded cs s -> execute c s = Aborted -> exists o op d, c = CreateLaplaceAssembler o op d.
Proof.
  intros cs s c L H. destruct (leads_keeps _ _ _ L wired_loaded) as (W & _). destruct c as [|i t v|i t0 t1 v|i v|o op d]; [discriminate H| | | |eauto]; exfalso; cbn [execute] in H.
  - destruct (py_setter_spec i (fun o => is_some (get_regular_quadrature_degree t o)) v (fun n => set_regular_quadrature_degree t n) s W); discriminate H.
  - destruct (py_setter_spec i (fun o => is_some (get_singular_quadrature_degree (t0, t1) o)) v (fun n => set_singular_quadrature_degree (t0, t1) n) s W); discriminate H.
  - destruct (py_setter_spec i (fun _ => true) v set_batch_size s W); discriminate H.
Qed.

Theorem creation_aborts : exists cs s op d, leads_to loaded cs s /\ execute (CreateLaplaceAssembler None op d) s = Aborted.
Proof. exists [], loaded, ElectricFieldOp, F64. split; [constructor|reflexivity]. Qed.
