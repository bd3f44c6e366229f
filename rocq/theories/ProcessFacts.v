(** * Programs that follow matching scripts *)
From Verif Require Import Base BaseFacts Process.

(** An expected communication: peer, message and time stamp. *)
Inductive event : Type :=
| ES (to : nat) (m : msg) (key : nat)
| ER (from : nat) (m : msg) (key : nat).

Definition ev_key (e : event) : nat := match e with ES _ _ k => k | ER _ _ k => k end.
Definition ev_peer (e : event) : nat := match e with ES q _ _ => q | ER q _ _ => q end.

(** Program [p] performs the communications [s] and then returns [a]. *)
Inductive follows {A : Type} : proc A -> list event -> A -> Prop :=
| fo_ret : forall a, follows (Ret a) [] a
| fo_send : forall q m key k s a, follows k s a -> follows (Send q m k) (ES q m key :: s) a
| fo_recv : forall q m key k s a, follows (k m) s a -> follows (Recv q k) (ER q m key :: s) a.

Fixpoint sends_to (q : nat) (s : list event) : list (msg * nat) :=
  match s with
  | [] => []
  | ES q' m k :: t => if q' =? q then (m, k) :: sends_to q t else sends_to q t
  | ER _ _ _ :: t => sends_to q t
  end.

Fixpoint recvs_from (q : nat) (s : list event) : list (msg * nat) :=
  match s with
  | [] => []
  | ER q' m k :: t => if q' =? q then (m, k) :: recvs_from q t else recvs_from q t
  | ES _ _ _ :: t => recvs_from q t
  end.

(** A send and its receive: same message, receive stamped one later. *)
Definition paired (a b : msg * nat) : Prop := fst a = fst b /\ snd b = S (snd a).

(** Stamps do not decrease along a script. *)
Fixpoint sorted (s : list event) : Prop :=
  match s with
  | [] => True
  | e :: t => (forall e', In e' t -> ev_key e <= ev_key e') /\ sorted t
  end.

Lemma sends_to_app q s1 s2 : sends_to q (s1 ++ s2) = sends_to q s1 ++ sends_to q s2.
Proof. induction s1 as [|[q' m k|q' m k] t IH]; simpl; auto. destruct (q' =? q); simpl; now rewrite IH. Qed.

Lemma recvs_from_app q s1 s2 : recvs_from q (s1 ++ s2) = recvs_from q s1 ++ recvs_from q s2.
Proof. induction s1 as [|[q' m k|q' m k] t IH]; simpl; auto. destruct (q' =? q); simpl; now rewrite IH. Qed.

Lemma In_sends_to q s m k : In (m, k) (sends_to q s) -> In (ES q m k) s.
Proof.
  induction s as [|[q' m' k'|q' m' k'] t IH]; simpl; auto.
  destruct (Nat.eqb_spec q' q); auto. subst. intros [H|H]; auto. inversion H; auto.
Qed.

Section Net.
Context {A : Type}.
Variables (N : nat) (eager : msg -> bool).
Variable result : nat -> A.

(** The state of the system when every program is at some point of its script. *)
Record NInv (rest : nat -> list event) (s : net A) : Prop := {
  ni_follow : forall r, r < N -> follows (n_proc s r) (rest r) (result r);
  ni_sorted : forall r, r < N -> sorted (rest r);
  ni_peer : forall r e, r < N -> In e (rest r) -> ev_peer e < N /\ ev_peer e <> r;
  ni_chan : forall r q, r < N -> q < N -> exists l, map fst l = n_chan s r q /\
    Forall2 paired (l ++ sends_to q (rest r)) (recvs_from r (rest q))
}.

Definition remaining (rest : nat -> list event) : nat :=
  sum_list (map (fun r => length (rest r)) (seq 0 N)).

Lemma upd_eq {V} (f : nat -> V) i v : upd f i v i = v.
Proof. unfold upd. now rewrite Nat.eqb_refl. Qed.

Lemma upd_neq {V} (f : nat -> V) i j v : j <> i -> upd f i v j = f j.
Proof. intros H. unfold upd. now rewrite (proj2 (Nat.eqb_neq _ _) H). Qed.

Lemma sum_upd_gen (f f' : nat -> nat) l r n :
  NoDup l -> In r l -> (forall x, x <> r -> f' x = f x) -> f r = n + f' r ->
  sum_list (map f l) = n + sum_list (map f' l).
Proof.
  induction l as [|x t IH]; intros Hn Hin Hext Hr; [destruct Hin|].
  inversion Hn; subst. simpl. destruct (Nat.eq_dec x r) as [->|Hne].
  - rewrite Hr. rewrite (map_ext_in f' f t); [unfold sum_list; lia|].
    intros a Ha. apply Hext. intros ->. tauto.
  - destruct Hin as [->|Hin]; [tauto|]. rewrite IH; auto. rewrite Hext by auto. unfold sum_list in *. lia.
Qed.

Lemma remaining_upd rest r e t : r < N -> rest r = e :: t -> remaining rest = S (remaining (upd rest r t)).
Proof.
  intros Hr E. unfold remaining.
  rewrite (sum_upd_gen (fun r => length (rest r)) (fun x => length (upd rest r t x)) (seq 0 N) r 1); auto.
  - apply seq_NoDup.
  - apply in_seq. lia.
  - intros x Hx. now rewrite upd_neq.
  - rewrite upd_eq, E. reflexivity.
Qed.

Lemma follows_send_inv q m k s a : follows (Send q m k) s a ->
  exists key t, s = ES q m key :: t /\ @follows A k t a.
Proof. intros H. inversion H; subst. eauto. Qed.

Lemma follows_recv_inv q k s a : follows (Recv q k) s a ->
  exists m key t, s = ER q m key :: t /\ @follows A (k m) t a.
Proof. intros H. inversion H; subst. eauto. Qed.

(** Taking an event off the script of [r]. *)
Lemma take_sorted rest r e t : r < N -> rest r = e :: t ->
  (forall q, q < N -> sorted (rest q)) -> forall q, q < N -> sorted (upd rest r t q).
Proof.
  intros Hr E H q Hq. unfold upd. destruct (Nat.eqb_spec q r) as [->|]; auto.
  specialize (H r Hr). rewrite E in H. apply H.
Qed.

Lemma take_peer rest r e t : r < N -> rest r = e :: t ->
  (forall q e, q < N -> In e (rest q) -> ev_peer e < N /\ ev_peer e <> q) ->
  forall q e, q < N -> In e (upd rest r t q) -> ev_peer e < N /\ ev_peer e <> q.
Proof.
  intros Hr E H q e' Hq Hin. unfold upd in Hin. destruct (Nat.eqb_spec q r) as [->|]; auto.
  apply H; auto. rewrite E. now right.
Qed.

Lemma NInv_send rest s r q m k :
  NInv rest s -> r < N -> q < N -> n_proc s r = Send q m k ->
  exists key t, rest r = ES q m key :: t /\
    NInv (upd rest r t) (mkNet (upd (n_proc s) r k) (upd2 (n_chan s) r q (n_chan s r q ++ [m]))).
Proof.
  intros I Hr Hq E. assert (F := ni_follow _ _ I r Hr). rewrite E in F.
  destruct (follows_send_inv _ _ _ _ _ F) as (key & t & Ht & F'). exists key, t. split; auto.
  assert (Hqr : q <> r).
  { apply (ni_peer _ _ I r (ES q m key) Hr). rewrite Ht. now left. }
  constructor; cbn [n_proc n_chan].
  - intros x Hx. unfold upd. destruct (Nat.eqb_spec x r) as [->|]; auto. now apply (ni_follow _ _ I).
  - eapply take_sorted; eauto. apply (ni_sorted _ _ I).
  - eapply take_peer; eauto. apply (ni_peer _ _ I).
  - intros a b Ha Hb. destruct (ni_chan _ _ I a b Ha Hb) as (l & L1 & L2).
    unfold upd2. destruct (Nat.eqb_spec a r) as [->|Ha']; [destruct (Nat.eqb_spec b q) as [->|Hb']|]; cbn [andb].
    + exists (l ++ [(m, key)]). split; [rewrite map_app, L1; reflexivity|].
      rewrite upd_eq, upd_neq by auto. rewrite Ht in L2. simpl in L2. rewrite Nat.eqb_refl in L2.
      rewrite <- app_assoc. exact L2.
    + exists l. split; auto. rewrite upd_eq. rewrite Ht in L2. simpl in L2.
      rewrite (proj2 (Nat.eqb_neq q b)) in L2 by auto.
      destruct (Nat.eq_dec b r) as [->|Hbr]; [rewrite upd_eq; rewrite Ht in L2; simpl in L2; exact L2|].
      now rewrite upd_neq.
    + exists l. split; auto. rewrite (upd_neq _ r a) by auto.
      destruct (Nat.eq_dec b r) as [->|Hbr]; [|now rewrite upd_neq].
      rewrite upd_eq. rewrite Ht in L2. simpl in L2. exact L2.
Qed.

Lemma NInv_recv rest s r q m ms k :
  NInv rest s -> r < N -> q < N -> n_proc s r = Recv q k -> n_chan s q r = m :: ms ->
  exists key t, rest r = ER q m key :: t /\
    NInv (upd rest r t) (mkNet (upd (n_proc s) r (k m)) (upd2 (n_chan s) q r ms)).
Proof.
  intros I Hr Hq E Ec. assert (F := ni_follow _ _ I r Hr). rewrite E in F.
  destruct (follows_recv_inv _ _ _ _ F) as (m' & key & t & Ht & F').
  assert (Hqr : q <> r).
  { apply (ni_peer _ _ I r (ER q m' key) Hr). rewrite Ht. now left. }
  destruct (ni_chan _ _ I q r Hq Hr) as (l & L1 & L2). rewrite Ec in L1.
  destruct l as [|[m0 k0] l]; [discriminate|]. simpl in L1. inversion L1; subst m0. 
  rewrite Ht in L2. simpl in L2. rewrite Nat.eqb_refl in L2.
  inversion L2 as [|? ? ? ? P L3]; subst. destruct P as [P1 P2]. simpl in P1. subst m'.
  exists key, t. split; auto. constructor; cbn [n_proc n_chan].
  - intros x Hx. unfold upd. destruct (Nat.eqb_spec x r) as [->|]; auto. now apply (ni_follow _ _ I).
  - eapply take_sorted; eauto. apply (ni_sorted _ _ I).
  - eapply take_peer; eauto. apply (ni_peer _ _ I).
  - intros a b Ha Hb. unfold upd2.
    destruct (Nat.eqb_spec a q) as [->|Ha']; [destruct (Nat.eqb_spec b r) as [->|Hb']|]; cbn [andb].
    + exists l. split; auto. rewrite upd_eq, upd_neq by auto. exact L3.
    + destruct (ni_chan _ _ I q b Ha Hb) as (l' & L1' & L2'). exists l'. split; auto.
      rewrite !upd_neq by auto. exact L2'.
    + destruct (ni_chan _ _ I a b Ha Hb) as (l' & L1' & L2'). exists l'. split; auto.
      destruct (Nat.eq_dec b r) as [->|Hbr].
      * rewrite upd_eq. rewrite Ht in L2'. simpl in L2'. rewrite (proj2 (Nat.eqb_neq q a)) in L2' by auto.
        destruct (Nat.eq_dec a r) as [->|Har]; [rewrite upd_eq; rewrite Ht in L2'; exact L2'|now rewrite upd_neq].
      * rewrite (upd_neq _ r b) by auto.
        destruct (Nat.eq_dec a r) as [->|Har]; [rewrite upd_eq; rewrite Ht in L2'; exact L2'|now rewrite upd_neq].
Qed.

(** A rendezvous is a send followed by the receive. *)
Lemma NInv_sync rest s r q m k k' :
  NInv rest s -> r < N -> q < N -> r <> q ->
  n_proc s r = Send q m k -> n_proc s q = Recv r k' -> n_chan s r q = [] ->
  exists key t t', rest r = ES q m key :: t /\ rest q = ER r m (S key) :: t' /\
    NInv (upd (upd rest r t) q t') (mkNet (upd (upd (n_proc s) r k) q (k' m)) (n_chan s)).
Proof.
  intros I Hr Hq Hne E E' Ec.
  destruct (ni_chan _ _ I r q Hr Hq) as (l0 & L1 & L2).
  destruct (NInv_send rest s r q m k I Hr Hq E) as (key & t & Ht & I1).
  assert (E1 : n_proc (mkNet (upd (n_proc s) r k) (upd2 (n_chan s) r q (n_chan s r q ++ [m]))) q = Recv r k').
  { cbn. rewrite upd_neq by auto. exact E'. }
  assert (E2 : n_chan (mkNet (upd (n_proc s) r k) (upd2 (n_chan s) r q (n_chan s r q ++ [m]))) r q = m :: []).
  { cbn. unfold upd2. rewrite !Nat.eqb_refl. cbn [andb]. now rewrite Ec. }
  destruct (NInv_recv _ _ q r m [] k' I1 Hq Hr E1 E2) as (key' & t' & Ht' & I2).
  rewrite upd_neq in Ht' by auto.
  assert (key' = S key).
  { rewrite Ec in L1. destruct l0; [|discriminate]. rewrite Ht, Ht' in L2. simpl in L2.
    rewrite !Nat.eqb_refl in L2. inversion L2 as [|? ? ? ? P _]; subst. destruct P as [_ P]. exact P. }
  subst key'. exists key, t, t'. split; auto. split; auto.
  cbn [n_proc n_chan] in I2. destruct I2 as [F1 F2 F3 F4]. constructor; auto.
  intros a b Ha Hb. destruct (F4 a b Ha Hb) as (l & M1 & M2). exists l. split; auto.
  cbn [n_chan] in *. rewrite M1. unfold upd2.
  destruct (Nat.eqb_spec a r), (Nat.eqb_spec b q); cbn [andb]; auto. subst. now rewrite Ec.
Qed.

Lemma In_upd_tail (rest : nat -> list event) r e t : rest r = e :: t ->
  forall x e', In e' (upd rest r t x) -> In e' (rest x).
Proof.
  intros E x e' H. unfold upd in H. destruct (Nat.eqb_spec x r) as [->|]; auto. rewrite E. now right.
Qed.

Lemma NInv_step rest s s' : NInv rest s -> step N eager s s' ->
  exists rest', NInv rest' s' /\ remaining rest' < remaining rest /\
    forall x e, In e (rest' x) -> In e (rest x).
Proof.
  intros I H. inversion H; subst.
  - destruct (NInv_send rest s r q m k I) as (key & t & Ht & I'); auto.
    eexists. split; [exact I'|]. split; [|now apply (In_upd_tail rest r _ t Ht)].
    rewrite (remaining_upd rest r _ t H0 Ht). lia.
  - destruct (NInv_recv rest s r q m ms k I) as (key & t & Ht & I'); auto.
    eexists. split; [exact I'|]. split; [|now apply (In_upd_tail rest r _ t Ht)].
    rewrite (remaining_upd rest r _ t H0 Ht). lia.
  - destruct (NInv_sync rest s r q m k k' I) as (key & t & t' & Ht & Ht' & I'); auto.
    assert (Ht2 : upd rest r t q = ER r m (S key) :: t') by (rewrite upd_neq; auto).
    eexists. split; [exact I'|]. split.
    + rewrite (remaining_upd rest r _ t H0 Ht).
      rewrite (remaining_upd (upd rest r t) q (ER r m (S key)) t' H1); [lia|auto].
    + intros x e He. apply (In_upd_tail rest r _ t Ht). apply (In_upd_tail _ q _ t' Ht2). exact He.
Qed.

Lemma NInv_steps rest s n s' : NInv rest s -> steps N eager n s s' ->
  exists rest', NInv rest' s' /\ n + remaining rest' <= remaining rest /\
    forall x e, In e (rest' x) -> In e (rest x).
Proof.
  intros I H. induction H as [s|n s1 s2 s3 H IH Hs].
  - exists rest. split; auto.
  - destruct (IH I) as (rest' & I' & L & Hi). destruct (NInv_step rest' s2 s3 I' Hs) as (rest'' & I'' & L' & Hi').
    exists rest''. split; auto. split; [lia|auto].
Qed.

(** Progress, when all sends that are left are buffered. *)
Lemma min_key rest :
  (forall r, r < N -> rest r = []) \/
  exists r e t, r < N /\ rest r = e :: t /\
    forall r' e' t', r' < N -> rest r' = e' :: t' -> ev_key e <= ev_key e'.
Proof.
  induction N as [|n IH].
  - left. intros; lia.
  - destruct IH as [H|(r & e & t & Hr & E & Hmin)].
    + destruct (rest n) as [|e t] eqn:En.
      * left. intros r Hr. destruct (Nat.eq_dec r n) as [->|]; auto. apply H. lia.
      * right. exists n, e, t. split; [lia|]. split; auto. intros r' e' t' Hr' E'.
        destruct (Nat.eq_dec r' n) as [->|]; [rewrite En in E'; inversion E'; subst; auto|]. rewrite H in E' by lia. discriminate.
    + right. destruct (rest n) as [|e0 t0] eqn:En.
      * exists r, e, t. split; [lia|]. split; auto. intros r' e' t' Hr' E'.
        destruct (Nat.eq_dec r' n) as [->|]; [congruence|]. apply (Hmin r' e' t'); auto. lia.
      * destruct (le_lt_dec (ev_key e) (ev_key e0)).
        -- exists r, e, t. split; [lia|]. split; auto. intros r' e' t' Hr' E'.
           destruct (Nat.eq_dec r' n) as [->|]; [rewrite En in E'; inversion E'; subst; auto|].
           apply (Hmin r' e' t'); auto. lia.
        -- exists n, e0, t0. split; [lia|]. split; auto. intros r' e' t' Hr' E'.
           destruct (Nat.eq_dec r' n) as [->|]; [rewrite En in E'; inversion E'; subst; auto|].
           assert (ev_key e <= ev_key e') by (apply (Hmin r' e' t'); auto; lia). lia.
Qed.

Lemma sorted_In_le e t e' : sorted (e :: t) -> In e' (e :: t) -> ev_key e <= ev_key e'.
Proof. intros [H _] [<-|Hin]; auto. Qed.

Lemma NInv_progress rest s : (forall r q m key, r < N -> In (ES q m key) (rest r) -> eager m = true) -> NInv rest s ->
  (forall r, r < N -> rest r = []) \/ exists s', step N eager s s'.
Proof.
  intros He I. destruct (min_key rest) as [H|(r & e & t & Hr & E & Hmin)]; auto. right.
  assert (F := ni_follow _ _ I r Hr). rewrite E in F.
  assert (Hp := ni_peer _ _ I r e Hr ltac:(rewrite E; now left)). destruct Hp as [Hp1 Hp2].
  destruct (n_proc s r) as [a|q m k|q k|] eqn:Ep; [inversion F| | |inversion F].
  - destruct (follows_send_inv _ _ _ _ _ F) as (key & t' & Et & _). inversion Et; subst. cbn [ev_peer] in *.
    eexists. apply (step_send N eager s r q m k); auto. apply (He r q m key Hr). rewrite E. now left.
  - destruct (follows_recv_inv _ _ _ _ F) as (m & key & t' & Et & _). inversion Et; subst. cbn [ev_peer] in *.
    destruct (ni_chan _ _ I q r Hp1 Hr) as (l & L1 & L2).
    destruct l as [|[m0 k0] l].
    + exfalso. rewrite E in L2. simpl in L2. rewrite Nat.eqb_refl in L2. 
      inversion L2 as [|[m1 k1] ? ? ? P L3 Hs]; subst. destruct P as [P1 P2]. cbn in P1, P2. subst.
      assert (Hin : In (ES r m k1) (rest q)).
      { apply In_sends_to. rewrite <- Hs. now left. }
      destruct (rest q) as [|e1 t1] eqn:Eq; [destruct Hin|].
      assert (H1 := Hmin q e1 t1 Hp1 Eq). cbn [ev_key] in H1.
      assert (Hsort := ni_sorted _ _ I q Hp1). rewrite Eq in Hsort.
      assert (H2 := sorted_In_le _ _ _ Hsort Hin). cbn [ev_key] in H2. lia.
    + simpl in L1. eexists. apply (step_recv N eager s r q m0 (map fst l) k); auto.
Qed.

Lemma NInv_finished rest s : NInv rest s -> (forall r, r < N -> rest r = []) ->
  finished N s result /\ forall r q, r < N -> q < N -> n_chan s r q = [].
Proof.
  intros I H. split.
  - intros r Hr. assert (F := ni_follow _ _ I r Hr). rewrite H in F by auto. inversion F. reflexivity.
  - intros r q Hr Hq. destruct (ni_chan _ _ I r q Hr Hq) as (l & L1 & L2).
    rewrite (H r), (H q) in L2 by auto. simpl in L2. rewrite app_nil_r in L2.
    inversion L2; subst. now rewrite <- L1.
Qed.

Lemma NInv_ret rest s r a : NInv rest s -> r < N -> n_proc s r = Ret a -> a = result r /\ rest r = [].
Proof. intros I Hr E. assert (F := ni_follow _ _ I r Hr). rewrite E in F. inversion F. auto. Qed.

Lemma NInv_no_crash rest s r : NInv rest s -> r < N -> n_proc s r <> Crash.
Proof. intros I Hr E. assert (F := ni_follow _ _ I r Hr). rewrite E in F. inversion F. Qed.

(** Processes that each have an unbuffered send with stamp [K] to another of them
    never get past it. *)
Lemma rendezvous_stuck K (S : nat -> Prop) : (forall r, S r -> r < N) ->
  forall rest s n s', NInv rest s ->
  (forall r, S r -> exists q m, S q /\ eager m = false /\ In (ES q m K) (rest r)) ->
  steps N eager n s s' ->
  exists rest', NInv rest' s' /\
    (forall r, S r -> exists q m, S q /\ eager m = false /\ In (ES q m K) (rest' r)).
Proof.
  intros HS rest s n s' I HK H. induction H as [s|n s1 s2 s3 H IH Hs].
  - exists rest. auto.
  - destruct (IH I) as (rest' & I' & HK').
    inversion Hs; subst.
    + destruct (NInv_send rest' s2 r q m k I') as (key & t & Ht & I''); auto.
      eexists. split; [exact I''|]. intros x Hx. destruct (HK' x Hx) as (q' & m' & Hq' & Hm' & Hin).
      exists q', m'. split; auto. split; auto. unfold upd. destruct (Nat.eqb_spec x r) as [->|]; auto.
      rewrite Ht in Hin. destruct Hin as [Hin|Hin]; auto. congruence.
    + destruct (NInv_recv rest' s2 r q m ms k I') as (key & t & Ht & I''); auto.
      eexists. split; [exact I''|]. intros x Hx. destruct (HK' x Hx) as (q' & m' & Hq' & Hm' & Hin).
      exists q', m'. split; auto. split; auto. unfold upd. destruct (Nat.eqb_spec x r) as [->|]; auto.
      rewrite Ht in Hin. destruct Hin as [Hin|Hin]; auto. discriminate.
    + destruct (NInv_sync rest' s2 r q m k k' I') as (key & t & t' & Ht & Ht' & I''); auto.
      eexists. split; [exact I''|].
      intros x Hx. destruct (HK' x Hx) as (q' & m' & Hq' & Hm' & Hin).
      exists q', m'. split; auto. split; auto.
      destruct (Nat.eq_dec x q) as [->|Hxq].
      * rewrite upd_eq. rewrite Ht' in Hin. destruct Hin as [Hin|Hin]; auto. discriminate.
      * rewrite upd_neq by auto. destruct (Nat.eq_dec x r) as [->|Hxr]; [|now rewrite upd_neq].
        rewrite upd_eq. rewrite Ht in Hin. destruct Hin as [Hin|Hin]; auto. exfalso.
        inversion Hin; subst q' m' key.
        destruct (HK' q Hq') as (p & mm & _ & _ & Hin').
        assert (Hsq := ni_sorted _ _ I' q H1). rewrite Ht' in Hin', Hsq.
        assert (L := sorted_In_le _ _ _ Hsq Hin'). cbn [ev_key] in L. lia.
Qed.
End Net.
