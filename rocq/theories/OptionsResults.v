(** * Options: the statements of C17 and C18 *)
From Verif Require Import Base BaseFacts Topology TopologyFacts Options SpecOptions.

Lemma ctp_eqb_eq a b : ctp_eqb a b = true <-> a = b.
Proof.
  destruct a, b. unfold ctp_eqb. cbn [fst snd]. rewrite andb_true_iff, !ct_eqb_eq.
  split; [intros [-> ->]; auto|intros H; inversion H; auto].
Qed.

Lemma assoc_and_modify {K V} (eqb : K -> K -> bool) (k k' : K) (v : V) m :
  (forall a b, eqb a b = true <-> a = b) ->
  assoc eqb k (and_modify eqb k' v m) =
  if eqb k k' then match assoc eqb k m with Some _ => Some v | None => None end else assoc eqb k m.
Proof.
  intros H. induction m as [|[a b] t IH]; cbn [and_modify map assoc fst snd].
  - now destruct (eqb k k').
  - fold (and_modify eqb k' v t).
    destruct (eqb k' a) eqn:E1; cbn [fst snd].
    + apply H in E1. subst a. destruct (eqb k k'); auto. 
    + destruct (eqb k a) eqn:E2; auto.
      apply H in E2. subst a. destruct (eqb k k') eqn:E3; auto.
      apply H in E3. subst. rewrite (proj2 (H k' k') eq_refl) in E1. discriminate.
Qed.

(** A getter that behaves like a cell of memory. *)
Lemma last_call_spec (get : options -> nat) sel calls :
  (forall l c, get (apply_setter (after l) c) = match sel c with Some n => n | None => get (after l) end) ->
  last_call sel (get default_options) calls (get (after calls)).
Proof.
  intros H. unfold last_call. induction calls as [|c calls IH] using rev_ind.
  - right. simpl. split; auto. intros c [].
  - assert (E : after (calls ++ [c]) = apply_setter (after calls) c) by (unfold after; now rewrite fold_left_app).
    rewrite E, H. destruct (sel c) as [n|] eqn:Es.
    + left. exists calls, c, []. split; auto. split; auto. intros c' [].
    + destruct IH as [(b & x & l & -> & Hx & Hl)|[Hn Hd]].
      * left. exists b, x, (l ++ [c]). rewrite <- app_assoc. split; auto. split; auto.
        intros c' Hc. apply in_app_or in Hc. destruct Hc as [Hc|[<-|[]]]; auto.
      * right. split; auto. intros c' Hc. apply in_app_or in Hc. destruct Hc as [Hc|[<-|[]]]; auto.
Qed.

Definition getR (t : cell_type) (o : options) : nat :=
  match get_regular_quadrature_degree t o with Some n => n | None => 0 end.
Definition getS (tp : cell_type * cell_type) (o : options) : nat :=
  match get_singular_quadrature_degree tp o with Some n => n | None => 0 end.

Lemma regular_step t o c : get_regular_quadrature_degree t (apply_setter o c) =
  match get_regular_quadrature_degree t o with
  | Some m => Some (match sel_regular t c with Some n => n | None => m end)
  | None => None
  end.
Proof.
  unfold get_regular_quadrature_degree. destruct c as [t' n|tp n|n]; cbn; try (now destruct (assoc ct_eqb t _)).
  rewrite (assoc_and_modify ct_eqb) by apply ct_eqb_eq. destruct (ct_eqb t t'); now destruct (assoc ct_eqb t _).
Qed.

Lemma singular_step tp o c : get_singular_quadrature_degree tp (apply_setter o c) =
  match get_singular_quadrature_degree tp o with
  | Some m => Some (match sel_singular tp c with Some n => n | None => m end)
  | None => None
  end.
Proof.
  unfold get_singular_quadrature_degree. destruct c as [t' n|t' n|n]; cbn; try (now destruct (assoc ctp_eqb tp _)).
  rewrite (assoc_and_modify ctp_eqb) by apply ctp_eqb_eq. destruct (ctp_eqb tp t'); now destruct (assoc ctp_eqb tp _).
Qed.

Lemma regular_dom t calls :
  get_regular_quadrature_degree t (after calls) <> None <-> supported t.
Proof.
  unfold after. induction calls as [|c calls IH] using rev_ind.
  - cbn. destruct t; cbn; unfold supported; split; intros H; auto; try discriminate; try congruence;
      destruct H; discriminate.
  - rewrite fold_left_app. cbn [fold_left]. rewrite regular_step. rewrite <- IH.
    destruct (get_regular_quadrature_degree t _); split; intros; congruence.
Qed.

Lemma singular_dom tp calls :
  get_singular_quadrature_degree tp (after calls) <> None <-> supported (fst tp) /\ supported (snd tp).
Proof.
  unfold after. induction calls as [|c calls IH] using rev_ind.
  - destruct tp as [t t']. cbn [fst snd fold_left]. unfold supported.
    destruct t; destruct t'; cbn; split; intros H; auto; try discriminate; try congruence;
      destruct H as [[|] [|]]; discriminate.
  - rewrite fold_left_app. cbn [fold_left]. rewrite singular_step. rewrite <- IH.
    destruct (get_singular_quadrature_degree tp _); split; intros; congruence.
Qed.

Lemma options_history : forall calls,
  (forall t, supported t -> exists n, get_regular_quadrature_degree t (after calls) = Some n /\
     last_call (sel_regular t) 37 calls n) /\
  (forall tp, supported (fst tp) -> supported (snd tp) ->
     exists n, get_singular_quadrature_degree tp (after calls) = Some n /\ last_call (sel_singular tp) 4 calls n) /\
  last_call sel_batch 128 calls (get_batch_size (after calls)).
Proof.
  intros calls. split; [|split].
  - intros t Ht. 
    assert (Hd : forall l, get_regular_quadrature_degree t (after l) <> None) by (intros l; now apply regular_dom).
    exists (getR t (after calls)). split.
    + unfold getR. specialize (Hd calls). destruct (get_regular_quadrature_degree t (after calls)); congruence.
    + assert (E37 : getR t default_options = 37) by (destruct Ht as [-> | ->]; reflexivity).
      rewrite <- E37. apply last_call_spec. intros l c. unfold getR. rewrite regular_step. specialize (Hd l).
      destruct (get_regular_quadrature_degree t (after l)); congruence.
  - intros tp H1 H2.
    assert (Hd : forall l, get_singular_quadrature_degree tp (after l) <> None) by (intros l; now apply singular_dom).
    exists (getS tp (after calls)). split.
    + unfold getS. specialize (Hd calls). destruct (get_singular_quadrature_degree tp (after calls)); congruence.
    + assert (E4 : getS tp default_options = 4).
      { destruct tp as [a b]. cbn [fst snd] in *. destruct H1 as [-> | ->], H2 as [-> | ->]; reflexivity. }
      rewrite <- E4. apply last_call_spec. intros l c. unfold getS. rewrite singular_step. specialize (Hd l).
      destruct (get_singular_quadrature_degree tp (after l)); congruence.
  - apply (last_call_spec get_batch_size sel_batch). intros l [t n|tp n|n]; reflexivity.
Qed.

Lemma unsupported_ignored : forall calls,
  (forall t, ~ supported t -> get_regular_quadrature_degree t (after calls) = None) /\
  (forall tp, ~ (supported (fst tp) /\ supported (snd tp)) -> get_singular_quadrature_degree tp (after calls) = None).
Proof.
  intros calls. split.
  - intros t Ht. destruct (get_regular_quadrature_degree t (after calls)) eqn:E; auto.
    exfalso. apply Ht. apply (regular_dom t calls). congruence.
  - intros tp Ht. destruct (get_singular_quadrature_degree tp (after calls)) eqn:E; auto.
    exfalso. apply Ht. apply (singular_dom tp calls). congruence.
Qed.

Lemma set_refuted : exists calls t n,
  get_regular_quadrature_degree t (after (calls ++ [SetRegular t n])) <> Some n.
Proof. exists [], Interval, 3. discriminate. Qed.
