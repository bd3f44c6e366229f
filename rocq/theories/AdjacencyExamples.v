(** * Adjacency: examples *)
From Verif Require Import Base BaseFacts Topology TopologyFacts DofExamples ColouringExamples Options Batch SpecBatch BatchFacts
  Adjacency SpecAdjacency AdjacencyFacts AdjacencyResults.

(** Boolean tests for concrete grids. *)
Definition edge_ofb (g : grid) (c v w : nat) : bool :=
  existsb (fun ab =>
    let a := nth (fst ab) (map Some (g_sub g c 0)) None in
    let b := nth (snd ab) (map Some (g_sub g c 0)) None in
    match a, b with
    | Some x, Some y => ((x =? v) && (y =? w)) || ((x =? w) && (y =? v))
    | _, _ => false
    end) (ref_edges (g_ctype g c)).

Lemma nth_map_Some {A} (l : list A) i x : nth i (map Some l) None = Some x -> nth_error l i = Some x.
Proof. revert i. induction l; intros [|i] H; cbn in *; try discriminate; auto. Qed.

Lemma edge_ofb_ok g c v w : edge_ofb g c v w = true -> edge_of g c v w.
Proof.
  unfold edge_ofb. intros H. apply existsb_exists in H. destruct H as ([a b] & Hin & H). cbn [fst snd] in H.
  destruct (nth a (map Some (g_sub g c 0)) None) as [x|] eqn:Ea; [|discriminate].
  destruct (nth b (map Some (g_sub g c 0)) None) as [y|] eqn:Eb; [|discriminate].
  apply nth_map_Some in Ea. apply nth_map_Some in Eb.
  exists a, b. split; auto. apply orb_true_iff in H. destruct H as [H|H]; apply andb_true_iff in H; destruct H as [H1 H2];
    apply Nat.eqb_eq in H1; apply Nat.eqb_eq in H2; subst; auto.
Qed.

Definition conformingb (g : grid) : bool :=
  forallb (fun c => forallb (fun c' => (c =? c') ||
    (let com := filter (fun v => memb v (g_sub g c' 0)) (g_sub g c 0) in
     match com with
     | [] | [_] => true
     | [v; w] => edge_ofb g c v w && edge_ofb g c' v w && edge_ofb g c w v && edge_ofb g c' w v
     | _ => false
     end)) (seq 0 (ent_count g 2))) (seq 0 (ent_count g 2)).

Lemma conformingb_ok g : conformingb g = true -> conforming g.
Proof.
  intros H c c' v w Hc Hc' Hne Hvw V1 V2 W1 W2. unfold conformingb in H.
  rewrite forallb_forall in H. specialize (H c (proj2 (in_seq _ _ _) (conj (Nat.le_0_l c) Hc))).
  rewrite forallb_forall in H. specialize (H c' (proj2 (in_seq _ _ _) (conj (Nat.le_0_l c') Hc'))).
  apply orb_true_iff in H. destruct H as [H|H]; [apply Nat.eqb_eq in H; contradiction|].
  set (com := filter (fun v => memb v (g_sub g c' 0)) (g_sub g c 0)) in *.
  assert (Hcom : forall u, In u com <-> In u (g_sub g c 0) /\ In u (g_sub g c' 0)).
  { intros u. unfold com. rewrite filter_In, memb_In. tauto. }
  assert (Hv : In v com) by (apply Hcom; auto). assert (Hw : In w com) by (apply Hcom; auto).
  destruct com as [|x [|y [|z com]]].
  - destruct Hv.
  - destruct Hv as [<-|[]]; destruct Hw as [<-|[]]. congruence.
  - rewrite !andb_true_iff in H. destruct H as [[[H1 H2] H3] H4].
    apply edge_ofb_ok in H1, H2, H3, H4.
    assert (Honly : forall u, In u (g_sub g c 0) -> In u (g_sub g c' 0) -> u = x \/ u = y).
    { intros u U1 U2. destruct (proj2 (Hcom u) (conj U1 U2)) as [<-|[<-|[]]]; auto. }
    destruct Hv as [<-|[<-|[]]]; destruct Hw as [<-|[<-|[]]]; try congruence.
    + auto.
    + split; auto. split; auto. intros u U1 U2. destruct (Honly u U1 U2); auto.
  - discriminate.
Qed.

Lemma pairs_fit_square wmod g : 2 * (ent_count g 2 * ent_count g 2) <= wmod -> pairs_fit wmod g.
Proof.
  intros H l Hn Hl. etransitivity; [|exact H]. apply Nat.mul_le_mono_l.
  assert (Hi : incl l (list_prod (seq 0 (ent_count g 2)) (seq 0 (ent_count g 2)))).
  { intros [a b] Hab. destruct (Hl a b Hab) as (H1 & H2 & _). apply in_prod_iff. rewrite !in_seq. lia. }
  apply NoDup_incl_length in Hi; auto. now rewrite prod_length, !seq_length in Hi.
Qed.

Lemma screen2_adjacency :
  wf_grid screen2 /\ conforming screen2 /\ has_degrees default_options (g_types screen2 2) (fun _ _ => 4) /\
  pairs_fit 256 screen2 /\
  touch screen2 0 1 /\ adjacency screen2 0 1 [(0, 0); (2, 1)] /\ ~ touch screen2 0 5 /\
  exists st blocks, singular_rules (fun t s p n => Ok (t, s, p, n)) default_options (g_types screen2 2) = Ok st /\
    singular_blocks 256 st default_options screen2 = Ok blocks /\
    length (flat_map snd blocks) = 50 /\ length (rs_data st) = 28.
Proof.
  split; [apply screen2_wf|]. split; [apply conformingb_ok; vm_compute; reflexivity|].
  split; [intros t s [<-|[]] [<-|[]]; reflexivity|].
  split; [apply pairs_fit_square; apply Nat.leb_le; vm_compute; reflexivity|].
  split; [exists 0; vm_compute; auto|].
  split.
  { assert (E : pairs_of screen2 (0, 1) = [(0, 0); (2, 1)]) by (vm_compute; reflexivity).
    rewrite <- E. apply pairs_of_adjacency; [apply screen2_wf|vm_compute; lia]. }
  split; [intros [v [H1 H2]]; vm_compute in H1, H2; intuition lia|].
  destruct (singular_rules (fun t s p n => Ok (t, s, p, n)) default_options (g_types screen2 2)) as [st| | |] eqn:E1;
    try (vm_compute in E1; discriminate).
  exists st. vm_compute in E1. inversion E1; subst st. clear E1.
  eexists. split; [reflexivity|]. split; [vm_compute; reflexivity|]. split; vm_compute; reflexivity.
Qed.

Lemma mixed_adjacency :
  wf_grid mixed_grid /\ conforming mixed_grid /\ touch mixed_grid 0 1 /\ touch mixed_grid 1 0 /\
  (forall t s, t < ent_count mixed_grid 2 -> s < ent_count mixed_grid 2 -> touch mixed_grid t s).
Proof.
  split; [apply mixed_grid_wf|]. split; [apply conformingb_ok; vm_compute; reflexivity|].
  assert (H : forall t s, t < ent_count mixed_grid 2 -> s < ent_count mixed_grid 2 -> touch mixed_grid t s).
  { intros t s Ht Hs. change (ent_count mixed_grid 2) with 2 in *. exists 1.
    destruct t as [|[|t]]; [| |lia]; destruct s as [|[|s]]; try lia; vm_compute; auto 10. }
  split; [apply H; vm_compute; lia|]. split; [apply H; vm_compute; lia|]. exact H.
Qed.
