(** * Cells around vertices of the sphere *)
From Verif Require Import Base BaseFacts Topology TopologyFacts Shapes SpecShapes SphereFacts SphereSurface SphereResults ScreenEdges ShapesResults.

(** ** Counting *)

Definition cnt {A : Type} (P : A -> bool) (l : list A) : nat := length (filter P l).

Lemma cnt_app {A} (P : A -> bool) l m : cnt P (l ++ m) = cnt P l + cnt P m.
Proof. unfold cnt. now rewrite filter_app, app_length. Qed.

Lemma cnt_cons {A} (P : A -> bool) x l : cnt P (x :: l) = (if P x then 1 else 0) + cnt P l.
Proof. unfold cnt. cbn [filter]. destruct (P x); reflexivity. Qed.

Lemma cnt_flat_map {A B} (P : B -> bool) (f : A -> list B) l : cnt P (flat_map f l) = sum_list (map (fun x => cnt P (f x)) l).
Proof. induction l as [|x l IH]; cbn [flat_map map sum_list fold_right]; [reflexivity|]. rewrite cnt_app, IH. reflexivity. Qed.

Lemma sum_if {A} (P : A -> bool) k (l : list A) : sum_list (map (fun x => if P x then k else 0) l) = k * cnt P l.
Proof.
  induction l as [|x l IH]; [cbn; lia|]. cbn [map]. change (sum_list (?a :: ?b)) with (a + sum_list b). rewrite IH, cnt_cons. destruct (P x); lia.
Qed.

Lemma sum_ext {A} (f g : A -> nat) l : (forall x, In x l -> f x = g x) -> sum_list (map f l) = sum_list (map g l).
Proof. intros H. f_equal. now apply map_ext_in. Qed.

(** Inclusion and exclusion. *)
Lemma cnt_three {A} (P Q U : A -> bool) l :
  cnt (fun x => P x || Q x || U x) l + cnt (fun x => P x && Q x) l + cnt (fun x => Q x && U x) l + cnt (fun x => P x && U x) l =
  cnt P l + cnt Q l + cnt U l + cnt (fun x => P x && Q x && U x) l.
Proof.
  induction l as [|x l IH]; [reflexivity|]. rewrite !cnt_cons. destruct (P x), (Q x), (U x); cbn [orb andb]; lia.
Qed.

(** A set that is listed. *)
Lemma cnt_listed {A} (P : A -> bool) l m : NoDup l -> NoDup m -> (forall x, In x m <-> In x l /\ P x = true) -> cnt P l = length m.
Proof.
  intros Nl Nm H. unfold cnt. apply same_set_length; auto using NoDup_filter. intros x. rewrite filter_In. symmetry. apply H.
Qed.

(** The number of cells at a vertex. *)
Definition valence (cells : list (list nat)) (v : nat) : nat := cnt (memb v) cells.

Section Surface.
Context (n : nat) (cells : list (list nat)) (SU : surface n cells).

(** Two cells at an edge. *)
Lemma edge_cells c u v w : In c cells -> rot c u v w -> cnt (fun x => memb u x && memb v x) cells = 2.
Proof.
  intros Hc R. assert (He : In (u, v) (directed_edges c)) by (apply (edge_rot_cell n cells SU); eauto).
  destruct (In_nth_error _ _ Hc) as (i & Hi). destruct (surface_two_cells n cells SU i c u v Hi He) as (j & c' & Nij & Hj & He' & All).
  pose proof (nth_error_In _ _ Hj) as Hc'. apply (edge_rot_cell n cells SU) in He'; auto. destruct He' as (w' & R').
  change 2 with (length [c; c']). apply cnt_listed; [apply (su_nodup _ _ SU)| |].
  - constructor; [|constructor; [intros []|constructor]]. intros [<-|[]]. apply Nij. eapply (same_position n cells SU); eauto.
  - intros x. rewrite andb_true_iff, !memb_In. split.
    + intros [<-|[<-|[]]]; (split; [assumption|]).
      * split; apply (rot_In _ _ _ _ R); auto.
      * split; apply (rot_In _ _ _ _ R'); auto.
    + intros (Hx & Hu & Hv). destruct (In_nth_error _ _ Hx) as (k & Hk). destruct (All k x Hk Hu Hv) as [->| ->]; [left|right; left]; congruence.
Qed.

Lemma edge_cells' c u v w : In c cells -> rot c u v w -> cnt (fun x => memb u x && memb w x) cells = 2.
Proof.
  intros Hc R. rewrite <- (edge_cells c w u v Hc ltac:(now do 2 apply rot_turn)). unfold cnt. f_equal. apply filter_ext. intros x. apply andb_comm.
Qed.

(** Cells that touch a cell. *)
Definition touches (c d : list nat) : bool := existsb (fun v => memb v d) c.

Lemma touching_cells a b d : In [a; b; d] cells -> cnt (touches [a; b; d]) cells + 5 = valence cells a + valence cells b + valence cells d.
Proof.
  intros Hc. assert (R : rot [a; b; d] a b d) by (unfold rot; auto).
  pose proof (cnt_three (memb a) (memb b) (memb d) cells) as I.
  rewrite (edge_cells _ a b d Hc R), (edge_cells _ b d a Hc (rot_turn _ _ _ _ R)), (edge_cells' _ a b d Hc R) in I.
  rewrite (cnt_listed (fun x => memb a x && memb b x && memb d x) cells [[a; b; d]]) in I.
  - unfold valence. replace (cnt (touches [a; b; d]) cells) with (cnt (fun x => memb a x || memb b x || memb d x) cells); [cbn [length] in I; lia|].
    unfold cnt. f_equal. apply filter_ext. intros x. unfold touches. cbn [existsb]. now rewrite orb_false_r, orb_assoc.
  - apply (su_nodup _ _ SU).
  - constructor; [intros []|constructor].
  - intros x. rewrite !andb_true_iff, !memb_In. split.
    + intros [<-|[]]. split; auto. cbn; auto.
    + intros (Hx & (Ha & Hb) & Hd). left. apply (su_sets _ _ SU); auto. intros v [<-|[<-|[<-|[]]]]; auto.
Qed.

Local Notation keys := (grid_edges Triangle cells).
Local Notation m := (mid n (grid_edges Triangle cells)).
Local Notation fine := (flat_map (children (mid n (grid_edges Triangle cells))) cells).

Lemma memb_false v l : memb v l = false <-> ~ In v l.
Proof. rewrite <- memb_In. destruct (memb v l); split; congruence. Qed.

(** An old vertex keeps its cells. *)
Lemma old_valence v : v < n -> valence fine v = valence cells v.
Proof.
  intros Hv. unfold valence. rewrite cnt_flat_map. rewrite (sum_ext _ (fun c => if memb v c then 1 else 0)); [rewrite sum_if; lia|].
  intros c Hc. destruct (su_cell _ _ SU c Hc) as (a & b & d & -> & B & N1 & N2 & N3). cbn [children]. rewrite !cnt_cons.
  assert (G : forall x y, v <> m x y) by (intros x y; pose proof (mid_ge n cells x y); lia).
  assert (Z : forall x l, memb v (x :: l) = (v =? x) || memb v l) by (intros; unfold memb; cbn [existsb]; reflexivity).
  rewrite !Z. assert (M : forall x y, v =? m x y = false) by (intros; now apply Nat.eqb_neq). rewrite !M. cbn [memb existsb orb].
  destruct (Nat.eqb_spec v a), (Nat.eqb_spec v b), (Nat.eqb_spec v d); subst; cbn; congruence.
Qed.

(** A new vertex has six. *)
Lemma new_valence c u v w : In c cells -> rot c u v w -> valence fine (m u v) = 6.
Proof.
  intros Hc R. unfold valence. rewrite cnt_flat_map.
  rewrite (sum_ext _ (fun x => if memb u x && memb v x then 3 else 0)); [rewrite sum_if, (edge_cells c u v w Hc R); reflexivity|].
  intros x Hx. destruct (su_cell _ _ SU x Hx) as (a & b & d & -> & B & N1 & N2 & N3). cbn [children]. rewrite !cnt_cons.
  destruct (rot_facts n cells SU _ _ _ _ Hc R) as (_ & Nuv & _ & _).
  pose proof (mid_ge n cells u v) as Ge. fold keys in Ge.
  assert (Z : forall y l, memb (m u v) (y :: l) = (m u v =? y) || memb (m u v) l) by (intros; unfold memb; cbn [existsb]; reflexivity).
  assert (Old : forall y, y < n -> m u v =? y = false) by (intros; apply Nat.eqb_neq; lia).
  rewrite !Z. rewrite (Old a), (Old b), (Old d) by lia. cbn [memb existsb orb]. rewrite !orb_false_r.
  assert (Rx : rot [a; b; d] a b d) by (unfold rot; auto).
  assert (Kuv := keys_edge n cells SU c u v w Hc R).
  assert (E : forall x y z, rot [a; b; d] x y z -> (m u v =? m x y) = (u =? x) && (v =? y) || (u =? y) && (v =? x)).
  { intros p q r Rp. destruct (Nat.eqb_spec (m u v) (m p q)) as [Em|Em].
    - apply (mid_inj n cells) in Em; auto; [|exact (keys_edge n cells SU _ p q r Hx Rp)].
      destruct Em as [(<- & <-)|(<- & <-)]; rewrite !Nat.eqb_refl; cbn; auto. now rewrite orb_true_r.
    - symmetry. apply orb_false_iff. split; apply andb_false_iff.
      + destruct (Nat.eqb_spec u p); auto. destruct (Nat.eqb_spec v q); auto. subst. congruence.
      + destruct (Nat.eqb_spec u q); auto. destruct (Nat.eqb_spec v p); auto. subst. now rewrite (mid_swap n cells) in Em. }
  rewrite (mid_swap n cells a d), (mid_swap n cells b a), (mid_swap n cells d b).
  rewrite (E a b d), (E b d a), (E d a b) by (unfold rot; auto).
  destruct (Nat.eqb_spec u a), (Nat.eqb_spec u b), (Nat.eqb_spec u d), (Nat.eqb_spec v a), (Nat.eqb_spec v b), (Nat.eqb_spec v d);
    subst; try congruence; reflexivity.
Qed.

End Surface.

(** ** All levels *)

Definition regular (n : nat) (cells : list (list nat)) : Prop := forall v, v < n -> valence cells v = if v <? 6 then 4 else 6.

(** The sum of the numbers of cells at the vertices of the cells. *)
Definition corners (cells : list (list nat)) : nat := sum_list (map (fun c => sum_list (map (valence cells) c)) cells).

Lemma refined_regular n cells np : 6 <= n -> surface n cells -> regular n cells -> np = length (grid_edges Triangle cells) ->
  regular (n + np) (flat_map (children (mid n (grid_edges Triangle cells))) cells).
Proof.
  intros H6 SU Rg -> v Hv. destruct (Nat.lt_ge_cases v n) as [Hn|Hn].
  - now rewrite (old_valence n cells SU v Hn), Rg.
  - destruct (Nat.ltb_spec v 6); [lia|].
    destruct (nth_error (grid_edges Triangle cells) (v - n)) as [k|] eqn:Ek; [|apply nth_error_None in Ek; lia].
    pose proof (nth_error_In _ _ Ek) as Hk. apply (key_edges n cells SU) in Hk. destruct Hk as (c & x & y & z & Hc & R & Kxy).
    assert (v = mid n (grid_edges Triangle cells) x y) as ->; [|exact (new_valence n cells SU c x y z Hc R)].
    unfold mid. rewrite <- Kxy.
    assert (Hin := index_of_nth k (grid_edges Triangle cells) (nth_error_In _ _ Ek)).
    assert (v - n = index_of k (grid_edges Triangle cells)); [|lia].
    eapply NoDup_nth_error_inj; [apply dedup_NoDup|exact Ek|exact Hin].
Qed.

Lemma refined_corners n cells : surface n cells ->
  corners (flat_map (children (mid n (grid_edges Triangle cells))) cells) = corners cells + 54 * length cells.
Proof.
  intros SU. unfold corners at 1. set (fine := flat_map _ cells).
  assert (G : forall l, (forall c, In c l -> In c cells) ->
    sum_list (map (fun c => sum_list (map (valence fine) c)) (flat_map (children (mid n (grid_edges Triangle cells))) l)) =
    sum_list (map (fun c => sum_list (map (valence cells) c)) l) + 54 * length l).
  { induction l as [|c l IH]; intros H; [reflexivity|]. cbn [flat_map]. rewrite map_app.
    assert (A : forall a b, sum_list (a ++ b) = sum_list a + sum_list b).
    { clear. intros a b. unfold sum_list. induction a; cbn [app fold_right]; lia. }
    rewrite A, IH by (intros; apply H; now right). cbn [map length]. change (sum_list (?a :: ?b)) with (a + sum_list b).
    pose proof (H c (or_introl eq_refl)) as Hc. destruct (su_cell _ _ SU c Hc) as (a & b & d & -> & B & _).
    cbn [children map sum_list fold_right].
    assert (R : rot [a; b; d] a b d) by (unfold rot; auto).
    assert (M : forall u v w, rot [a; b; d] u v w -> valence fine (mid n (grid_edges Triangle cells) u v) = 6 /\ valence fine (mid n (grid_edges Triangle cells) v u) = 6).
    { intros u v w Ru. rewrite (mid_swap n cells v u). split; exact (new_valence n cells SU _ u v w Hc Ru). }
    destruct (M a b d R) as (-> & ->). destruct (M b d a (rot_turn _ _ _ _ R)) as (-> & ->). destruct (M d a b (rot_turn _ _ _ _ (rot_turn _ _ _ _ R))) as (-> & ->).
    unfold fine. rewrite !(old_valence n cells SU) by lia. lia. }
  apply G. auto.
Qed.

Lemma sphere_regular R L : exists b, regular_sphere R L 1 = Ok b /\ surface (length (points_of b)) (cells_of b) /\
  length (points_of b) = 2 + 4 ^ (L + 1) /\ length (cells_of b) = 8 * 4 ^ L /\
  regular (length (points_of b)) (cells_of b) /\ corners (cells_of b) + 48 = 18 * length (cells_of b).
Proof.
  destruct (sphere_built R (fun pts cells => 6 <= length pts /\ regular (length pts) cells /\ corners cells + 48 = 18 * length cells) L) as
    (b & E & _ & _ & N1 & N2 & SU & _ & Rg & Co).
  - intros pts cells np SU (H6 & Rg & Co) F. rewrite app_length. split; [lia|]. split.
    + apply refined_regular; auto. clear - F. induction F; cbn; congruence.
    + rewrite (refined_corners _ _ SU), (children_count _ _ SU). lia.
  - split; [cbn; lia|]. split.
    + intros v Hv. cbn in Hv. do 6 (destruct v as [|v]; [reflexivity|]). lia.
    + reflexivity.
  - exists b. auto 7.
Qed.

(** Touching pairs. *)
Definition all_touching (cells : list (list nat)) : nat := sum_list (map (fun c => cnt (touches c) cells) cells).

Lemma sphere_touching n cells : surface n cells -> all_touching cells + 5 * length cells = corners cells.
Proof.
  intros SU. unfold all_touching, corners.
  assert (G : forall l, (forall c, In c l -> In c cells) ->
    sum_list (map (fun c => cnt (touches c) cells) l) + 5 * length l = sum_list (map (fun c => sum_list (map (valence cells) c)) l)).
  { induction l as [|c l IH]; intros H; [reflexivity|]. cbn [map length]. change (sum_list (?a :: ?b)) with (a + sum_list b).
    rewrite <- IH by (intros; apply H; now right). pose proof (H c (or_introl eq_refl)) as Hc. destruct (su_cell _ _ SU c Hc) as (a & b & d & -> & _).
    pose proof (touching_cells n cells SU a b d Hc). cbn [map sum_list fold_right] in *. lia. }
  apply G. auto.
Qed.
