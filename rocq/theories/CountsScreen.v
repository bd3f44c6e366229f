(** * Touching cells of the screens *)
From Verif Require Import Base BaseFacts Topology TopologyFacts Shapes SpecShapes SphereFacts SphereResults ScreenFacts CountsSphere.

(** ** Sums over a range *)

Definition sum_to (n : nat) (f : nat -> nat) : nat := sum_list (map f (seq 0 n)).

Lemma sum_to_S n f : sum_to (S n) f = sum_to n f + f n.
Proof.
  unfold sum_to. rewrite seq_S, map_app. cbn [map Nat.add]. unfold sum_list. induction (map f (seq 0 n)); cbn [app fold_right]; lia.
Qed.

Lemma sum_to_ext n f g : (forall i, i < n -> f i = g i) -> sum_to n f = sum_to n g.
Proof. intros H. apply sum_ext. intros x Hx. apply in_seq in Hx. apply H. lia. Qed.

Lemma sum_to_3 n a b c f g : sum_to n (fun i => a + f i * b + g i * c) = n * a + sum_to n f * b + sum_to n g * c.
Proof. induction n as [|n IH]; [cbn; lia|]. rewrite !sum_to_S, IH. lia. Qed.

(** ** Neighbours along a line *)

(** 0: the same, 1: the next, 2: the one before, 3: another. *)
Definition step (x x' : nat) : nat := if x' =? x then 0 else if x' =? x + 1 then 1 else if x =? x' + 1 then 2 else 3.
Definition ahead (n x : nat) : nat := if x + 1 <? n then 1 else 0.
Definition behind (x : nat) : nat := if 0 <? x then 1 else 0.

Lemma sum_step n x g : x < n -> g 3 = 0 -> sum_to n (fun x' => g (step x x')) = g 0 + ahead n x * g 1 + behind x * g 2.
Proof.
  intros Hx G.
  assert (A : forall m, sum_to m (fun x' => g (step x x')) = (if x <? m then g 0 else 0) + (if x + 1 <? m then g 1 else 0) + (if (0 <? x) && (x <? m + 1) then g 2 else 0)).
  { induction m as [|m IH].
    - change (sum_to 0 _) with 0. destruct (Nat.ltb_spec x 0), (Nat.ltb_spec (x + 1) 0), (Nat.ltb_spec 0 x), (Nat.ltb_spec x (0 + 1)); cbn [andb]; lia.
    - rewrite sum_to_S, IH. unfold step. clear IH.
      destruct (Nat.eqb_spec m x), (Nat.eqb_spec m (x + 1)), (Nat.eqb_spec x (m + 1)), (Nat.ltb_spec x m), (Nat.ltb_spec x (S m)), (Nat.ltb_spec (x + 1) m), (Nat.ltb_spec (x + 1) (S m)),
        (Nat.ltb_spec 0 x), (Nat.ltb_spec x (m + 1)), (Nat.ltb_spec x (S m + 1)); cbn [andb]; lia. }
  rewrite A. unfold ahead, behind. destruct (Nat.ltb_spec x n), (Nat.ltb_spec (x + 1) n), (Nat.ltb_spec 0 x), (Nat.ltb_spec x (n + 1)); cbn [andb]; lia.
Qed.

Lemma sum_ahead n : sum_to n (ahead n) = n - 1.
Proof.
  assert (A : forall m, m <= n -> sum_to m (ahead n) = Nat.min m (n - 1)).
  { induction m as [|m IH]; intros H; [cbn; lia|]. rewrite sum_to_S, IH by lia. unfold ahead. destruct (Nat.ltb_spec (m + 1) n); lia. }
  rewrite A by lia. lia.
Qed.

Lemma sum_behind n : sum_to n behind = n - 1.
Proof. induction n as [|n IH]; [reflexivity|]. rewrite sum_to_S, IH. unfold behind. destruct (Nat.ltb_spec 0 n); lia. Qed.

(** ** Neighbours in the square *)

Section Square.
Variable K : nat -> nat -> nat.
Hypothesis K_far_x : forall j, K 3 j = 0.
Hypothesis K_far_y : forall i, K i 3 = 0.

Definition near (n x y : nat) : nat :=
  (K 0 0 + ahead n x * K 1 0 + behind x * K 2 0) + ahead n y * (K 0 1 + ahead n x * K 1 1 + behind x * K 2 1) + behind y * (K 0 2 + ahead n x * K 1 2 + behind x * K 2 2).

Lemma sum_near n x y : x < n -> y < n -> sum_to n (fun y' => sum_to n (fun x' => K (step x x') (step y y'))) = near n x y.
Proof.
  intros Hx Hy. rewrite (sum_to_ext n _ (fun y' => (fun j => K 0 j + ahead n x * K 1 j + behind x * K 2 j) (step y y'))).
  - rewrite (sum_step n y (fun j => K 0 j + ahead n x * K 1 j + behind x * K 2 j) Hy); [reflexivity|]. cbn beta. rewrite !K_far_y. lia.
  - intros y' _. apply (sum_step n x (fun i => K i (step y y')) Hx). apply K_far_x.
Qed.

Lemma sum_all n : sum_to n (fun y => sum_to n (fun x => near n x y)) =
  n * n * K 0 0 + n * (n - 1) * (K 1 0 + K 2 0 + K 0 1 + K 0 2) + (n - 1) * (n - 1) * (K 1 1 + K 1 2 + K 2 1 + K 2 2).
Proof.
  rewrite (sum_to_ext n _ (fun y => (n * K 0 0 + (n - 1) * K 1 0 + (n - 1) * K 2 0) + ahead n y * (n * K 0 1 + (n - 1) * K 1 1 + (n - 1) * K 2 1) + behind y * (n * K 0 2 + (n - 1) * K 1 2 + (n - 1) * K 2 2))).
  - rewrite sum_to_3, sum_ahead, sum_behind. lia.
  - intros y _. rewrite (sum_to_ext n _ (fun x => (K 0 0 + ahead n y * K 0 1 + behind y * K 0 2) + ahead n x * (K 1 0 + ahead n y * K 1 1 + behind y * K 1 2) + behind x * (K 2 0 + ahead n y * K 2 1 + behind y * K 2 2))).
    + rewrite sum_to_3, sum_ahead, sum_behind. lia.
    + intros x _. unfold near. lia.
Qed.

Lemma near_bound n x y : near n x y <= K 0 0 + K 1 0 + K 2 0 + K 0 1 + K 1 1 + K 2 1 + K 0 2 + K 1 2 + K 2 2.
Proof.
  unfold near. assert (A : forall z, ahead n z = 0 \/ ahead n z = 1) by (intros; unfold ahead; destruct (_ <? _); auto).
  assert (B : forall z, behind z = 0 \/ behind z = 1) by (intros; unfold behind; destruct (_ <? _); auto).
  destruct (A x) as [-> | ->], (A y) as [-> | ->], (B x) as [-> | ->], (B y) as [-> | ->]; lia.
Qed.

End Square.

(** ** Which cells touch *)

Definition b2n (b : bool) : nat := if b then 1 else 0.

(** Triangles of the same kind, a lower and an upper one, an upper and a lower one, quadrilaterals. *)
Definition same_kind (i j : nat) : nat := match i, j with 0, 0 | 1, 0 | 2, 0 | 0, 1 | 0, 2 | 1, 1 | 2, 2 => 1 | _, _ => 0 end.
Definition low_up (i j : nat) : nat := match i, j with 0, 0 | 2, 2 | 0, 2 | 1, 0 | 1, 2 | 1, 1 => 1 | _, _ => 0 end.
Definition up_low (i j : nat) : nat := match i, j with 0, 0 | 1, 1 | 0, 1 | 2, 0 | 2, 1 | 2, 2 => 1 | _, _ => 0 end.
Definition squares (i j : nat) : nat := match i, j with 0, 0 | 0, 1 | 0, 2 | 1, 0 | 1, 1 | 1, 2 | 2, 0 | 2, 1 | 2, 2 => 1 | _, _ => 0 end.

Lemma touches_true c d : touches c d = true <-> exists v, In v c /\ In v d.
Proof. unfold touches. rewrite existsb_exists. split; intros (v & H1 & H2); exists v; rewrite memb_In in *; auto. Qed.

Lemma b2n_spec c d k : (k = 0 \/ k = 1) -> ((exists v, In v c /\ In v d) <-> k = 1) -> b2n (touches c d) = k.
Proof.
  intros Hk H. rewrite <- touches_true in H. destruct (touches c d); cbn [b2n].
  - symmetry. now apply H.
  - destruct Hk as [-> | ->]; [reflexivity|]. destruct H as (_ & H). specialize (H eq_refl). discriminate.
Qed.

Lemma step_cases x x' : (step x x' = 0 /\ x' = x) \/ (step x x' = 1 /\ x' = x + 1) \/ (step x x' = 2 /\ x = x' + 1) \/
  (step x x' = 3 /\ x' <> x /\ x' <> x + 1 /\ x <> x' + 1).
Proof. unfold step. destruct (Nat.eqb_spec x' x), (Nat.eqb_spec x' (x + 1)), (Nat.eqb_spec x (x' + 1)); intuition lia. Qed.

Section Cells.
Variable n : nat.

Ltac coords := repeat match goal with
  | H : ?y * (n + 1) + ?x = ?y' * (n + 1) + ?x' |- _ => apply (id_inj n) in H; [|lia|lia]; destruct H
  end.

(** A common vertex, found among the four corners of the square at [(x, y)]. *)
Lemma low_low x y x' y' : x < n -> x' < n -> b2n (touches (lower n x y) (lower n x' y')) = same_kind (step x x') (step y y').
Proof.
  intros Hx Hx'. apply b2n_spec.
  - destruct (step x x') as [|[|[|]]], (step y y') as [|[|[|]]]; cbn; auto.
  - split.
    + intros (v & H1 & H2). rewrite !In_lower in *. destruct (step_cases x x') as [(-> & E)|[(-> & E)|[(-> & E)|(-> & E)]]], (step_cases y y') as [(-> & F)|[(-> & F)|[(-> & F)|(-> & F)]]]; try reflexivity;
        exfalso; destruct H1 as [-> |[-> | ->]], H2 as [H2|[H2|H2]]; coords; lia.
    + intros H. assert (C : exists a b, (a = 0 /\ b = 0 \/ a = 1 /\ b = 0 \/ a = 1 /\ b = 1) /\ (x + a = x' /\ y + b = y' \/ x + a = x' + 1 /\ y + b = y' \/ x + a = x' + 1 /\ y + b = y' + 1)).
      { destruct (step_cases x x') as [(Sx & E)|[(Sx & E)|[(Sx & E)|(Sx & E)]]], (step_cases y y') as [(Sy & F)|[(Sy & F)|[(Sy & F)|(Sy & F)]]]; rewrite Sx, Sy in H; try discriminate H;
          first [exists 0, 0; lia | exists 1, 0; lia | exists 1, 1; lia]. }
      destruct C as (a & b & C1 & C2). exists ((y + b) * (n + 1) + (x + a)). rewrite !In_lower. split; [intuition (subst; lia)|intuition (subst; nia)].
Qed.

Lemma up_up x y x' y' : x < n -> x' < n -> b2n (touches (upper n x y) (upper n x' y')) = same_kind (step x x') (step y y').
Proof.
  intros Hx Hx'. apply b2n_spec.
  - destruct (step x x') as [|[|[|]]], (step y y') as [|[|[|]]]; cbn; auto.
  - split.
    + intros (v & H1 & H2). rewrite !In_upper in *. destruct (step_cases x x') as [(-> & E)|[(-> & E)|[(-> & E)|(-> & E)]]], (step_cases y y') as [(-> & F)|[(-> & F)|[(-> & F)|(-> & F)]]]; try reflexivity;
        exfalso; destruct H1 as [-> |[-> | ->]], H2 as [H2|[H2|H2]]; coords; lia.
    + intros H. assert (C : exists a b, (a = 0 /\ b = 0 \/ a = 1 /\ b = 1 \/ a = 0 /\ b = 1) /\ (x + a = x' /\ y + b = y' \/ x + a = x' + 1 /\ y + b = y' + 1 \/ x + a = x' /\ y + b = y' + 1)).
      { destruct (step_cases x x') as [(Sx & E)|[(Sx & E)|[(Sx & E)|(Sx & E)]]], (step_cases y y') as [(Sy & F)|[(Sy & F)|[(Sy & F)|(Sy & F)]]]; rewrite Sx, Sy in H; try discriminate H;
          first [exists 0, 0; lia | exists 0, 1; lia | exists 1, 1; lia]. }
      destruct C as (a & b & C1 & C2). exists ((y + b) * (n + 1) + (x + a)). rewrite !In_upper. split; [intuition (subst; lia)|intuition (subst; nia)].
Qed.

Lemma low_upper x y x' y' : x < n -> x' < n -> b2n (touches (lower n x y) (upper n x' y')) = low_up (step x x') (step y y').
Proof.
  intros Hx Hx'. apply b2n_spec.
  - destruct (step x x') as [|[|[|]]], (step y y') as [|[|[|]]]; cbn; auto.
  - split.
    + intros (v & H1 & H2). rewrite In_lower in H1. rewrite In_upper in H2. destruct (step_cases x x') as [(-> & E)|[(-> & E)|[(-> & E)|(-> & E)]]], (step_cases y y') as [(-> & F)|[(-> & F)|[(-> & F)|(-> & F)]]]; try reflexivity;
        exfalso; destruct H1 as [-> |[-> | ->]], H2 as [H2|[H2|H2]]; coords; lia.
    + intros H. assert (C : exists a b, (a = 0 /\ b = 0 \/ a = 1 /\ b = 0 \/ a = 1 /\ b = 1) /\ (x + a = x' /\ y + b = y' \/ x + a = x' + 1 /\ y + b = y' + 1 \/ x + a = x' /\ y + b = y' + 1)).
      { destruct (step_cases x x') as [(Sx & E)|[(Sx & E)|[(Sx & E)|(Sx & E)]]], (step_cases y y') as [(Sy & F)|[(Sy & F)|[(Sy & F)|(Sy & F)]]]; rewrite Sx, Sy in H; try discriminate H;
          first [exists 0, 0; lia | exists 1, 0; lia | exists 1, 1; lia]. }
      destruct C as (a & b & C1 & C2). exists ((y + b) * (n + 1) + (x + a)). rewrite In_lower, In_upper. split; [intuition (subst; lia)|intuition (subst; nia)].
Qed.

Lemma up_lower x y x' y' : x < n -> x' < n -> b2n (touches (upper n x y) (lower n x' y')) = up_low (step x x') (step y y').
Proof.
  intros Hx Hx'. apply b2n_spec.
  - destruct (step x x') as [|[|[|]]], (step y y') as [|[|[|]]]; cbn; auto.
  - split.
    + intros (v & H1 & H2). rewrite In_upper in H1. rewrite In_lower in H2. destruct (step_cases x x') as [(-> & E)|[(-> & E)|[(-> & E)|(-> & E)]]], (step_cases y y') as [(-> & F)|[(-> & F)|[(-> & F)|(-> & F)]]]; try reflexivity;
        exfalso; destruct H1 as [-> |[-> | ->]], H2 as [H2|[H2|H2]]; coords; lia.
    + intros H. assert (C : exists a b, (a = 0 /\ b = 0 \/ a = 1 /\ b = 1 \/ a = 0 /\ b = 1) /\ (x + a = x' /\ y + b = y' \/ x + a = x' + 1 /\ y + b = y' \/ x + a = x' + 1 /\ y + b = y' + 1)).
      { destruct (step_cases x x') as [(Sx & E)|[(Sx & E)|[(Sx & E)|(Sx & E)]]], (step_cases y y') as [(Sy & F)|[(Sy & F)|[(Sy & F)|(Sy & F)]]]; rewrite Sx, Sy in H; try discriminate H;
          first [exists 0, 0; lia | exists 0, 1; lia | exists 1, 1; lia]. }
      destruct C as (a & b & C1 & C2). exists ((y + b) * (n + 1) + (x + a)). rewrite In_upper, In_lower. split; [intuition (subst; lia)|intuition (subst; nia)].
Qed.

Lemma quad_quad x y x' y' : x < n -> x' < n -> b2n (touches (quad n x y) (quad n x' y')) = squares (step x x') (step y y').
Proof.
  intros Hx Hx'. apply b2n_spec.
  - destruct (step x x') as [|[|[|]]], (step y y') as [|[|[|]]]; cbn; auto.
  - split.
    + intros (v & H1 & H2). rewrite !In_quad in *. destruct (step_cases x x') as [(-> & E)|[(-> & E)|[(-> & E)|(-> & E)]]], (step_cases y y') as [(-> & F)|[(-> & F)|[(-> & F)|(-> & F)]]]; try reflexivity;
        exfalso; destruct H1 as [-> |[-> |[-> | ->]]], H2 as [H2|[H2|[H2|H2]]]; coords; lia.
    + intros H. assert (C : exists a b, (a = 0 \/ a = 1) /\ (b = 0 \/ b = 1) /\ (x + a = x' \/ x + a = x' + 1) /\ (y + b = y' \/ y + b = y' + 1)).
      { destruct (step_cases x x') as [(Sx & E)|[(Sx & E)|[(Sx & E)|(Sx & E)]]], (step_cases y y') as [(Sy & F)|[(Sy & F)|[(Sy & F)|(Sy & F)]]]; rewrite Sx, Sy in H; try discriminate H;
          first [exists 0, 0; lia | exists 0, 1; lia | exists 1, 0; lia | exists 1, 1; lia]. }
      destruct C as (a & b & C1 & C2 & C3 & C4). exists ((y + b) * (n + 1) + (x + a)). rewrite !In_quad. split; [intuition (subst; lia)|].
      destruct C3 as [-> | ->], C4 as [-> | ->]; auto.
Qed.

(** ** Counting over the cells *)

Lemma cnt_square (P : list nat -> bool) (h : nat -> nat -> list (list nat)) :
  cnt P (flat_map (fun y => flat_map (fun x => h x y) (seq 0 n)) (seq 0 n)) = sum_to n (fun y => sum_to n (fun x => cnt P (h x y))).
Proof. rewrite cnt_flat_map. apply sum_ext. intros y _. apply cnt_flat_map. Qed.

Lemma cnt_pair (P : list nat -> bool) c d : cnt P [c; d] = b2n (P c) + b2n (P d).
Proof. rewrite !cnt_cons. unfold b2n. change (cnt P []) with 0. lia. Qed.

Lemma cnt_one (P : list nat -> bool) c : cnt P [c] = b2n (P c).
Proof. rewrite !cnt_cons. unfold b2n. change (cnt P []) with 0. lia. Qed.

Definition around_low (i j : nat) : nat := same_kind i j + low_up i j.
Definition around_up (i j : nat) : nat := up_low i j + same_kind i j.

Lemma far_x (K : nat -> nat -> nat) : In K [around_low; around_up; squares] -> (forall j, K 3 j = 0) /\ (forall i, K i 3 = 0).
Proof. intros [<-|[<-|[<-|[]]]]; split; intros [|[|[|]]]; reflexivity. Qed.

Lemma lower_touching x y : x < n -> y < n -> cnt (touches (lower n x y)) (triangle_cells n) = near around_low n x y.
Proof.
  intros Hx Hy. unfold triangle_cells. rewrite cnt_square. destruct (far_x around_low) as (F1 & F2); [cbn; auto|].
  rewrite <- (sum_near around_low F1 F2 n x y Hx Hy). apply sum_to_ext. intros y' _. apply sum_to_ext. intros x' Hx'.
  rewrite cnt_pair, low_low, low_upper by assumption. reflexivity.
Qed.

Lemma upper_touching x y : x < n -> y < n -> cnt (touches (upper n x y)) (triangle_cells n) = near around_up n x y.
Proof.
  intros Hx Hy. unfold triangle_cells. rewrite cnt_square. destruct (far_x around_up) as (F1 & F2); [cbn; auto|].
  rewrite <- (sum_near around_up F1 F2 n x y Hx Hy). apply sum_to_ext. intros y' _. apply sum_to_ext. intros x' Hx'.
  rewrite cnt_pair, up_lower, up_up by assumption. reflexivity.
Qed.

Lemma quad_touching x y : x < n -> y < n -> cnt (touches (quad n x y)) (quad_cells n) = near squares n x y.
Proof.
  intros Hx Hy. unfold quad_cells. rewrite cnt_square. destruct (far_x squares) as (F1 & F2); [cbn; auto|].
  rewrite <- (sum_near squares F1 F2 n x y Hx Hy). apply sum_to_ext. intros y' _. apply sum_to_ext. intros x' Hx'.
  rewrite cnt_one, quad_quad by assumption. reflexivity.
Qed.

Lemma sum_list_app a b : sum_list (a ++ b) = sum_list a + sum_list b.
Proof. unfold sum_list. induction a; cbn [app fold_right]; lia. Qed.

Lemma sum_square (w : list nat -> nat) (h : nat -> nat -> list (list nat)) :
  sum_list (map w (flat_map (fun y => flat_map (fun x => h x y) (seq 0 n)) (seq 0 n))) = sum_to n (fun y => sum_to n (fun x => sum_list (map w (h x y)))).
Proof.
  assert (G : forall (k : nat -> list (list nat)) l, sum_list (map w (flat_map k l)) = sum_list (map (fun z => sum_list (map w (k z))) l)).
  { intros k. induction l as [|z l IH]; [reflexivity|]. cbn [flat_map map]. rewrite map_app, sum_list_app, IH. reflexivity. }
  rewrite G. apply sum_ext. intros y _. apply G.
Qed.

Lemma triangles_touching : n <> 0 -> all_touching (triangle_cells n) + 32 * n = 26 * n * n + 10.
Proof.
  intros Hn. unfold all_touching. rewrite sum_square with (h := fun x y => [lower n x y; upper n x y]).
  rewrite (sum_to_ext n _ (fun y => sum_to n (fun x => near (fun i j => around_low i j + around_up i j) n x y))).
  - rewrite sum_all. cbn. destruct n as [|k]; [congruence|]. replace (S k - 1) with k by lia. nia.
  - intros y Hy. apply sum_to_ext. intros x Hx. cbn [map]. change (sum_list [?a; ?b]) with (a + (b + 0)).
    rewrite lower_touching, upper_touching by assumption. unfold near. lia.
Qed.

Lemma quads_touching : n <> 0 -> all_touching (quad_cells n) = (3 * n - 2) * (3 * n - 2).
Proof.
  intros Hn. unfold all_touching. rewrite sum_square with (h := fun x y => [quad n x y]).
  rewrite (sum_to_ext n _ (fun y => sum_to n (fun x => near squares n x y))).
  - rewrite sum_all. cbn. destruct n as [|k]; [congruence|]. replace (S k - 1) with k by lia. nia.
  - intros y Hy. apply sum_to_ext. intros x Hx. cbn [map]. change (sum_list [?a]) with (a + 0).
    rewrite quad_touching by assumption. lia.
Qed.

Lemma triangles_around c : In c (triangle_cells n) -> cnt (touches c) (triangle_cells n) <= 13.
Proof.
  rewrite In_triangle_cells. intros (x & y & Hx & Hy & [-> | ->]).
  - rewrite lower_touching by assumption. etransitivity; [apply near_bound|]. cbn. lia.
  - rewrite upper_touching by assumption. etransitivity; [apply near_bound|]. cbn. lia.
Qed.

Lemma quads_around c : In c (quad_cells n) -> cnt (touches c) (quad_cells n) <= 9.
Proof.
  rewrite In_quad_cells. intros (x & y & Hx & Hy & ->). rewrite quad_touching by assumption. etransitivity; [apply near_bound|]. cbn. lia.
Qed.

End Cells.
