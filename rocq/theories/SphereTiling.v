(** * The sphere: the octahedron, and all levels *)
From Coq Require Import Reals Lra Psatz.
From Verif Require Import Base BaseFacts Topology TopologyFacts Shapes SpecShapes SphereFacts SphereSurface SphereResults SpecSphere SphereGeometry.

Local Open Scope R_scope.
Local Notation octa := (octahedron_points real_numbers : list vec).

Lemma octa_pos : position octa 0 = (0, 0, 1) /\ position octa 1 = (1, 0, 0) /\ position octa 2 = (0, 1, 0) /\
  position octa 3 = (-(1), 0, 0) /\ position octa 4 = (0, -(1), 0) /\ position octa 5 = (0, 0, -(1)).
Proof. repeat split. Qed.

Definition octa_weight (x : vec) (v : nat) : R :=
  let '(a, b, c) := x in
  match v with
  | 0%nat => Rmax 0 c | 1%nat => Rmax 0 a | 2%nat => Rmax 0 b | 3%nat => Rmax 0 (- a) | 4%nat => Rmax 0 (- b) | 5%nat => Rmax 0 (- c)
  | _ => 0
  end.

Ltac each_cell H := cbn [In octahedron_cells] in H; repeat (destruct H as [<-|H]; [|]); [..|contradiction].

Lemma octa_unique c w x : In c octahedron_cells -> in_cone octa c w x -> forall v, w v = octa_weight x v.
Proof.
  destruct octa_pos as (P0 & P1 & P2 & P3 & P4 & P5). intros Hc (W0 & WZ & E) v.
  destruct x as [[a b] d].
  each_cell Hc; cbn [combination] in E; rewrite ?P0, ?P1, ?P2, ?P3, ?P4, ?P5 in E; cbn [vadd vscale origin] in E; injection E as Ea Eb Ed;
    pose proof (W0 0%nat); pose proof (W0 1%nat); pose proof (W0 2%nat); pose proof (W0 3%nat); pose proof (W0 4%nat); pose proof (W0 5%nat);
    destruct v as [|[|[|[|[|[|v]]]]]]; cbn [octa_weight];
    match goal with
    | |- _ = Rmax _ _ => unfold Rmax; destruct (Rle_dec _ _); (lra || (rewrite WZ by (cbn; lia); lra))
    | |- w _ = 0 => apply WZ; cbn; lia
    end.
Qed.

Lemma octa_cover x : exists c w, In c octahedron_cells /\ in_cone octa c w x.
Proof.
  destruct octa_pos as (P0 & P1 & P2 & P3 & P4 & P5). destruct x as [[a b] d].
  assert (G : forall u v t p q r, In [u; v; t] octahedron_cells -> u <> v -> v <> t -> u <> t -> 0 <= p -> 0 <= q -> 0 <= r ->
    (a, b, d) = vadd (vscale p (position octa u)) (vadd (vscale q (position octa v)) (vscale r (position octa t))) ->
    exists c w, In c octahedron_cells /\ in_cone octa c w (a, b, d)).
  { intros u v t p q r Hc N1 N2 N3 Hp Hq Hr E. exists [u; v; t], (on3 u v t p q r). split; auto. split; [now apply on3_nonneg|]. split.
    - intros y Hy. apply on3_outside; intros ->; apply Hy; cbn; auto.
    - rewrite (combination_rot _ _ u v t) by (unfold rot; auto). destruct (on3_values u v t p q r N1 N2 N3) as (-> & -> & ->). exact E. }
  destruct (Rle_dec 0 a), (Rle_dec 0 b), (Rle_dec 0 d).
  1: apply (G 0 1 2 d a b)%nat. 9: apply (G 5 2 1 (-d) b a)%nat. 17: apply (G 0 4 1 d (-b) a)%nat. 25: apply (G 5 1 4 (-d) a (-b))%nat.
  33: apply (G 0 2 3 d b (-a))%nat. 41: apply (G 5 3 2 (-d) (-a) b)%nat. 49: apply (G 0 3 4 d (-a) (-b))%nat. 57: apply (G 5 4 3 (-d) (-b) (-a))%nat.
  all: try lia; try lra; try (cbn; tauto).
  all: rewrite ?P0, ?P1, ?P2, ?P3, ?P4, ?P5; cbn [vadd vscale]; f_equal; [f_equal|]; ring.
Qed.

Lemma octahedron_tiling : tiling octa octahedron_cells.
Proof.
  constructor.
  - intros p [<-|[<-|[<-|[<-|[<-|[<-|[]]]]]]]; unfold norm2; cbn; ring.
  - destruct octa_pos as (P0 & P1 & P2 & P3 & P4 & P5). intros c u v w Hc R.
    each_cell Hc; destruct R as [E|[E|E]]; injection E as <- <- <-; rewrite ?P0, ?P1, ?P2, ?P3, ?P4, ?P5; unfold det; cbn; lra.
  - exact octa_cover.
  - intros c c' w w' x Hc Hc' I I' v. now rewrite (octa_unique c w x Hc I), (octa_unique c' w' x Hc' I').
Qed.

Lemma sphere_tiling L : exists b, regular_sphere real_numbers L 1 = Ok b /\
  b_points b = enumerate (points_of b) /\ b_cells b = enumerate (cells_of b) /\
  length (points_of b) = (2 + 4 ^ (L + 1))%nat /\ length (cells_of b) = (8 * 4 ^ L)%nat /\
  surface (length (points_of b)) (cells_of b) /\ tiling (points_of b) (cells_of b).
Proof.
  apply (sphere_built real_numbers tiling L).
  - intros pts cells np SU TI MF. now apply step_tiling.
  - exact octahedron_tiling.
Qed.

(** ** The statements *)

Lemma sphere_points_and_normals : forall L, exists b : builder vec,
  regular_sphere real_numbers L 1 = Ok b /\
  (forall p, In p (points_of b) -> inner p p = 1) /\
  (forall c i j k p q r, In c (cells_of b) -> c = [i; j; k] ->
     nth_error (points_of b) i = Some p -> nth_error (points_of b) j = Some q -> nth_error (points_of b) k = Some r ->
     forall x, In x [p; q; r] -> 0 < inner x (normal p q r)).
Proof.
  intros L. destruct (sphere_tiling L) as (b & E & _ & _ & _ & _ & SU & TI). exists b. split; auto. split; [exact (ti_unit _ _ TI)|].
  intros c i j k p q r Hc -> Hp Hq Hr x Hx. assert (D : 0 < det p q r).
  { pose proof (ti_outward _ _ TI [i; j; k] i j k Hc ltac:(unfold rot; auto)) as D. unfold position in D.
    now rewrite (nth_error_nth_Some _ _ _ _ Hp), (nth_error_nth_Some _ _ _ _ Hq), (nth_error_nth_Some _ _ _ _ Hr) in D. }
  destruct (det_normal p q r) as (A & B & C). destruct Hx as [<-|[<-|[<-|[]]]]; congruence.
Qed.

Lemma sphere_tessellation : forall L, exists b : builder vec,
  regular_sphere real_numbers L 1 = Ok b /\
  (forall x, exists i c w, nth_error (cells_of b) i = Some c /\ in_cone (points_of b) c w x) /\
  (forall i j c c' w w' x, nth_error (cells_of b) i = Some c -> nth_error (cells_of b) j = Some c' ->
     in_cone (points_of b) c w x -> in_cone (points_of b) c' w' x ->
     (forall v, w v = w' v) /\ (forall v, w v <> 0 -> In v c /\ In v c')).
Proof.
  intros L. destruct (sphere_tiling L) as (b & E & _ & _ & _ & _ & SU & TI). exists b. split; auto. split.
  - intros x. destruct (ti_cover _ _ TI x) as (c & w & Hc & I). destruct (In_nth_error _ _ Hc) as (i & Hi). eauto.
  - intros i j c c' w w' x Hi Hj I I'. pose proof (ti_apart _ _ TI c c' w w' x (nth_error_In _ _ Hi) (nth_error_In _ _ Hj) I I') as EW. split; auto.
    intros v Hv. destruct I as (_ & Z & _), I' as (_ & Z' & _). split.
    + destruct (in_dec Nat.eq_dec v c); auto. now apply Z in n.
    + destruct (in_dec Nat.eq_dec v c'); auto. apply Z' in n. now rewrite <- EW in n.
Qed.

Lemma single_in_cone pts c v : NoDup c -> In v c -> in_cone pts c (fun y => if Nat.eq_dec y v then 1 else 0) (position pts v).
Proof.
  intros N Hv. split; [intros y; destruct (Nat.eq_dec y v); lra|]. split; [intros y Hy; destruct (Nat.eq_dec y v); [congruence|reflexivity]|].
  assert (Z : forall c, ~ In v c -> combination pts (fun y => if Nat.eq_dec y v then 1 else 0) c = origin).
  { intros l. induction l as [|y l IH]; intros H; [reflexivity|]. cbn [combination]. rewrite IH by (intros C; apply H; now right).
    destruct (Nat.eq_dec y v); [exfalso; apply H; left; auto|]. destruct (position pts y) as [[? ?] ?]. unfold origin. cbn. f_equal; [f_equal|]; ring. }
  induction c as [|y c IH]; [contradiction|]. inversion N as [|? ? Ny Nc]; subst. cbn [combination]. destruct Hv as [->|Hv].
  - destruct (Nat.eq_dec v v); [|congruence]. rewrite Z by auto. destruct (position pts v) as [[? ?] ?]. unfold origin. cbn. f_equal; [f_equal|]; ring.
  - destruct (Nat.eq_dec y v) as [->|]; [contradiction|]. rewrite <- IH by auto. destruct (position pts v) as [[? ?] ?], (position pts y) as [[? ?] ?]. cbn. f_equal; [f_equal|]; ring.
Qed.

Lemma sphere_points_differ : forall L, exists b : builder vec,
  regular_sphere real_numbers L 1 = Ok b /\ NoDup (points_of b).
Proof.
  intros L. destruct (sphere_tiling L) as (b & E & _ & _ & _ & _ & SU & TI). exists b. split; auto.
  apply (NoDup_nth (points_of b) origin). intros i j Hi Hj Eij.
  destruct (su_used _ _ SU i Hi) as (c & Hc & Ic). destruct (su_used _ _ SU j Hj) as (c' & Hc' & Ic').
  pose proof (single_in_cone (points_of b) c i (cell_NoDup _ _ SU c Hc) Ic) as I.
  pose proof (single_in_cone (points_of b) c' j (cell_NoDup _ _ SU c' Hc') Ic') as I'.
  assert (Eij' : position (points_of b) i = position (points_of b) j) by exact Eij. rewrite <- Eij' in I'. pose proof (ti_apart _ _ TI c c' _ _ _ Hc Hc' I I' i) as A. cbn beta in A.
  destruct (Nat.eq_dec i i); [|congruence]. destruct (Nat.eq_dec i j); [auto|lra].
Qed.
