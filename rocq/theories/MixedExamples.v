(** * A triangle and a quadrilateral that do not touch *)
From Coq Require Import QArith Qcanon.
From Verif Require Import Base BaseFacts Topology TopologyFacts DofMap SpecDof DofExamples Colouring SpecColour ColouringExamples Process Space SpaceScript Options Adjacency SpecAdjacency
  Scalar Integrand CellPair Operators SpecLocal LocalExamples Interleave Assembly SpecAssembly AssemblyDense AssemblyResults AssemblyExamples MixedResults.
Import ListNotations.
Local Open Scope nat_scope.

(** Cell 0: quadrilateral 0 1 2 3; cell 1: triangle 4 5 6. *)
Definition apart_grid : grid := {|
  g_id := 0; g_tdim := 2; g_gdim := 3;
  g_types := fun d => match d with 0 => [Point] | 1 => [Interval] | 2 => [Triangle; Quadrilateral] | _ => [] end;
  g_count := fun t => match t with Point => 7 | Interval => 7 | Triangle => 1 | Quadrilateral => 1 | _ => 0 end;
  g_iter := fun d => match d with 0 => seq 0 7 | 1 => seq 0 7 | 2 => [0; 1] | _ => [] end;
  g_ctype := fun c => match c with 0 => Quadrilateral | _ => Triangle end;
  g_sub := fun c d =>
    match c, d with
    | 0, 0 => [0; 1; 2; 3] | 0, 1 => [0; 1; 2; 3] | 0, 2 => [0]
    | 1, 0 => [4; 5; 6] | 1, 1 => [4; 5; 6] | 1, 2 => [1]
    | _, _ => []
    end;
  g_conn := fun v => match v with 0 | 1 | 2 | 3 => [0] | 4 | 5 | 6 => [1] | _ => [] end;
  g_own := fun _ _ => Owned |}.

Lemma apart_grid_wf : wf_grid apart_grid.
Proof.
  assert (E2 : ent_count apart_grid 2 = 2) by reflexivity.
  assert (Hc : forall c, c < ent_count apart_grid 2 -> c = 0 \/ c = 1) by (intros c; rewrite E2; lia).
  constructor.
  - reflexivity.
  - reflexivity.
  - reflexivity.
  - simpl. repeat constructor; simpl; intuition discriminate.
  - discriminate.
  - intros t [<-|[<-|[]]]; [left|right]; reflexivity.
  - intros d Hd. destruct d as [|[|[|d]]]; try lia; apply NoDup_check; reflexivity.
  - intros d i Hd. destruct d as [|[|[|d]]]; try lia.
    + change (In i (seq 0 7) <-> i < 7). rewrite in_seq. lia.
    + change (In i (seq 0 7) <-> i < 7). rewrite in_seq. lia.
    + change (In i (seq 0 2) <-> i < 2). rewrite in_seq. lia.
  - intros c H. destruct (Hc c H) as [-> | ->]; simpl; auto.
  - intros c d H Hd. destruct (Hc c H) as [-> | ->]; destruct d as [|[|[|d]]]; try lia; reflexivity.
  - intros c d e H Hd Hin. destruct (Hc c H) as [-> | ->]; destruct d as [|[|[|d]]]; try lia;
      simpl in Hin; cbn; intuition lia.
  - intros c d H Hd. destruct (Hc c H) as [-> | ->]; destruct d as [|[|[|d]]]; try lia; apply NoDup_check; reflexivity.
  - intros c H. destruct (Hc c H) as [-> | ->]; reflexivity.
  - intros c c' i i' e a b a' b' va vb va' vb' H H' Hs Hs' E E' Ha Hb Ha' Hb'.
    destruct (Hc c H) as [-> | ->], (Hc c' H') as [-> | ->]; simpl in *;
      (destruct i as [|[|[|[|i]]]]; simpl in *; try (now destruct i); try discriminate);
      (destruct i' as [|[|[|[|i']]]]; simpl in *; try (now destruct i'); try discriminate);
      try (rewrite <- Hs' in Hs; inversion Hs; fail);
      inversion E; inversion E'; subst; simpl in *;
      inversion Ha; inversion Hb; inversion Ha'; inversion Hb'; subst; auto.
  - intros v Hv. assert (v < 7) by exact Hv.
    destruct v as [|[|[|[|[|[|[|v]]]]]]]; try lia; apply NoDup_check; reflexivity.
  - intros v c Hv. assert (v < 7) by exact Hv. rewrite E2. split.
    + intros Hin. destruct v as [|[|[|[|[|[|[|v]]]]]]]; try lia; simpl in Hin;
        intuition; subst; simpl; auto 8.
    + intros [H1 H2]. assert (Hcc : c = 0 \/ c = 1) by lia.
      destruct Hcc as [-> | ->]; simpl in H2; intuition; subst; simpl; auto.
Qed.

(** Piecewise constant functions. *)
Definition constant_space (g : grid) : fspace Qc Qc :=
  mkFspace Qc Qc g (interior_only (fun _ => 1)) 1 (final_space 1 (fun _ => serial_dofmap g (interior_only (fun _ => 1))) 0) (fun _ => 1)
    (fun t points d p b j => match d with 0 => 1%Qc | _ => 0%Qc end).

Definition apart_dp0 : fspace Qc Qc := constant_space apart_grid.
Definition apart_p1 : fspace Qc Qc := make_space apart_grid (lagrange 1).

Lemma constant_serial g : wf_grid g -> (forall d e, g_own g d e = Owned) -> serial_space (constant_space g).
Proof.
  intros W Ow. assert (P : head_dim_pos g (interior_only (fun _ => 1))).
  { intros t0 H. apply nth_error_In in H. destruct (wf_types2_surface g W t0 H) as [->| ->]; cbn; lia. }
  destruct (make_space_serial g (interior_only (fun _ => 1)) W (interior_only_wf_family _ _) P Ow). constructor; assumption.
Qed.

Lemma apart_dp0_serial : serial_space apart_dp0.
Proof. apply constant_serial; [exact apart_grid_wf|reflexivity]. Qed.
Lemma apart_p1_serial : serial_space apart_p1.
Proof.
  apply make_space_serial; [apply apart_grid_wf|apply lagrange_wf_family| |reflexivity]. intros t0 H. inversion H. cbn. lia.
Qed.

(** Geometry maps that depend on the type of cell they are made for. *)
Definition mixed_externals : externals Qc := mkExternals Qc (x_simplex demo_externals) (x_duffy demo_externals)
  (fun g t points c => demo_cell (c + ref_count t 0)).

Definition mixed_op : operator Qc Qc := laplace_single_layer demo_green.


Lemma apart_not_touching (test trial : fspace Qc Qc) : fs_grid test = apart_grid -> ~ touching test trial 0 1 /\ ~ touching test trial 1 0.
Proof.
  intros E. unfold touching, touch. rewrite E. cbn [apart_grid g_sub].
  split; intros (_ & v & H & H'); cbn in H, H'; intuition lia.
Qed.

Local Notation apart_run := (assemble qc_scalar mixed_externals demo_rt 256 mixed_op demo_options apart_dp0 apart_dp0).

Definition apart_right : Qc := tensor_entry qc_scalar (op_integrand mixed_op) (kn_value (op_kernel mixed_op)) (demo_cell 4) (demo_cell 4)
  (fun d p i => match d with 0 => 1%Qc | _ => 0%Qc end) (fun d p i => match d with 0 => 1%Qc | _ => 0%Qc end)
  (map (fun k => qz (Z.of_nat k)) (seq 1 2)) (map (fun k => qz (Z.of_nat k)) (seq 1 2)) 0 0.

Lemma apart_summary : match apart_run with
  | Ok m => (length m, match nth_error m 2 with Some v => negb (Qc_eq_bool v apart_right) | None => false end)
  | _ => (0, false) end = (4, true).
Proof. vm_compute. reflexivity. Qed.

Lemma apart_assembled : exists m v, apart_run = Ok m /\ nth_error m 2 = Some v /\ v <> apart_right.
Proof.
  pose proof apart_summary as H. destruct apart_run as [m| | |]; try discriminate H.
  pose proof (f_equal snd H) as N. cbn [snd] in N. destruct (nth_error m 2) as [v|] eqn:E; [|discriminate N].
  exists m, v. split; [reflexivity|]. split; [exact E|]. intros C. rewrite C in N.
  assert (Q : Qc_eq_bool apart_right apart_right = true) by (vm_compute; reflexivity). rewrite Q in N. discriminate N.
Qed.

Lemma mixed_constant_refuted : exists (X : externals Qc) (O : operator Qc Qc) o pts test trial t s i j result v,
  shipped qc_scalar O /\ serial_space test /\ serial_space trial /\ in_space test /\ fs_grid test = fs_grid trial /\
  proper_rules X /\ has_simplex X o (g_types (fs_grid test) 2) pts /\
  t < ent_count (fs_grid test) 2 /\ s < ent_count (fs_grid trial) 2 /\ ~ touching test trial t s /\
  g_ctype (fs_grid test) t = Quadrilateral /\ g_ctype (fs_grid trial) s = Triangle /\ pts Triangle = pts Quadrilateral /\
  dofs_at test t = [i] /\ dofs_at trial s = [j] /\
  (forall rt, legal_runtime (s_add qc_scalar) rt -> assemble qc_scalar X rt 256 O o trial test = Ok result) /\
  nth_error result (i + global_size (fs_space test) * j) = Some v /\
  forall w, regular_value qc_scalar X O pts test trial t s 0 0 w -> v <> w.
Proof.
  destruct apart_assembled as (m & v & E & Ev & Nv).
  exists mixed_externals, mixed_op, demo_options, (fun _ => 2), apart_dp0, apart_dp0, 0, 1, 0, 1, m, v.
  split; [constructor|]. split; [exact apart_dp0_serial|]. split; [exact apart_dp0_serial|]. split; [reflexivity|]. split; [reflexivity|].
  split; [split; [exact (pr_simplex _ demo_proper)|exact (pr_duffy _ demo_proper)]|].
  split; [intros t [<-|[<-|[]]]; (split; [reflexivity|]; eexists; reflexivity)|].
  split; [apply Nat.ltb_lt; reflexivity|]. split; [apply Nat.ltb_lt; reflexivity|].
  split; [now apply apart_not_touching|]. split; [reflexivity|]. split; [reflexivity|]. split; [reflexivity|].
  split; [vm_compute; reflexivity|]. split; [vm_compute; reflexivity|]. split; [|split].
  - intros rt L.
    pose proof (dense_any_schedule qc_scalar mixed_externals rt demo_rt 256 mixed_op demo_options apart_dp0 apart_dp0
      (repeat (s_zero qc_scalar) (global_size (fs_space apart_dp0) * global_size (fs_space apart_dp0))) L (sequential_legal _)
      apart_dp0_serial apart_dp0_serial) as Q.
    rewrite !assemble_on_zeros in Q by reflexivity. apply Ran_inj in Q. rewrite Q. exact E.
  - replace (0 + global_size (fs_space apart_dp0) * 1) with 2 by (vm_compute; reflexivity). exact Ev.
  - intros w (qt & qs & Et & Es & ->). injection Et as <-. injection Es as <-. exact Nv.
Qed.

(** ** Continuous functions *)

Lemma lagrange_dims p : el_dim (lagrange p Triangle) < el_dim (lagrange p Quadrilateral) /\ 0 < el_dim (lagrange p Triangle).
Proof.
  cbn [lagrange el_dim ref_count lagrange_interior]. destruct p as [|[|p]]; [cbn; lia|cbn; lia|].
  replace (S (S p) - 1) with (S p) by lia. replace (S (S p) - 2) with p by lia.
  assert (S p * p / 2 <= S p * p) by (apply Nat.div_le_upper_bound; lia). lia.
Qed.

Lemma mixed_lagrange_fail (T R : Type) (S : scalar T R) (X : externals R) rt wmod (O : operator T R) o p q trial test output t s pts :
  serial_space test -> serial_space trial -> same_object test trial -> proper_rules X ->
  fs_family test = lagrange p -> fs_family trial = lagrange q ->
  t < ent_count (fs_grid test) 2 -> s < ent_count (fs_grid trial) 2 -> ~ touching test trial t s ->
  g_ctype (fs_grid test) t <> g_ctype (fs_grid trial) s ->
  (forall ct, surface_type ct -> get_regular_quadrature_degree ct o = Some (pts ct) /\ 0 < pts ct) ->
  forall result, assemble_into_memory S X rt wmod O o trial test output <> Ran (Ok result).
Proof.
  intros St Ss Sa PR Ft Fs Ht Hs NT Ne HP.
  assert (T1 := wf_types2_surface _ (ss_grid _ St) _ (wf_ctype _ (ss_grid _ St) t Ht)).
  assert (T2 := wf_types2_surface _ (ss_grid _ Ss) _ (wf_ctype _ (ss_grid _ Ss) s Hs)).
  destruct (HP _ T1) as (P1 & Q1). destruct (HP _ T2) as (P2 & Q2).
  apply (mixed_dimensions_fail S X rt wmod O o trial test output t s _ _ St Ss Sa PR Ht Hs NT P1 Q1 P2 Q2).
  rewrite Ft, Fs. pose proof (lagrange_dims p). pose proof (lagrange_dims q).
  destruct T1 as [E1|E1], T2 as [E2|E2]; rewrite E1, E2 in *; [congruence|left; lia|right; lia|congruence].
Qed.

Lemma mixed_hypotheses : exists t s, serial_space apart_p1 /\ same_object apart_p1 apart_p1 /\ proper_rules demo_externals /\
  fs_family apart_p1 = lagrange 1 /\ t < ent_count (fs_grid apart_p1) 2 /\ s < ent_count (fs_grid apart_p1) 2 /\ ~ touching apart_p1 apart_p1 t s /\
  g_ctype (fs_grid apart_p1) t <> g_ctype (fs_grid apart_p1) s /\
  forall ct, surface_type ct -> get_regular_quadrature_degree ct demo_options = Some 2 /\ 0 < 2.
Proof.
  exists 0, 1. split; [exact apart_p1_serial|]. split; [intros _; reflexivity|]. split; [exact demo_proper|]. split; [reflexivity|].
  split; [apply Nat.ltb_lt; reflexivity|]. split; [apply Nat.ltb_lt; reflexivity|]. split; [now apply apart_not_touching|].
  split; [discriminate|]. intros ct [->| ->]; split; try reflexivity; lia.
Qed.
