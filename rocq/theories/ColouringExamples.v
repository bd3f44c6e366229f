(** * A grid with a quadrilateral and a triangle *)
From Verif Require Import Base BaseFacts Topology TopologyFacts DofMap SpecDof DofMapResults
  Colouring SpecColour ColouringResults DofExamples.

(** Cell 0: quadrilateral 0 1 2 3; cell 1: triangle 1 4 3; they share an edge. *)
Definition mixed_grid : grid := {|
  g_id := 0; g_tdim := 2; g_gdim := 3;
  g_types := fun d => match d with 0 => [Point] | 1 => [Interval] | 2 => [Triangle; Quadrilateral] | _ => [] end;
  g_count := fun t => match t with Point => 5 | Interval => 6 | Triangle => 1 | Quadrilateral => 1 | _ => 0 end;
  g_iter := fun d => match d with 0 => seq 0 5 | 1 => seq 0 6 | 2 => [0; 1] | _ => [] end;
  g_ctype := fun c => match c with 0 => Quadrilateral | _ => Triangle end;
  g_sub := fun c d =>
    match c, d with
    | 0, 0 => [0; 1; 2; 3] | 0, 1 => [0; 1; 2; 3] | 0, 2 => [0]
    | 1, 0 => [1; 4; 3] | 1, 1 => [4; 2; 5] | 1, 2 => [1]
    | _, _ => []
    end;
  g_conn := fun v => match v with 0 => [0] | 1 => [0; 1] | 2 => [0] | 3 => [0; 1] | 4 => [1] | _ => [] end;
  g_own := fun _ _ => Owned |}.

Lemma NoDup_check (l : list nat) : length (nodup Nat.eq_dec l) = length l -> NoDup l.
Proof.
  intros H. apply (NoDup_incl_NoDup (NoDup_nodup Nat.eq_dec l)); [lia|].
  intros x Hx. now apply nodup_In in Hx.
Qed.

Lemma mixed_grid_wf : wf_grid mixed_grid.
Proof.
  assert (E2 : ent_count mixed_grid 2 = 2) by reflexivity.
  assert (Hc : forall c, c < ent_count mixed_grid 2 -> c = 0 \/ c = 1) by (intros c; rewrite E2; lia).
  constructor.
  - reflexivity.
  - reflexivity.
  - reflexivity.
  - simpl. repeat constructor; simpl; intuition discriminate.
  - discriminate.
  - intros t [<-|[<-|[]]]; [left|right]; reflexivity.
  - intros d Hd. destruct d as [|[|[|d]]]; try lia; apply NoDup_check; reflexivity.
  - intros d i Hd. destruct d as [|[|[|d]]]; try lia.
    + change (In i (seq 0 5) <-> i < 5). rewrite in_seq. lia.
    + change (In i (seq 0 6) <-> i < 6). rewrite in_seq. lia.
    + change (In i (seq 0 2) <-> i < 2). rewrite in_seq. lia.
  - intros c H. destruct (Hc c H) as [-> | ->]; simpl; auto.
  - intros c d H Hd. destruct (Hc c H) as [-> | ->]; destruct d as [|[|[|d]]]; try lia; reflexivity.
  - intros c d e H Hd Hin. destruct (Hc c H) as [-> | ->]; destruct d as [|[|[|d]]]; try lia;
      simpl in Hin; cbn; intuition lia.
  - intros c d H Hd. destruct (Hc c H) as [-> | ->]; destruct d as [|[|[|d]]]; try lia; apply NoDup_check; reflexivity.
  - intros c H. destruct (Hc c H) as [-> | ->]; reflexivity.
  - intros c c' i i' e a b a' b' va vb va' vb' H H' Hs Hs' E E' Ha Hb Ha' Hb'.
    destruct (Hc c H) as [-> | ->], (Hc c' H') as [-> | ->]; simpl in *;
      (destruct i as [|[|[|[|i]]]]; simpl in *; try (now destruct i); try discriminate);
      (destruct i' as [|[|[|[|i']]]]; simpl in *; try (now destruct i'); try discriminate);
      try (rewrite <- Hs' in Hs; inversion Hs; fail);
      inversion E; inversion E'; subst; simpl in *;
      inversion Ha; inversion Hb; inversion Ha'; inversion Hb'; subst; auto.
  - intros v Hv. assert (v < 5) by exact Hv.
    destruct v as [|[|[|[|[|v]]]]]; try lia; apply NoDup_check; reflexivity.
  - intros v c Hv. assert (v < 5) by exact Hv. rewrite E2. split.
    + intros Hin. destruct v as [|[|[|[|[|v]]]]]; try lia; simpl in Hin;
        intuition; subst; simpl; auto 6.
    + intros [H1 H2]. assert (Hcc : c = 0 \/ c = 1) by lia.
      destruct Hcc as [-> | ->]; simpl in H2; intuition; subst; simpl; auto.
Qed.

Lemma mixed_facts :
  wf_grid mixed_grid /\ wf_family (g_types mixed_grid 2) (lagrange 1) /\ head_dim_pos mixed_grid (lagrange 1) /\
  cell_colouring mixed_grid (lagrange 1) = Ok [(Triangle, [[]; [1]]); (Quadrilateral, [[0]; []])] /\
  cell_colouring mixed_grid (interior_only (fun _ => 1)) = Ok [(Triangle, [[1]]); (Quadrilateral, [[0]])] /\
  (exists col, cell_colouring screen2 (lagrange 1) = Ok col /\ class_count col 6).
Proof.
  split; [exact mixed_grid_wf|]. split; [apply lagrange_wf_family|].
  split; [intros t0 H; inversion H; simpl; lia|].
  split; [reflexivity|]. split; [reflexivity|].
  eexists. split; [vm_compute; reflexivity|].
  intros t classes. cbn [assoc]. destruct (ct_eqb t Triangle); [|discriminate].
  intros H. inversion H. reflexivity.
Qed.
