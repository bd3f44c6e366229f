(** * Two triangles on two processes *)
From Verif Require Import Base BaseFacts Topology TopologyFacts DofMap DofMapFacts SpecDof DofMapResults DofExamples
  Process ProcessFacts Space SpecSpace SpaceFacts SpaceScript SpaceResults.

(** Triangles (0,1,2) and (1,3,2).  Both processes store both triangles; the
    first belongs to process 0, the second to process 1, together with vertex 3
    and its two edges.  Process 1 numbers its own triangle first. *)
Definition pair_own0 (d e : nat) : ownership :=
  match d, e with
  | 0, 3 => Ghost 1 1
  | 1, 3 => Ghost 1 0
  | 1, 4 => Ghost 1 2
  | 2, 1 => Ghost 1 0
  | _, _ => Owned
  end.

Definition pair_own1 (d e : nat) : ownership :=
  match d, e with
  | 0, 0 => Ghost 0 1
  | 0, 2 => Ghost 0 2
  | 0, 3 => Ghost 0 0
  | 1, 1 => Ghost 0 0
  | 1, 3 => Ghost 0 1
  | 1, 4 => Ghost 0 2
  | 2, 1 => Ghost 0 0
  | _, _ => Owned
  end.

Definition pair_grid (r : nat) : grid :=
  match r with
  | 0 => with_ownership (grid_of_cells 0 Triangle 4 [[0; 1; 2]; [1; 3; 2]]) pair_own0
  | _ => with_ownership (grid_of_cells 1 Triangle 4 [[0; 1; 2]; [3; 0; 2]]) pair_own1
  end.

Lemma with_ownership_wf g own : wf_grid g -> wf_grid (with_ownership g own).
Proof. intros []. constructor; auto. Qed.

Lemma pair_grid_wf r : wf_grid (pair_grid r).
Proof.
  destruct r; apply with_ownership_wf, grid_of_cells_wf, valid_cells_check; try (now left); reflexivity.
Qed.

Lemma pair_types r : g_types (pair_grid r) 2 = [Triangle].
Proof. now destruct r. Qed.

(** The number of DOFs is the same for all sub-entities of a dimension. *)
Lemma triangle_ndofs fam d i j : wf_family [Triangle] fam -> d <= 2 ->
  i < ref_count Triangle d -> j < ref_count Triangle d ->
  el_ndofs (fam Triangle) d i = el_ndofs (fam Triangle) d j.
Proof.
  intros WF Hd Hi Hj. destruct (Nat.eq_dec d 2) as [->|].
  - simpl in Hi, Hj. replace i with 0 by lia. replace j with 0 by lia. reflexivity.
  - apply (wff_uniform _ _ WF); simpl; auto. lia.
Qed.

(** Sub-entity [x] of dimension [d] is part of a cell of process [p]. *)
Definition pair_find (p d x : nat) : option (nat * nat) :=
  find (fun ci => match nth_error (g_sub (pair_grid p) (fst ci) d) (snd ci) with
                  | Some y => y =? x | None => false end)
    (list_prod [0; 1] (seq 0 (ref_count Triangle d))).

Lemma pair_dist fam : wf_family [Triangle] fam -> wf_dist 2 pair_grid fam.
Proof.
  intros WF. constructor.
  - intros r _. apply pair_grid_wf.
  - intros r _. now rewrite pair_types.
  - intros r c d i e p x Hr (Hc & Hd & Hs) Hg.
    assert (Hct : forall q y, g_ctype (pair_grid q) y = Triangle) by (intros [|q]; reflexivity).
    assert (Hi : i < ref_count Triangle d).
    { rewrite <- (Hct r c), <- (wf_sub_length _ (pair_grid_wf r) c d Hc Hd). apply nth_error_Some. congruence. }
    assert (Hfact : p < 2 /\ p <> r /\ (forall q y, g_own (pair_grid p) d x <> Ghost q y) /\
                    exists c' i', sub_at (pair_grid p) c' d i' x).
    { assert (Hfind : forall q y, match pair_find q d y with Some ci => fst ci < ent_count (pair_grid q) 2 | None => False end ->
                exists c' i', sub_at (pair_grid q) c' d i' y).
      { intros q y H. destruct (pair_find q d y) as [[c' i']|] eqn:E; [|destruct H].
        apply find_some in E. destruct E as [_ E]. cbn [fst snd] in *.
        exists c', i'. split; [exact H|]. split; auto.
        destruct (nth_error (g_sub (pair_grid q) c' d) i'); [|discriminate]. apply Nat.eqb_eq in E. now subst. }
      assert (He : e < ent_count (pair_grid r) d).
      { eapply wf_sub_lt; eauto using pair_grid_wf. eapply nth_error_In; eauto. }
      destruct r as [|[|r]]; [| |lia].
      - destruct d as [|[|[|d]]]; [| | |lia].
        + change (e < 4) in He. destruct e as [|[|[|[|e]]]]; try lia; cbn in Hg; try discriminate; inversion Hg; subst.
          repeat split; [lia|lia|discriminate|]. apply Hfind. vm_compute. lia.
        + change (e < 5) in He. destruct e as [|[|[|[|[|e]]]]]; try lia; cbn in Hg; try discriminate; inversion Hg; subst;
          (repeat split; [lia|lia|discriminate|]; apply Hfind; vm_compute; lia).
        + change (e < 2) in He. destruct e as [|[|e]]; try lia; cbn in Hg; try discriminate; inversion Hg; subst.
          repeat split; [lia|lia|discriminate|]. apply Hfind. vm_compute. lia.
      - destruct d as [|[|[|d]]]; [| | |lia].
        + change (e < 4) in He. destruct e as [|[|[|[|e]]]]; try lia; cbn in Hg; try discriminate; inversion Hg; subst;
          (repeat split; [lia|lia|discriminate|]; apply Hfind; vm_compute; lia).
        + change (e < 5) in He. destruct e as [|[|[|[|[|e]]]]]; try lia; cbn in Hg; try discriminate; inversion Hg; subst;
          (repeat split; [lia|lia|discriminate|]; apply Hfind; vm_compute; lia).
        + change (e < 2) in He. destruct e as [|[|e]]; try lia; cbn in Hg; try discriminate; inversion Hg; subst.
          repeat split; [lia|lia|discriminate|]. apply Hfind. vm_compute. lia. }
    destruct Hfact as (H1 & H2 & H3 & c' & i' & Hs'). repeat split; auto. exists c', i'. split; auto.
    rewrite !Hct. apply triangle_ndofs; auto.
    destruct Hs' as (Hc' & _ & Hs'). rewrite <- (Hct p c'), <- (wf_sub_length _ (pair_grid_wf p) c' d Hc' Hd).
    apply nth_error_Some. congruence.
Qed.

Lemma pair_dofmaps fam : wf_family [Triangle] fam -> exists dm, dofmaps 2 pair_grid fam dm.
Proof.
  intros WF.
  destruct (assign_dofs_total 0 (pair_grid 0) fam (pair_grid_wf 0)) as (dm0 & H0); [now rewrite pair_types|].
  destruct (assign_dofs_total 1 (pair_grid 1) fam (pair_grid_wf 1)) as (dm1 & H1); [now rewrite pair_types|].
  exists (fun r => if r =? 0 then dm0 else dm1). intros r Hr. destruct r as [|[|r]]; [exact H0|exact H1|lia].
Qed.

(** The DOF maps for degree 1, computed. *)
Definition pair_dm (r : nat) : dofmap :=
  match assign_dofs r (pair_grid r) (lagrange 1) with Ok dm => dm | _ => mkDofmap [] [] 0 [] end.

Lemma pair_facts :
  wf_dist 2 pair_grid (lagrange 1) /\ dofmaps 2 pair_grid (lagrange 1) pair_dm /\
  exists sp, creates 2 buffered pair_dm sp /\
    map (fun r => sp_global_dofs (sp r)) [0; 1] = [[0; 1; 2; 3]; [1; 3; 2; 0]] /\
    map (fun r => sp_ownership (sp r)) [0; 1] =
      [[Owned; Owned; Owned; Ghost 1 1]; [Ghost 0 1; Owned; Ghost 0 2; Ghost 0 0]] /\
    map (fun r => global_size (sp r)) [0; 1] = [4; 4].
Proof.
  assert (WD : wf_dist 2 pair_grid (lagrange 1)) by apply pair_dist, lagrange_wf_family.
  assert (HD : dofmaps 2 pair_grid (lagrange 1) pair_dm).
  { intros r Hr. destruct r as [|[|r]]; [vm_compute; reflexivity|vm_compute; reflexivity|lia]. }
  split; auto. split; auto. exists (final_space 2 pair_dm). split.
  - apply (eager_completes 2 pair_grid (lagrange 1) pair_dm WD HD). reflexivity.
  - repeat split; vm_compute; reflexivity.
Qed.

(** Each process has a whole cell of ghost DOFs owned by the other one. *)
Lemma pair_ghost_cell n dm r : r < 2 -> dofmaps 2 pair_grid (interior_only (fun _ => n)) dm ->
  exists l, NoDup l /\ length l = n /\ forall i, In i l -> ghost_dof pair_grid dm r (1 - r) i.
Proof.
  intros Hr HD.
  set (fam := interior_only (fun _ => n)) in *.
  assert (W := pair_grid_wf r).
  assert (WF : wf_family (g_types (pair_grid r) 2) fam) by (rewrite pair_types; apply interior_only_wf_family).
  assert (HA := HD r Hr).
  assert (Hs : sub_at (pair_grid r) 1 2 0 1).
  { destruct r as [|r]; (split; [vm_compute; lia|]; split; [lia|reflexivity]). }
  exists (edof (dm r) 2 1). split; [|split].
  - apply NoDup_nth_error. intros i j Hi E. destruct (nth_error (edof (dm r) 2 1) i) as [x|] eqn:Ei.
    2:{ apply nth_error_None in Ei. lia. }
    assert (L1 : listed (dm r) 2 1 i x) by now apply (listed_edof r (pair_grid r) fam (dm r) W WF HA).
    assert (L2 : listed (dm r) 2 1 j x) by (apply (listed_edof r (pair_grid r) fam (dm r) W WF HA); congruence).
    destruct (listed_unique r (pair_grid r) fam (dm r) W WF HA x 2 1 i 2 1 j L1 L2) as (_ & _ & H). exact H.
  - rewrite (edof_length r (pair_grid r) fam (dm r) W WF HA 1 2 0 1 Hs).
    unfold el_ndofs, fam. replace (g_ctype (pair_grid r) 1) with Triangle by (now destruct r).
    cbn. apply seq_length.
  - intros i Hi. apply In_nth_error in Hi. destruct Hi as (k & Hk).
    exists 2, 1, k, 0. split; [now apply (listed_edof r (pair_grid r) fam (dm r) W WF HA)|].
    destruct r as [|[|r]]; try lia; reflexivity.
Qed.

Lemma synchronous_refuted :
  exists N g fam dm eager, wf_dist N g fam /\ dofmaps N g fam dm /\ (forall m, eager m = false) /\
    ~ exists sp, creates N eager dm sp.
Proof.
  destruct pair_facts as (WD & HD & _). exists 2, pair_grid, (lagrange 1), pair_dm, synchronous.
  split; auto. split; auto. split; [reflexivity|]. intros (sp & n & s & H & F).
  apply (synchronous_never 2 pair_grid (lagrange 1) pair_dm synchronous WD HD (le_n 2) ltac:(reflexivity) n s H 0 (sp 0)); auto.
Qed.

Lemma every_limit_refuted : forall limit,
  exists N g fam dm, wf_dist N g fam /\ dofmaps N g fam dm /\
    ~ exists sp, creates N (eager_limit limit) dm sp.
Proof.
  intros limit. set (fam := interior_only (fun _ => S limit)).
  assert (WF : wf_family [Triangle] fam) by apply interior_only_wf_family.
  assert (WD := pair_dist fam WF). destruct (pair_dofmaps fam WF) as (dm & HD).
  exists 2, pair_grid, fam, dm. split; auto. split; auto.
  intros (sp & n & s & H & F).
  apply (limited_stuck 2 pair_grid fam dm limit (fun r => r < 2) WD HD) with (n := n) (s := s) (r := 0) (a := sp 0); auto.
  intros r Hr. split; auto. destruct (pair_ghost_cell (S limit) dm r Hr HD) as (l & Hn & Hl & Hg).
  exists (1 - r), l. split; [lia|]. split; auto. split; [lia|auto].
Qed.

Lemma pair_limit_ok : forall r p l, r < 2 -> NoDup l ->
  (forall i, In i l -> ghost_dof pair_grid pair_dm r p i) -> length l <= 4.
Proof.
  intros r p l Hr Hn H.
  destruct pair_facts as (WD & HD & _).
  assert (Hi : incl l (seq 0 4)).
  { intros i Hi. destruct (H i Hi) as (d & e & k & x & Hl & _).
    destruct (listed_owner 2 pair_grid (lagrange 1) pair_dm WD HD r d e k i Hr Hl) as [_ Hlt].
    apply in_seq. destruct r as [|[|r]]; try lia; (assert (E := Hlt); vm_compute in E; lia). }
  apply (NoDup_incl_length Hn) in Hi. now rewrite seq_length in Hi.
Qed.

Lemma serial_example :
  exists dm sp, (forall c d i e p x, sub_at screen2 c d i e -> g_own screen2 d e <> Ghost p x) /\
    assign_dofs 0 screen2 (lagrange 2) = Ok dm /\ creates 1 synchronous (fun _ => dm) sp.
Proof.
  destruct (assign_dofs_total 0 screen2 (lagrange 2) screen2_wf (lagrange_wf_family _ _)) as (dm & H).
  assert (Hno : forall c d i e p x, sub_at screen2 c d i e -> g_own screen2 d e <> Ghost p x) by discriminate.
  exists dm, (final_space 1 (fun _ => dm)). split; auto. split; auto.
  apply (eager_completes 1 (fun _ => screen2) (lagrange 2)).
  - constructor; auto using screen2_wf, lagrange_wf_family. intros. exfalso. eapply Hno; eauto.
  - intros r Hr. replace r with 0 by lia. exact H.
  - intros r q m key Hr Hin. replace r with 0 in Hin by lia. destruct Hin.
Qed.
