(** * Spaces on one process and spaces on several *)
From Verif Require Import Base BaseFacts Topology TopologyFacts DofMap DofMapFacts SpecDof DofMapResults DofExamples Colouring
  Process ProcessFacts Space SpecSpace SpaceFacts SpaceScript SpaceResults SpaceExamples Serial SpecSerial.

(** The rank of the process only enters the owner table. *)
Definition same_map (a b : res dofmap) : Prop :=
  match a, b with
  | Ok x, Ok y => dm_cells x = dm_cells y /\ dm_ents x = dm_ents y /\ dm_size x = dm_size y
  | Ok _, _ | _, Ok _ => False
  | _, _ => a = b
  end.

Lemma same_map_bind {A : Type} (m : res A) (f f' : A -> res dofmap) :
  (forall x, same_map (f x) (f' x)) -> same_map (x <- m ;; f x) (x <- m ;; f' x).
Proof. intros H. destruct m; cbn; auto. Qed.

Definition same_state (x y : dofmap) : Prop := dm_cells x = dm_cells y /\ dm_ents x = dm_ents y /\ dm_size x = dm_size y.

Lemma same_map_seq (a b : res dofmap) (f f' : dofmap -> res dofmap) :
  same_map a b -> (forall x y, same_state x y -> same_map (f x) (f' y)) -> same_map (x <- a ;; f x) (x <- b ;; f' x).
Proof. intros H K. destruct a, b; cbn in *; try easy. now apply K. Qed.

Lemma same_map_fold {A : Type} (f f' : dofmap -> A -> res dofmap) l : 
  (forall x y a, same_state x y -> same_map (f x a) (f' y a)) ->
  forall x y, same_state x y -> same_map (foldM f l x) (foldM f' l y).
Proof.
  intros K. induction l as [|a l IH]; intros x y H; cbn; auto.
  apply same_map_seq; auto.
Qed.

Lemma push_dof_rank r r' g d e x y i : same_state x y -> same_map (push_dof r g d e x i) (push_dof r' g d e y i).
Proof.
  intros (E1 & E2 & E3). unfold push_dof. rewrite E1, E2, E3.
  do 5 (apply same_map_bind; intros ?). cbn. auto.
Qed.

Lemma write_dof_rank c x y p : same_state x y -> same_map (write_dof c x p) (write_dof c y p).
Proof.
  intros (E1 & E2 & E3). unfold write_dof. rewrite E1.
  do 3 (apply same_map_bind; intros ?). cbn. auto.
Qed.

Lemma visit_sub_rank r r' g c el d x y ie : same_state x y -> same_map (visit_sub r g c el d x ie) (visit_sub r' g c el d y ie).
Proof.
  intros H. destruct ie as (i, e). unfold visit_sub. apply same_map_bind. intros l. destruct (is_empty l); [exact H|].
  replace (dm_ents y) with (dm_ents x) by apply H.
  do 2 (apply same_map_bind; intros ?). apply same_map_seq.
  - destruct (is_empty x1); [|exact H]. apply same_map_fold; auto. intros. now apply push_dof_rank.
  - intros u v Huv. replace (dm_ents v) with (dm_ents u) by apply Huv.
    do 2 (apply same_map_bind; intros ?). apply same_map_fold; auto. intros. now apply write_dof_rank.
Qed.

Lemma visit_cell_rank r r' g els x y c : same_state x y -> same_map (visit_cell r g els x c) (visit_cell r' g els y c).
Proof.
  intros H. unfold visit_cell. apply same_map_bind. intros el.
  replace (dm_cells y) with (dm_cells x) by apply H. apply same_map_bind. intros cells.
  apply same_map_fold.
  - intros u v d Huv. apply same_map_fold; auto. intros. now apply visit_sub_rank.
  - destruct H as (_ & E2 & E3). split; [reflexivity|]. cbn. auto.
Qed.

Lemma assign_dofs_rank r r' g fam : same_map (assign_dofs r g fam) (assign_dofs r' g fam).
Proof.
  unfold assign_dofs. destruct (2 <? g_tdim g); [reflexivity|].
  apply same_map_fold; [|now repeat split]. intros. now apply visit_cell_rank.
Qed.

Lemma created_dofmap N g fam dm eager sp r : wf_dist N g fam -> dofmaps N g fam dm -> creates N eager dm sp -> r < N ->
  sp_dofmap (sp r) = dm r.
Proof. intros W D C Hr. rewrite (creates_unique N g fam dm W D eager sp C r Hr). reflexivity. Qed.

(** The local tables of a space on several processes are those of the local space
    on the same grid. *)
Lemma local_tables : forall N g fam dm eager sp r,
  wf_dist N g fam -> dofmaps N g fam dm -> creates N eager dm sp -> r < N ->
  exists ls, local_new (g r) fam = Ok ls /\
    local_local_size ls = local_size (sp r) /\
    (forall c, local_cell_dofs ls c = cell_dofs (sp_dofmap (sp r)) c) /\
    (forall d e, local_get_local_dof_numbers ls d e = get_local_dof_numbers (sp_dofmap (sp r)) d e) /\
    local_cell_colouring ls = cell_colouring (g r) fam.
Proof.
  intros N g fam dm eager sp r W D C Hr. unfold local_new. assert (H := assign_dofs_rank 0 r (g r) fam).
  rewrite (D r Hr) in H. destruct (assign_dofs 0 (g r) fam) as [x| | |]; try easy.
  destruct H as (E1 & E2 & E3). eexists. split; [reflexivity|].
  unfold local_size. rewrite (created_dofmap N g fam dm eager sp r W D C Hr).
  split; [exact E3|]. split; [|split].
  - intros c. unfold local_cell_dofs, cell_dofs, local_cell_dofs_unchecked, cell_dofs_unchecked. cbn. now rewrite E1.
  - intros d e. unfold local_get_local_dof_numbers, get_local_dof_numbers. cbn. now rewrite E2.
  - reflexivity.
Qed.

(** On one process everything agrees. *)
Lemma local_serial : forall g fam dm eager sp,
  wf_grid g -> wf_family (g_types g 2) fam ->
  (forall c d i e p x, sub_at g c d i e -> g_own g d e <> Ghost p x) ->
  assign_dofs 0 g fam = Ok dm -> creates 1 eager (fun _ => dm) sp ->
  exists ls, local_new g fam = Ok ls /\
    local_is_serial ls = is_serial 1 /\ local_local_size ls = local_size (sp 0) /\ local_global_size ls = global_size (sp 0) /\
    (forall c, local_cell_dofs ls c = cell_dofs (sp_dofmap (sp 0)) c) /\
    (forall d e, local_get_local_dof_numbers ls d e = get_local_dof_numbers (sp_dofmap (sp 0)) d e) /\
    (forall i, i < local_size (sp 0) ->
       local_global_dof_index ls i = global_dof_index (sp 0) i /\ local_ownership ls i = ownership_of (sp 0) i).
Proof.
  intros g fam dm eager sp W WF Hno HA HC.
  assert (WD : wf_dist 1 (fun _ => g) fam).
  { constructor; auto. intros. exfalso. eapply Hno; eauto. }
  assert (HD : dofmaps 1 (fun _ => g) fam (fun _ => dm)).
  { intros r Hr. replace r with 0 by lia. exact HA. }
  destruct (local_tables 1 _ fam _ eager sp 0 WD HD HC Nat.lt_0_1) as (ls & E & Es & Ec & Ee & _).
  destruct (serial_identity g fam dm eager sp W WF Hno HA HC) as (S1 & S2 & S3 & S4 & _).
  exists ls. split; [exact E|]. split; [now rewrite S1|]. split; [exact Es|].
  split; [unfold local_global_size; unfold local_local_size in Es; congruence|].
  split; [exact Ec|]. split; [exact Ee|]. intros i Hi. destruct (S4 i Hi) as (A & B). rewrite A, B. split; reflexivity.
Qed.


Lemma filter_split_length {A : Type} (p q : A -> bool) l : (forall x, In x l -> q x = negb (p x)) ->
  length l = length (filter p l) + length (filter q l).
Proof.
  induction l as [|x l IH]; intros H; auto. cbn. rewrite (H x (or_introl eq_refl)).
  assert (E := IH (fun y Hy => H y (or_intror Hy))). destruct (p x); cbn; lia.
Qed.

Lemma owned_or_ghost N g fam dm eager sp r i : wf_dist N g fam -> dofmaps N g fam dm -> creates N eager dm sp -> r < N ->
  i < local_size (sp r) -> ownership_of (sp r) i = Ok Owned \/ exists p l, ownership_of (sp r) i = Ok (Ghost p l).
Proof.
  intros W D C Hr. rewrite (creates_unique N g fam dm W D eager sp C r Hr). unfold local_size. cbn [final_space sp_dofmap].
  intros Hi. rewrite (final_ownership_ok N dm r i Hr Hi). unfold final_ownership.
  destruct (owner_at N g fam dm W D r i Hr Hi) as (o & ->). destruct (ow_rank o =? r); [now left|right]. eauto.
Qed.

Lemma local_split N g fam dm eager sp r : wf_dist N g fam -> dofmaps N g fam dm -> creates N eager dm sp -> r < N ->
  local_size (sp r) = owned_count (sp r) + ghost_count (sp r).
Proof.
  intros W D C Hr. unfold owned_count, ghost_count.
  rewrite <- (filter_split_length _ _ (seq 0 (local_size (sp r)))); [now rewrite seq_length|].
  intros i Hi. apply in_seq in Hi.
  destruct (owned_or_ghost N g fam dm eager sp r i W D C Hr) as [E|(p & l & E)]; [lia| |]; now rewrite E.
Qed.

Lemma sum_list_add {A : Type} (f h : A -> nat) l :
  sum_list (map (fun x => f x + h x) l) = sum_list (map f l) + sum_list (map h l).
Proof. induction l; cbn; auto. unfold sum_list in *. cbn. lia. Qed.

Lemma local_sum : forall N g fam dm eager sp ls q,
  wf_dist N g fam -> dofmaps N g fam dm -> creates N eager dm sp -> q < N ->
  (forall r, r < N -> local_new (g r) fam = Ok (ls r)) ->
  sum_list (map (fun r => local_global_size (ls r)) (seq 0 N)) =
    global_size (sp q) + sum_list (map (fun r => ghost_count (sp r)) (seq 0 N)).
Proof.
  intros N g fam dm eager sp ls q W D C Hq Hl.
  rewrite (proj1 (global_size_agreed N g fam dm eager sp W D C) q Hq), <- sum_list_add. f_equal. apply map_ext_in.
  intros r Hr. apply in_seq in Hr. assert (Hr' : r < N) by lia.
  destruct (local_tables N g fam dm eager sp r W D C Hr') as (l & E & Es & _). rewrite (Hl r Hr') in E. injection E as E.
  unfold local_global_size. unfold local_local_size in Es. rewrite E, Es. now apply (local_split N g fam dm eager).
Qed.

Lemma local_pair : exists ls sp, (forall r, r < 2 -> local_new (pair_grid r) (lagrange 1) = Ok (ls r)) /\
  creates 2 buffered pair_dm sp /\ sum_list (map (fun r => local_global_size (ls r)) [0; 1]) = 8 /\
  global_size (sp 0) = 4 /\ map (fun r => ghost_count (sp r)) [0; 1] = [1; 3].
Proof.
  destruct pair_facts as (W & D & _).
  exists (fun r => match local_new (pair_grid r) (lagrange 1) with Ok l => l | _ => mkLocal (pair_grid r) (lagrange 1) [] [] 0 end).
  exists (final_space 2 pair_dm). split; [|split; [|split; [|split]]].
  - intros r Hr. destruct r as [|[|r]]; [| |lia].
    + destruct (assign_dofs_total 0 (pair_grid 0) (lagrange 1)) as (x & E); [apply pair_grid_wf|apply lagrange_wf_family|].
      unfold local_new. rewrite E. reflexivity.
    + destruct (assign_dofs_total 0 (pair_grid 1) (lagrange 1)) as (x & E); [apply pair_grid_wf|apply lagrange_wf_family|].
      unfold local_new. rewrite E. reflexivity.
  - apply (eager_completes 2 pair_grid (lagrange 1) pair_dm W D). reflexivity.
  - vm_compute. reflexivity.
  - vm_compute. reflexivity.
  - vm_compute. reflexivity.
Qed.
