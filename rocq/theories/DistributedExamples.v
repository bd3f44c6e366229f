(** * An example of a distributed grid: four triangles on two processes *)
From Coq Require Import QArith Qcanon.
From Verif Require Import Base BaseFacts Topology TopologyFacts DofMap SpecDof DofMapResults DofExamples Process Space SpecSpace SpaceScript SpaceResults SpaceExamples
  Options Adjacency SpecAdjacency AdjacencyExamples Scalar Integrand CellPair Operators SpecLocal Interleave Assembly SpecAssembly LocalExamples AssemblyExamples
  SpecDistributed.
Open Scope nat_scope.

(** A strip of triangles: cell 0 touches 0, 1, 2 but not 3. *)
Definition strip_cells : list (list nat) := [[0; 1; 2]; [1; 3; 2]; [2; 3; 4]; [3; 5; 4]].
Definition strip : grid := grid_of_cells 0 Triangle 6 strip_cells.

(** Process 0 owns cell 0 and stores cells 0, 1, 2; process 1 owns the others and
    stores all, with other numbers. *)
Definition strip_part (r : nat) : grid :=
  match r with
  | 0 => grid_of_cells 1 Triangle 5 [[0; 1; 2]; [1; 3; 2]; [2; 3; 4]]
  | _ => grid_of_cells 2 Triangle 6 [[2; 0; 1]; [3; 2; 1]; [4; 2; 3]; [5; 4; 3]]
  end.

Definition part_vertex (r v : nat) : nat := match r with 0 => v | _ => 5 - v end.
Definition part_cell (r c : nat) : nat := match r with 0 => c | _ => 3 - c end.
Definition part_edges (r : nat) : list (nat * nat) :=
  grid_edges Triangle (match r with 0 => [[0; 1; 2]; [1; 3; 2]; [2; 3; 4]] | _ => [[2; 0; 1]; [3; 2; 1]; [4; 2; 3]; [5; 4; 3]] end).
Definition part_edge (r e : nat) : nat :=
  let (a, b) := nth e (part_edges r) (0, 0) in
  index_of (norm_pair (part_vertex r a, part_vertex r b)) (grid_edges Triangle strip_cells).
Definition strip_map (r d e : nat) : nat :=
  match d with 0 => part_vertex r e | 1 => part_edge r e | _ => part_cell r e end.

(** Process 0 owns vertices 0 and 1, the edges at vertex 0, and cell 0. *)
Definition strip_owner (d e : nat) : nat :=
  match d with
  | 0 => if e <? 2 then 0 else 1
  | 1 => if fst (nth e (grid_edges Triangle strip_cells) (9, 9)) =? 0 then 0 else 1
  | _ => if e =? 0 then 0 else 1
  end.
Definition strip_own (r d e : nat) : ownership :=
  let p := strip_owner d (strip_map r d e) in
  if p =? r then Owned
  else match find (fun x => strip_map p d x =? strip_map r d e) (seq 0 (ent_count (strip_part p) d)) with
       | Some x => Ghost p x
       | None => Undefined
       end.
Definition strip_grid (r : nat) : grid := with_ownership (strip_part r) (strip_own r).

Lemma strip_wf : wf_grid strip.
Proof. apply grid_of_cells_wf, valid_cells_check; [now left|vm_compute; reflexivity]. Qed.
Lemma strip_grid_wf r : wf_grid (strip_grid r).
Proof. destruct r; apply with_ownership_wf, grid_of_cells_wf, valid_cells_check; try (now left); vm_compute; reflexivity. Qed.
Lemma strip_types r : g_types (strip_grid r) 2 = [Triangle].
Proof. now destruct r. Qed.
Lemma strip_ctype r c : g_ctype (strip_grid r) c = Triangle.
Proof. now destruct r. Qed.

(** ** Checking a partition *)

Definition nats_eqb (l l' : list nat) : bool := (length l =? length l') && forallb (fun p => fst p =? snd p) (combine l l').
Lemma nats_eqb_eq l l' : nats_eqb l l' = true -> l = l'.
Proof.
  unfold nats_eqb. intros H. apply andb_true_iff in H. destruct H as (H & H'). apply Nat.eqb_eq in H. revert l' H H'.
  induction l as [|x l IH]; intros [|y l'] H H'; cbn in H; try discriminate; [reflexivity|]. cbn in H'.
  apply andb_true_iff in H'. destruct H' as (E & H'). apply Nat.eqb_eq in E. subst y. f_equal. apply IH; auto.
Qed.

Definition upto (n : nat) (p : nat -> bool) : bool := forallb p (seq 0 n).
Lemma upto_spec n p : upto n p = true -> forall i, i < n -> p i = true.
Proof. unfold upto. rewrite forallb_forall. intros H i Hi. apply H, in_seq. lia. Qed.

Section Check.
Variables (N : nat) (G : grid) (g : nat -> grid) (L : nat -> nat -> nat -> nat).

Definition check_entity (r d e : nat) : bool :=
  (L r d e <? ent_count G d) &&
  upto (ent_count (g r) d) (fun e' => negb (L r d e =? L r d e') || (e =? e')) &&
  match g_own (g r) d e with
  | Owned => upto N (fun r' => upto (ent_count (g r') d) (fun e' =>
      negb (is_owned (g_own (g r') d e') && (L r d e =? L r' d e')) || (r =? r')))
  | Ghost p x => (p <? N) && (x <? ent_count (g p) d) && is_owned (g_own (g p) d x) && (L p d x =? L r d e)
  | Undefined => false
  end.
Definition check_cell (r c : nat) : bool :=
  ct_eqb (g_ctype G (L r 2 c)) (g_ctype (g r) c) &&
  upto 3 (fun d => nats_eqb (g_sub G (L r 2 c) d) (map (L r d) (g_sub (g r) c d))).
Definition check_partition : bool :=
  upto N (fun r => upto 3 (fun d => upto (ent_count (g r) d) (check_entity r d))) &&
  upto N (fun r => upto (ent_count (g r) 2) (check_cell r)) &&
  upto (ent_count G 2) (fun C => existsb (fun r => existsb (fun c => L r 2 c =? C) (seq 0 (ent_count (g r) 2))) (seq 0 N)).

Lemma is_owned_eq o : is_owned o = true -> o = Owned.
Proof. now destruct o. Qed.

Lemma check_partition_ok : (forall r, r < N -> incl (g_types (g r) 2) (g_types G 2)) -> (forall r, r < N -> g_gdim (g r) = g_gdim G) ->
  check_partition = true -> partition N G g L.
Proof.
  intros Ty Gd H. unfold check_partition in H. apply andb_true_iff in H. destruct H as (H & H3). apply andb_true_iff in H. destruct H as (H1 & H2).
  assert (A : forall r d e, r < N -> d <= 2 -> e < ent_count (g r) d -> check_entity r d e = true).
  { intros r d e Hr Hd. apply upto_spec. apply (upto_spec 3 (fun d => upto (ent_count (g r) d) (check_entity r d))); [|lia].
    apply (upto_spec N (fun r => upto 3 (fun d => upto (ent_count (g r) d) (check_entity r d))) H1 r Hr). }
  assert (B : forall r c, r < N -> c < ent_count (g r) 2 -> check_cell r c = true).
  { intros r c Hr. apply upto_spec. apply (upto_spec N (fun r => upto (ent_count (g r) 2) (check_cell r)) H2 r Hr). }
  clear H1 H2. constructor; [constructor; auto| | |]; auto.
  - intros r d e Hr Hd He. specialize (A r d e Hr Hd He). apply andb_true_iff in A. destruct A as (A & _). apply andb_true_iff in A. destruct A as (A & _). now apply Nat.ltb_lt.
  - intros r d e e' Hr Hd He He' E. specialize (A r d e Hr Hd He). apply andb_true_iff in A. destruct A as (A & _). apply andb_true_iff in A. destruct A as (_ & A).
    apply (upto_spec _ _ A) in He'. apply orb_true_iff in He'. destruct He' as [Q|Q]; [|now apply Nat.eqb_eq].
    apply negb_true_iff, Nat.eqb_neq in Q. contradiction.
  - intros r c Hr Hc. specialize (B r c Hr Hc). apply andb_true_iff in B. destruct B as (B & _). now apply ct_eqb_eq.
  - intros r c d Hr Hc Hd. specialize (B r c Hr Hc). apply andb_true_iff in B. destruct B as (_ & B). apply nats_eqb_eq.
    apply (upto_spec 3 _ B). lia.
  - intros r d e Hr Hd He. specialize (A r d e Hr Hd He). apply andb_true_iff in A. destruct A as (_ & A).
    destruct (g_own (g r) d e) as [| |p x]; [discriminate|now left|right].
    apply andb_true_iff in A. destruct A as (A & A4). apply andb_true_iff in A. destruct A as (A & A3). apply andb_true_iff in A. destruct A as (A1 & A2).
    apply Nat.ltb_lt in A1, A2. apply Nat.eqb_eq in A4. apply is_owned_eq in A3. exists p, x. auto.
  - intros r r' d e e' Hr Hr' Hd He He' Ho Ho' E. specialize (A r d e Hr Hd He). apply andb_true_iff in A. destruct A as (_ & A).
    rewrite Ho in A. apply (upto_spec _ _ A) in Hr'. apply (upto_spec _ _ Hr') in He'. rewrite Ho', E, Nat.eqb_refl in He'. cbn in He'. now apply Nat.eqb_eq.
  - intros C HC. apply (upto_spec _ _ H3) in HC. apply existsb_exists in HC. destruct HC as (r & Hr & HC). apply existsb_exists in HC.
    destruct HC as (c & Hc & E). apply in_seq in Hr, Hc. apply Nat.eqb_eq in E. exists r, c. repeat split; auto; lia.
Qed.
End Check.

Lemma strip_partition : partition 2 strip strip_grid strip_map.
Proof.
  apply check_partition_ok.
  - intros r _. rewrite strip_types. apply incl_refl.
  - intros [|r] _; reflexivity.
  - vm_compute. reflexivity.
Qed.

(** Whether every process stores what touches its cells. *)
Definition check_layer (N : nat) (G : grid) (g : nat -> grid) (L : nat -> nat -> nat -> nat) : bool :=
  upto N (fun r => upto (ent_count (g r) 2) (fun c => negb (is_owned (g_own (g r) 2 c)) ||
    upto (ent_count G 2) (fun C' => negb (existsb (fun v => memb v (g_sub G C' 0)) (g_sub G (L r 2 c) 0)) ||
      existsb (fun c' => L r 2 c' =? C') (seq 0 (ent_count (g r) 2))))).

Lemma check_layer_ok N G g L : check_layer N G g L = true -> vertex_layer N G g L.
Proof.
  intros H r C C' Hr (c & Hc & <- & Ho) HC' (v & V & V'). apply (upto_spec _ _ H) in Hr. apply (upto_spec _ _ Hr) in Hc.
  rewrite Ho in Hc. cbn [is_owned negb orb] in Hc. apply (upto_spec _ _ Hc) in HC'. apply orb_true_iff in HC'. destruct HC' as [Q|Q].
  - apply negb_true_iff in Q. exfalso. assert (E : existsb (fun v => memb v (g_sub G C' 0)) (g_sub G (L r 2 c) 0) = true).
    { apply existsb_exists. exists v. split; auto. now apply memb_In. }
    congruence.
  - apply existsb_exists in Q. destruct Q as (c' & Hc' & E). apply in_seq in Hc'. apply Nat.eqb_eq in E. exists c'. split; auto. lia.
Qed.

Lemma strip_layer : vertex_layer 2 strip strip_grid strip_map.
Proof. apply check_layer_ok. vm_compute. reflexivity. Qed.

(** ** Spaces *)

(** Entity [x] is part of a cell of process [p]. *)
Definition strip_find (p d x : nat) : option (nat * nat) :=
  find (fun ci => match nth_error (g_sub (strip_grid p) (fst ci) d) (snd ci) with Some y => y =? x | None => false end)
    (list_prod (seq 0 (ent_count (strip_grid p) 2)) (seq 0 (ref_count Triangle d))).
Lemma strip_used p d x : p < 2 -> d <= 2 -> x < ent_count (strip_grid p) d -> exists c i, sub_at (strip_grid p) c d i x.
Proof.
  intros Hp Hd Hx.
  assert (A : upto 2 (fun p => upto 3 (fun d => upto (ent_count (strip_grid p) d) (fun x => match strip_find p d x with Some _ => true | None => false end))) = true) by (vm_compute; reflexivity).
  apply (upto_spec _ _ A) in Hp. assert (Hd' : d < 3) by lia. apply (upto_spec _ _ Hp) in Hd'. apply (upto_spec _ _ Hd') in Hx.
  destruct (strip_find p d x) as [[c i]|] eqn:E; [|discriminate Hx]. apply find_some in E. destruct E as (Hi & E). apply in_prod_iff in Hi. destruct Hi as (Hc & _).
  apply in_seq in Hc. cbn [fst snd] in E. exists c, i. split; [lia|]. split; auto.
  destruct (nth_error (g_sub (strip_grid p) c d) i); [|discriminate E]. apply Nat.eqb_eq in E. now subst.
Qed.

Lemma strip_dist fam : wf_family [Triangle] fam -> wf_dist 2 strip_grid fam.
Proof.
  intros WF. constructor.
  - intros r _. apply strip_grid_wf.
  - intros r _. now rewrite strip_types.
  - intros r c d i e p x Hr (Hc & Hd & Hs) Hg.
    assert (He : e < ent_count (strip_grid r) d) by (eapply wf_sub_lt; eauto using strip_grid_wf; eapply nth_error_In; eauto).
    destruct (pt_own _ _ _ _ strip_partition r d e Hr Hd He) as [Ho|(p' & x' & Hp & Hx & Hg' & Ho & E)]; [congruence|].
    rewrite Hg in Hg'. inversion Hg'; subst p' x'. split; auto. split.
    { intros ->. apply (pt_inj _ _ _ _ strip_partition r d) in E; auto. congruence. }
    split; [intros q y; congruence|].
    destruct (strip_used p d x Hp Hd Hx) as (c' & i' & Hs'). exists c', i'. split; auto. rewrite !strip_ctype.
    apply triangle_ndofs; auto.
    + destruct Hs' as (Hc' & _ & Hs'). rewrite <- (strip_ctype p c'), <- (wf_sub_length _ (strip_grid_wf p) c' d Hc' Hd). apply nth_error_Some. congruence.
    + rewrite <- (strip_ctype r c), <- (wf_sub_length _ (strip_grid_wf r) c d Hc Hd). apply nth_error_Some. congruence.
Qed.

Definition strip_dm (fam : family) (r : nat) : dofmap :=
  match assign_dofs r (strip_grid r) fam with Ok dm => dm | _ => mkDofmap [] [] 0 [] end.
Lemma strip_dofmaps fam : wf_family [Triangle] fam -> dofmaps 2 strip_grid fam (strip_dm fam).
Proof.
  intros WF r _. unfold strip_dm. destruct (assign_dofs_total r (strip_grid r) fam (strip_grid_wf r)) as (dm & E); [now rewrite strip_types|].
  now rewrite E.
Qed.

Definition strip_spaces (fam : family) (r : nat) : fspace Qc Qc :=
  mkFspace Qc Qc (strip_grid r) fam 2 (final_space 2 (strip_dm fam) r) (fun _ => 1)
    (fun t points d p b j => Qcplus (demo_table d p b j) (nth (2 * p) points 0%Qc)).

Lemma strip_distributed fam : wf_family [Triangle] fam -> distributed_space 2 (strip_spaces fam).
Proof.
  intros WF. constructor; auto.
  - exact (strip_dist fam WF).
  - exact (strip_dofmaps fam WF).
  - exists buffered, (final_space 2 (strip_dm fam)). split; [|auto].
    apply (eager_completes 2 strip_grid fam (strip_dm fam) (strip_dist fam WF) (strip_dofmaps fam WF)). reflexivity.
Qed.

(** The cells have the same geometry wherever they are. *)
Definition strip_externals : externals Qc :=
  mkExternals Qc (x_simplex demo_externals) (x_duffy demo_externals)
    (fun g t points c => demo_cell (match g_id g with 0 => c | S r => strip_map r 2 c end)).

Definition strip_p1 : nat -> fspace Qc Qc := strip_spaces (lagrange 1).
Definition strip_dp0 : nat -> fspace Qc Qc := strip_spaces (interior_only (fun _ => 1)).
Definition whole_p1 : fspace Qc Qc := make_space strip (lagrange 1).
Definition whole_dp0 : fspace Qc Qc := make_space strip (interior_only (fun _ => 1)).

Lemma strip_setting : distributed_setting strip_externals 256 demo_op demo_options (fun _ _ => 2) 2 strip_map strip_p1 strip_dp0 whole_p1 whole_dp0.
Proof.
  assert (S1 : serial_space whole_p1).
  { apply make_space_serial; [apply strip_wf|apply lagrange_wf_family| |reflexivity]. intros t0 H. inversion H. cbn. lia. }
  assert (S2 : serial_space whole_dp0).
  { apply make_space_serial; [apply strip_wf|apply interior_only_wf_family| |reflexivity]. intros t0 H. inversion H. cbn. lia. }
  constructor; auto.
  - apply strip_distributed, lagrange_wf_family.
  - apply strip_distributed, interior_only_wf_family.
  - exact strip_partition.
  - constructor; reflexivity.
  - constructor; reflexivity.
  - intros r c t points Hr Hc. destruct r as [|[|r]]; [reflexivity|reflexivity|lia].
  - constructor.
    + now apply AssemblySingular.serial_member.
    + now apply AssemblySingular.serial_member.
    + reflexivity.
    + reflexivity.
    + intros t _. apply Nat.lt_0_1.
    + intros t _. apply Nat.lt_0_1.
    + apply demo_fitting.
    + split; [exact (pr_simplex _ demo_proper)|exact (pr_duffy _ demo_proper)].
    + intros t s [<-|[]] [<-|[]]; reflexivity.
    + intros t s p k _ _ _ _. eexists. reflexivity.
    + apply conformingb_ok. vm_compute. reflexivity.
    + apply Nat.lt_0_succ.
    + apply Nat.ltb_lt. vm_compute. reflexivity.
    + apply pairs_fit_square. apply Nat.leb_le. vm_compute. reflexivity.
Qed.

(** The numbers of triplets on the two processes and in all. *)
Lemma strip_counts :
  map (fun r => match assemble_singular_part qc_scalar strip_externals demo_rt 256 demo_op demo_options (6, 4) (strip_dp0 r) (strip_p1 r) with
                | Ok m => length (triplets m) | _ => 0 end) [0; 1] = [9; 33] /\
  match assemble_singular_part qc_scalar strip_externals demo_rt 256 demo_op demo_options (6, 4) whole_dp0 whole_p1 with
                | Ok m => length (triplets m) | _ => 0 end = 42.
Proof. split; vm_compute; reflexivity. Qed.

(** The numbers of the vertices differ from those on one process. *)
Lemma strip_numbers :
  map (fun r => sp_global_dofs (fs_space (strip_p1 r))) [0; 1] = [[0; 1; 5; 2; 4]; [2; 3; 4; 5; 1; 0]].
Proof. vm_compute. reflexivity. Qed.

Lemma strip_example :
  distributed_setting strip_externals 256 demo_op demo_options (fun _ _ => 2) 2 strip_map strip_p1 strip_dp0 whole_p1 whole_dp0 /\
  vertex_layer 2 (fs_grid whole_p1) (fun r => fs_grid (strip_p1 r)) strip_map /\
  ~ touch (fs_grid whole_p1) 0 3 /\ ent_count (fs_grid (strip_p1 0)) 2 = 3 /\
  map (fun r => sp_global_dofs (fs_space (strip_p1 r))) [0; 1] = [[0; 1; 5; 2; 4]; [2; 3; 4; 5; 1; 0]] /\
  map (fun r => match assemble_singular_part qc_scalar strip_externals demo_rt 256 demo_op demo_options (6, 4) (strip_dp0 r) (strip_p1 r) with
                | Ok m => length (triplets m) | _ => 0 end) [0; 1] = [9; 33] /\
  match assemble_singular_part qc_scalar strip_externals demo_rt 256 demo_op demo_options (6, 4) whole_dp0 whole_p1 with
                | Ok m => length (triplets m) | _ => 0 end = 42.
Proof.
  split; [exact strip_setting|]. split; [exact strip_layer|]. split.
  { intros (v & H & H'). cbn in H, H'. intuition lia. }
  split; [reflexivity|]. split; [exact strip_numbers|exact strip_counts].
Qed.
