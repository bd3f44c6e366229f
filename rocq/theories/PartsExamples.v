(** * Matrices on a part of a grid: examples *)
From Coq Require Import QArith Qcanon.
From Verif Require Import Base BaseFacts Topology TopologyFacts DofMap SpecDof DofMapResults DofExamples Colouring SpecColour Process Space SpecSpace SpaceScript SpaceResults SpaceExamples
  Options Adjacency SpecAdjacency AdjacencyExamples Scalar Integrand CellPair Operators SpecLocal Interleave Assembly SpecAssembly LocalExamples
  AssemblyResults AssemblyExamples SpecDistributed DistributedExamples RenumberExamples SpecParts PartsResults.
Open Scope nat_scope.

(** Parts of the strip of four triangles: its first three cells; its first cell and
    its last, on two other grid objects. *)
Definition first_cell : grid := grid_of_cells 3 Triangle 3 [[0; 1; 2]].
Definition last_cell : grid := grid_of_cells 4 Triangle 3 [[0; 2; 1]].
Definition place (cells : list (list nat)) (v c : nat -> nat) (d e : nat) : nat :=
  match d with
  | 0 => v e
  | 1 => let (a, b) := nth e (grid_edges Triangle cells) (0, 0) in index_of (norm_pair (v a, v b)) (grid_edges Triangle strip_cells)
  | _ => c e
  end.
Definition first_map : nat -> nat -> nat := place [[0; 1; 2]] (fun v => v) (fun c => c).
Definition last_map : nat -> nat -> nat := place [[0; 2; 1]] (fun v => 3 + v) (fun c => 3 + c).
Definition head_grid : grid := strip_part 0.
Definition head_map : nat -> nat -> nat := strip_map 0.

Definition check_inside (g : grid) (L : nat -> nat -> nat) : bool :=
  upto 3 (fun d => upto (ent_count g d) (fun e => (L d e <? ent_count strip d) && upto (ent_count g d) (fun e' => negb (L d e =? L d e') || (e =? e')))) &&
  upto (ent_count g 2) (fun c => upto 3 (fun d => nats_eqb (g_sub strip (L 2 c) d) (map (L d) (g_sub g c d)))).

Lemma check_inside_ok g L : g_types g 2 = [Triangle] -> g_gdim g = 3 -> (forall c, g_ctype g c = Triangle) -> check_inside g L = true ->
  inside 1 strip (fun _ => g) (fun _ => L).
Proof.
  intros Ty Gd Ct H. apply andb_true_iff in H. destruct H as (H & Hs).
  assert (A : forall d e, d <= 2 -> e < ent_count g d -> L d e < ent_count strip d /\ upto (ent_count g d) (fun e' => negb (L d e =? L d e') || (e =? e')) = true).
  { intros d e Hd He. assert (Hd' : d < 3) by lia. apply (upto_spec _ _ H) in Hd'. apply (upto_spec _ _ Hd') in He. apply andb_true_iff in He.
    destruct He as (He & U). apply Nat.ltb_lt in He. auto. }
  constructor.
  - intros _ d e _ Hd He. now apply A.
  - intros _ d e e' _ Hd He He' E. destruct (A d e Hd He) as (_ & U). apply (upto_spec _ _ U) in He'. rewrite E, Nat.eqb_refl in He'. now apply Nat.eqb_eq.
  - intros _ _. rewrite Ty. apply incl_refl.
  - intros _ _. now rewrite Gd.
  - intros _ c _ _. now rewrite Ct.
  - intros _ c d _ Hc Hd. apply nats_eqb_eq. apply (upto_spec _ _ Hs) in Hc. apply (upto_spec _ _ Hc). lia.
Qed.

(** Each cell has its geometry wherever it is. *)
Definition parts_externals : externals Qc :=
  mkExternals Qc (x_simplex demo_externals) (x_duffy demo_externals)
    (fun g t points c => demo_cell (match g_id g with 1 => head_map 2 c | 3 => first_map 2 c | 4 => last_map 2 c | _ => c end)).

Lemma parts_geometry g L : (g, L) = (head_grid, head_map) \/ (g, L) = (first_cell, first_map) \/ (g, L) = (last_cell, last_map) ->
  forall t points c, x_geometry parts_externals g t points c = x_geometry parts_externals strip t points (L 2 c).
Proof. intros [E|[E|E]] t points c; injection E as -> ->; reflexivity. Qed.

Lemma parts_wf g L : (g, L) = (head_grid, head_map) \/ (g, L) = (first_cell, first_map) \/ (g, L) = (last_cell, last_map) ->
  wf_grid g /\ inside 1 strip (fun _ => g) (fun _ => L).
Proof.
  intros [E|[E|E]]; injection E as -> ->; (split; [apply grid_of_cells_wf, valid_cells_check; [now left|vm_compute; reflexivity]|]);
    (apply check_inside_ok; [reflexivity|reflexivity|reflexivity|vm_compute; reflexivity]).
Qed.

Lemma parts_space g L fam : (g, L) = (head_grid, head_map) \/ (g, L) = (first_cell, first_map) \/ (g, L) = (last_cell, last_map) ->
  part_of parts_externals (make_space strip fam) (make_space g fam) L.
Proof.
  intros H. constructor; cbn [make_space fs_grid fs_family fs_components fs_basis]; auto.
  - now apply parts_wf.
  - destruct H as [E|[E|E]]; injection E as -> ->; reflexivity.
  - intros c t points _. now apply parts_geometry.
Qed.

Lemma parts_serial g L fam : (g, L) = (head_grid, head_map) \/ (g, L) = (first_cell, first_map) \/ (g, L) = (last_cell, last_map) ->
  wf_family [Triangle] fam -> 0 < el_dim (fam Triangle) -> serial_space (make_space g fam).
Proof.
  intros H F P. assert (Ty : g_types g 2 = [Triangle] /\ forall d e, g_own g d e = Owned).
  { destruct H as [E|[E|E]]; injection E as -> ->; split; reflexivity. }
  apply make_space_serial; [exact (proj1 (parts_wf g L H))|now rewrite (proj1 Ty)| |exact (proj2 Ty)].
  unfold head_dim_pos. rewrite (proj1 Ty). intros t0 E. now inversion E.
Qed.

Lemma strip_parts_dense : dense_setting parts_externals 256 demo_op demo_options (fun _ _ => 2) (fun _ => 2) Triangle whole_p1 whole_dp0.
Proof.
  destruct strip_dense as [A1 A2 A3 A4 A5 A6 A7 A8 A9 A10 A11 A12 A13 A14 A15 A16 A17]. constructor; try assumption.
  split; [exact (pr_simplex _ demo_proper)|exact (pr_duffy _ demo_proper)].
Qed.

Definition head_p1 := make_space head_grid (lagrange 1).
Definition head_dp0 := make_space head_grid (interior_only (fun _ => 1)).
Definition first_p1 := make_space first_cell (lagrange 1).
Definition last_dp0 := make_space last_cell (interior_only (fun _ => 1)).

Lemma parts_example :
  exact qc_scalar /\ legal_runtime (s_add qc_scalar) demo_rt /\
  dense_setting parts_externals 256 demo_op demo_options (fun _ _ => 2) (fun _ => 2) Triangle whole_p1 whole_dp0 /\
  (* one part *)
  serial_space head_p1 /\ serial_space head_dp0 /\ same_object head_p1 head_dp0 /\
  part_of parts_externals whole_p1 head_p1 head_map /\ part_of parts_externals whole_dp0 head_dp0 head_map /\
  placed whole_p1 whole_dp0 head_p1 head_dp0 head_map head_map /\
  supported whole_p1 head_p1 head_map 2 /\ ~ supported whole_p1 head_p1 head_map 3 /\
  (* two parts that do not touch *)
  serial_space first_p1 /\ serial_space last_dp0 /\ same_object first_p1 last_dp0 /\
  part_of parts_externals whole_p1 first_p1 first_map /\ part_of parts_externals whole_dp0 last_dp0 last_map /\
  placed whole_p1 whole_dp0 first_p1 last_dp0 first_map last_map /\ supported whole_p1 first_p1 first_map 0.
Proof.
  split; [exact qc_exact|]. split; [apply sequential_legal|]. split; [exact strip_parts_dense|].
  split; [apply (parts_serial head_grid head_map); [auto|apply lagrange_wf_family|cbn; lia]|].
  split; [apply (parts_serial head_grid head_map); [auto|apply interior_only_wf_family|cbn; lia]|].
  split; [intros _; reflexivity|]. split; [apply parts_space; auto|]. split; [apply parts_space; auto|].
  split; [left; repeat split; reflexivity|].
  assert (D1 : dofs_at whole_p1 1 = [1; 3; 2]) by (vm_compute; reflexivity).
  assert (D2 : dofs_at whole_p1 2 = [2; 3; 4]) by (vm_compute; reflexivity).
  assert (D3 : dofs_at whole_p1 3 = [3; 5; 4]) by (vm_compute; reflexivity).
  split.
  { intros C HC Hn. change (C < 4) in HC. exists C. destruct C as [|[|[|[|C]]]]; [split; [cbn; lia|reflexivity]..| |lia].
    rewrite D3 in Hn. cbn in Hn. exfalso. intuition lia. }
  split.
  { intros H. destruct (H 3) as (c & Hc & E); [apply Nat.lt_succ_diag_r|rewrite D3; now left|]. change (c < 3) in Hc. change (c = 3) in E. lia. }
  split; [apply (parts_serial first_cell first_map); [auto|apply lagrange_wf_family|cbn; lia]|].
  split; [apply (parts_serial last_cell last_map); [auto|apply interior_only_wf_family|cbn; lia]|].
  split; [intros E; discriminate E|]. split; [apply parts_space; auto|]. split; [apply parts_space; auto|].
  split.
  { right. split; [discriminate|]. intros t s Ht Hs (_ & v & H1 & H2). change (t < 1) in Ht. change (s < 1) in Hs.
    assert (t = 0) by lia. assert (s = 0) by lia. subst. cbn in H1, H2. intuition lia. }
  intros C HC Hn. change (C < 4) in HC. exists C. destruct C as [|[|[|[|C]]]]; [split; [cbn; lia|reflexivity]| | | |lia];
    rewrite ?D1, ?D2, ?D3 in Hn; cbn in Hn; exfalso; intuition lia.
Qed.
