(** * Properties C22-C24: pairs of touching cells *)
From Verif Require Import Base Topology DofExamples ColouringExamples Options Batch Adjacency SpecAdjacency AdjacencyResults AdjacencyExamples.

(** C22: the blocks contain each pair of an owned test cell and a trial cell that
    touch exactly once, and nothing else; for every look-up function. *)
Theorem C22_touching_pairs_once : forall wmod f size g batch blocks,
  wf_grid g -> make_cell_blocks wmod f size g batch = Ok blocks ->
  NoDup (flat_map snd blocks) /\
  forall t s, In (t, s) (flat_map snd blocks) <->
    t < ent_count g 2 /\ s < ent_count g 2 /\ g_own g 2 t = Owned /\ touch g t s.
Proof. exact blocks_once. Qed.
Print Assumptions C22_touching_pairs_once.

(** C23: on a conforming grid the look-up never fails, and the block a pair of cells
    is in has the cell types of the pair and the rule made for exactly the local
    vertices that coincide (ordered by the trial side). *)
Theorem C23_right_rule : forall D (make : cell_type -> cell_type -> vpairs -> nat -> res D) wmod o g deg,
  wf_grid g -> conforming g -> has_degrees o (g_types g 2) deg ->
  (forall t s p, In t (g_types g 2) -> In s (g_types g 2) -> In p (possible_pairs t s) ->
     exists d, make t s p (deg t s) = Ok d) ->
  0 < get_batch_size o -> get_batch_size o < wmod -> pairs_fit wmod g ->
  exists st blocks, singular_rules make o (g_types g 2) = Ok st /\ singular_blocks wmod st o g = Ok blocks /\
    forall i cells t s, In (i, cells) blocks -> In (t, s) cells ->
      exists pairs d, adjacency g t s pairs /\
        nth_error (rs_test st) i = Some (g_ctype g t) /\ nth_error (rs_trial st) i = Some (g_ctype g s) /\
        nth_error (rs_data st) i = Some d /\
        make (g_ctype g t) (g_ctype g s) pairs (deg (g_ctype g t) (g_ctype g s)) = Ok d.
Proof. exact @right_rules_conforming. Qed.
Print Assumptions C23_right_rule.

(** The Duffy rule asked for is that for the two cell types and for the dimension of
    what the cells share: vertex, edge, or the whole cell. *)
Theorem C23_duffy_rule : forall Q (ext : duffy -> nat -> vpairs -> nat -> option Q) g t s pairs n,
  wf_grid g -> conforming g -> t < ent_count g 2 -> s < ent_count g 2 -> touch g t s -> adjacency g t s pairs ->
  exists kind dim, duffy_for (g_ctype g t) (g_ctype g s) = Some kind /\ shared_dimension g t s dim /\
    get_singular_quadrature_rule ext (g_ctype g t) (g_ctype g s) pairs n = unwrap (ext kind dim pairs n).
Proof. exact @duffy_choice. Qed.
Print Assumptions C23_duffy_rule.

(** C24 is false: the look-up panics exactly when some touching pair shares its
    vertices in a way that has no rule. *)
Theorem C24_panics_exactly_without_rule : forall D (make : cell_type -> cell_type -> vpairs -> nat -> res D) wmod o g deg,
  wf_grid g -> has_degrees o (g_types g 2) deg ->
  (forall t s p, In t (g_types g 2) -> In s (g_types g 2) -> In p (possible_pairs t s) ->
     exists d, make t s p (deg t s) = Ok d) ->
  0 < get_batch_size o -> get_batch_size o < wmod -> pairs_fit wmod g ->
  exists st, singular_rules make o (g_types g 2) = Ok st /\
    ((exists blocks, singular_blocks wmod st o g = Ok blocks) \/ singular_blocks wmod st o g = Panic) /\
    (singular_blocks wmod st o g <> Panic <->
     forall t s, t < ent_count g 2 -> s < ent_count g 2 -> g_own g 2 t = Owned -> touch g t s -> has_rule g t s).
Proof. exact @lookup_exactly. Qed.
Print Assumptions C24_panics_exactly_without_rule.

(** Two quadrilaterals sharing two opposite corners. *)
Theorem C24_nonconforming_refuted : exists g,
  wf_grid g /\ (exists cells, valid_cells Quadrilateral 6 cells /\ g = grid_of_cells 0 Quadrilateral 6 cells) /\
  forall D (make : cell_type -> cell_type -> vpairs -> nat -> res D) wmod st,
    singular_rules make default_options (g_types g 2) = Ok st ->
    singular_blocks wmod st default_options g = Panic.
Proof. exact nonconforming_refuted. Qed.
Print Assumptions C24_nonconforming_refuted.

(** Non-vacuity: [screen_triangles(2)]; a triangle and a quadrilateral. *)
Example C22_C24_hypotheses_met :
  wf_grid screen2 /\ conforming screen2 /\ has_degrees default_options (g_types screen2 2) (fun _ _ => 4) /\
  pairs_fit 256 screen2 /\
  touch screen2 0 1 /\ adjacency screen2 0 1 [(0, 0); (2, 1)] /\ ~ touch screen2 0 5 /\
  exists st blocks, singular_rules (fun t s p n => Ok (t, s, p, n)) default_options (g_types screen2 2) = Ok st /\
    singular_blocks 256 st default_options screen2 = Ok blocks /\
    length (flat_map snd blocks) = 50 /\ length (rs_data st) = 28.
Proof. exact screen2_adjacency. Qed.

Example C23_mixed :
  wf_grid mixed_grid /\ conforming mixed_grid /\ touch mixed_grid 0 1 /\ touch mixed_grid 1 0 /\
  (forall t s, t < ent_count mixed_grid 2 -> s < ent_count mixed_grid 2 -> touch mixed_grid t s).
Proof. exact mixed_adjacency. Qed.
