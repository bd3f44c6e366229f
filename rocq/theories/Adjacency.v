(** * Adjacent cells and their singular quadrature rules

    Model of the parts of src/boundary_assemblers.rs that find the pairs of touching
    cells (564-606, 775-821) and the rule for each of them (249-354, 524-562).  The
    quadrature rules themselves come from an external crate. *)
From Verif Require Import Base Topology Options Batch.

(** A list of coinciding local vertices (test, trial).
    [Vec<(usize, usize)>], src/boundary_assemblers.rs:267-288, 524-530. *)
Definition vpairs : Type := list (nat * nat).

(** Equality of the keys of [pair_indices], src/boundary_assemblers.rs:291-294. *)
Fixpoint vpairs_eqb (p q : vpairs) : bool :=
  match p, q with
  | [], [] => true
  | x :: p', y :: q' => pair_eqb x y && vpairs_eqb p' q'
  | _, _ => false
  end.

(** Keys of [pair_indices], src/boundary_assemblers.rs:259, 291-294. *)
Definition rule_key : Type := (cell_type * cell_type) * vpairs.
(** Their equality, src/boundary_assemblers.rs:357. *)
Definition key_eqb (a b : rule_key) : bool := ctp_eqb (fst a) (fst b) && vpairs_eqb (snd a) (snd b).

(** [possible_pairs], src/boundary_assemblers.rs:267-288. *)
Definition possible_pairs (test trial : cell_type) : list vpairs :=
  flat_map (fun i => map (fun j => [(i, j)]) (seq 0 (ref_count trial 0))) (seq 0 (ref_count test 0)) ++
  flat_map (fun te => flat_map (fun re =>
      [[(fst te, fst re); (snd te, snd re)]; [(snd te, fst re); (fst te, snd re)]]) (ref_edges trial)) (ref_edges test) ++
  (if ct_eqb test trial then [map (fun i => (i, i)) (seq 0 (ref_count test 0))] else []).

(** The functions of the external crate [bempp_quadrature::duffy].
    Imported at src/boundary_assemblers.rs:12-13, called at 543-553. *)
Inductive duffy : Set := TriangleDuffy | TriangleQuadrilateralDuffy | QuadrilateralTriangleDuffy | QuadrilateralDuffy.

(** src/boundary_assemblers.rs:533-540: [CellToCellConnectivity::connectivity_dimension]. *)
Definition connectivity_dimension (pairs : vpairs) : nat :=
  match length pairs with 1 => 0 | 2 => 1 | _ => 2 end.

(** [get_singular_quadrature_rule], src/boundary_assemblers.rs:524-562.  [ext] is the
    external function: rule, connectivity, number of points; [None] is an error, which
    the code unwraps. *)
Definition get_singular_quadrature_rule {Q : Type} (ext : duffy -> nat -> vpairs -> nat -> option Q)
    (test trial : cell_type) (pairs : vpairs) (npoints : nat) : res Q :=
  match pairs with
  | [] => Panic
  | _ =>
      let dim := connectivity_dimension pairs in
      match test, trial with
      | Triangle, Triangle => unwrap (ext TriangleDuffy dim pairs npoints)
      | Triangle, Quadrilateral => unwrap (ext TriangleQuadrilateralDuffy dim pairs npoints)
      | Quadrilateral, Triangle => unwrap (ext QuadrilateralTriangleDuffy dim pairs npoints)
      | Quadrilateral, Quadrilateral => unwrap (ext QuadrilateralDuffy dim pairs npoints)
      | _, _ => Panic
      end
  end.

(** The state of the loops at src/boundary_assemblers.rs:249-354: [pair_indices],
    [test_cell_types], [trial_cell_types], and what is pushed per rule ([qweights],
    [trial_points], [trial_tables], [test_points], [test_tables]: one vector here). *)
Record rule_state (D : Type) : Type := mkRules {
  rs_indices : list (rule_key * nat);
  rs_test : list cell_type;
  rs_trial : list cell_type;
  rs_data : list D
}.
Arguments mkRules {D}.
Arguments rs_indices {D}.
Arguments rs_test {D}.
Arguments rs_trial {D}.
Arguments rs_data {D}.

(** One round of the loop at src/boundary_assemblers.rs:290-297. *)
Definition push_key {D : Type} (test trial : cell_type) (offset : nat) (st : rule_state D) (ip : nat * vpairs)
  : rule_state D :=
  mkRules (assoc_insert key_eqb ((test, trial), snd ip) (offset + fst ip) (rs_indices st))
    (rs_test st ++ [test]) (rs_trial st ++ [trial]) (rs_data st).

(** One round of the loop at src/boundary_assemblers.rs:299-352; [make] gets the rule,
    casts the points and tabulates the elements. *)
Definition push_rule {D : Type} (make : cell_type -> cell_type -> vpairs -> nat -> res D)
    (test trial : cell_type) (degree : nat) (st : rule_state D) (pairs : vpairs) : res (rule_state D) :=
  d <- make test trial pairs degree ;;
  Ok (mkRules (rs_indices st) (rs_test st) (rs_trial st) (rs_data st ++ [d])).

(** The body of the loops over cell types, src/boundary_assemblers.rs:261-354. *)
Definition rules_for {D : Type} (make : cell_type -> cell_type -> vpairs -> nat -> res D) (o : options)
    (st : rule_state D) (tp : cell_type * cell_type) : res (rule_state D) :=
  let (test, trial) := tp in
  degree <- unwrap (assoc ctp_eqb (test, trial) (o_singular_degrees o)) ;;
  let offset := length (rs_data st) in
  let pp := possible_pairs test trial in
  foldM (push_rule make test trial degree) pp
    (fold_left (push_key test trial offset) (enumerate pp) st).

(** src/boundary_assemblers.rs:249-354. *)
Definition singular_rules {D : Type} (make : cell_type -> cell_type -> vpairs -> nat -> res D) (o : options)
    (types : list cell_type) : res (rule_state D) :=
  foldM (rules_for make o) (list_prod types types) (mkRules [] [] [] []).

(** The inner loop of [get_pairs_if_smallest], src/boundary_assemblers.rs:782-789;
    [None] is the early return of [None]. *)
Fixpoint scan_test (vertex trial_i trial_v : nat) (test : list (nat * nat)) (pairs : vpairs) : option vpairs :=
  match test with
  | [] => Some pairs
  | (test_i, test_v) :: rest =>
      if test_v =? trial_v then
        if test_v <? vertex then None else scan_test vertex trial_i trial_v rest (pairs ++ [(test_i, trial_i)])
      else scan_test vertex trial_i trial_v rest pairs
  end.

(** The outer loop, src/boundary_assemblers.rs:781. *)
Fixpoint scan_trial (vertex : nat) (test trial : list (nat * nat)) (pairs : vpairs) : option vpairs :=
  match trial with
  | [] => Some pairs
  | (trial_i, trial_v) :: rest =>
      match scan_test vertex trial_i trial_v test pairs with
      | None => None
      | Some pairs' => scan_trial vertex test rest pairs'
      end
  end.

(** [get_pairs_if_smallest], src/boundary_assemblers.rs:775-792. *)
Definition get_pairs_if_smallest (g : grid) (test_cell trial_cell vertex : nat) : option vpairs :=
  scan_trial vertex (enumerate (g_sub g test_cell 0)) (enumerate (g_sub g trial_cell 0)) [].

(** [grid.entity(2, c).unwrap()]. src/boundary_assemblers.rs:577, 581. *)
Definition the_cell (g : grid) (c : nat) : res unit := if entity_exists g 2 c then Ok tt else Panic.

(** src/boundary_assemblers.rs:580-588, for one test cell and one trial cell at a
    vertex; [f] is the look-up closure. *)
Definition visit_pair (f : cell_type -> cell_type -> vpairs -> res nat) (g : grid) (vertex test_cell : nat)
    (cp : list (list (nat * nat))) (trial_cell : nat) : res (list (list (nat * nat))) :=
  _ <- the_cell g trial_cell ;;
  match get_pairs_if_smallest g test_cell trial_cell vertex with
  | None => Ok cp
  | Some pairs =>
      i <- f (g_ctype g test_cell) (g_ctype g trial_cell) pairs ;;
      row <- vget cp i ;;
      vset cp i (row ++ [(test_cell, trial_cell)])
  end.

(** src/boundary_assemblers.rs:576-592, for one test cell at a vertex. *)
Definition visit_test (f : cell_type -> cell_type -> vpairs -> res nat) (g : grid) (vertex : nat)
    (cp : list (list (nat * nat))) (test_cell : nat) : res (list (list (nat * nat))) :=
  _ <- the_cell g test_cell ;;
  if is_owned (g_own g 2 test_cell) then foldM (visit_pair f g vertex test_cell) (g_conn g vertex) cp
  else Ok cp.

(** src/boundary_assemblers.rs:573-593. *)
Definition collect_pairs (f : cell_type -> cell_type -> vpairs -> res nat) (size : nat) (g : grid)
  : res (list (list (nat * nat))) :=
  foldM (fun cp vertex => foldM (visit_test f g vertex) (g_conn g vertex) cp) (g_iter g 0) (repeat [] size).

(** [make_cell_blocks], src/boundary_assemblers.rs:564-606; the fuel is larger than
    any of the lists. *)
Definition make_cell_blocks (wmod : nat) (f : cell_type -> cell_type -> vpairs -> res nat) (size : nat) (g : grid)
    (batch : nat) : res (list (nat * list (nat * nat))) :=
  cp <- collect_pairs f size g ;;
  cell_blocks_from (S (sum_list (map (@length _) cp))) wmod batch cp.

(** The closure at src/boundary_assemblers.rs:356-358: indexing a [HashMap] panics
    when the key is missing. *)
Definition look_up {D : Type} (st : rule_state D) (test trial : cell_type) (pairs : vpairs) : res nat :=
  unwrap (assoc key_eqb ((test, trial), pairs) (rs_indices st)).

(** src/boundary_assemblers.rs:355-362. *)
Definition singular_blocks {D : Type} (wmod : nat) (st : rule_state D) (o : options) (g : grid)
  : res (list (nat * list (nat * nat))) :=
  make_cell_blocks wmod (look_up st) (length (rs_indices st)) g (o_batch_size o).

(** [equal_grids], src/boundary_assemblers/helpers.rs:59-64: the same object. *)
Definition equal_grids (g h : grid) : bool := g_id g =? g_id h.

(** [neighbours], src/boundary_assemblers.rs:794-821; both cells are looked up in the
    trial grid. *)
Definition neighbours (test_grid trial_grid : grid) (test_cell trial_cell : nat) : res bool :=
  if equal_grids test_grid trial_grid then
    _ <- the_cell trial_grid test_cell ;;
    _ <- the_cell trial_grid trial_cell ;;
    Ok (existsb (fun v => memb v (g_sub trial_grid test_cell 0)) (g_sub trial_grid trial_cell 0))
  else Ok false.
