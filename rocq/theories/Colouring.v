(** * Colouring: the greedy colouring of the cells

    Model of [FunctionSpace::cell_colouring], src/function.rs:281-351. *)
From Verif Require Import Base Topology DofMap.

(** [HashMap<ReferenceCellType, Vec<Vec<usize>>>], src/function.rs:282. *)
Definition colour_map : Type := list (cell_type * list (list nat)).

(** The loop at src/function.rs:287-294: the smallest dimension with DOFs.  Reference
    cells have dimension at most 3, so five rounds are enough. *)
Fixpoint find_edim (el : element) (fuel edim : nat) : res nat :=
  match fuel with
  | 0 => Hang
  | S fuel' =>
      l <- unwrap (el_edofs el edim 0) ;;
      if is_empty l then find_edim el fuel' (S edim) else Ok edim
  end.

(** The number of entities considered, src/function.rs:298-310. *)
Definition colour_table_size (g : grid) (edim : nat) : res nat :=
  match edim with
  | 0 => Ok (g_count g Point)
  | 1 => Ok (g_count g Interval)
  | 2 => if g_tdim g =? 2 then Ok (sum_list (map (g_count g) (g_types g 2))) else Panic
  | _ => Panic
  end.

(** The loop at src/function.rs:321-326: does an entity already have colour [c]? *)
Fixpoint colour_taken (entity_colours : list (list nat)) (indices : list nat) (c : nat) : res bool :=
  match indices with
  | [] => Ok false
  | v :: t =>
      cs <- vget entity_colours v ;;
      if memb c cs then Ok true else colour_taken entity_colours t c
  end.

(** The loop at src/function.rs:318-333, with [left] colours left to try from [c]. *)
Fixpoint find_colour (entity_colours : list (list nat)) (indices : list nat) (left c : nat) : res nat :=
  match left with
  | 0 => Ok c
  | S left' =>
      found <- colour_taken entity_colours indices c ;;
      if found then find_colour entity_colours indices left' (S c) else Ok c
  end.

(** src/function.rs:336-342: a new class, in the entry of every cell type. *)
Definition new_class (g : grid) (t : cell_type) (cell : nat) (col : colour_map) : res colour_map :=
  foldM (fun col ct =>
           classes <- unwrap (assoc ct_eqb ct col) ;;
           Ok (assoc_insert ct_eqb ct (classes ++ [if ct_eqb ct t then [cell] else []]) col))
        (g_types g 2) col.

(** src/function.rs:344. *)
Definition old_class (t : cell_type) (cell c : nat) (col : colour_map) : res colour_map :=
  classes <- unwrap (assoc ct_eqb t col) ;;
  class <- vget classes c ;;
  classes' <- vset classes c (class ++ [cell]) ;;
  Ok (assoc_insert ct_eqb t classes' col).

(** src/function.rs:346-348. *)
Definition mark_colours (entity_colours : list (list nat)) (indices : list nat) (c : nat)
  : res (list (list nat)) :=
  foldM (fun ec v => row <- vget ec v ;; vset ec v (row ++ [c])) indices entity_colours.

(** The body of the loop over cells, src/function.rs:313-349. *)
Definition colour_cell (g : grid) (edim : nat) (st : colour_map * list (list nat)) (cell : nat)
  : res (colour_map * list (list nat)) :=
  let (col, entity_colours) := st in
  let t := g_ctype g cell in
  let indices := g_sub g cell edim in
  classes <- unwrap (assoc ct_eqb t col) ;;
  c <- find_colour entity_colours indices (length classes) 0 ;;
  col' <- (if c =? length classes then new_class g t cell col else old_class t cell c col) ;;
  entity_colours' <- mark_colours entity_colours indices c ;;
  Ok (col', entity_colours').

(** [cell_colouring], src/function.rs:281-351; [elements] are the elements of the
    space (src/function.rs:122-125). *)
Definition cell_colouring (g : grid) (fam : family) : res colour_map :=
  let elements := map (fun t => (t, fam t)) (g_types g 2) in
  let col := map (fun t => (t, [])) (g_types g 2) in
  t0 <- vget (g_types g 2) 0 ;;
  el <- unwrap (assoc ct_eqb t0 elements) ;;
  edim <- find_edim el 5 0 ;;
  n <- colour_table_size g edim ;;
  st <- foldM (colour_cell g edim) (g_iter g 2) (col, repeat [] n) ;;
  Ok (fst st).
