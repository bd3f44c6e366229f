(** * DofMap: assigning DOF numbers to mesh entities

    Model of [assign_dofs], src/function.rs:364-445. *)
From Verif Require Import Base Topology.

(** One entry of [OwnerData], src/function.rs:18: (process, dimension, entity
    number on that process, position among the DOFs of the entity). *)
Record owner_entry : Type := mkOwner {
  ow_rank : nat;
  ow_dim : nat;
  ow_ent : nat;
  ow_dof : nat
}.

(** The mutable state of [assign_dofs], and its result (src/function.rs:376-379,
    404, 444): [cell_dofs], [entity_dofs] (an array of 4), [size], [owner_data]. *)
Record dofmap : Type := mkDofmap {
  dm_cells : list (list nat);
  dm_ents : list (list (list nat));
  dm_size : nat;
  dm_owner : list owner_entry
}.

(** [Vec::is_empty], src/function.rs:423-424. *)
Definition is_empty {A : Type} (l : list A) : bool :=
  match l with [] => true | _ => false end.

(** One iteration of the loop at src/function.rs:425-435: [edofs_d[e].push(size)],
    the owner entry, [size += 1]. *)
Definition push_dof (rank : nat) (g : grid) (d e : nat) (st : dofmap) (dof_i : nat) : res dofmap :=
  edofs_d <- vget (dm_ents st) d ;;
  row <- vget edofs_d e ;;
  edofs_d' <- vset edofs_d e (row ++ [dm_size st]) ;;
  ents' <- vset (dm_ents st) d edofs_d' ;;
  own <- (if entity_exists g d e then Ok (g_own g d e) else Panic) ;;
  let entry :=
    match own with
    | Ghost process index => mkOwner process d index dof_i
    | _ => mkOwner rank d e dof_i
    end in
  Ok (mkDofmap (dm_cells st) ents' (S (dm_size st)) (dm_owner st ++ [entry])).

(** [cell_dofs[cell.local_index()][*local_dof] = *dof], src/function.rs:438. *)
Definition write_dof (c : nat) (st : dofmap) (p : nat * nat) : res dofmap :=
  row <- vget (dm_cells st) c ;;
  row' <- vset row (fst p) (snd p) ;;
  cells' <- vset (dm_cells st) c row' ;;
  Ok (mkDofmap cells' (dm_ents st) (dm_size st) (dm_owner st)).

(** The body of the loop over sub-entities, src/function.rs:421-441, for the
    [i]-th sub-entity [e] of dimension [d] of cell [c]. *)
Definition visit_sub (rank : nat) (g : grid) (c : nat) (el : element) (d : nat)
    (st : dofmap) (ie : nat * nat) : res dofmap :=
  let (i, e) := ie in
  e_dofs <- unwrap (el_edofs el d i) ;;
  if is_empty e_dofs then Ok st
  else
    edofs_d <- vget (dm_ents st) d ;;
    row <- vget edofs_d e ;;
    st1 <- (if is_empty row then foldM (push_dof rank g d e) (seq 0 (length e_dofs)) st
            else Ok st) ;;
    edofs_d1 <- vget (dm_ents st1) d ;;
    row1 <- vget edofs_d1 e ;;
    foldM (write_dof c) (combine e_dofs row1) st1.

(** The body of the loop over cells, src/function.rs:414-443. *)
Definition visit_cell (rank : nat) (g : grid) (elements : list (cell_type * element))
    (st : dofmap) (c : nat) : res dofmap :=
  el <- unwrap (assoc ct_eqb (g_ctype g c) elements) ;;
  cells' <- vset (dm_cells st) c (repeat 0 (el_dim el)) ;;
  foldM (fun st d => foldM (visit_sub rank g c el d) (enumerate (g_sub g c d)) st)
        (seq 0 (g_tdim g + 1))
        (mkDofmap cells' (dm_ents st) (dm_size st) (dm_owner st)).

(** [assign_dofs], src/function.rs:365-445.  The unused variable [max_rank]
    (lines 406-413) is left out: it has no effect. *)
Definition assign_dofs (rank : nat) (g : grid) (fam : family) : res dofmap :=
  let tdim := g_tdim g in
  let elements := map (fun t => (t, fam t)) (g_types g 2) in
  if 2 <? tdim then Panic
  else
    let ents := map (fun d => if d <=? tdim then repeat [] (ent_count g d) else []) (seq 0 4) in
    foldM (visit_cell rank g elements) (g_iter g tdim)
          (mkDofmap (repeat [] (ent_count g tdim)) ents 0 []).

(** [FunctionSpaceTrait::get_local_dof_numbers], src/function.rs:258-260 (it reads
    the entity table unchanged). *)
Definition get_local_dof_numbers (dm : dofmap) (d e : nat) : res (list nat) :=
  row <- vget (dm_ents dm) d ;; vget row e.

(** [FunctionSpaceTrait::cell_dofs_unchecked], src/function.rs:271-273. *)
Definition cell_dofs_unchecked (dm : dofmap) (c : nat) : res (list nat) := uget (dm_cells dm) c.

(** [FunctionSpaceTrait::cell_dofs], src/function.rs:274-280. *)
Definition cell_dofs (dm : dofmap) (c : nat) : res (option (list nat)) :=
  if c <? length (dm_cells dm) then r <- cell_dofs_unchecked dm c ;; Ok (Some r) else Ok None.
