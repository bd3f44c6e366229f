(** * Specification vocabulary: first-fit colourings

    Only the order of the cells and the DOFs they share are looked at. *)
From Verif Require Import Base Topology DofMap SpecDof Colouring SpecColour.

(** Cell by cell, in the order of the grid: the colour of a cell is not that of an
    earlier cell with a common DOF, and every smaller colour is. *)
Definition first_fit (g : grid) (dm : dofmap) (colour : nat -> nat) : Prop :=
  forall earlier c later, g_iter g 2 = earlier ++ c :: later ->
    (forall c', In c' earlier -> conflict dm c c' -> colour c' <> colour c) /\
    (forall k, k < colour c -> exists c', In c' earlier /\ conflict dm c c' /\ colour c' = k).

(** The colours of the cells are [0 .. K - 1]. *)
Definition colours_used (g : grid) (colour : nat -> nat) (K : nat) : Prop :=
  (forall c, c < ent_count g 2 -> colour c < K) /\ (forall k, k < K -> exists c, c < ent_count g 2 /\ colour c = k).

(** The value [cell_colouring] has to return for these colours: for every cell type,
    [K] lists, each with the cells of that type and colour in the order of the grid. *)
Definition classes_of (g : grid) (colour : nat -> nat) (K : nat) : colour_map :=
  map (fun t => (t, map (fun k => filter (fun c => ct_eqb (g_ctype g c) t && (colour c =? k)) (g_iter g 2)) (seq 0 K)))
      (g_types g 2).

(** Entities of dimension [d] have DOFs and those of smaller dimension do not. *)
Definition lowest_dofs (types : list cell_type) (fam : family) (d : nat) : Prop :=
  d <= 2 /\
  forall t, In t types ->
    (forall e i, e < d -> i < ref_count t e -> el_edofs (fam t) e i = Some []) /\
    (forall i, i < ref_count t d -> exists x l, el_edofs (fam t) d i = Some (x :: l)).
