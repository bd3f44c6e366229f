(** * Property C109: the cell colouring is the first-fit colouring *)
From Verif Require Import Base BaseFacts Topology TopologyFacts DofMap SpecDof DofMapResults DofExamples ColouringExamples
  Colouring SpecColour SpecFit Shapes SpecShapes FitResults FitScreens FitExamples.

(** The colours are those of first fit in the order of the grid, and the value
    returned lists the cells of every type and colour in that order. *)
Theorem C109_first_fit : forall rank g fam dm, wf_grid g -> wf_family (g_types g 2) fam -> head_dim_pos g fam -> assign_dofs rank g fam = Ok dm ->
  exists colour K, first_fit g dm colour /\ colours_used g colour K /\ cell_colouring g fam = Ok (classes_of g colour K).
Proof. exact first_fit_holds. Qed.
Print Assumptions C109_first_fit.

(** There is only one first fit, so it determines the value returned. *)
Theorem C109_unique : forall g dm colour colour', wf_grid g -> first_fit g dm colour -> first_fit g dm colour' ->
  forall c, c < ent_count g 2 -> colour c = colour' c.
Proof. exact first_fit_unique. Qed.
Print Assumptions C109_unique.

Theorem C109_determined : forall rank g fam dm colour K, wf_grid g -> wf_family (g_types g 2) fam -> head_dim_pos g fam -> assign_dofs rank g fam = Ok dm ->
  first_fit g dm colour -> colours_used g colour K -> cell_colouring g fam = Ok (classes_of g colour K).
Proof. exact first_fit_determines. Qed.
Print Assumptions C109_determined.

(** Two spaces on one grid in which the same pairs of cells share DOFs have the same
    colouring. *)
Theorem C109_same_conflicts : forall rank rank' g fam fam' dm dm', wf_grid g ->
  wf_family (g_types g 2) fam -> head_dim_pos g fam -> assign_dofs rank g fam = Ok dm ->
  wf_family (g_types g 2) fam' -> head_dim_pos g fam' -> assign_dofs rank' g fam' = Ok dm' ->
  (forall c c', c < ent_count g 2 -> c' < ent_count g 2 -> c <> c' -> (conflict dm c c' <-> conflict dm' c c')) ->
  cell_colouring g fam = cell_colouring g fam'.
Proof. exact same_conflicts_same_colours. Qed.
Print Assumptions C109_same_conflicts.

(** In particular two elements with the same lowest dimension of entities with DOFs,
    such as Lagrange elements of any two degrees. *)
Theorem C109_same_lowest : forall g fam fam' d, wf_grid g -> lowest_dofs (g_types g 2) fam d -> lowest_dofs (g_types g 2) fam' d ->
  cell_colouring g fam = cell_colouring g fam'.
Proof. exact same_lowest_same_colours. Qed.
Print Assumptions C109_same_lowest.

Theorem C109_lagrange_lowest : forall types p, (forall t, In t types -> surface_type t) -> 1 <= p -> lowest_dofs types (lagrange p) 0.
Proof. exact lagrange_lowest. Qed.
Print Assumptions C109_lagrange_lowest.

(** The colour of square [(x, y)] of a quadrilateral screen. *)
Theorem C109_quadrilaterals : forall n b i p, screen_quadrilaterals n = Ok b -> 1 <= p ->
  cell_colouring (built_grid i Quadrilateral b) (lagrange p) =
  Ok (classes_of (built_grid i Quadrilateral b) (fun c => (c mod n) mod 2 + 2 * ((c / n) mod 2)) (if n =? 1 then 1 else 4)).
Proof. exact quads_colours. Qed.
Print Assumptions C109_quadrilaterals.

(** The number of colours of a triangle screen. *)
Theorem C109_triangles : forall n b i p col K, screen_triangles n = Ok b -> 1 <= p ->
  cell_colouring (built_grid i Triangle b) (lagrange p) = Ok col -> class_count col K -> K <= 7 /\ (4 <= n -> K = 7).
Proof. exact triangles_colours. Qed.
Print Assumptions C109_triangles.

(** Non-vacuity: the eight triangles of [screen_triangles(2)]; a proper colouring
    that is not first fit; a grid with two cell types; screens. *)
Example C109_hypotheses_met : exists dm, wf_grid screen2 /\ wf_family (g_types screen2 2) (lagrange 2) /\ head_dim_pos screen2 (lagrange 2) /\
  assign_dofs 0 screen2 (lagrange 2) = Ok dm /\ first_fit screen2 dm screen2_colour /\ colours_used screen2 screen2_colour 6 /\
  cell_colouring screen2 (lagrange 2) = Ok [(Triangle, [[0; 5]; [1; 2]; [3]; [4]; [6]; [7]])] /\
  classes_of screen2 screen2_colour 6 = [(Triangle, [[0; 5]; [1; 2]; [3]; [4]; [6]; [7]])].
Proof. exact screen2_fit. Qed.

Example C109_not_all_proper_colourings : forall dm, assign_dofs 0 screen2 (lagrange 2) = Ok dm ->
  (forall c c', c <> c' -> conflict dm c c' -> (fun c : nat => c) c <> c') /\ ~ first_fit screen2 dm (fun c => c).
Proof. exact own_colours_not_first_fit. Qed.

Example C109_computed :
  cell_colouring mixed_grid (lagrange 1) = Ok [(Triangle, [[]; [1]]); (Quadrilateral, [[0]; []])] /\
  cell_colouring mixed_grid (lagrange 4) = cell_colouring mixed_grid (lagrange 1) /\
  cell_colouring mixed_grid (interior_only (fun _ => 1)) <> cell_colouring mixed_grid (lagrange 1) /\
  lowest_dofs (g_types mixed_grid 2) (lagrange 4) 0 /\ lowest_dofs (g_types mixed_grid 2) (interior_only (fun _ => 1)) 2 /\
  (exists b, screen_quadrilaterals 3 = Ok b /\
     cell_colouring (built_grid 0 Quadrilateral b) (lagrange 2) = Ok [(Quadrilateral, [[0; 2; 6; 8]; [1; 7]; [3; 5]; [4]])]) /\
  (exists b, screen_triangles 4 = Ok b /\ exists l, cell_colouring (built_grid 0 Triangle b) (lagrange 1) = Ok [(Triangle, l)] /\ length l = 7 /\ nth 6 l [] = [29]).
Proof. exact fit_examples. Qed.
