(** * Shapes: the built-in grids

    Model of src/shapes.rs on the root process (on the other processes the
    functions only take part in the distribution of the grid, which is code of
    [ndgrid]). *)
From Verif Require Import Base Topology.

(** ** The grid builder

    [ndgrid::SingleElementGridBuilder] (src/shapes.rs:10), as far as it is used:
    the points and cells added so far, with their identifiers.  [add_point]
    panics on a repeated identifier, [add_cell] panics on a repeated identifier
    and if the number of points is not the number of points of a cell of the
    chosen degree.  External crate: an assumption on [ndgrid]. *)
Record builder (P : Type) : Type := mkBuilder {
  b_ppc : nat;                               (** points per cell *)
  b_points : list (nat * P);
  b_cells : list (nat * list nat)
}.
Arguments mkBuilder {P}.
Arguments b_ppc {P}.
Arguments b_points {P}.
Arguments b_cells {P}.

(** Number of points of a Lagrange geometry element of a degree.
    The degree is given at src/shapes.rs:29, 133, 191. *)
Definition points_per_cell (t : cell_type) (degree : nat) : nat :=
  match t with
  | Triangle => (degree + 1) * (degree + 2) / 2
  | Quadrilateral => (degree + 1) * (degree + 1)
  | _ => 0
  end.

(** [new_with_capacity], src/shapes.rs:25-30, 129-134, 187-192. *)
Definition new_builder {P : Type} (t : cell_type) (degree : nat) : builder P :=
  mkBuilder (points_per_cell t degree) [] [].

(** src/shapes.rs:103, 140-143, 198-201. *)
Definition add_point {P : Type} (b : builder P) (ip : nat * P) : res (builder P) :=
  if memb (fst ip) (map fst (b_points b)) then Panic
  else Ok (mkBuilder (b_ppc b) (b_points b ++ [ip]) (b_cells b)).

(** src/shapes.rs:106, 148-163, 206-214. *)
Definition add_cell {P : Type} (b : builder P) (ic : nat * list nat) : res (builder P) :=
  if memb (fst ic) (map fst (b_cells b)) then Panic
  else if length (snd ic) =? b_ppc b then Ok (mkBuilder (b_ppc b) (b_points b) (b_cells b ++ [ic]))
  else Panic.

(** ** Screens

    A point of a screen is kept as its pair of integer numerators; the
    coordinates are these divided by [ncells + 1] (src/shapes.rs:137,142), see
    [screen_denominator]. *)

(** [T::from(ncells + 1)], src/shapes.rs:137 and 195. *)
Definition screen_denominator (ncells : nat) : nat := ncells + 1.

(** The loop nest [for y in 0..m { for x in 0..m { body } }].
    src/shapes.rs:138-139, 146-147, 196-197, 204-205. *)
Definition grid_loop {S : Type} (m : nat) (body : nat -> nat -> S -> res S) (s : S) : res S :=
  foldM (fun s y => foldM (fun s x => body x y s) (seq 0 m) s) (seq 0 m) s.

(** src/shapes.rs:138-145 and 196-203. *)
Definition screen_points (ncells : nat) (b : builder (nat * nat)) : res (builder (nat * nat)) :=
  grid_loop (ncells + 1)
    (fun x y b => add_point b (y * (ncells + 1) + x, (x, y))) b.

(** [screen_triangles], src/shapes.rs:120-172, root process. *)
Definition screen_triangles (ncells : nat) : res (builder (nat * nat)) :=
  if ncells =? 0 then Panic
  else
    b <- screen_points ncells (new_builder Triangle 1) ;;
    grid_loop ncells
      (fun x y b =>
         b1 <- add_cell b (2 * y * ncells + 2 * x,
                 [y * (ncells + 1) + x;
                  y * (ncells + 1) + x + 1;
                  y * (ncells + 1) + x + ncells + 2]) ;;
         add_cell b1 (2 * y * ncells + 2 * x + 1,
                 [y * (ncells + 1) + x;
                  y * (ncells + 1) + x + ncells + 2;
                  y * (ncells + 1) + x + ncells + 1])) b.

(** [screen_quadrilaterals], src/shapes.rs:178-223, root process. *)
Definition screen_quadrilaterals (ncells : nat) : res (builder (nat * nat)) :=
  if ncells =? 0 then Panic
  else
    b <- screen_points ncells (new_builder Quadrilateral 1) ;;
    grid_loop ncells
      (fun x y b =>
         add_cell b (y * ncells + x,
                 [y * (ncells + 1) + x;
                  y * (ncells + 1) + x + 1;
                  y * (ncells + 1) + x + ncells + 1;
                  y * (ncells + 1) + x + ncells + 2])) b.

(** ** Sphere *)

(** The operations of the real scalar type [T] used in src/shapes.rs:34-36,
    79-87: constants, [+], [*], [/], unary minus and [Float::sqrt]. *)
Record real_ops : Type := mkRealOps {
  ro_T : Type;
  ro_zero : ro_T;
  ro_one : ro_T;
  ro_half : ro_T;
  ro_opp : ro_T -> ro_T;
  ro_add : ro_T -> ro_T -> ro_T;
  ro_mul : ro_T -> ro_T -> ro_T;
  ro_div : ro_T -> ro_T -> ro_T;
  ro_sqrt : ro_T -> ro_T
}.

Section Sphere.
Variable R : real_ops.
Let T := ro_T R.

(** [[T; 3]]. src/shapes.rs:32. *)
Definition vec3 : Type := (T * T * T)%type.

(** The new point of an edge, src/shapes.rs:79-87: midpoint, divided by its
    length; the sum of squares starts at zero ([Iterator::sum]). *)
Definition edge_midpoint (v_i v_j : vec3) : vec3 :=
  let '(a0, a1, a2) := v_i in
  let '(b0, b1, b2) := v_j in
  let p0 := ro_mul R (ro_half R) (ro_add R a0 b0) in
  let p1 := ro_mul R (ro_half R) (ro_add R a1 b1) in
  let p2 := ro_mul R (ro_half R) (ro_add R a2 b2) in
  let size := ro_sqrt R (ro_add R (ro_add R (ro_add R (ro_zero R) (ro_mul R p0 p0)) (ro_mul R p1 p1)) (ro_mul R p2 p2)) in
  (ro_div R p0 size, ro_div R p1 size, ro_div R p2 size).

(** The state of the refinement loop: [points], [point_n], [edge_points],
    [new_cells] (src/shapes.rs:32,45,60,61). *)
Record sphere_state : Type := mkSphere {
  sp_points : list vec3;
  sp_n : nat;
  sp_edges : list ((nat * nat) * nat);
  sp_cells : list (list nat)
}.

(** The closure at src/shapes.rs:70-93: the number of the point on the edge
    between vertices [pi] and [pj] (coordinates [vi], [vj]). *)
Definition edge_entry (st : sphere_state) (pi pj : nat) (vi vj : vec3) : sphere_state * nat :=
  let key := if pj <? pi then (pj, pi) else (pi, pj) in
  match assoc pair_eqb key (sp_edges st) with
  | Some n => (st, n)
  | None =>
      (mkSphere (sp_points st ++ [edge_midpoint vi vj]) (S (sp_n st))
                (sp_edges st ++ [(key, sp_n st)]) (sp_cells st),
       sp_n st)
  end.

(** The body of the loop over cells, src/shapes.rs:62-99. *)
Definition refine_cell (st : sphere_state) (c : list nat) : res sphere_state :=
  c0 <- vget c 0 ;; c1 <- vget c 1 ;; c2 <- vget c 2 ;;
  v0 <- vget (sp_points st) c0 ;;
  v1 <- vget (sp_points st) c1 ;;
  v2 <- vget (sp_points st) c2 ;;
  let (st0, e0) := edge_entry st c1 c2 v1 v2 in
  let (st1, e1) := edge_entry st0 c0 c2 v0 v2 in
  let (st2, e2) := edge_entry st1 c0 c1 v0 v1 in
  Ok (mkSphere (sp_points st2) (sp_n st2) (sp_edges st2)
        (sp_cells st2 ++ [[c0; e2; e1]; [c1; e0; e2]; [c2; e1; e0]; [e0; e1; e2]])).

(** One refinement, src/shapes.rs:60-100: points, [point_n], cells. *)
Definition refine_level (s : list vec3 * nat * list (list nat)) : res (list vec3 * nat * list (list nat)) :=
  let '(points, point_n, cells) := s in
  st <- foldM refine_cell cells (mkSphere points point_n [] []) ;;
  Ok (sp_points st, sp_n st, sp_cells st).

(** The octahedron, src/shapes.rs:38-56. *)
Definition octahedron_points : list vec3 :=
  [(ro_zero R, ro_zero R, ro_one R);
   (ro_one R, ro_zero R, ro_zero R);
   (ro_zero R, ro_one R, ro_zero R);
   (ro_opp R (ro_one R), ro_zero R, ro_zero R);
   (ro_zero R, ro_opp R (ro_one R), ro_zero R);
   (ro_zero R, ro_zero R, ro_opp R (ro_one R))].

(** Its cells, src/shapes.rs:47-56. *)
Definition octahedron_cells : list (list nat) :=
  [[0; 1; 2]; [0; 2; 3]; [0; 3; 4]; [0; 4; 1]; [5; 2; 1]; [5; 3; 2]; [5; 4; 3]; [5; 1; 4]].

(** The loop at src/shapes.rs:59-101. *)
Fixpoint refine_levels (levels : nat) (s : list vec3 * nat * list (list nat))
  : res (list vec3 * nat * list (list nat)) :=
  match levels with
  | 0 => Ok s
  | S l => s' <- refine_level s ;; refine_levels l s'
  end.

(** [regular_sphere], src/shapes.rs:19-114, root process. *)
Definition regular_sphere (refinement_level degree : nat) : res (builder vec3) :=
  '(points, _, cells) <- refine_levels refinement_level (octahedron_points, 6, octahedron_cells) ;;
  b <- foldM add_point (enumerate points) (new_builder Triangle degree) ;;
  foldM add_cell (enumerate cells) b.
End Sphere.

(** The capacities reserved at src/shapes.rs:27-28, 131-132, 189-191. *)
Definition sphere_point_capacity (level : nat) : nat := 2 + 4 ^ (level + 1).
(** src/shapes.rs:28. *)
Definition sphere_cell_capacity (level : nat) : nat := 8 * 4 ^ level.

(** The capacity reserved for the new cells of one refinement, src/shapes.rs:61. *)
Definition new_cells_capacity (level : nat) : nat := 8 * 6 ^ level.

(** The grid that is built on one process from the contents of a builder.
    [create_parallel_grid_root], src/shapes.rs:109, 167, 218. *)
Definition built_grid {P : Type} (id : nat) (t : cell_type) (b : builder P) : grid :=
  grid_of_cells id t (length (b_points b)) (map snd (b_cells b)).
