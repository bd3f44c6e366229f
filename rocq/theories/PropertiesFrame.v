(** * Property C134: the isometries of the screens *)
From Coq Require Import Reals.
From Verif Require Import Base Topology Shapes SpecShapes SpecSphere SpecScreen SpecToeplitz SpecCensus SpecFrame FrameResults.

Local Open Scope R_scope.

(** C134: the maps of space that keep distances and map cells to cells are the symmetries of the square, for
    triangles those of them that keep the direction of the diagonals, at every size. *)
Theorem C134_only : forall n ct b T, n <> 0%nat -> screen n ct b ->
  (rigid T /\ screen_mapped n b T <-> exists swap f g h, (ct = Triangle -> f = g) /\ forall p, T p = square_map (INR n / INR (n + 1)) swap f g h p).
Proof. exact screen_census. Qed.
Print Assumptions C134_only.

(** Each of them is counted once: 16 maps for quadrilaterals, 8 for triangles. *)
Theorem C134_once : forall n swap f g h swap' f' g' h', n <> 0%nat ->
  ((forall p, square_map (INR n / INR (n + 1)) swap f g h p = square_map (INR n / INR (n + 1)) swap' f' g' h' p) <-> swap = swap' /\ f = f' /\ g = g' /\ h = h').
Proof. exact screen_count. Qed.
Print Assumptions C134_once.

(** The quarter turn about the centre is a symmetry of the screens of quadrilaterals only. *)
Theorem C134_quarter : forall n ct b, n <> 0%nat -> screen n ct b ->
  (screen_mapped n b (fun p => let '(x, y, z) := p in (INR n / INR (n + 1) - y, x, z)) <-> ct = Quadrilateral).
Proof. exact quarter_turn. Qed.
Print Assumptions C134_quarter.

(** No screen is symmetric about the centre of the unit square. *)
Theorem C134_unit_square : forall n ct b h, n <> 0%nat -> screen n ct b -> ~ screen_mapped n b (square_map 1 false true true h).
Proof. exact unit_square_centre. Qed.
Print Assumptions C134_unit_square.

(** With the order of the vertices, as C97 asks for, only the reflection in the plane of the screen is left. *)
Theorem C134_order : forall n ct b T, n <> 0%nat -> screen n ct b ->
  (rigid T /\ screen_mapped_in_order n b T <-> (forall p, T p = p) \/ (forall x y z, T (x, y, z) = (x, y, - z))).
Proof. exact in_order_census. Qed.
Print Assumptions C134_order.

(** Screens with two cells per side: a point reflection with exchange maps the triangles, the reflection of one
    coordinate does not, and it maps the quadrilaterals. *)
Example C134_example : exists bt bq, screen 2 Triangle bt /\ screen 2 Quadrilateral bq /\
  screen_mapped 2 bt (square_map (2 / 3) true true true false) /\ ~ screen_mapped 2 bt (square_map (2 / 3) false true false false) /\ screen_mapped 2 bq (square_map (2 / 3) false true false false) /\
  square_map (2 / 3) true true true false (1 / 3, 0, 0) = (2 / 3, 1 / 3, 0).
Proof. exact frame_example. Qed.

(** The exchange of the first two coordinates maps the quadrilaterals, but not with the order of their vertices. *)
Example C134_order_example : exists b, screen 2 Quadrilateral b /\ screen_mapped_in_order 2 b (fun p => let '(x, y, z) := p in (x, y, - z)) /\
  ~ screen_mapped_in_order 2 b (square_map (2 / 3) true false false false) /\ screen_mapped 2 b (square_map (2 / 3) true false false false).
Proof. exact order_example. Qed.
