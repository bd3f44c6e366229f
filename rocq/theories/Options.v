(** * Options of the boundary assembler

    Model of [BoundaryAssemblerOptions], src/boundary_assemblers.rs:32-100. *)
From Verif Require Import Base Topology.

(** Equality of the keys of [singular_quadrature_degrees].
    src/boundary_assemblers.rs:38. *)
Definition ctp_eqb (a b : cell_type * cell_type) : bool :=
  ct_eqb (fst a) (fst b) && ct_eqb (snd a) (snd b).

(** src/boundary_assemblers.rs:34-41. *)
Record options : Type := mkOptions {
  o_quadrature_degrees : list (cell_type * nat);
  o_singular_degrees : list ((cell_type * cell_type) * nat);
  o_batch_size : nat
}.

(** [Default::default], src/boundary_assemblers.rs:43-57. *)
Definition default_options : options :=
  mkOptions [(Triangle, 37); (Quadrilateral, 37)]
    [((Triangle, Triangle), 4); ((Quadrilateral, Quadrilateral), 4);
     ((Quadrilateral, Triangle), 4); ((Triangle, Quadrilateral), 4)]
    128.

(** [map.entry(k).and_modify(|x| *x = v)]: leaves the map alone if the key is not
    there (src/boundary_assemblers.rs:62-64, 78-80). *)
Definition and_modify {K V : Type} (eqb : K -> K -> bool) (k : K) (v : V) (m : list (K * V))
  : list (K * V) :=
  map (fun kv => if eqb k (fst kv) then (fst kv, v) else kv) m.

(** src/boundary_assemblers.rs:61-65. *)
Definition set_regular_quadrature_degree (t : cell_type) (npoints : nat) (o : options) : options :=
  mkOptions (and_modify ct_eqb t npoints (o_quadrature_degrees o)) (o_singular_degrees o) (o_batch_size o).

(** src/boundary_assemblers.rs:68-70. *)
Definition get_regular_quadrature_degree (t : cell_type) (o : options) : option nat :=
  assoc ct_eqb t (o_quadrature_degrees o).

(** src/boundary_assemblers.rs:73-81. *)
Definition set_singular_quadrature_degree (tp : cell_type * cell_type) (npoints : nat) (o : options) : options :=
  mkOptions (o_quadrature_degrees o) (and_modify ctp_eqb tp npoints (o_singular_degrees o)) (o_batch_size o).

(** src/boundary_assemblers.rs:84-89. *)
Definition get_singular_quadrature_degree (tp : cell_type * cell_type) (o : options) : option nat :=
  assoc ctp_eqb tp (o_singular_degrees o).

(** src/boundary_assemblers.rs:92-94. *)
Definition set_batch_size (n : nat) (o : options) : options :=
  mkOptions (o_quadrature_degrees o) (o_singular_degrees o) n.

(** src/boundary_assemblers.rs:97-99. *)
Definition get_batch_size (o : options) : nat := o_batch_size o.
