(** * Serial: function spaces on one process

    Model of [LocalFunctionSpace], src/function/function_space/serial.rs:16-180.  The
    directory src/function/function_space is not part of the module tree; it is the
    earlier form of the spaces, that the bindings for Python still name. *)
From Verif Require Import Base Topology DofMap Colouring.

(** [LocalFunctionSpace], serial.rs:16-26 (the grid and the family are kept to have
    the elements at hand; [owner_data] is dropped at line 43). *)
Record local_space : Type := mkLocal {
  ls_grid : grid;
  ls_family : family;
  ls_entity_dofs : list (list (list nat));
  ls_cell_dofs : list (list nat);
  ls_size : nat
}.

(** [LocalFunctionSpace::new], serial.rs:35-57.  [assign_dofs] of common.rs:17-96 is
    line by line the function at src/function.rs:364-445. *)
Definition local_new (g : grid) (fam : family) : res local_space :=
  dm <- assign_dofs 0 g fam ;;
  Ok (mkLocal g fam (dm_ents dm) (dm_cells dm) (dm_size dm)).

(** serial.rs:82-84. *)
Definition local_get_local_dof_numbers (ls : local_space) (d e : nat) : res (list nat) :=
  row <- vget (ls_entity_dofs ls) d ;; vget row e.
(** serial.rs:85-87. *)
Definition local_is_serial (ls : local_space) : bool := true.
(** serial.rs:88-90. *)
Definition local_local_size (ls : local_space) : nat := ls_size ls.
(** serial.rs:91-93. *)
Definition local_global_size (ls : local_space) : nat := ls_size ls.
(** serial.rs:94-96. *)
Definition local_cell_dofs_unchecked (ls : local_space) (c : nat) : res (list nat) := uget (ls_cell_dofs ls) c.
(** serial.rs:97-103. *)
Definition local_cell_dofs (ls : local_space) (c : nat) : res (option (list nat)) :=
  if c <? length (ls_cell_dofs ls) then r <- local_cell_dofs_unchecked ls c ;; Ok (Some r) else Ok None.
(** serial.rs:103-173, line by line src/function.rs:281-351. *)
Definition local_cell_colouring (ls : local_space) : res colour_map := cell_colouring (ls_grid ls) (ls_family ls).
(** serial.rs:174-176. *)
Definition local_global_dof_index (ls : local_space) (i : nat) : res nat := Ok i.
(** serial.rs:177-179. *)
Definition local_ownership (ls : local_space) (i : nat) : res ownership := Ok Owned.
