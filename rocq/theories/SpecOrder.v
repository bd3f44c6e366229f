(** * Specification vocabulary: the order of the additions *)
From Verif Require Import Base Topology DofMap Space SpecAdjacency Assembly SpecAssembly.

(** A pair of basis functions: (test cell, trial cell), (test function, trial
    function). *)
Definition label : Type := (nat * nat) * (nat * nat).

(** The pair of basis functions belongs to the entry [(i, j)]. *)
Definition contributes {T R : Type} (test trial : fspace T R) (i j : nat) (k : label) : Prop :=
  let '((t, s), (a, b)) := k in
  t < ent_count (fs_grid test) 2 /\ s < ent_count (fs_grid trial) 2 /\
  nth_error (dofs_at test t) a = Some i /\ nth_error (dofs_at trial s) b = Some j.

(** Starting from [old], the values of the labels are added one after the other. *)
Definition accumulate {A : Type} (add : A -> A -> A) (val : nat -> nat -> nat -> nat -> A) (ks : list label) (old : A) : A :=
  fold_left (fun acc k => let '((t, s), (a, b)) := k in add acc (val t s a b)) ks old.

(** The same grid, elements and DOFs, possibly with other numbers. *)
Definition same_dofs {T R T' R' : Type} (fs : fspace T R) (fs' : fspace T' R') : Prop :=
  fs_grid fs = fs_grid fs' /\ fs_family fs = fs_family fs' /\ fs_space fs = fs_space fs'.

(** What fixes the order of the additions. *)
Record order_setting {T R : Type} (ct : cell_type) (test trial : fspace T R) : Prop := {
  od_test : serial_space test;
  od_trial : serial_space trial;
  od_same : same_object test trial;
  od_test_type : g_types (fs_grid test) 2 = [ct];
  od_trial_type : g_types (fs_grid trial) 2 = [ct];
  od_conforming : g_id (fs_grid test) = g_id (fs_grid trial) -> conforming (fs_grid test)
}.
