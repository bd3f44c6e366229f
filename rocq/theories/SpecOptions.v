(** * Specification vocabulary for options *)
From Verif Require Import Base Topology Options.

(** Calls of setters. *)
Inductive setter : Type :=
| SetRegular (t : cell_type) (n : nat)
| SetSingular (tp : cell_type * cell_type) (n : nat)
| SetBatch (n : nat).

Definition apply_setter (o : options) (s : setter) : options :=
  match s with
  | SetRegular t n => set_regular_quadrature_degree t n o
  | SetSingular tp n => set_singular_quadrature_degree tp n o
  | SetBatch n => set_batch_size n o
  end.

(** The options after a sequence of calls on the default options. *)
Definition after (calls : list setter) : options := fold_left apply_setter calls default_options.

(** [n] is the argument of the last call matching [sel], or [d] if there is none. *)
Definition last_call (sel : setter -> option nat) (d : nat) (calls : list setter) (n : nat) : Prop :=
  (exists before c later, calls = before ++ c :: later /\ sel c = Some n /\
     forall c', In c' later -> sel c' = None) \/
  ((forall c, In c calls -> sel c = None) /\ n = d).

Definition sel_regular (t : cell_type) (s : setter) : option nat :=
  match s with SetRegular t' n => if ct_eqb t t' then Some n else None | _ => None end.
Definition sel_singular (tp : cell_type * cell_type) (s : setter) : option nat :=
  match s with SetSingular tp' n => if ctp_eqb tp tp' then Some n else None | _ => None end.
Definition sel_batch (s : setter) : option nat :=
  match s with SetBatch n => Some n | _ => None end.

(** The cell types that have rules. *)
Definition supported (t : cell_type) : Prop := t = Triangle \/ t = Quadrilateral.
