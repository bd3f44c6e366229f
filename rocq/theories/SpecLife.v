(** * Specification vocabulary for the life of native objects behind Python *)
From Verif Require Import Base Python PythonLife.

(** What a program may reach: the module has been loaded and the actions carried
    out, exceptions caught. *)
Definition reached (l : list action) (s : life) : Prop :=
  exists s0, module_loaded = Returned s0 /\ act_all l s0 = Returned s.

(** An object is allocated at an address, and nothing else is. *)
Definition allocated (s : life) (h : nat) (t : thing) : Prop :=
  In (h, t) (l_heap s) /\ forall t', In (h, t') (l_heap s) -> t' = t.

(** The addresses of the options that are allocated, of the matrices. *)
Definition options_addresses (s : life) : list nat :=
  map fst (filter (fun x => match snd x with Options => true | _ => false end) (l_heap s)).
Definition matrix_addresses (s : life) : list nat :=
  map fst (filter (fun x => match snd x with Matrix => true | _ => false end) (l_heap s)).

(** How often a program makes options; how often a conversion runs out of memory. *)
Definition times_options (l : list action) : nat :=
  length (filter (fun a => match a with MakeOptions => true | _ => false end) l).
Definition times_no_memory (l : list action) : nat :=
  length (filter (fun a => match a with RunAssembleSingular _ NoMemory => true | _ => false end) l).

(** All that is left of the program are the objects the module itself holds. *)
Definition all_collected (s : life) : Prop :=
  l_assemblers s = [] /\ exists h, l_options s = [(0, h)].

(** The options passed, or the default argument. *)
Definition given_or_default (o : option nat) : nat := match o with Some i => i | None => 0 end.
