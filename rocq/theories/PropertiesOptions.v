(** * Properties C17 and C18: options *)
From Verif Require Import Base Topology Options SpecOptions OptionsResults.

(** C17: for every history of setter calls, every getter returns the argument of
    the last call for its key, or the default. *)
Theorem C17_options_history : forall calls,
  (forall t, supported t -> exists n, get_regular_quadrature_degree t (after calls) = Some n /\
     last_call (sel_regular t) 37 calls n) /\
  (forall tp, supported (fst tp) -> supported (snd tp) ->
     exists n, get_singular_quadrature_degree tp (after calls) = Some n /\ last_call (sel_singular tp) 4 calls n) /\
  last_call sel_batch 128 calls (get_batch_size (after calls)).
Proof. exact options_history. Qed.
Print Assumptions C17_options_history.

(** C18 is false: the setters ignore all other cell types, in every history. *)
Theorem C18_unsupported_types_ignored : forall calls,
  (forall t, ~ supported t -> get_regular_quadrature_degree t (after calls) = None) /\
  (forall tp, ~ (supported (fst tp) /\ supported (snd tp)) -> get_singular_quadrature_degree tp (after calls) = None).
Proof. exact unsupported_ignored. Qed.
Print Assumptions C18_unsupported_types_ignored.

Theorem C18_set_takes_effect_refuted : exists calls t n,
  get_regular_quadrature_degree t (after (calls ++ [SetRegular t n])) <> Some n.
Proof. exact set_refuted. Qed.
Print Assumptions C18_set_takes_effect_refuted.

Example C17_example :
  let o := after [SetRegular Triangle 5; SetSingular (Triangle, Quadrilateral) 7; SetRegular Triangle 6; SetBatch 1] in
  get_regular_quadrature_degree Triangle o = Some 6 /\ get_regular_quadrature_degree Quadrilateral o = Some 37 /\
  get_singular_quadrature_degree (Triangle, Quadrilateral) o = Some 7 /\
  get_singular_quadrature_degree (Quadrilateral, Triangle) o = Some 4 /\ get_batch_size o = 1.
Proof. vm_compute. auto. Qed.
