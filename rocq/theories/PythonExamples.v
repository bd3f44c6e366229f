(** * Examples of histories of the Python layer *)
From Verif Require Import Base Topology Options Python SpecPython.
From Coq Require Import ZArith.

(** Two grids and two families, everything supported. *)
Definition demo_outside : outside :=
  mkOutside (fun _ => true) (fun f => mkFamilyInfo LagrangeFamily (S f) true) (fun _ => true) (fun _ _ => true).

Definition demo_events : list event := [Created 0 0; Created 0 1; Created 1 1; Deleted 0; Created 0 0; Deleted 2].

(** Run events, for examples. *)
Definition run_event (E : outside) (e : event) : py unit :=
  match e with
  | Created g f => fun w => match function_space E g f w with Return _ w' => Return tt w' | _ => Undefined end
  | Failed g f => fun w => match function_space E g f w with Raise w' => Return tt w' | _ => Undefined end
  | Deleted s => delete_space s
  end.
Fixpoint run_events (E : outside) (h : list event) : py unit :=
  match h with
  | [] => py_return tt
  | e :: h' => run_event E e ;; run_events E h'
  end%py.

Lemma run_history : forall E h0 w0 h w, history E h0 w0 -> run_events E h w0 = Return tt w -> history E (h0 ++ h) w.
Proof.
  intros E h0 w0 h. revert h0 w0. induction h as [|e h IH]; intros h0 w0 w H R.
  - cbn in R. injection R as <-. now rewrite app_nil_r.
  - cbn in R. unfold py_bind in R. replace (h0 ++ e :: h) with ((h0 ++ [e]) ++ h) by now rewrite <- app_assoc.
    destruct e as [g f|g f|s]; cbn in R.
    + destruct (function_space E g f w0) as [s w'| | |] eqn:F; try discriminate R. apply (IH _ w'); [|exact R]. exact (history_created E h0 w0 g f s w' H F).
    + destruct (function_space E g f w0) as [s w'|w'| |] eqn:F; try discriminate R. apply (IH _ w'); [|exact R]. exact (history_failed E h0 w0 g f w' H F).
    + destruct (delete_space s w0) as [u w'| | |] eqn:F; try discriminate R. destruct u. apply (IH _ w'); [|exact R].
      apply (history_deleted E h0 w0 s w' H); [|exact F]. unfold delete_space in F.
      destruct (assoc Nat.eqb s (w_spaces w0)) eqn:A; [|discriminate F].
      clear - A. induction (w_spaces w0) as [|[x p'] l IH]; [discriminate A|]. cbn in *. destruct (Nat.eqb_spec s x) as [->|]; [left; reflexivity|right; auto].
Qed.

(** Run calls, for examples: the session and which calls raised. *)
Fixpoint run_calls (cs : list call) (s : session) : option (session * list bool) :=
  match cs with
  | [] => Some (s, [])
  | c :: cs' =>
      match execute c s with
      | Done s' => match run_calls cs' s' with Some (s'', l) => Some (s'', false :: l) | None => None end
      | Raised s' => match run_calls cs' s' with Some (s'', l) => Some (s'', true :: l) | None => None end
      | Aborted => None
      end
  end.

Definition demo_calls : list call :=
  [NewOptions; SetRegularDegree 1 Triangle 5; SetRegularDegree 1 Interval 5; SetBatchSize 1 (-1);
   CreateLaplaceAssembler (Some 1) SingleLayerOp F64; SetRegularDegree 1 Triangle 6; CreateLaplaceAssembler None DoubleLayerOp F32; SetBatchSize 0 4].
