(** * Properties C102 and C103: native grids made for Python grids *)
From Verif Require Import Base Topology Options Python SpecPython PythonBorrow SpecPythonBorrow PythonBorrowResults PythonBorrowExamples PythonExamples.

(** C102.  After any history, the native grid behind every live space describes the
    Python grid of the space: cell types and scalar type in the numbers of the
    library, dimensions, numbers of points and cells and degree. *)
Theorem C102_translated : forall E H types d h w m s p, proper_headers H types d -> borrow_history E H h w m -> In (s, p) (w_spaces w) ->
  exists a i b, use_space s w = Return (a, NGrid (ps_grid p), NFamily i) w /\ assoc Nat.eqb a (me_grids m) = Some b /\
    describes H (types (ps_grid p)) (d (ps_grid p)) (ps_grid p) b.
Proof.
  exact (fun E H types d h w m s p P Hh I => match live_grid E H types d h w m s p P Hh I with
    | ex_intro _ a (ex_intro _ i (ex_intro _ b (conj U (conj Eb (conj D _))))) =>
        ex_intro _ a (ex_intro _ i (ex_intro _ b (conj U (conj Eb D)))) end).
Qed.
Print Assumptions C102_translated.

(** C102.  On a grid that is still there, making a space reads no memory that is gone
    and finds every key. *)
Theorem C102_no_bad_read : forall E H types d h w m g, proper_headers H types d -> borrow_history E H h w m -> ~ In g (me_collected m) ->
  exists m', space_memory H E g w m = Recreated m'.
Proof. exact no_bad_read. Qed.
Print Assumptions C102_no_bad_read.

(** C102.  The containers of the data are all freed. *)
Theorem C102_nothing_left : forall E H types d h w m, proper_headers H types d -> borrow_history E H h w m ->
  me_containers m = [] /\ me_locals m = [].
Proof. exact nothing_left. Qed.
Print Assumptions C102_nothing_left.

(** C102.  Numbers of cell types or scalar types this library does not know raise a
    [KeyError] before a native grid is made; the container of the data stays. *)
Theorem C102_unknown_type : forall H g a m i k, cd_tdim (hd_cdata H g) < length (cd_entity_types (hd_cdata H g)) ->
  i <= cd_tdim (hd_cdata H g) -> nth_error (cd_entity_types (hd_cdata H g)) i = Some k -> (forall t, hd_grid_cell H t <> k) ->
  exists m', recreate_memory H g a m = KeyError m' /\ me_grids m' = me_grids m /\ me_containers m' = me_calls m :: me_containers m.
Proof. exact unknown_type. Qed.
Print Assumptions C102_unknown_type.

Theorem C102_unknown_dtype : forall H g a m, cd_tdim (hd_cdata H g) < length (cd_entity_types (hd_cdata H g)) ->
  (forall d, d <> OtherDtype -> hd_grid_dtype H d <> cd_dtype (hd_cdata H g)) ->
  exists m', recreate_memory H g a m = KeyError m' /\ me_grids m' = me_grids m /\ me_containers m' = me_calls m :: me_containers m.
Proof. exact unknown_dtype. Qed.
Print Assumptions C102_unknown_dtype.

Example C102_unknown_met : cd_tdim (hd_cdata newer_headers 0) < length (cd_entity_types (hd_cdata newer_headers 0)) /\
  nth_error (cd_entity_types (hd_cdata newer_headers 0)) 2 = Some 8 /\ forall t, hd_grid_cell newer_headers t <> 8.
Proof. exact newer_unknown. Qed.

Example C102_hypotheses_met : proper_headers demo_headers demo_types demo_dtype /\
  exists w, borrow_history demo_outside demo_headers [Created 0 0; Created 0 1; Created 1 1; Deleted 2] w final_memory /\
    map (fun x => (fst x, ps_grid (snd x))) (w_spaces w) = [(1, 0); (0, 0)].
Proof. exact (conj demo_proper demo_borrow). Qed.

(** C103 is false: a live space can have a native grid with a pointer to memory that
    is gone. *)
Theorem C103_refuted : exists E H types d h w m s a g i b q, proper_headers H types d /\ borrow_history E H h w m /\
  use_space s w = Return (a, NGrid g, NFamily i) w /\ assoc Nat.eqb a (me_grids m) = Some b /\ readable m (bo_pointer b q) = false.
Proof.
  exact (match demo_dangling with ex_intro _ w (ex_intro _ a (ex_intro _ i (ex_intro _ b (conj Hh (conj U (conj Eb R)))))) =>
    ex_intro _ demo_outside (ex_intro _ demo_headers (ex_intro _ demo_types (ex_intro _ demo_dtype (ex_intro _ _ (ex_intro _ w (ex_intro _ final_memory
      (ex_intro _ 0 (ex_intro _ a (ex_intro _ 0 (ex_intro _ i (ex_intro _ b (ex_intro _ EntityTypes
        (conj demo_proper (conj Hh (conj U (conj Eb R)))))))))))))))) end).
Qed.
Print Assumptions C103_refuted.

(** What holds: the pointers of the native grid of a live space that can be read are
    exactly those into the memory of the Python grid.  The pointer to the entity
    types and those into the container of the data never can. *)
Theorem C103_readable : forall E H types d h w m s p, proper_headers H types d -> borrow_history E H h w m -> In (s, p) (w_spaces w) ->
  exists a i b, use_space s w = Return (a, NGrid (ps_grid p), NFamily i) w /\ assoc Nat.eqb a (me_grids m) = Some b /\
    forall q, readable m (bo_pointer b q) = true <-> q <> EntityTypes /\ cd_place (hd_cdata H (ps_grid p)) q = InGrid.
Proof.
  exact (fun E H types d h w m s p P Hh I => match live_grid E H types d h w m s p P Hh I with
    | ex_intro _ a (ex_intro _ i (ex_intro _ b (conj U (conj Eb (conj _ Q))))) =>
        ex_intro _ a (ex_intro _ i (ex_intro _ b (conj U (conj Eb Q)))) end).
Qed.
Print Assumptions C103_readable.
