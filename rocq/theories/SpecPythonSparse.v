(** * Specification vocabulary: matrices in compressed rows *)
From Verif Require Import Base Scalar Assembly SpecAssembly PythonSparse.

(** The arrays of a matrix in compressed rows fit together: row [i] is the part of
    the other two arrays from [indptr i] to [indptr (i + 1)]. *)
Record compressed {T : Type} (m : csr_arrays T) : Prop := {
  co_rows : length (cs_indptr m) = fst (cs_shape m) + 1;
  co_first : nth_error (cs_indptr m) 0 = Some 0;
  co_last : nth_error (cs_indptr m) (fst (cs_shape m)) = Some (length (cs_data m));
  co_order : forall i b e, nth_error (cs_indptr m) i = Some b -> nth_error (cs_indptr m) (i + 1) = Some e -> b <= e;
  co_lengths : length (cs_indices m) = length (cs_data m);
  co_columns : forall j, In j (cs_indices m) -> j < snd (cs_shape m)
}.

(** Entry [(i, j)]. *)
Definition csr_entry {T R : Type} (S : scalar T R) (m : csr_arrays T) (i j : nat) : T :=
  match nth_error (cs_indptr m) i, nth_error (cs_indptr m) (i + 1) with
  | Some b, Some e => total S (firstn (e - b) (skipn b (combine (cs_indices m) (cs_data m)))) (fun x => if fst x =? j then snd x else s_zero S)
  | _, _ => s_zero S
  end.

(** What is assumed of [CsrMatrix::from_aij]: if it accepts triplets that are inside
    the matrix, it compresses them and adds those at the same place. *)
Definition adds_up {T R : Type} (S : scalar T R) (from_aij : aij_function T) : Prop :=
  forall shape rows cols data m, length rows = length data -> length cols = length data ->
    (forall i, In i rows -> i < fst shape) -> (forall j, In j cols -> j < snd shape) ->
    from_aij shape rows cols data = Some m ->
    cs_shape m = shape /\ compressed m /\
    forall i j, i < fst shape -> csr_entry S m i j =
      total S (combine (combine rows cols) data) (fun x => if (fst (fst x) =? i) && (snd (fst x) =? j) then snd x else s_zero S).
