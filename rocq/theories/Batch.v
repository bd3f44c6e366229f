(** * Splitting work into batches

    The three batching loops of src/boundary_assemblers.rs.  [wmod] is the number of
    values of a [usize] (2^64 on the usual machines): it is a parameter of the model.
    An addition that overflows is a panic, as in a debug build. *)
From Verif Require Import Base.

(** [a + b] on [usize]. src/boundary_assemblers.rs:473-485, 599. *)
Definition usize_add (wmod a b : nat) : res nat :=
  if a + b <? wmod then Ok (a + b) else Panic.

(** [&v[a..b]]; a range outside the vector is a panic.
    src/boundary_assemblers.rs:486-487, 600. *)
Definition slice {A : Type} (l : list A) (a b : nat) : res (list A) :=
  if (a <=? b) && (b <=? length l) then Ok (firstn (b - a) (skipn a l)) else Panic.

(** The end of the batch: [if start + batch < len { start + batch } else { len }]
    (src/boundary_assemblers.rs:473-477, 481-485) and
    [min(start + batch, len)] (src/boundary_assemblers.rs:599). *)
Definition batch_end (wmod batch start len : nat) : res nat :=
  s <- usize_add wmod start batch ;; Ok (if s <? len then s else len).
(** src/boundary_assemblers.rs:599. *)
Definition batch_end_min (wmod batch start len : nat) : res nat :=
  s <- usize_add wmod start batch ;; Ok (Nat.min s len).

(** The loop [while start < cells.len() { .. }] of [make_cell_blocks],
    src/boundary_assemblers.rs:597-602; [fuel] bounds the number of iterations. *)
Fixpoint block_loop {A : Type} (fuel wmod batch : nat) (cells : list A) (start : nat) : res (list (list A)) :=
  if start <? length cells then
    match fuel with
    | 0 => Hang
    | S fuel' =>
        e <- batch_end_min wmod batch start (length cells) ;;
        b <- slice cells start e ;;
        rest <- block_loop fuel' wmod batch cells e ;;
        Ok (b :: rest)
    end
  else Ok [].

(** The loop over the blocks of all rules, src/boundary_assemblers.rs:594-603. *)
Definition cell_blocks_from {A : Type} (fuel wmod batch : nat) (cell_pairs : list (list A))
  : res (list (nat * list A)) :=
  bs <- mapM (fun ic => b <- block_loop fuel wmod batch (snd ic) 0 ;; Ok (map (fun x => (fst ic, x)) b))
             (enumerate cell_pairs) ;;
  Ok (concat bs).

(** The inner loop of the dense assembly, src/boundary_assemblers.rs:479-488: the
    pairs (test batch, trial batch) pushed for one test batch [tb]. *)
Fixpoint trial_loop {A : Type} (fuel wmod batch : nat) (tb trial_c : list A) (start : nat)
  : res (list (list A * list A)) :=
  if start <? length trial_c then
    match fuel with
    | 0 => Hang
    | S fuel' =>
        e <- batch_end wmod batch start (length trial_c) ;;
        b <- slice trial_c start e ;;
        rest <- trial_loop fuel' wmod batch tb trial_c e ;;
        Ok ((tb, b) :: rest)
    end
  else Ok [].

(** The outer loop, src/boundary_assemblers.rs:471-490.  The slice of the test cells
    is taken inside the inner loop in the code; the bounds are the same. *)
Fixpoint test_loop {A : Type} (fuel wmod batch : nat) (test_c trial_c : list A) (start : nat)
  : res (list (list A * list A)) :=
  if start <? length test_c then
    match fuel with
    | 0 => Hang
    | S fuel' =>
        e <- batch_end wmod batch start (length test_c) ;;
        b <- slice test_c start e ;;
        this <- trial_loop (S (length trial_c)) wmod batch b trial_c 0 ;;
        rest <- test_loop fuel' wmod batch test_c trial_c e ;;
        Ok (this ++ rest)
    end
  else Ok [].

(** The tasks of one pair of colours, src/boundary_assemblers.rs:468-492. *)
Definition dense_tasks {A : Type} (wmod batch : nat) (test_c trial_c : list A)
  : res (list (list A * list A)) :=
  test_loop (S (length test_c)) wmod batch test_c trial_c 0.
