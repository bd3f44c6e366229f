(** * Properties C19 and C20: batches *)
From Verif Require Import Base Batch SpecBatch BatchResults.

(** C19: for every positive batch size that is a [usize], and lists that fit in
    memory, the blocks of the singular part are non-empty, not larger than the batch
    size, and in order make up the lists they were cut from; the tasks of the dense
    part are all pairs of a test and a trial batch, which tile the two lists.  No
    addition overflows and no slice is out of range. *)
Theorem C19_batches_tile : forall (A : Type) (wmod batch : nat),
  0 < batch -> batch < wmod ->
  (forall (pairs : list (list A)), (forall c, In c pairs -> fits wmod c) ->
     forall fuel, (forall c, In c pairs -> length c <= fuel) ->
     exists blocks, cell_blocks_from fuel wmod batch pairs = Ok blocks /\
       (forall ib, In ib blocks -> fst ib < length pairs /\ 0 < length (snd ib) <= batch) /\
       flat_map (fun ib => map (fun x => (fst ib, x)) (snd ib)) blocks =
       flat_map (fun ic => map (fun x => (fst ic, x)) (snd ic)) (enumerate pairs)) /\
  (forall (test_c trial_c : list A), fits wmod test_c -> fits wmod trial_c ->
     exists bs bt, tiles batch test_c bs /\ tiles batch trial_c bt /\
       dense_tasks wmod batch test_c trial_c = Ok (list_prod bs bt)).
Proof. exact batches_tile. Qed.
Print Assumptions C19_batches_tile.

(** C20 is false: with batch size 0 no number of iterations ends the loops. *)
Theorem C20_batch_zero_never_ends : forall (A : Type) (wmod : nat), 0 < wmod ->
  (forall (cells : list A) fuel, cells <> [] -> block_loop fuel wmod 0 cells 0 = Hang) /\
  (forall (tb trial_c : list A) fuel, trial_c <> [] -> trial_loop fuel wmod 0 tb trial_c 0 = Hang) /\
  (forall (test_c trial_c : list A) fuel, test_c <> [] -> trial_c <> [] ->
     test_loop fuel wmod 0 test_c trial_c 0 = Hang).
Proof. exact batch_zero_hangs. Qed.
Print Assumptions C20_batch_zero_never_ends.

Theorem C20_termination_refuted : exists (cells : list nat),
  forall fuel wmod, 0 < wmod -> block_loop fuel wmod 0 cells 0 = Hang.
Proof. exact batch_zero_refuted. Qed.
Print Assumptions C20_termination_refuted.

Example C19_example :
  cell_blocks_from 5 256 2 [[10; 11; 12]; []; [13]] = Ok [(0, [10; 11]); (0, [12]); (2, [13])] /\
  cell_blocks_from 5 256 255 [[10; 11; 12]; []; [13]] = Ok [(0, [10; 11; 12]); (2, [13])] /\
  dense_tasks 256 2 [0; 1; 2] [5; 6; 7] =
    Ok [([0; 1], [5; 6]); ([0; 1], [7]); ([2], [5; 6]); ([2], [7])].
Proof. vm_compute. auto. Qed.
