(** * Batches: the statements of C19 and C20 *)
From Verif Require Import Base BaseFacts Batch SpecBatch BatchFacts.

Lemma batches_tile : forall (A : Type) (wmod batch : nat),
  0 < batch -> batch < wmod ->
  (forall (pairs : list (list A)), (forall c, In c pairs -> fits wmod c) ->
     forall fuel, (forall c, In c pairs -> length c <= fuel) ->
     exists blocks, cell_blocks_from fuel wmod batch pairs = Ok blocks /\
       (forall ib, In ib blocks -> fst ib < length pairs /\ 0 < length (snd ib) <= batch) /\
       flat_map (fun ib => map (fun x => (fst ib, x)) (snd ib)) blocks =
       flat_map (fun ic => map (fun x => (fst ic, x)) (snd ic)) (enumerate pairs)) /\
  (forall (test_c trial_c : list A), fits wmod test_c -> fits wmod trial_c ->
     exists bs bt, tiles batch test_c bs /\ tiles batch trial_c bt /\
       dense_tasks wmod batch test_c trial_c = Ok (list_prod bs bt)).
Proof.
  intros A wmod batch Hb Hw. split.
  - intros pairs Hf fuel Hl.
    destruct (cell_blocks_from_spec fuel wmod batch pairs Hb Hw) as (bss & L & N & E); [auto|].
    exists (concat bss). split; [exact E|]. split.
    + intros ib Hin. apply in_concat in Hin. destruct Hin as (bs' & Hbs & Hin).
      apply In_nth_error in Hbs. destruct Hbs as [i Hi].
      assert (Hlt : i < length pairs) by (rewrite <- L; apply nth_error_Some; congruence).
      destruct (nth_error pairs i) as [c|] eqn:Ec; [|apply nth_error_None in Ec; lia].
      destruct (N i c Ec) as (bs & Hbs & [_ Ht]). rewrite Hbs in Hi. inversion Hi; subst bs'.
      apply in_map_iff in Hin. destruct Hin as (b & <- & Hb'). cbn. auto.
    + clear E Hf Hl. unfold enumerate.
      assert (G : forall k, (forall i c, nth_error pairs i = Some c ->
                 exists bs, nth_error bss i = Some (map (fun b => (k + i, b)) bs) /\ tiles batch c bs) ->
        flat_map (fun ib => map (fun x => (fst ib, x)) (snd ib)) (concat bss) =
        flat_map (fun ic => map (fun x => (fst ic, x)) (snd ic)) (combine (seq k (length pairs)) pairs)).
      { clear N. revert bss L. induction pairs as [|c pairs IH]; intros bss L k N.
        - destruct bss; [reflexivity|discriminate].
        - destruct bss as [|bs0 bss]; [discriminate|].
          destruct (N 0 c eq_refl) as (bs & Hbs & [Hc _]). cbn in Hbs. inversion Hbs; subst bs0.
          cbn [concat length seq combine flat_map fst snd]. rewrite flat_map_app.
          f_equal.
          + rewrite concat_map_pair, Hc, Nat.add_0_r. reflexivity.
          + apply IH; [cbn in L; lia|]. intros i c' Hi. destruct (N (S i) c' Hi) as (bs2 & H2 & T2).
            exists bs2. cbn in H2. rewrite <- plus_n_Sm in H2. auto. }
      apply (G 0). exact N.
  - intros tc l H1 H2. now apply dense_tasks_spec.
Qed.

(** Batch size 0: the loops do not end. *)
Lemma batch_zero_hangs : forall (A : Type) (wmod : nat), 0 < wmod ->
  (forall (cells : list A) fuel, cells <> [] -> block_loop fuel wmod 0 cells 0 = Hang) /\
  (forall (tb trial_c : list A) fuel, trial_c <> [] -> trial_loop fuel wmod 0 tb trial_c 0 = Hang) /\
  (forall (test_c trial_c : list A) fuel, test_c <> [] -> trial_c <> [] ->
     test_loop fuel wmod 0 test_c trial_c 0 = Hang).
Proof.
  intros A wmod Hw. split; [|split].
  - intros cells fuel H. apply block_loop_zero; auto. destruct cells; cbn; [congruence|lia].
  - intros. now apply trial_loop_zero.
  - intros tc l fuel H1 H2. apply test_loop_zero; auto. destruct tc; cbn; [congruence|lia].
Qed.

Lemma batch_zero_refuted : exists (cells : list nat),
  forall fuel wmod, 0 < wmod -> block_loop fuel wmod 0 cells 0 = Hang.
Proof. exists [0]. intros fuel wmod H. apply (batch_zero_hangs nat wmod H). discriminate. Qed.
