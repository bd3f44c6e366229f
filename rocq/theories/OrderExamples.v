(** * The order of the additions: an example *)
From Coq Require Import ZArith Qcanon.
From Verif Require Import Base BaseFacts Topology DofMap Space Options Scalar Integrand CellPair Operators SpecLocal Interleave Assembly SpecAssembly
  AssemblyExamples LocalExamples AlgebraExamples SpecOrder OrderResults.
Local Open Scope nat_scope.

(** Three cells and one cell contribute to the entry [(1, 0)] of the matrix with
    linear test functions and constant trial functions. *)
Lemma order_example :
  order_setting Triangle screen2_p1 screen2_dp0 /\ same_dofs screen2_p1 screen2_p1 /\
  dense_setting demo_externals 256 demo_op demo_options (fun _ _ => 2) (fun _ => 2) Triangle screen2_p1 screen2_dp0 /\
  (forall k, contributes screen2_p1 screen2_dp0 1 0 k <-> In k [((0, 0), (1, 0)); ((2, 0), (0, 0)); ((3, 0), (0, 0))]).
Proof.
  split; [exact (dense_order _ _ _ _ _ _ _ _ _ demo_dense)|]. split; [repeat split|]. split; [exact demo_dense|].
  assert (N1 : ent_count (fs_grid screen2_p1) 2 = 8) by (vm_compute; reflexivity).
  assert (N2 : ent_count (fs_grid screen2_dp0) 2 = 8) by (vm_compute; reflexivity).
  assert (G : filter (fun k : (nat * nat) * (nat * nat) => match nth_error (dofs_at screen2_p1 (fst (fst k))) (fst (snd k)), nth_error (dofs_at screen2_dp0 (snd (fst k))) (snd (snd k)) with
      | Some i, Some j => (i =? 1) && (j =? 0) | _, _ => false end)
    (list_prod (list_prod (seq 0 8) (seq 0 8)) (list_prod (seq 0 3) (seq 0 1))) = [((0, 0), (1, 0)); ((2, 0), (0, 0)); ((3, 0), (0, 0))])
    by (vm_compute; reflexivity).
  assert (L1 : forallb (fun c => length (dofs_at screen2_p1 c) =? 3) (seq 0 8) = true) by (vm_compute; reflexivity).
  assert (L2 : forallb (fun c => length (dofs_at screen2_dp0 c) =? 1) (seq 0 8) = true) by (vm_compute; reflexivity).
  unfold label. intros [[t s] [a b]]. rewrite <- G. rewrite filter_In, !in_prod_iff, !in_seq. unfold contributes. cbn [fst snd]. rewrite N1, N2.
  rewrite forallb_forall in L1, L2. split.
  - intros (Ht & Hs & Ha & Hb). rewrite Ha, Hb. rewrite !Nat.eqb_refl. split; [|reflexivity].
    assert (A : a < 3). { assert (E := L1 t). rewrite in_seq, Nat.eqb_eq in E. rewrite <- E by lia. apply nth_error_Some. congruence. }
    assert (B : b < 1). { assert (E := L2 s). rewrite in_seq, Nat.eqb_eq in E. rewrite <- E by lia. apply nth_error_Some. congruence. }
    lia.
  - intros (((Ht & Hs) & _) & E). split; [lia|]. split; [lia|].
    destruct (nth_error (dofs_at screen2_p1 t) a) as [i|]; [|discriminate]. destruct (nth_error (dofs_at screen2_dp0 s) b) as [j|]; [|discriminate].
    apply andb_true_iff in E. rewrite !Nat.eqb_eq in E. destruct E as (-> & ->). auto.
Qed.
