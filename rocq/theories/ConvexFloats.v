(** * Signs in floating point arithmetic *)
From Coq Require Import ZArith Bool Lia SpecFloat.
From Verif Require Import Base Scalar SpecPlanes SpecConvex.

Lemma round_sign prec emax m e l : not_above (binary_round_aux prec emax true m e l).
Proof.
  unfold binary_round_aux. destruct (shr_fexp prec emax m e l) as [mrs e']. destruct (shr_fexp prec emax _ e' loc_Exact) as [mrs' e'']. destruct (shr_m mrs') as [|p|p]; cbn; auto.
  destruct (Z.leb _ _); exact I.
Qed.

Lemma normalize_sign prec emax m e sz : (m <= 0)%Z -> not_above (binary_normalize prec emax m e sz).
Proof.
  intros H. unfold binary_normalize. destruct m as [|p|p]; [exact I|lia|]. unfold binary_round. destruct (shl_align _ _ _) as [mz ez]. apply round_sign.
Qed.

Lemma binary_signs prec emax limit : signs (binary prec emax limit) not_above (fun _ => False) not_below (fun _ => False).
Proof.
  constructor; cbn [binary s_zero s_add s_mul]; try contradiction.
  - exact I.
  - intros [s|s| |s m e] [s'|s'| |s' m' e'] H H'; cbn [SFadd]; try exact I; try exact H; try exact H';
      try (destruct s, s'; cbn in *; try contradiction; exact I).
    destruct s; [|contradiction H]. destruct s'; [|contradiction H']. apply normalize_sign. unfold cond_Zopp. lia.
  - intros [s|s| |s m e] [s'|s'| |s' m' e'] H H'; cbn [SFmul]; try exact I;
      try (destruct s, s'; cbn in *; try contradiction; exact I).
    destruct s; [|contradiction H]. destruct s'; [contradiction H'|]. apply round_sign.
Qed.
