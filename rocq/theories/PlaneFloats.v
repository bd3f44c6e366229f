(** * Zeros in floating point arithmetic *)
From Coq Require Import ZArith SpecFloat.
From Verif Require Import Base Scalar SpecPlanes.

Theorem binary_zeros prec emax limit : zeros (binary prec emax limit) float_zero float_finite.
Proof.
  constructor; cbn [binary s_zero s_add s_neg s_mul].
  - now exists false.
  - intros x y (s & ->) (t & ->). cbn [SFadd]. destruct (Bool.eqb s t); eexists; reflexivity.
  - intros x (s & ->). eexists. reflexivity.
  - intros x y (s & ->) [(t & ->)|(t & m & e & ->)]; eexists; reflexivity.
  - intros x y [(t & ->)|(t & m & e & ->)] (s & ->); eexists; reflexivity.
Qed.

Lemma binary_sub prec emax limit x y : float_zero x -> float_zero y -> float_zero (s_sub (binary prec emax limit) x y).
Proof. intros (s & ->) (t & ->). cbn [binary s_sub SFsub]. destruct (Bool.eqb s (negb t)); eexists; reflexivity. Qed.

Theorem binary_small prec emax m e x : float_zero x -> s_large (binary prec emax (S754_finite false m e)) x = false.
Proof. intros (s & ->). reflexivity. Qed.

Theorem pairs_zeros {F : Type} (S : scalar F F) zero fin large : zeros S zero fin -> (forall x y, zero x -> zero y -> zero (s_sub S x y)) ->
  zeros (pairs_of S large) (both zero) (both fin).
Proof.
  intros [H0 Ha Hn Hl Hr] Hs. constructor; cbn [pairs_of s_zero s_add s_neg s_mul]; unfold both; cbn [fst snd].
  - auto.
  - intros x y (? & ?) (? & ?). auto.
  - intros x (? & ?). auto.
  - intros x y (? & ?) (? & ?). split; [apply Hs|apply Ha]; auto.
  - intros x y (? & ?) (? & ?). split; [apply Hs|apply Ha]; auto.
Qed.

Theorem complex_binary_zeros prec emax limit large : zeros (pairs_of (binary prec emax limit) large) (both float_zero) (both float_finite).
Proof. apply pairs_zeros; [apply binary_zeros|apply binary_sub]. Qed.

(** The limits of the two formats are the numbers with the full number of digits that are
    nearest to [10 ^ -10]. *)
Lemma binary_limits : forall S prec, (S, prec) = (binary64, 53%Z) \/ (S, prec) = (binary32, 24%Z) -> exists m e,
  (forall x, s_large S x = SFltb (S754_finite false m e) (SFabs x)) /\
  (2 ^ (prec - 1) <= Zpos m < 2 ^ prec)%Z /\ (e < 0)%Z /\ (2 * Z.abs (Zpos m * 10 ^ 10 - 2 ^ (- e)) <= 10 ^ 10)%Z.
Proof.
  intros S prec [H | H]; injection H as -> ->; eexists; eexists; (split; [intros x; reflexivity|]); (split; [split; [discriminate|reflexivity]|]); (split; [reflexivity|discriminate]).
Qed.

(** The range of the two formats. *)
Lemma binary_range : forall S x one, (S, x, one) = (binary64, S754_finite false 9007199254740991 971, S754_finite false 4503599627370496 (-52)) \/
    (S, x, one) = (binary32, S754_finite false 16777215 104, S754_finite false 8388608 (-23)) ->
  s_add S x (S754_zero false) = x /\ s_sub S x (S754_zero false) = x /\ s_mul S x one = x /\ s_div S x one = x /\ r_mul S x one = x /\
  s_add S x one = x /\ s_sub S x one = x /\ s_add S x x = S754_infinity false /\ s_sub S (s_neg S x) x = S754_infinity true /\
  s_mul S x x = S754_infinity false /\ r_mul S x x = S754_infinity false /\ s_div S x (s_div S one x) = S754_infinity false.
Proof. intros S x one [H|H]; apply pair_equal_spec in H; destruct H as (H & ->); apply pair_equal_spec in H; destruct H as (-> & ->); vm_compute; repeat split. Qed.
