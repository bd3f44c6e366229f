(** * Integrals of monomials over the reference cells *)
From Coq Require Import Reals Lra Lia.
From Verif Require Import Base Topology SpecDegree.

Local Open Scope R_scope.

Lemma integral_same f g a b v : (forall x, g x = f x) -> integral f a b v -> integral g a b v.
Proof. intros E (F & D & V). exists F. split; [|exact V]. intros x. rewrite E. apply D. Qed.

Lemma integral_scale c f a b v : integral f a b v -> integral (fun x => c * f x) a b (c * v).
Proof. intros (F & D & <-). exists (fun x => c * F x). split; [|ring]. intros x. now apply (derivable_pt_lim_scal F). Qed.

Lemma integral_power j b : integral (fun y => y ^ j) 0 b (b ^ (j + 1) / INR (j + 1)).
Proof.
  assert (P : INR (S j) <> 0) by (apply not_0_INR; lia). replace (j + 1)%nat with (S j) by lia.
  exists (fun y => / INR (S j) * y ^ S j). split.
  - intros x. replace (x ^ j) with (/ INR (S j) * (INR (S j) * x ^ j)) by (field; exact P). apply (derivable_pt_lim_scal (fun y => y ^ S j)). exact (derivable_pt_lim_pow x (S j)).
  - rewrite pow_i by lia. field. exact P.
Qed.

Lemma remaining_power m x : derivable_pt_lim (fun y => (1 - y) ^ S m) x (- (INR (S m) * (1 - x) ^ m)).
Proof.
  replace (- (INR (S m) * (1 - x) ^ m)) with (INR (S m) * (1 - x) ^ m * (0 - 1)) by ring.
  apply (derivable_pt_lim_comp (fun y => 1 - y) (fun z => z ^ S m)).
  - apply (derivable_pt_lim_minus (fun _ => 1) (fun y => y)); [apply derivable_pt_lim_const|apply derivable_pt_lim_id].
  - exact (derivable_pt_lim_pow (1 - x) (S m)).
Qed.

Lemma integral_beta m : forall i, integral (fun x => x ^ i * (1 - x) ^ m) 0 1 (INR (fact i) * INR (fact m) / INR (fact (i + m + 1))).
Proof.
  induction m as [|m IH]; intros i.
  - apply (integral_same (fun x => x ^ i)); [intros; cbn; ring|]. replace (INR (fact i) * INR (fact 0) / INR (fact (i + 0 + 1))) with (1 ^ (i + 1) / INR (i + 1)); [apply integral_power|].
    rewrite pow1. replace (i + 0 + 1)%nat with (S i) by lia. replace (i + 1)%nat with (S i) by lia. rewrite fact_simpl, mult_INR. change (INR (fact 0)) with 1. assert (P : INR (S i) <> 0) by (apply not_0_INR; lia). field. split; [apply INR_fact_neq_0|exact P].
  - destruct (IH (S i)) as (G & DG & VG). assert (P : INR (S i) <> 0) by (apply not_0_INR; lia). assert (Pm : INR (S m) <> 0) by (apply not_0_INR; lia).
    exists (fun x => / INR (S i) * (x ^ S i * (1 - x) ^ S m) + INR (S m) / INR (S i) * G x). split.
    + intros x. replace (x ^ i * (1 - x) ^ S m) with (/ INR (S i) * ((INR (S i) * x ^ i) * (1 - x) ^ S m + x ^ S i * - (INR (S m) * (1 - x) ^ m)) + INR (S m) / INR (S i) * (x ^ S i * (1 - x) ^ m)) by (field; exact P).
      apply (derivable_pt_lim_plus (fun x => / INR (S i) * (x ^ S i * (1 - x) ^ S m)) (fun x => INR (S m) / INR (S i) * G x)).
      * apply (derivable_pt_lim_scal (fun x => x ^ S i * (1 - x) ^ S m)). apply (derivable_pt_lim_mult (fun x => x ^ S i) (fun x => (1 - x) ^ S m)); [exact (derivable_pt_lim_pow x (S i))|apply remaining_power].
      * apply (derivable_pt_lim_scal G). apply DG.
    + rewrite (pow_i (S i)) by lia. replace (1 - 1) with 0 by ring. rewrite (pow_i (S m)) by lia.
      replace (/ INR (S i) * (1 ^ S i * 0) + INR (S m) / INR (S i) * G 1 - (/ INR (S i) * (0 * (1 - 0) ^ S m) + INR (S m) / INR (S i) * G 0)) with (INR (S m) / INR (S i) * (G 1 - G 0)) by ring.
      rewrite VG. replace (i + S m + 1)%nat with (S i + m + 1)%nat by lia. rewrite (fact_simpl i), (fact_simpl m), !mult_INR. field. split; [apply INR_fact_neq_0|exact P].
Qed.

Theorem monomial_integrals t i j : t = Triangle \/ t = Quadrilateral -> cell_integral t (fun x y => x ^ i * y ^ j) (monomial_integral t i j).
Proof.
  intros [-> | ->]; cbn [monomial_integral].
  - exists (fun x => x ^ i * ((1 - x) ^ (j + 1) / INR (j + 1))). assert (P : INR (S j) <> 0) by (apply not_0_INR; lia). split.
    + intros x. apply integral_scale, integral_power.
    + apply (integral_same (fun x => / INR (j + 1) * (x ^ i * (1 - x) ^ (j + 1)))); [intros; unfold Rdiv; ring|].
      replace (INR (fact i) * INR (fact j) / INR (fact (i + j + 2))) with (/ INR (j + 1) * (INR (fact i) * INR (fact (j + 1)) / INR (fact (i + (j + 1) + 1)))); [apply integral_scale, integral_beta|].
      replace (i + (j + 1) + 1)%nat with (i + j + 2)%nat by lia. replace (j + 1)%nat with (S j) by lia. rewrite (fact_simpl j), mult_INR. field. split; [apply INR_fact_neq_0|exact P].
  - exists (fun x => x ^ i * (1 ^ (j + 1) / INR (j + 1))). split.
    + intros x. apply integral_scale, integral_power.
    + apply (integral_same (fun x => 1 / INR (j + 1) * x ^ i)); [intros; rewrite pow1; ring|].
      replace (1 / (INR (i + 1) * INR (j + 1))) with (1 / INR (j + 1) * (1 ^ (i + 1) / INR (i + 1))); [apply integral_scale, integral_power|].
      rewrite pow1. field. split; apply not_0_INR; lia.
Qed.

(** There is only one value. *)
Lemma integral_unique f a b v w : integral f a b v -> integral f a b w -> v = w.
Proof.
  intros (F & DF & <-) (G & DG & <-).
  assert (C : forall x y, x < y -> F y - G y = F x - G x).
  { intros x y L. destruct (MVT_cor2 (fun z => F z - G z) (fun z => f z - f z) x y L) as (c & E & _); [intros; now apply (derivable_pt_lim_minus F G)|]. lra. }
  destruct (Rtotal_order a b) as [L|[->|L]]; [specialize (C _ _ L); lra|lra|specialize (C _ _ L); lra].
Qed.

Theorem cell_integral_unique t f v w : cell_integral t f v -> cell_integral t f w -> v = w.
Proof.
  intros (g & A & B) (h & C & D). apply (integral_unique g 0 1); [exact B|]. apply (integral_same h); [|exact D]. intros x. exact (integral_unique _ _ _ _ _ (A x) (C x)).
Qed.
