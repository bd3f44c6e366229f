(** * The local matrices: results *)
From Verif Require Import Base BaseFacts Scalar Integrand CellPair Operators SpecLocal LocalFacts.

Section Results.
Context {T R : Type} (S : scalar T R).

Lemma last_test_app h1 h2 d : last_test (h1 ++ h2) d = last_test h2 (last_test h1 d).
Proof. revert d. induction h1 as [|[c|c|] t IH]; intros d; cbn; auto. Qed.

Lemma last_trial_app h1 h2 d : last_trial (h1 ++ h2) d = last_trial h2 (last_trial h1 d).
Proof. revert d. induction h1 as [|[c|c|] t IH]; intros d; cbn; auto. Qed.

(** The state after a history, of which [lt] and [ls] are the last cells. *)
Definition singular_state (su : setup) (tev : evaluator R) (w : list R) (nk n dt ds : nat) (lt ls : option nat)
    (st : @singular_assembler T R * array T) : Prop :=
  sa_setup (fst st) = su /\ sa_test_ev (fst st) = tev /\ sa_weights (fst st) = w /\
  a_shape (sa_k (fst st)) = [nk; n] /\ length (a_data (sa_k (fst st))) = nk * n /\
  (exists x, holds n x (sa_test (fst st)) /\ forall t, lt = Some t -> x = ev_cell tev t) /\
  (exists x, holds n x (sa_trial (fst st)) /\ forall s, ls = Some s -> x = ev_cell (su_trial_ev su) s) /\
  a_shape (snd st) = [dt; ds].

Theorem singular_history op n vt vs dt ds ft fs (tev sev : evaluator R) w h (m0 : array T) :
  fitting op -> 0 < vt -> 0 < vs -> ev_npts tev = n -> ev_npts sev = n -> length w = n -> a_shape m0 = [dt; ds] ->
  exists a m,
    foldM (singular_call S) h
      (singular_new S n (op_deriv_size op)
         (mkSetup (op_integrand op) (op_kernel op) sev
            (tabulated (op_table_derivs op) n dt vt ft) (tabulated (op_table_derivs op) n ds vs fs)) tev w, m0) = Ok (a, m) /\
    forall t s, last_test h None = Some t -> last_trial h None = Some s ->
    exists a' m', singular_assemble S a m = Ok (a', m') /\ a_shape m' = [dt; ds] /\ length (a_data m') = dt * ds /\
      forall i j, i < dt -> j < ds ->
        aget m' [i; j] = Ok (pairwise_entry S (op_integrand op) (kn_value (op_kernel op)) (ev_cell tev t) (ev_cell sev s)
          (fun d p b => ft d p b 0) (fun d p b => fs d p b 0) w i j).
Proof.
  intros F Hvt Hvs Et Es Lw Sm. set (su := mkSetup _ _ _ _ _).
  assert (Fit := F). destruct F as (Fc & Fk & Fd).
  assert (Call : forall lt ls st, singular_state su tev w (op_deriv_size op) n dt ds lt ls st ->
    exists xt xs, holds n xt (sa_test (fst st)) /\ (forall t, lt = Some t -> xt = ev_cell tev t) /\
      holds n xs (sa_trial (fst st)) /\ (forall s, ls = Some s -> xs = ev_cell sev s) /\
      singular_assemble S (fst st) (snd st) =
      Ok (mkSingular su tev
            (mkArray [op_deriv_size op; n]
               (table2 (op_deriv_size op) n (fun i p => kn_value (op_kernel op) i (position xt p) (position xs p))))
            (sa_test (fst st)) (sa_trial (fst st)) w (sa_test_cell (fst st)) (sa_trial_cell (fst st)),
          mkArray [dt; ds] (table2 dt ds (pairwise_entry S (op_integrand op) (kn_value (op_kernel op)) xt xs
            (fun d p b => ft d p b 0) (fun d p b => fs d p b 0) w)))).
  { intros lt ls [a m] (A1 & A2 & A3 & A4 & A5 & (xt & A6 & A7) & (xs & A8 & A9) & A10). cbn [fst snd] in *.
    exists xt, xs. split; [auto|]. split; [auto|]. split; [auto|]. split; [auto|].
    rewrite (singular_assemble_Ok S a m op n vt vs dt ds ft fs xt xs); auto; try (rewrite A1; reflexivity).
    - rewrite A1, A2, A3. reflexivity.
    - now rewrite A3. }
  enough (St : exists st, foldM (singular_call S) h (singular_new S n (op_deriv_size op) su tev w, m0) = Ok st /\
     singular_state su tev w (op_deriv_size op) n dt ds (last_test h None) (last_trial h None) st).
  { destruct St as ([a m] & E & I). exists a, m. split; [exact E|]. intros t s Hlt Hls.
    destruct (Call _ _ _ I) as (xt & xs & Ht & Xt & Hs & Xs & EA). cbn [fst snd] in EA.
    eexists _, _. split; [exact EA|]. split; [reflexivity|]. split; [apply length_table2|].
    intros i j Hi Hj. rewrite aget_table2 by auto. now rewrite (Xt t Hlt), (Xs s Hls). }
  apply (foldM_inv (singular_call S)
    (fun done st => singular_state su tev w (op_deriv_size op) n dt ds (last_test done None) (last_trial done None) st)).
  - cbn. repeat split; cbn [fst snd singular_new sa_setup sa_test_ev sa_weights sa_k sa_test sa_trial new_array a_shape a_data]; auto.
    + rewrite repeat_length. unfold size_of. cbn. lia.
    + exists (zero_map S). split; [apply new_arrays_hold|discriminate].
    + exists (zero_map S). split; [apply new_arrays_hold|discriminate].
  - intros done x rest st Eh I. rewrite last_test_app, last_trial_app.
    destruct (Call _ _ _ I) as (xt & xs & Ht & Xt & Hs & Xs & EA).
    destruct st as [a m]. cbn [fst snd] in *.
    destruct I as (A1 & A2 & A3 & A4 & A5 & (xt' & A6 & A7) & (xs' & A8 & A9) & A10). cbn [fst snd] in *.
    destruct x as [c|c|]; cbn [singular_call fst snd last_test last_trial].
    + unfold singular_set_test. rewrite (write_arrays_Ok _ c xt) by now rewrite A2, Et. cbn [bind].
      eexists. split; [reflexivity|]. repeat split; cbn [fst snd sa_setup sa_test_ev sa_weights sa_k sa_test sa_trial]; auto.
      * exists (ev_cell tev c). split; [rewrite A2, <- Et; apply arrays_of_holds|]. congruence.
      * eauto.
    + unfold singular_set_trial. rewrite A1. cbn [su_trial_ev su].
      rewrite (write_arrays_Ok _ c xs) by now rewrite Es. cbn [bind].
      eexists. split; [reflexivity|]. repeat split; cbn [fst snd sa_setup sa_test_ev sa_weights sa_k sa_test sa_trial]; auto.
      * eauto.
      * exists (ev_cell sev c). split; [rewrite <- Es; apply arrays_of_holds|]. cbn [su_trial_ev su]. congruence.
    + rewrite EA. eexists. split; [reflexivity|].
      repeat split; cbn [fst snd sa_setup sa_test_ev sa_weights sa_k sa_test sa_trial a_shape a_data]; auto.
      * apply length_table2.
      * eauto.
      * eauto.
Qed.

Definition nonsingular_state (su : setup) (tev : evaluator R) (cells : list nat) (wt ws : list R)
    (nk nt ns dt ds : nat) (lt ls : option nat) (st : @nonsingular_assembler T R * array T) : Prop :=
  na_setup (fst st) = su /\ na_tests (fst st) = map (arrays_of tev) cells /\
  na_test_weights (fst st) = wt /\ na_trial_weights (fst st) = ws /\
  a_shape (na_k (fst st)) = [nk; nt; ns] /\ length (a_data (na_k (fst st))) = nk * nt * ns /\
  (forall c i, assoc Nat.eqb c (na_test_indices (fst st)) = Some i -> nth_error cells i = Some c) /\
  (forall c, In c cells -> assoc Nat.eqb c (na_test_indices (fst st)) <> None) /\
  (exists c, nth_error cells (na_test_cell (fst st)) = Some c /\ forall t, lt = Some t -> c = t) /\
  (exists x, holds ns x (na_trial (fst st)) /\ forall s, ls = Some s -> x = ev_cell (su_trial_ev su) s) /\
  a_shape (snd st) = [dt; ds].

Theorem nonsingular_history op nt ns vt vs dt ds ft fs (tev sev : evaluator R) cells wt ws h (m0 : array T) :
  fitting op -> 0 < vt -> 0 < vs -> ev_npts tev = nt -> ev_npts sev = ns -> length wt = nt -> length ws = ns ->
  a_shape m0 = [dt; ds] -> cells <> [] -> (forall c, In (SetTest c) h -> In c cells) ->
  exists a0, nonsingular_new S nt ns (op_deriv_size op) cells
      (mkSetup (op_integrand op) (op_kernel op) sev
         (tabulated (op_table_derivs op) nt dt vt ft) (tabulated (op_table_derivs op) ns ds vs fs)) tev wt ws = Ok a0 /\
  exists a m, foldM (nonsingular_call S) h (a0, m0) = Ok (a, m) /\
    forall t s, last_test h None = Some t -> last_trial h None = Some s ->
    exists a' m', nonsingular_assemble S a m = Ok (a', m') /\ a_shape m' = [dt; ds] /\ length (a_data m') = dt * ds /\
      forall i j, i < dt -> j < ds ->
        aget m' [i; j] = Ok (tensor_entry S (op_integrand op) (kn_value (op_kernel op)) (ev_cell tev t) (ev_cell sev s)
          (fun d p b => ft d p b 0) (fun d p b => fs d p b 0) wt ws i j).
Proof.
  intros F Hvt Hvs Et Es Lwt Lws Sm Ne Hin. set (su := mkSetup _ _ _ _ _).
  assert (Fit := F). destruct F as (Fc & Fk & Fd).
  assert (Call : forall lt ls st, nonsingular_state su tev cells wt ws (op_deriv_size op) nt ns dt ds lt ls st ->
    exists c xs, nth_error cells (na_test_cell (fst st)) = Some c /\ (forall t, lt = Some t -> c = t) /\
      holds ns xs (na_trial (fst st)) /\ (forall s, ls = Some s -> xs = ev_cell sev s) /\
      nonsingular_assemble S (fst st) (snd st) =
      Ok (mkNonsingular su
            (mkArray [op_deriv_size op; nt; ns]
               (table3 (op_deriv_size op) nt ns (fun i p q => kn_value (op_kernel op) i (position (ev_cell tev c) p) (position xs q))))
            (na_tests (fst st)) (na_trial (fst st)) wt ws (na_test_cell (fst st)) (na_trial_cell (fst st)) (na_test_indices (fst st)),
          mkArray [dt; ds] (table2 dt ds (tensor_entry S (op_integrand op) (kn_value (op_kernel op)) (ev_cell tev c) xs
            (fun d p b => ft d p b 0) (fun d p b => fs d p b 0) wt ws)))).
  { intros lt ls [a m] (A1 & A2 & A3 & A4 & A5 & A6 & A7 & A8 & (c & A9 & A10) & (xs & A11 & A12) & A13). cbn [fst snd] in *.
    exists c, xs. split; [auto|]. split; [auto|]. split; [auto|]. split; [auto|].
    rewrite (nonsingular_assemble_Ok S a m op nt ns vt vs dt ds ft fs (arrays_of tev c) (ev_cell tev c) xs); auto; try (rewrite A1; reflexivity).
    - rewrite A1, A3, A4. reflexivity.
    - now rewrite A3.
    - now rewrite A4.
    - rewrite A2. now apply map_nth_error.
    - rewrite <- Et. apply arrays_of_holds. }
  destruct (nonsingular_new_Ok S nt ns (op_deriv_size op) cells su tev wt ws Et) as (ind & En & I1 & I2).
  eexists. split; [exact En|].
  set (a0 := mkNonsingular _ _ _ _ _ _ _ _ _) in *.
  enough (St : exists st, foldM (nonsingular_call S) h (a0, m0) = Ok st /\
     nonsingular_state su tev cells wt ws (op_deriv_size op) nt ns dt ds (last_test h None) (last_trial h None) st).
  { destruct St as ([a m] & E & I). exists a, m. split; [exact E|]. intros t s Hlt Hls.
    destruct (Call _ _ _ I) as (c & xs & Hc & Xt & Hs & Xs & EA). cbn [fst snd] in EA.
    eexists _, _. split; [exact EA|]. split; [reflexivity|]. split; [apply length_table2|].
    intros i j Hi Hj. rewrite aget_table2 by auto. now rewrite (Xt t Hlt), (Xs s Hls). }
  apply (foldM_inv (nonsingular_call S)
    (fun done st => nonsingular_state su tev cells wt ws (op_deriv_size op) nt ns dt ds (last_test done None) (last_trial done None) st)).
  - cbn. repeat split; cbn [a0 fst snd na_setup na_tests na_test_weights na_trial_weights na_k na_test_indices na_test_cell na_trial new_array a_shape a_data]; auto.
    + rewrite repeat_length. unfold size_of. cbn. lia.
    + destruct cells as [|c cells']; [congruence|]. exists c. split; [reflexivity|discriminate].
    + exists (zero_map S). split; [apply new_arrays_hold|discriminate].
  - intros done x rest st Eh I. rewrite last_test_app, last_trial_app.
    destruct (Call _ _ _ I) as (c0 & xs & Hc & Xt & Hs & Xs & EA).
    destruct st as [a m]. cbn [fst snd] in *.
    destruct I as (A1 & A2 & A3 & A4 & A5 & A6 & A7 & A8 & (c' & A9 & A10) & (xs' & A11 & A12) & A13). cbn [fst snd] in *.
    destruct x as [c|c|]; cbn [nonsingular_call fst snd last_test last_trial].
    + unfold nonsingular_set_test.
      assert (Hcc : In c cells) by (apply Hin; rewrite Eh; apply in_or_app; right; now left).
      apply A8 in Hcc. destruct (assoc Nat.eqb c (na_test_indices a)) as [i|] eqn:Ei; [|congruence].
      cbn [unwrap bind]. eexists. split; [reflexivity|].
      repeat split; cbn [fst snd na_setup na_tests na_test_weights na_trial_weights na_k na_test_indices na_test_cell na_trial]; auto.
      * exists c. split; [now apply A7|congruence].
      * eauto.
    + unfold nonsingular_set_trial. rewrite A1. cbn [su_trial_ev su].
      rewrite (write_arrays_Ok _ c xs) by now rewrite Es. cbn [bind].
      eexists. split; [reflexivity|].
      repeat split; cbn [fst snd na_setup na_tests na_test_weights na_trial_weights na_k na_test_indices na_test_cell na_trial]; auto.
      * eauto.
      * exists (ev_cell sev c). split; [rewrite <- Es; apply arrays_of_holds|]. cbn [su_trial_ev su]. congruence.
    + rewrite EA. eexists. split; [reflexivity|].
      repeat split; cbn [fst snd na_setup na_tests na_test_weights na_trial_weights na_k na_test_indices na_test_cell na_trial a_shape a_data]; auto.
      * apply length_table3.
      * eauto.
      * eauto.
Qed.

(** A cell that is not in the batch is refused. *)
Theorem nonsingular_set_test_outside nt ns nk cells su tev (wt ws : list R) a0 c :
  ev_npts tev = nt -> nonsingular_new S nt ns nk cells su tev wt ws = Ok a0 ->
  ~ In c cells -> nonsingular_set_test c a0 = Panic.
Proof.
  intros Et E Hc. destruct (nonsingular_new_Ok S nt ns nk cells su tev wt ws Et) as (ind & En & I1 & I2).
  rewrite En in E. inversion E; subst a0. unfold nonsingular_set_test. cbn [na_test_indices].
  destruct (assoc Nat.eqb c ind) as [i|] eqn:Ei; [|reflexivity].
  exfalso. apply Hc. apply I1 in Ei. eapply nth_error_In; eauto.
Qed.

(** ** The shipped operators *)

Lemma shipped_fitting (op : operator T R) : shipped S op -> fitting op.
Proof. intros []; repeat split; cbn; lia. Qed.

Inductive inside : list nat -> list nat -> Prop :=
| inside_nil : inside [] []
| inside_cons : forall n i shape idx, i < n -> inside shape idx -> inside (n :: shape) (i :: idx).

Ltac ins := repeat (apply inside_cons; [lia|]); apply inside_nil.

Lemma flat_index_inside shape idx : inside shape idx -> exists k, flat_index shape idx = Some k /\ k < size_of shape.
Proof.
  induction 1 as [|n i shape idx Hi _ (k & E & Hk)].
  - exists 0. split; [reflexivity|cbn; lia].
  - exists (i + n * k). cbn [flat_index]. rewrite (proj2 (Nat.ltb_lt i n) Hi), E.
    split; [reflexivity|]. cbn [size_of fold_right]. fold (size_of shape). nia.
Qed.

Lemma aget_allocated {A : Type} shape (a : array A) idx :
  allocated shape a -> inside shape idx -> exists v, aget a idx = Ok v.
Proof.
  intros (Sh & Le) I. destruct (flat_index_inside _ _ I) as (k & E & Hk).
  unfold aget. rewrite Sh, E. rewrite <- Le in Hk.
  destruct (nth_error (a_data a) k) as [v|] eqn:En.
  - exists v. now apply uget_Ok.
  - apply nth_error_None in En. lia.
Qed.

Lemma uget_defined {A : Type} (l : list A) i : i < length l -> exists v, uget l i = Ok v.
Proof.
  intros H. destruct (nth_error l i) as [v|] eqn:E.
  - exists v. now apply uget_Ok.
  - apply nth_error_None in E. lia.
Qed.

Ltac known H := let v := fresh "v" in let E := fresh "E" in
  destruct H as [v E]; [lia ..|]; rewrite E; clear E; cbn [bind].

Lemma evaluate_defined (f : integrand T) kr tr sr gt gs nk nd :
  kernel_used f <= nk -> derivs_used f <= nd ->
  (forall i, i < nk -> exists v, kr i = Ok v) ->
  (forall d, d < deriv_count nd -> exists v, tr d 0 = Ok v) ->
  (forall d, d < deriv_count nd -> exists v, sr d 0 = Ok v) ->
  (forall i, i < 3 -> exists v, ga_normal gt i = Ok v) ->
  (forall i, i < 3 -> exists v, ga_normal gs i = Ok v) ->
  (forall i, i < 6 -> exists v, ga_jacobian gt i = Ok v) ->
  (forall i, i < 6 -> exists v, ga_jacobian gs i = Ok v) ->
  (exists v, ga_jdet gt = Ok v) -> (exists v, ga_jdet gs = Ok v) ->
  exists v, evaluate S f kr tr sr gt gs = Ok v.
Proof.
  intros Hk Hd K P Q Nt Ns Jt Js (dt & Dt) (ds & Ds).
  assert (D0 := deriv_count_0 nd).
  induction f; cbn [kernel_used derivs_used] in *; cbn [evaluate].
  - known (K 0). known (P 0). known (Q 0). eauto.
  - known (K 1). known (Ns 0). known (K 2). known (Ns 1). known (K 3). known (Ns 2). known (P 0). known (Q 0). eauto.
  - known (K 1). known (Nt 0). known (K 2). known (Nt 1). known (K 3). known (Nt 2). known (P 0). known (Q 0). eauto.
  - assert (D1 := deriv_count_1 nd Hd).
    known (P 1). known (P 2). known (Q 1). known (Q 2). known (K 0).
    known (Jt 3). known (Jt 0). known (Js 3). known (Js 0).
    known (Jt 4). known (Jt 1). known (Js 4). known (Js 1).
    known (Jt 5). known (Jt 2). known (Js 5). known (Js 2).
    rewrite Dt, Ds. cbn [bind]. eauto.
  - known (K 0). known (Ns 0). known (Nt 0). known (Ns 1). known (Nt 1). known (Ns 2). known (Nt 2). known (P 0). known (Q 0). eauto.
  - destruct IHf1 as [v1 E1]; [lia..|]. destruct IHf2 as [v2 E2]; [lia..|]. rewrite E1, E2. cbn [bind]. eauto.
  - destruct IHf as [v E]; [lia..|]. rewrite E. cbn [bind]. eauto.
Qed.

Lemma geometry_at_defined n g p : geometry_allocated n g -> p < n ->
  (forall i, i < 3 -> exists v, ga_normal (geometry_at S g p) i = Ok v) /\
  (forall i, i < 6 -> exists v, ga_jacobian (geometry_at S g p) i = Ok v) /\
  (exists v, ga_jdet (geometry_at S g p) = Ok v).
Proof.
  intros (A & B & C) Hp. unfold geometry_at. cbn [ga_normal ga_jacobian ga_jdet]. split; [|split].
  - intros i Hi. destruct (aget_allocated _ _ [i; p] A) as [v ->]; [ins|]. cbn [bind]. eauto.
  - intros i Hi. destruct (aget_allocated _ _ [i; p] B) as [v ->]; [ins|]. cbn [bind]. eauto.
  - destruct (uget_defined (ge_jdets g) p) as [v ->]; [lia|]. cbn [bind]. eauto.
Qed.

Theorem shipped_reads (op : operator T R) nt ns dt ds vt vs tt_ ts_ k k2 gt gs p q a b :
  shipped S op -> 0 < vt -> 0 < vs ->
  allocated [deriv_count (op_table_derivs op); nt; dt; vt] tt_ ->
  allocated [deriv_count (op_table_derivs op); ns; ds; vs] ts_ ->
  geometry_allocated nt gt -> geometry_allocated ns gs ->
  allocated [op_deriv_size op; nt; ns] k -> allocated [op_deriv_size op; nt] k2 ->
  p < nt -> q < ns -> a < dt -> b < ds ->
  components (kn_type (op_kernel op)) = op_deriv_size op /\
  (exists v, evaluate_nonsingular S (op_integrand op) tt_ ts_ p q a b k gt gs = Ok v) /\
  (nt = ns -> exists v, evaluate_singular S (op_integrand op) tt_ ts_ p a b k2 gt gs = Ok v).
Proof.
  intros Sh Hvt Hvs At As Gt Gs Ak Ak2 Hp Hq Ha Hb.
  destruct (shipped_fitting _ Sh) as (Fc & Fk & Fd).
  destruct (geometry_at_defined _ _ p Gt Hp) as (N1 & J1 & D1).
  split; [exact Fc|]. split.
  - destruct (geometry_at_defined _ _ q Gs Hq) as (N2 & J2 & D2).
    unfold evaluate_nonsingular. eapply evaluate_defined; eauto.
    + intros i Hi. eapply aget_allocated; [exact Ak|]. ins.
    + intros d Hd. eapply aget_allocated; [exact At|]. ins.
    + intros d Hd. eapply aget_allocated; [exact As|]. ins.
  - intros <-. destruct (geometry_at_defined _ _ p Gs Hp) as (N2 & J2 & D2).
    unfold evaluate_singular. eapply evaluate_defined; eauto.
    + intros i Hi. eapply aget_allocated; [exact Ak2|]. ins.
    + intros d Hd. eapply aget_allocated; [exact At|]. ins.
    + intros d Hd. eapply aget_allocated; [exact As|]. ins.
Qed.

(** The sizes chosen for the operators cannot be smaller. *)
Theorem hypersingular_needs_derivatives (G : green) nt ns dt vs tt_ ts_ k gt gs p q a b :
  allocated [deriv_count 0; nt; dt; vs] tt_ ->
  evaluate_nonsingular S (op_integrand (@laplace_hypersingular T R G)) tt_ ts_ p q a b
    (mkArray [4; nt; ns] k) gt gs = UB.
Proof.
  intros (Sh & _). unfold evaluate_nonsingular. cbn [op_integrand laplace_hypersingular evaluate].
  unfold table_at at 1, aget at 1. rewrite Sh. reflexivity.
Qed.

End Results.
