(** * Row sums of the Helmholtz hypersingular matrix *)
From Coq Require Import Ring_theory Ring.
From Verif Require Import Base BaseFacts Topology DofMap Space Options Scalar Integrand CellPair Operators SpecLocal
  Interleave Assembly SpecAssembly AssemblyFacts AssemblyExact SpecAlgebra AlgebraFacts AlgebraResults.

Section Sums.
Context {T R : Type} (S : scalar T R) (one : T) (RT : ring_theory (s_zero S) one (s_add S) (s_mul S) (s_sub S) (s_neg S) eq).
Add Ring scalar_ring : RT.

(** A sum of entries of [m] from the sums of the same entries of [a] and [b]. *)
Lemma sum_of_difference (pos : nat -> nat) q a b m l la v :
  entrywise (fun x y => s_sub S x (s_mul S q y)) a b m ->
  mapM (fun j => vget a (pos j)) l = Ok la -> total S la (fun x => x) = s_zero S ->
  (exists lb, mapM (fun j => vget b (pos j)) l = Ok lb /\ total S lb (fun x => x) = v) ->
  exists lm, mapM (fun j => vget m (pos j)) l = Ok lm /\ total S lm (fun x => x) = s_neg S (s_mul S q v).
Proof.
  intros (_ & _ & H) Ea Za (lb & Eb & Zb).
  enough (G : exists lm, mapM (fun j => vget m (pos j)) l = Ok lm /\
    total S lm (fun x => x) = s_sub S (total S la (fun x => x)) (s_mul S q (total S lb (fun x => x)))).
  { destruct G as (lm & E & G). exists lm. split; auto. rewrite G, Za, Zb. ring. }
  clear Za Zb v. revert la lb Ea Eb. induction l as [|j l IH]; intros la lb Ea Eb; cbn [mapM] in *.
  - injection Ea as <-. injection Eb as <-. exists []. split; [reflexivity|]. rewrite !total_nil. ring.
  - apply bind_Ok_inv in Ea. destruct Ea as (x & Hx & Ea). apply bind_Ok_inv in Ea. destruct Ea as (la' & Ea & E'). injection E' as <-.
    apply bind_Ok_inv in Eb. destruct Eb as (y & Hy & Eb). apply bind_Ok_inv in Eb. destruct Eb as (lb' & Eb & E'). injection E' as <-.
    destruct (IH la' lb' Ea Eb) as (lm & Em & G). apply vget_Ok in Hx, Hy.
    pose proof (H _ _ _ Hx Hy) as Hm. apply vget_Ok in Hm. rewrite Hm. cbn [bind]. rewrite Em. cbn [bind].
    eexists. split; [reflexivity|]. rewrite !total_cons, G. ring.
Qed.

Lemma same_places (pos : nat -> nat) (a b : list T) l la : length a = length b -> mapM (fun j => vget a (pos j)) l = Ok la ->
  exists lb, mapM (fun j => vget b (pos j)) l = Ok lb.
Proof.
  intros E. revert la. induction l as [|j l IH]; intros la H; cbn [mapM] in *; [now exists []|].
  apply bind_Ok_inv in H. destruct H as (x & Hx & H). apply bind_Ok_inv in H. destruct H as (la' & H & _).
  destruct (IH la' H) as (lb & Eb). apply vget_Ok in Hx.
  destruct (nth_error b (pos j)) as [y|] eqn:Hy; [|apply nth_error_None in Hy; rewrite <- E in Hy; apply nth_error_None in Hy; congruence].
  apply vget_Ok in Hy. rewrite Hy. cbn [bind]. rewrite Eb. now eexists.
Qed.
End Sums.

Theorem exact_helmholtz_rows : forall (T R : Type) (S : scalar T R) (X : externals R) rt wmod (G : R -> green) k o deg pts ct (test trial : fspace T R),
  exact S -> exact_cast S -> legal_runtime (s_add S) rt ->
  dense_setting X wmod (helmholtz_hypersingular S G k) o deg pts ct test trial -> sums_to_constant S trial ->
  exists normal_part m,
    assemble S X rt wmod (mkOperator HypersingularNormalNormal (mkKernel ValueDeriv (G k)) 4 1) o trial test = Ok normal_part /\
    assemble S X rt wmod (helmholtz_hypersingular S G k) o trial test = Ok m /\
    forall i, i < global_size (fs_space test) -> exists v,
      row_sum S (global_size (fs_space test)) (global_size (fs_space trial)) normal_part i v /\
      row_sum S (global_size (fs_space test)) (global_size (fs_space trial)) m i (s_neg S (s_mul S (s_mul S (s_cast S k) (s_cast S k)) v)).
Proof.
  intros T R S X rt wmod G k o deg pts ct test trial Ex Ec L D Z.
  destruct (exact_helmholtz_hypersingular S X rt wmod G k o deg pts ct test trial Ex Ec L D) as (a & b & m & Ea & Eb & Em & H).
  assert (D' : dense_setting X wmod (laplace_hypersingular (G k)) o deg pts ct test trial).
  { set (O := mkOperator (@SingleLayer T) (mkKernel ValueDeriv (G k)) 4 1) in *.
    change (laplace_hypersingular (G k)) with (with_integrand O HypersingularCurlCurl).
    change (helmholtz_hypersingular S G k) with (with_integrand O (Sum HypersingularCurlCurl
      (TimesScalar (s_cast S (r_neg S (r_mul S k k))) HypersingularNormalNormal))) in D.
    eapply fitting_part; [| |exact D]; cbn; lia. }
  destruct (exact_rows S X rt wmod (G k) o deg pts ct test trial Ex L D' Z) as (a' & Ea' & Rows).
  assert (a' = a) as -> by congruence. exists b, m. do 2 (split; [assumption|]). intros i Hi.
  destruct (Rows i Hi) as (la & El & Zl). destruct Ex as ((one & RT) & _).
  destruct (same_places (fun j => i + global_size (fs_space test) * j) a b _ la (eq_trans (proj1 H) (eq_sym (proj1 (proj2 H)))) El) as (lb & Eb').
  exists (total S lb (fun x => x)). split; [now exists lb|].
  refine (sum_of_difference S one RT (fun j => i + global_size (fs_space test) * j) _ a b m _ la _ H El Zl _). now exists lb.
Qed.

Theorem exact_helmholtz_columns : forall (T R : Type) (S : scalar T R) (X : externals R) rt wmod (G : R -> green) k o deg pts ct (test trial : fspace T R),
  exact S -> exact_cast S -> legal_runtime (s_add S) rt ->
  dense_setting X wmod (helmholtz_hypersingular S G k) o deg pts ct test trial -> sums_to_constant S test ->
  exists normal_part m,
    assemble S X rt wmod (mkOperator HypersingularNormalNormal (mkKernel ValueDeriv (G k)) 4 1) o trial test = Ok normal_part /\
    assemble S X rt wmod (helmholtz_hypersingular S G k) o trial test = Ok m /\
    forall j, j < global_size (fs_space trial) -> exists v,
      column_sum S (global_size (fs_space test)) normal_part j v /\
      column_sum S (global_size (fs_space test)) m j (s_neg S (s_mul S (s_mul S (s_cast S k) (s_cast S k)) v)).
Proof.
  intros T R S X rt wmod G k o deg pts ct test trial Ex Ec L D Z.
  destruct (exact_helmholtz_hypersingular S X rt wmod G k o deg pts ct test trial Ex Ec L D) as (a & b & m & Ea & Eb & Em & H).
  assert (D' : dense_setting X wmod (laplace_hypersingular (G k)) o deg pts ct test trial).
  { set (O := mkOperator (@SingleLayer T) (mkKernel ValueDeriv (G k)) 4 1) in *.
    change (laplace_hypersingular (G k)) with (with_integrand O HypersingularCurlCurl).
    change (helmholtz_hypersingular S G k) with (with_integrand O (Sum HypersingularCurlCurl
      (TimesScalar (s_cast S (r_neg S (r_mul S k k))) HypersingularNormalNormal))) in D.
    eapply fitting_part; [| |exact D]; cbn; lia. }
  destruct (exact_columns S X rt wmod (G k) o deg pts ct test trial Ex L D' Z) as (a' & Ea' & Cols).
  assert (a' = a) as -> by congruence. exists b, m. do 2 (split; [assumption|]). intros j Hj.
  destruct (Cols j Hj) as (la & El & Zl). destruct Ex as ((one & RT) & _).
  destruct (same_places (fun i => i + global_size (fs_space test) * j) a b _ la (eq_trans (proj1 H) (eq_sym (proj1 (proj2 H)))) El) as (lb & Eb').
  exists (total S lb (fun x => x)). split; [now exists lb|].
  refine (sum_of_difference S one RT (fun i => i + global_size (fs_space test) * j) _ a b m _ la _ H El Zl _). now exists lb.
Qed.
