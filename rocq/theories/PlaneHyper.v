(** * The hypersingular operator for cells with the same normal *)
From Coq Require Import Reals Lra Ring_theory Ring.
From Verif Require Import Base BaseFacts Topology TopologyFacts DofMap SpecDof Process Space SpecSpace Options
  Adjacency SpecAdjacency Scalar Integrand CellPair Operators SpecLocal LocalResults SpecOperators Interleave Assembly SpecAssembly
  AssemblyFacts AssemblyDense AssemblyExact AssemblyResults SpecAlgebra AlgebraFacts AlgebraResults SpecTransfer SpecDigits SpecMeasure SpecGauss
  Shapes SpecShapes SpecSphere SpecScreen SpecWidth SpecTurns SpecShift SpecToeplitz ToeplitzResults SpecShare ShareScreen SpecPlanes PlaneResults PlaneExact.

Lemma same_entries {A : Type} (l m : list A) : (forall n, nth_error l n = nth_error m n) -> l = m.
Proof.
  revert m. induction l as [|x l IH]; intros [|y m] H; [reflexivity|discriminate (H 0)|discriminate (H 0)|].
  pose proof (H 0) as H0. injection H0 as ->. f_equal. apply IH. intros n. exact (H (Datatypes.S n)).
Qed.

Section Hyper.
Context {T R : Type} (S : scalar T R) (one : T) (RT : ring_theory (s_zero S) one (s_add S) (s_mul S) (s_sub S) (s_neg S) eq).
Add Ring scalar_ring : RT.
Context (X : externals R) (G : R -> @green T R) (k : R).
Context (wmod : nat) (o : options) (deg : cell_type -> cell_type -> nat) (pts : cell_type -> nat) (ct : cell_type) (test trial : fspace T R).

Local Notation Normal := (mkOperator HypersingularNormalNormal (mkKernel ValueDeriv (G k)) 4 1).

Lemma normal_value t s a b v : t < ent_count (fs_grid test) 2 -> s < ent_count (fs_grid trial) 2 -> equal_normals S X deg pts test trial ->
  pair_value S X Normal deg pts test trial t s a b v -> pair_value S X (helmholtz_single_layer G k) deg pts test trial t s a b v.
Proof.
  intros Ht Hs N [(C & p & kd & d & q & A1 & A2 & A3 & A4 & ->)|(C & q & r & A1 & A2 & ->)].
  - left. split; [exact C|]. exists p, kd, d, q. repeat (split; [assumption|]).
    rewrite !(pairwise_total S one RT). apply total_ext. intros [n w] Hw. apply In_enumerate in Hw. cbn [fst snd] in *.
    assert (Hn : n < length (pq_weights q)) by (apply nth_error_Some; congruence).
    unfold pairwise_term. cbn [fst snd helmholtz_single_layer op_integrand op_kernel kn_value integrand_value]. f_equal.
    pose proof (N t s _ _ _ _ (G k 0 (SpecLocal.position (x_geometry X (fs_grid test) (g_ctype (fs_grid test) t) (pq_test q) t) n)
      (SpecLocal.position (x_geometry X (fs_grid test) (g_ctype (fs_grid test) s) (pq_trial q) s) n)) Ht Hs (used_touching X deg pts test trial t s p kd d q n C A1 A2 A3 A4 Hn)) as H.
    rewrite <- H at 2. unfold dot. ring.
  - right. split; [exact C|]. exists q, r. repeat (split; [assumption|]).
    rewrite !(tensor_total S one RT). apply total_ext. intros [n w] Hw. apply In_enumerate in Hw. apply total_ext. intros [n' w'] Hw'. apply In_enumerate in Hw'. cbn [fst snd] in *.
    assert (Hn : n < length (qd_weights q)) by (apply nth_error_Some; congruence). assert (Hn' : n' < length (qd_weights r)) by (apply nth_error_Some; congruence).
    unfold tensor_term. cbn [fst snd helmholtz_single_layer op_integrand op_kernel kn_value integrand_value]. do 2 f_equal.
    pose proof (N t s _ _ _ _ (G k 0 (SpecLocal.position (x_geometry X (fs_grid test) (g_ctype (fs_grid test) t) (qd_points q) t) n)
      (SpecLocal.position (x_geometry X (fs_grid trial) (g_ctype (fs_grid trial) s) (qd_points r) s) n')) Ht Hs (used_distant X deg pts test trial t s q r n n' C A1 A2 Hn Hn')) as H.
    rewrite <- H at 2. unfold dot. ring.
Qed.

Lemma normal_matrix rt : legal_runtime (s_add S) rt -> dense_setting X wmod Normal o deg pts ct test trial -> equal_normals S X deg pts test trial ->
  assemble S X rt wmod Normal o trial test = assemble S X rt wmod (helmholtz_single_layer G k) o trial test.
Proof.
  intros L D N. assert (D' : dense_setting X wmod (helmholtz_single_layer G k) o deg pts ct test trial) by (eapply dense_operator; [|exact D]; apply (shipped_fitting S), sh_helmholtz_single).
  destruct (assembled S one RT X rt wmod _ o deg pts ct test trial L D) as (m & val & E & Ll & V & H).
  destruct (assembled S one RT X rt wmod _ o deg pts ct test trial L D') as (m' & val' & E' & Ll' & V' & H').
  rewrite E, E'. f_equal. apply same_entries. intros n. destruct (Nat.lt_ge_cases n (length m)) as [Hn|Hn].
  - rewrite Ll in Hn. destruct (position_split _ _ n Hn) as (i & j & Hi & Hj & ->). rewrite H, H' by auto. f_equal. apply matrix_ext. intros t s a b Ht Hs.
    apply (pair_value_unique S X (helmholtz_single_layer G k) deg pts test trial t s a b); [apply normal_value|]; auto.
  - rewrite (proj2 (nth_error_None m n)), (proj2 (nth_error_None m' n)) by lia. reflexivity.
Qed.

Lemma unit_dot c v : s_mul S (s_add S (s_add S (s_mul S (s_zero S) (s_zero S)) (s_mul S (s_zero S) (s_zero S))) (s_mul S c c)) v = s_mul S c (s_mul S c v).
Proof. ring. Qed.
End Hyper.

Theorem planar_hypersingular : forall (T R : Type) (S : scalar T R) (X : externals R) rt wmod (G : R -> green) k o deg pts ct (test trial : fspace T R),
  exact S -> exact_cast S -> legal_runtime (s_add S) rt -> dense_setting X wmod (helmholtz_hypersingular S G k) o deg pts ct test trial ->
  equal_normals S X deg pts test trial ->
  exists curl_part single m,
    assemble S X rt wmod (laplace_hypersingular (G k)) o trial test = Ok curl_part /\
    assemble S X rt wmod (helmholtz_single_layer G k) o trial test = Ok single /\
    assemble S X rt wmod (helmholtz_hypersingular S G k) o trial test = Ok m /\
    entrywise (fun x y => s_sub S x (s_mul S (s_mul S (s_cast S k) (s_cast S k)) y)) curl_part single m.
Proof.
  intros T R S X rt wmod G k o deg pts ct test trial ES EC L D N.
  destruct (exact_helmholtz_hypersingular S X rt wmod G k o deg pts ct test trial ES EC L D) as (c & n & m & E1 & E2 & E3 & E4).
  exists c, n, m. split; [exact E1|]. split; [|split; assumption]. rewrite <- E2. symmetry. destruct ES as ((one & RT) & _).
  apply (normal_matrix S one RT X G k wmod o deg pts ct test trial rt L); auto. eapply dense_operator; [|exact D]. repeat split; cbn; lia.
Qed.

Local Open Scope R_scope.

Theorem screen_hypersingular : forall (T : Type) (S : scalar T R) (X : externals R) rt wmod (G : R -> @green T R) k o deg pts n id ct b (test trial : fspace T R),
  exact S -> exact_cast S -> real_cast S -> (forall v, s_mul S (s_cast S 1) v = v) -> legal_runtime (s_add S) rt ->
  dense_setting X wmod (helmholtz_hypersingular S G k) o deg pts ct test trial ->
  screen n ct b -> fs_grid test = built_grid id ct b -> fs_grid trial = built_grid id ct b -> flat_screen n X (built_grid id ct b) b ->
  exists curl_part single m,
    assemble S X rt wmod (laplace_hypersingular (G k)) o trial test = Ok curl_part /\
    assemble S X rt wmod (helmholtz_single_layer G k) o trial test = Ok single /\
    assemble S X rt wmod (helmholtz_hypersingular S G k) o trial test = Ok m /\
    entrywise (fun x y => s_sub S x (s_mul S (s_mul S (s_cast S k) (s_cast S k)) y)) curl_part single m.
Proof.
  intros T S X rt wmod G k o deg pts n id ct b test trial ES EC RC Un L D Sn Et Es Fl.
  eapply planar_hypersingular; eauto. intros t s x p y q v Ht Hs U.
  assert (D' : dense_setting X wmod (laplace_operator Double (G k)) o deg pts ct test trial) by (eapply dense_operator; [|exact D]; repeat split; cbn; lia).
  destruct (used_rules X Double (G k) deg pts ct test trial wmod o D' _ _ _ _ _ _ U) as (t' & ps & ps' & R1 & R2 & Lp & Lq & -> & s' & ->).
  rewrite Et in *. rewrite Es in *. destruct ES as ((one & RT) & _).
  assert (Up : forall c u points j i, (c < ent_count (built_grid id ct b) 2)%nat -> (i < 3)%nat ->
    SpecLocal.normal S (x_geometry X (built_grid id ct b) u points c) j i = s_cast S (match i with 2%nat => 1 | _ => 0 end)).
  { intros c u points j i Hc Hi. pose proof Hc as Hc'. rewrite (screen_cell_count n id ct b Sn) in Hc.
    assert (Ge : (3 <= ref_count ct 0)%nat) by (destruct Sn; cbn; lia).
    destruct (corner_exists n ct b Sn c 0 Hc ltac:(lia)) as (x & Cx), (corner_exists n ct b Sn c 1 Hc ltac:(lia)) as (y & Cy), (corner_exists n ct b Sn c 2 Hc ltac:(lia)) as (z & Cz).
    destruct (Fl u points c x y z Cx Cy Cz) as [_ F2 _ _ _]. destruct (screen_area_ratio n ct b c x y z Sn Cx Cy Cz Hc) as (A & N).
    unfold SpecLocal.normal. rewrite F2, A, N by exact Hi. f_equal.
    assert (P : / (INR (n + 1) * INR (n + 1)) <> 0) by (apply Rinv_neq_0_compat; assert (0 < INR (n + 1)) by (apply lt_0_INR; lia); nra).
    destruct i as [|[|[|i]]]; [| | |lia]; cbn [coordinate]; unfold Rdiv; [ring|ring|now apply Rinv_r]. }
  unfold dot. rewrite !Up by (try assumption; lia). rewrite (cast_zero S one RT RC).
  transitivity (s_mul S (s_cast S 1) (s_mul S (s_cast S 1) v)); [|now rewrite !Un].
  apply (unit_dot S one RT).
Qed.
