(** * Bounds of the double layer entries for constants on flat cells *)
From Coq Require Import Reals Lra.
From Verif Require Import Base BaseFacts Topology TopologyFacts DofMap SpecDof Process Space SpecSpace Options Adjacency SpecAdjacency Scalar Integrand CellPair Operators SpecLocal SpecOperators
  Interleave Assembly SpecAssembly AssemblyResults SpecTransfer SpecAlgebra SpecRounding RoundingModels SpecBroken BrokenResults SpecDigits SpecGalerkin GalerkinResults SpecMeasure MeasureResults Shapes SpecShapes ShapesResults SpecSphere SpecWidth
  SpecTurns TurnExamples SpecGauss GaussResults SpecWaves SpecDecay DecayResults DecayPoints DecayShapes SpecPlanes SpecFar FarResults FarKernel.

Local Open Scope R_scope.

Section Constants.
Context {T : Type} (E : scalar T R) (norm : T -> R) (V : valued E norm).
Context (X : externals R) (wmod : nat) (O : operator T R) (o : options) (deg : cell_type -> cell_type -> nat) (pts : cell_type -> nat) (ct : cell_type)
  (test trial : fspace T R).
Context (D : dense_setting X wmod O o deg pts ct test trial) (Hf : product_integrand (op_integrand O)) (HX : positive_externals (Rle 0) X).
Context (Ct : constants E (s_cast E 1) test) (Cs : constants E (s_cast E 1) trial)
  (It : interior_family (g_types (fs_grid test) 2) (fs_family test)) (Is : interior_family (g_types (fs_grid trial) 2) (fs_family trial)).
Context (mu : R) (det det' : nat -> R) (n n' : nat -> nat -> R).
Context (Ft : flat_faces reals X (fs_grid test) ct det n) (Fs : flat_faces reals X (fs_grid trial) ct det' n') (W : full_weights reals X ct deg pts mu).

Lemma absolute_constants fs : constants E (s_cast E 1) fs -> constants reals 1 (absolute_space norm fs).
Proof.
  intros [A B C]. constructor; cbn [absolute_space fs_grid fs_family fs_basis].
  - exact A.
  - intros t points p. rewrite B, (va_cast _ _ V). apply Rabs_R1.
  - intros t points d p H. rewrite C by exact H. apply (va_zero _ _ V).
Qed.

Theorem constants_majorant rt : legal_runtime (s_add E) rt ->
  exists m, assemble E X rt wmod O o trial test = Ok m /\
  forall t s i j, (t < ent_count (fs_grid test) 2)%nat -> (s < ent_count (fs_grid trial) 2)%nat -> In i (dofs_at test t) -> In j (dofs_at trial s) ->
    exists v, nth_error m (i + global_size (fs_space test) * j) = Some v /\
      forall c, (forall x p y q, used_points X deg pts test trial t s x p y q ->
        norm (factor E (op_integrand O) (fun k => kn_value (op_kernel O) k (SpecLocal.position x p) (SpecLocal.position y q)) x p y q) <= c) ->
      norm v <= c * ((mu * det t) * (mu * det' s)).
Proof.
  intros L. pose proof (sequential_legal (s_add reals)) as L'.
  destruct (majorant E norm V X wmod O o deg pts ct test trial D Hf HX rt _ L L') as (m & w & Em & Ew & H). exists m. split; [exact Em|].
  intros t s i j Ht Hs Hi Hj.
  destruct (exact_measured_entries R R reals X (sequential (s_add reals)) wmod (laplace_single_layer ones) o deg pts ct (absolute_space norm test) (absolute_space norm trial) 1 mu (fun _ => 1) det det' n n'
    (proj1 reals_exact) (proj2 reals_exact)) as (w' & Ew' & H'); auto using absolute_constants.
  { intros x. cbn. ring. }
  { eapply dense_absolute; eauto. }
  { intros k x y _. reflexivity. }
  assert (w' = w) by congruence. subst w'. specialize (H' t s i j Ht Hs Hi Hj). unfold measure in H'. cbn [laplace_single_layer op_integrand face_value s_mul reals absolute_space fs_space] in H'.
  destruct (H i j) as (v & u & Hv & Hu & B); [eapply serial_lt; eauto; apply D|eapply serial_lt; eauto; apply D|].
  exists v. split; [exact Hv|]. intros c K. rewrite H' in Hu. injection Hu as <-. rewrite Rmult_1_r in B. apply B.
  intros t' s' x p y q (Ht' & Ci) (Hs' & Cj).
  assert (t' = t) by (eapply (serial_disjoint test); eauto; apply D). assert (s' = s) by (eapply (serial_disjoint trial); eauto; apply D). subst t' s'. apply K.
Qed.

(** ** Normals at the points that are used *)
Lemma used_normals t s x p y q : (t < ent_count (fs_grid test) 2)%nat -> (s < ent_count (fs_grid trial) 2)%nat -> used_points X deg pts test trial t s x p y q ->
  (forall i, (i < 3)%nat -> cm_normal x p i = n t i) /\ (forall i, (i < 3)%nat -> cm_normal y q i = n' s i).
Proof.
  intros Ht Hs U. pose proof (dn_proper _ _ _ _ _ _ _ _ _ D) as [P1 P2].
  assert (Tt : g_ctype (fs_grid test) t = ct).
  { pose proof (wf_ctype _ (ss_grid _ (dn_test _ _ _ _ _ _ _ _ _ D)) t Ht) as I. rewrite (dn_test_type _ _ _ _ _ _ _ _ _ D) in I. destruct I as [I|[]]. auto. }
  assert (Ts : g_ctype (fs_grid trial) s = ct).
  { pose proof (wf_ctype _ (ss_grid _ (dn_trial _ _ _ _ _ _ _ _ _ D)) s Hs) as I. rewrite (dn_trial_type _ _ _ _ _ _ _ _ _ D) in I. destruct I as [I|[]]. auto. }
  destruct U as [pairs kd dim qu j C A1 A2 A3 A4 Hj|qt qs j j' C A1 A2 Hj Hj'].
  - assert (G : fs_grid test = fs_grid trial) by (apply (dn_same _ _ _ _ _ _ _ _ _ D), C). destruct (P2 _ _ _ _ _ A4) as (L1 & L2). rewrite <- G in Ts, Hs.
    split; intros i Hi.
    + rewrite Tt. apply (Ft (pq_test qu) t j); auto; lia.
    + rewrite Ts, G. apply (Fs (pq_trial qu) s j); auto; [rewrite <- G; exact Hs|lia].
  - destruct (P1 _ _ _ A1) as (L1 & L2), (P1 _ _ _ A2) as (L3 & L4). split; intros i Hi.
    + rewrite Tt. apply (Ft (qd_points qt) t j); auto; lia.
    + rewrite Ts. apply (Fs (qd_points qs) s j'); auto; lia.
Qed.

Lemma used_evaluated t s x p y q : used_points X deg pts test trial t s x p y q -> evaluated X deg pts test trial t s (SpecLocal.position x p) (SpecLocal.position y q).
Proof. intros [pairs kd dim qu j C A1 A2 A3 A4 Hj|qt qs j j' C A1 A2 Hj Hj']; [eapply evaluated_touching; eauto|eapply evaluated_distant; eauto]. Qed.
End Constants.

Lemma dot_normal {T : Type} (E : scalar T R) (f : nat -> T) (x : cell_map R) p (n : nat -> R) : (forall i, (i < 3)%nat -> cm_normal x p i = n i) ->
  dot E f (SpecLocal.normal E x p) = dot E f (fun i => s_cast E (n i)).
Proof. intros H. unfold dot, SpecLocal.normal. now rewrite !H by lia. Qed.

(** ** The Laplace and the Helmholtz equation *)
Section Equations.
Context (X : externals R) (wmod : nat) (kd : kind) (e : R) (o : options) (deg : cell_type -> cell_type -> nat) (pts : cell_type -> nat) (ct : cell_type).
Context (Hk : kd = Double \/ kd = Adjoint) (He : Rabs e = 1) (HX : positive_externals (Rle 0) X).
Context (mu : R) (det det' : nat -> R) (n n' : nat -> nat -> R) (W : full_weights reals X ct deg pts mu).

Theorem laplace_decay rt (test trial : fspace R R) : legal_runtime Rplus rt -> dense_setting X wmod (laplace_operator kd (newton e)) o deg pts ct test trial ->
  constants reals 1 test -> constants reals 1 trial ->
  interior_family (g_types (fs_grid test) 2) (fs_family test) -> interior_family (g_types (fs_grid trial) 2) (fs_family trial) ->
  flat_faces reals X (fs_grid test) ct det n -> flat_faces reals X (fs_grid trial) ct det' n' ->
  (forall c, (c < ent_count (fs_grid test) 2)%nat -> unit_length (n c)) -> (forall c, (c < ent_count (fs_grid trial) 2)%nat -> unit_length (n' c)) ->
  exists m, assemble reals X rt wmod (laplace_operator kd (newton e)) o trial test = Ok m /\
  forall t s i j, (t < ent_count (fs_grid test) 2)%nat -> (s < ent_count (fs_grid trial) 2)%nat -> In i (dofs_at test t) -> In j (dofs_at trial s) ->
    exists v, nth_error m (i + global_size (fs_space test) * j) = Some v /\
      forall d, 0 < d -> (forall x y, evaluated X deg pts test trial t s x y -> d <= SpecWaves.distance x y) ->
        Rabs v <= (mu * det t) * (mu * det' s) / (4 * PI * (d * d)).
Proof.
  intros L D Ct Cs It Is Ft Fs Ut Us.
  destruct (constants_majorant reals Rabs reals_valued X wmod _ o deg pts ct test trial D) with (mu := mu) (det := det) (det' := det') (n := n) (n' := n') (rt := rt) as (m & Em & H); auto.
  { unfold product_integrand. destruct Hk as [-> | ->]; cbn; auto. }
  exists m. split; [exact Em|]. intros t s i j Ht Hs Hi Hj. destruct (H t s i j Ht Hs Hi Hj) as (v & Ev & B). exists v. split; [exact Ev|].
  intros d Hd K. pose proof PI_RGT_0. replace (_ / _) with (1 / (4 * PI * (d * d)) * (mu * det t * (mu * det' s))) by (field; lra).
  apply B. intros x p y q U. pose proof (K _ _ (used_evaluated _ _ _ _ _ _ _ _ _ _ _ U)) as Far.
  destruct (used_normals X wmod _ o deg pts ct test trial D det det' n n' Ft Fs t s x p y q Ht Hs U) as (N1 & N2).
  destruct Hk as [-> | ->]; cbn [laplace_operator laplace_double_layer laplace_adjoint_double_layer op_integrand op_kernel kn_value factor].
  - rewrite (dot_normal reals _ _ _ (n' s) N2). apply newton_bound; auto.
  - cbn [s_neg reals]. rewrite Rabs_Ropp, (dot_normal reals _ _ _ (n t) N1). apply newton_bound; auto.
Qed.

Theorem helmholtz_decay rt k (test trial : fspace (R * R) R) : legal_runtime (s_add complexes) rt -> dense_setting X wmod (helmholtz_operator complexes kd (waves e) k) o deg pts ct test trial ->
  constants complexes (s_cast complexes 1) test -> constants complexes (s_cast complexes 1) trial ->
  interior_family (g_types (fs_grid test) 2) (fs_family test) -> interior_family (g_types (fs_grid trial) 2) (fs_family trial) ->
  flat_faces reals X (fs_grid test) ct det n -> flat_faces reals X (fs_grid trial) ct det' n' ->
  (forall c, (c < ent_count (fs_grid test) 2)%nat -> unit_length (n c)) -> (forall c, (c < ent_count (fs_grid trial) 2)%nat -> unit_length (n' c)) ->
  exists m, assemble complexes X rt wmod (helmholtz_operator complexes kd (waves e) k) o trial test = Ok m /\
  forall t s i j, (t < ent_count (fs_grid test) 2)%nat -> (s < ent_count (fs_grid trial) 2)%nat -> In i (dofs_at test t) -> In j (dofs_at trial s) ->
    exists v, nth_error m (i + global_size (fs_space test) * j) = Some v /\
      forall d, 0 < d -> (forall x y, evaluated X deg pts test trial t s x y -> d <= SpecWaves.distance x y) ->
        cnorm v <= steepest k d * ((mu * det t) * (mu * det' s)).
Proof.
  intros L D Ct Cs It Is Ft Fs Ut Us.
  destruct (constants_majorant complexes cnorm complexes_valued X wmod _ o deg pts ct test trial D) with (mu := mu) (det := det) (det' := det') (n := n) (n' := n') (rt := rt) as (m & Em & H); auto.
  { unfold product_integrand. destruct Hk as [-> | ->]; cbn; auto. }
  exists m. split; [exact Em|]. intros t s i j Ht Hs Hi Hj. destruct (H t s i j Ht Hs Hi Hj) as (v & Ev & B). exists v. split; [exact Ev|].
  intros d Hd K. apply B. intros x p y q U. pose proof (K _ _ (used_evaluated _ _ _ _ _ _ _ _ _ _ _ U)) as Far.
  destruct (used_normals X wmod _ o deg pts ct test trial D det det' n n' Ft Fs t s x p y q Ht Hs U) as (N1 & N2).
  destruct Hk as [-> | ->]; cbn [helmholtz_operator helmholtz_double_layer helmholtz_adjoint_double_layer op_integrand op_kernel kn_value factor].
  - rewrite (dot_normal complexes _ _ _ (n' s) N2). apply waves_bound; auto.
  - rewrite (va_neg _ _ complexes_valued), (dot_normal complexes _ _ _ (n t) N1). apply waves_bound; auto.
Qed.
End Equations.

(** ** The sphere *)
Section Sphere.
Context (X : externals R) (level id wmod : nat) (kd : kind) (e : R) (o : options) (deg : cell_type -> cell_type -> nat) (pts : cell_type -> nat) (b : builder vec).
Context (E : regular_sphere real_numbers level 1 = Ok b).
Context (Hk : kd = Double \/ kd = Adjoint) (He : Rabs e = 1) (HX : positive_externals (Rle 0) X).
Context (Fl : flat_cells X (built_grid id Triangle b) b) (Tw : triangle_weights X) (Ir : inside_rules X Triangle).

Lemma sphere_unit_length c : (c < ent_count (built_grid id Triangle b) 2)%nat -> unit_length (unit_normal reals b c).
Proof.
  intros Hc. destruct (sphere_cells level id b E) as (Nc & H). destruct (H c) as (p & q & r & Co & En).
  { exact (eq_ind (ent_count (built_grid id Triangle b) 2) (fun k => (c < k)%nat) Hc _ Nc). }
  pose proof (area_positive level b E c p q r Co) as A. unfold triangle_area in A. rewrite <- En in A.
  unfold unit_length, unit_normal, long. cbn [s_cast reals]. destruct (long_normal b c) as [[x y] z]. cbn [SpecTurns.coordinate] in *. set (l := sqrt _) in *.
  assert (L2 : l * l = x * x + y * y + z * z).
  { unfold l. rewrite sqrt_sqrt; [cbn; ring|]. cbn. pose proof (Rle_0_sqr x) as Q1. pose proof (Rle_0_sqr y) as Q2. pose proof (Rle_0_sqr z) as Q3. unfold Rsqr in *. lra. }
  replace (x / l * (x / l) + y / l * (y / l) + z / l * (z / l)) with ((x * x + y * y + z * z) / (l * l)) by (field; lra). rewrite <- L2. field. lra.
Qed.

Lemma evaluated_apart {T : Type} (test trial : fspace T R) t s : fs_grid test = built_grid id Triangle b -> fs_grid trial = built_grid id Triangle b ->
  neighbours (built_grid id Triangle b) (built_grid id Triangle b) t s = Ok false ->
  (t < ent_count (built_grid id Triangle b) 2)%nat -> (s < ent_count (built_grid id Triangle b) 2)%nat ->
  forall x y, evaluated X deg pts test trial t s x y -> 2 / 5 / 2 ^ level <= SpecWaves.distance x y.
Proof.
  intros Gt Gs N Ht Hs x y U.
  apply (evaluated_far X level id deg pts b (absolute_space (fun _ => 0) test) (absolute_space (fun _ => 0) trial) E Gt Gs Fl Ir t s N Ht Hs).
  destruct U as [pairs k dim qu j C A1 A2 A3 A4 Hj|qt qs j j' C A1 A2 Hj Hj']; [eapply (evaluated_touching X deg pts (absolute_space _ test)); eauto|eapply (evaluated_distant X deg pts (absolute_space _ test) (absolute_space _ trial)); eauto].
Qed.

Theorem sphere_double rt (test trial : fspace R R) : fs_grid test = built_grid id Triangle b -> fs_grid trial = built_grid id Triangle b -> legal_runtime Rplus rt ->
  dense_setting X wmod (laplace_operator kd (newton e)) o deg pts Triangle test trial -> constants reals 1 test -> constants reals 1 trial ->
  interior_family (g_types (fs_grid test) 2) (fs_family test) -> interior_family (g_types (fs_grid trial) 2) (fs_family trial) ->
  exists m, assemble reals X rt wmod (laplace_operator kd (newton e)) o trial test = Ok m /\
  forall t s i j p q r p' q' r', neighbours (built_grid id Triangle b) (built_grid id Triangle b) t s = Ok false ->
    corners_of b t p q r -> corners_of b s p' q' r' -> In i (dofs_at test t) -> In j (dofs_at trial s) ->
    exists v, nth_error m (i + global_size (fs_space test) * j) = Some v /\ Rabs v <= 25 * 4 ^ level * (triangle_area p q r * triangle_area p' q' r' / (16 * PI)).
Proof.
  intros Gt Gs L D Ct Cs It Is.
  destruct (laplace_decay X wmod kd e o deg pts Triangle Hk He HX (1 / 2) (long b) (long b) (unit_normal reals b) (unit_normal reals b)
    (sphere_full reals 1 reals_ring real_cast_reals (proj2 reals_exact) X Tw deg pts) rt test trial L D Ct Cs It Is) as (m & Em & H).
  { rewrite Gt. exact (sphere_flat reals X level id b E Fl). } { rewrite Gs. exact (sphere_flat reals X level id b E Fl). }
  { rewrite Gt. exact sphere_unit_length. } { rewrite Gs. exact sphere_unit_length. }
  exists m. split; [exact Em|]. intros t s i j p q r p' q' r' N Co Co' Hi Hj.
  pose proof (corners_lt level id b E _ _ _ _ Co) as Ht. pose proof (corners_lt level id b E _ _ _ _ Co') as Hs.
  destruct (H t s i j) as (v & Ev & B); rewrite ?Gt, ?Gs; auto. exists v. split; [exact Ev|].
  rewrite (long_area _ _ _ _ _ Co), (long_area _ _ _ _ _ Co') in B. pose proof PI_RGT_0.
  assert (P2 : 0 < 2 ^ level) by (apply pow_lt; lra).
  replace (4 ^ level) with (2 ^ level * 2 ^ level) by (rewrite <- Rpow_mult_distr; f_equal; ring).
  replace (25 * (2 ^ level * 2 ^ level) * _) with (triangle_area p q r * triangle_area p' q' r' / (4 * PI * (2 / 5 / 2 ^ level * (2 / 5 / 2 ^ level)))) by (field; lra).
  apply B; [apply Rdiv_lt_0_compat; lra|]. now apply evaluated_apart.
Qed.

Theorem sphere_double_waves rt k (test trial : fspace (R * R) R) : fs_grid test = built_grid id Triangle b -> fs_grid trial = built_grid id Triangle b -> legal_runtime (s_add complexes) rt ->
  dense_setting X wmod (helmholtz_operator complexes kd (waves e) k) o deg pts Triangle test trial -> constants complexes (s_cast complexes 1) test -> constants complexes (s_cast complexes 1) trial ->
  interior_family (g_types (fs_grid test) 2) (fs_family test) -> interior_family (g_types (fs_grid trial) 2) (fs_family trial) ->
  exists m, assemble complexes X rt wmod (helmholtz_operator complexes kd (waves e) k) o trial test = Ok m /\
  forall t s i j p q r p' q' r', neighbours (built_grid id Triangle b) (built_grid id Triangle b) t s = Ok false ->
    corners_of b t p q r -> corners_of b s p' q' r' -> In i (dofs_at test t) -> In j (dofs_at trial s) ->
    exists v, nth_error m (i + global_size (fs_space test) * j) = Some v /\ cnorm v <= steepest k (2 / 5 / 2 ^ level) * (triangle_area p q r * triangle_area p' q' r').
Proof.
  intros Gt Gs L D Ct Cs It Is.
  destruct (helmholtz_decay X wmod kd e o deg pts Triangle Hk He HX (1 / 2) (long b) (long b) (unit_normal reals b) (unit_normal reals b)
    (sphere_full reals 1 reals_ring real_cast_reals (proj2 reals_exact) X Tw deg pts) rt k test trial L D Ct Cs It Is) as (m & Em & H).
  { rewrite Gt. exact (sphere_flat reals X level id b E Fl). } { rewrite Gs. exact (sphere_flat reals X level id b E Fl). }
  { rewrite Gt. exact sphere_unit_length. } { rewrite Gs. exact sphere_unit_length. }
  exists m. split; [exact Em|]. intros t s i j p q r p' q' r' N Co Co' Hi Hj.
  pose proof (corners_lt level id b E _ _ _ _ Co) as Ht. pose proof (corners_lt level id b E _ _ _ _ Co') as Hs.
  destruct (H t s i j) as (v & Ev & B); rewrite ?Gt, ?Gs; auto. exists v. split; [exact Ev|].
  rewrite (long_area _ _ _ _ _ Co), (long_area _ _ _ _ _ Co') in B.
  assert (P2 : 0 < 2 ^ level) by (apply pow_lt; lra). apply B; [apply Rdiv_lt_0_compat; lra|]. now apply evaluated_apart.
Qed.
End Sphere.
