(** * Matrices and turned functions: proofs *)
From Coq Require Import Reals Lra Permutation Ring_theory.
From Verif Require Import Base BaseFacts Topology TopologyFacts DofMap SpecDof Process Space SpecSpace Options SpecOptions Adjacency SpecAdjacency
  Scalar Integrand CellPair Operators SpecLocal SpecOperators Interleave Assembly SpecAssembly AssemblyExact DistributedResults AssemblyResults SpecAlgebra SpecDistributed SpecRenumber RenumberResults BrokenResults SpecSimilar SpecShapeSpaces ShapeSpacesResults
  SpecAutomorphism AutomorphismResults DimensionResults
  Shapes SpecShapes SphereSurface SpecSphere SpecWidth SpecSymmetry SpecTurns TurnResults SpecOrbit.

Section Numbers.
Context {T R : Type} (Sc : scalar T R) (one : T) (RT : ring_theory (s_zero Sc) one (s_add Sc) (s_mul Sc) (s_sub Sc) (s_neg Sc) eq).

Lemma total_renumbered n h (F : nat -> T) : renumbering n h -> total Sc (seq 0 n) (fun j => F (h j)) = total Sc (seq 0 n) F.
Proof. intros H. rewrite <- (total_map Sc h). apply (total_perm Sc one RT). now apply renumbering_Permutation. Qed.

Lemma turned_numbers (fs : fspace T R) tau h x x' : serial_space fs -> renumbering (ent_count (fs_grid fs) 2) tau ->
  (forall c, c < ent_count (fs_grid fs) 2 -> dofs_at fs c = map h (dofs_at fs (tau c))) ->
  turned fs tau x x' -> forall i, i < global_size (fs_space fs) -> x' i = x (h i).
Proof.
  intros Sp Rt Dh Tu i Hi. rewrite (serial_size fs Sp) in Hi. destruct (dof_in_cell fs i Sp Hi) as (c & a & Hc & Ha).
  destruct (proj2 (proj2 Rt) c Hc) as (c0 & Hc0 & <-). apply (Tu c0 a); auto.
  rewrite (Dh c0 Hc0), nth_error_map, Ha. reflexivity.
Qed.

Lemma numbers_turned (fs : fspace T R) tau h (x : nat -> T) :
  (forall c, c < ent_count (fs_grid fs) 2 -> dofs_at fs c = map h (dofs_at fs (tau c))) -> turned fs tau x (fun i => x (h i)).
Proof.
  intros Dh c a i i' Hc Hi Hi'. rewrite (Dh c Hc), nth_error_map, Hi' in Hi. cbn in Hi. now injection Hi as <-.
Qed.

Lemma commutes_numbers (test trial : fspace T R) m tau f h : serial_space test -> serial_space trial -> fs_grid trial = fs_grid test ->
  renumbering (ent_count (fs_grid test) 2) tau -> renumbering (global_size (fs_space test)) f -> renumbering (global_size (fs_space trial)) h ->
  (forall c, c < ent_count (fs_grid test) 2 -> dofs_at test c = map f (dofs_at test (tau c)) /\ dofs_at trial c = map h (dofs_at trial (tau c))) ->
  (forall i j, i < global_size (fs_space test) -> j < global_size (fs_space trial) ->
      exists x, entry_at (global_size (fs_space test)) m i j = Some x /\ entry_at (global_size (fs_space test)) m (f i) (h j) = Some x) ->
  commutes Sc test trial m tau.
Proof.
  intros St Ss Same Rt Rf Rh Df H.
  assert (Dt : forall c, c < ent_count (fs_grid test) 2 -> dofs_at test c = map f (dofs_at test (tau c))) by (intros; now apply Df).
  assert (Ds : forall c, c < ent_count (fs_grid trial) 2 -> dofs_at trial c = map h (dofs_at trial (tau c))) by (rewrite Same; intros; now apply Df).
  assert (Rs : renumbering (ent_count (fs_grid trial) 2) tau) by now rewrite Same.
  split; [|split; [intros x; exists (fun i => x (h i)); now apply numbers_turned|intros y; exists (fun i => y (f i)); now apply numbers_turned]].
  intros x x' y y' Tx Ty P i Hi.
  pose proof (turned_numbers trial tau h x x' Ss Rs Ds Tx) as Ex. pose proof (turned_numbers test tau f y y' St Rt Dt Ty i Hi) as Ey.
  destruct (P (f i)) as (e & He & E); [now apply Rf|].
  exists (fun j => e (h j)). split.
  - intros j Hj. destruct (H i j Hi Hj) as (v & V1 & V2). rewrite (He (h j)) in V2 by now apply Rh. congruence.
  - rewrite Ey, E. rewrite <- (total_renumbered _ h (fun j => s_mul Sc (e j) (x j)) Rh).
    apply total_ext; auto. intros j Hj. apply in_seq in Hj. now rewrite Ex by lia.
Qed.

Lemma product_unique rows cols m (x y y' : nat -> T) : product Sc rows cols m x y -> product Sc rows cols m x y' -> forall i, i < rows -> y i = y' i.
Proof.
  intros P P' i Hi. destruct (P i Hi) as (e & He & E). destruct (P' i Hi) as (e' & He' & E'). rewrite E, E'.
  apply total_ext; auto. intros j Hj. apply in_seq in Hj. assert (Hj' : j < cols) by lia. specialize (He j Hj'). specialize (He' j Hj').
  assert (e j = e' j) by congruence. congruence.
Qed.

Lemma row_sum_of rows cols m i (e : nat -> T) : (forall j, j < cols -> entry_at rows m i j = Some (e j)) ->
  row_sum Sc rows cols m i (total Sc (seq 0 cols) e).
Proof.
  intros H. exists (map e (seq 0 cols)). split; [|now rewrite (total_map Sc e)].
  assert (G : forall l, (forall j, In j l -> j < cols) -> mapM (fun j => vget m (i + rows * j)) l = Ok (map e l)).
  { induction l as [|j l IH]; intros Hl; [reflexivity|]. cbn [mapM map]. unfold vget at 1. unfold entry_at in H. rewrite (H j) by (apply Hl; now left).
    cbn. rewrite IH by (intros k Hk; apply Hl; now right). reflexivity. }
  apply G. intros j Hj. apply in_seq in Hj. lia.
Qed.

Lemma column_sum_of rows m j (e : nat -> T) : (forall i, i < rows -> entry_at rows m i j = Some (e i)) ->
  column_sum Sc rows m j (total Sc (seq 0 rows) e).
Proof.
  intros H. exists (map e (seq 0 rows)). split; [|now rewrite (total_map Sc e)].
  assert (G : forall l, (forall i, In i l -> i < rows) -> mapM (fun i => vget m (i + rows * j)) l = Ok (map e l)).
  { induction l as [|i l IH]; intros Hl; [reflexivity|]. cbn [mapM map]. unfold vget at 1. unfold entry_at in H. rewrite (H i) by (apply Hl; now left).
    cbn. rewrite IH by (intros k Hk; apply Hl; now right). reflexivity. }
  apply G. intros i Hi. apply in_seq in Hi. lia.
Qed.

Lemma sums_numbers (test trial : fspace T R) m c c' f h : serial_space test -> serial_space trial ->
  fs_grid trial = fs_grid test -> c' < ent_count (fs_grid test) 2 ->
  renumbering (global_size (fs_space test)) f -> renumbering (global_size (fs_space trial)) h ->
  dofs_at test c = map f (dofs_at test c') -> dofs_at trial c = map h (dofs_at trial c') ->
  (forall i j, i < global_size (fs_space test) -> j < global_size (fs_space trial) ->
      exists x, entry_at (global_size (fs_space test)) m i j = Some x /\ entry_at (global_size (fs_space test)) m (f i) (h j) = Some x) ->
  like_sums Sc test trial m c c'.
Proof.
  intros St Ss Same Hc' Rf Rh Dt Ds H.
  assert (Tot : exists e, forall i j, i < global_size (fs_space test) -> j < global_size (fs_space trial) -> entry_at (global_size (fs_space test)) m i j = Some (e i j)).
  { exists (fun i j => match entry_at (global_size (fs_space test)) m i j with Some x => x | None => s_zero Sc end).
    intros i j Hi Hj. destruct (H i j Hi Hj) as (x & E & _). now rewrite E. }
  destruct Tot as (e & He).
  assert (Inv : forall i j, i < global_size (fs_space test) -> j < global_size (fs_space trial) -> e (f i) (h j) = e i j).
  { intros i j Hi Hj. destruct (H i j Hi Hj) as (x & E1 & E2). rewrite He in E1 by auto. rewrite He in E2 by (now apply Rf || now apply Rh). congruence. }
  split.
  - intros a i i' Hi Hi'. rewrite Dt, nth_error_map, Hi' in Hi. cbn in Hi. injection Hi as <-.
    assert (Li : i' < global_size (fs_space test)).
    { rewrite (serial_size test St). apply (serial_dofs_lt test St c'); auto. eapply nth_error_In; eauto. }
    exists (total Sc (seq 0 (global_size (fs_space trial))) (e i')). split.
    + replace (total Sc (seq 0 (global_size (fs_space trial))) (e i')) with (total Sc (seq 0 (global_size (fs_space trial))) (e (f i'))).
      * apply row_sum_of. intros j Hj. apply He; auto. now apply Rf.
      * rewrite <- (total_renumbered _ h (e (f i')) Rh). apply total_ext; auto. intros j Hj. apply in_seq in Hj. apply Inv; auto; lia.
    + apply row_sum_of. intros j Hj. now apply He.
  - intros a i i' Hi Hi'. rewrite Ds, nth_error_map, Hi' in Hi. cbn in Hi. injection Hi as <-.
    assert (Li : i' < global_size (fs_space trial)).
    { rewrite (serial_size trial Ss). apply (serial_dofs_lt trial Ss c'); [now rewrite Same|]. eapply nth_error_In; eauto. }
    exists (total Sc (seq 0 (global_size (fs_space test))) (fun k => e k i')). split.
    + replace (total Sc (seq 0 (global_size (fs_space test))) (fun k => e k i')) with (total Sc (seq 0 (global_size (fs_space test))) (fun k => e k (h i'))).
      * apply column_sum_of. intros j Hj. apply He; auto. now apply Rh.
      * rewrite <- (total_renumbered _ f (fun k => e k (h i')) Rf). apply total_ext; auto. intros j Hj. apply in_seq in Hj. apply Inv; auto; lia.
    + apply column_sum_of. intros j Hj. now apply He.
Qed.

Lemma symmetric_solution (test trial : fspace T R) m tau x y : serial_space trial -> fs_grid trial = fs_grid test ->
  renumbering (ent_count (fs_grid test) 2) tau -> commutes Sc test trial m tau ->
  at_most_one Sc (global_size (fs_space test)) (global_size (fs_space trial)) m y -> turned test tau y y ->
  product Sc (global_size (fs_space test)) (global_size (fs_space trial)) m x y -> turned trial tau x x.
Proof.
  intros Ss Same Rt (C & Cx & _) U Ty P c a i i' Hc Hi Hi'. destruct (Cx x) as (x' & Tx).
  pose proof (C x x' y y Tx Ty P) as P'. rewrite <- (Tx c a i i' Hc Hi Hi'). apply (U x x' P P').
  rewrite (serial_size trial Ss). apply (serial_dofs_lt trial Ss (tau c)); [rewrite Same in *; now apply Rt|]. eapply nth_error_In; eauto.
Qed.
End Numbers.

(** ** On the sphere *)

Section Matrices.
Context {T : Type} (Sc : scalar T R) (X : externals R).
Variables (level id wmod : nat) (b : builder vec) (calls : list setter) (tf sf : family) (test trial : fspace T R) (rt : runtime T).
Hypothesis (Ex : exact Sc) (Ec : exact_cast Sc) (En : r_neg Sc = Ropp).
Hypothesis (E : regular_sphere real_numbers level 1 = Ok b).
Hypothesis (Htf : standard tf) (Hsf : standard sf).
Hypothesis (Mt : made_on (built_grid id Triangle b) tf test) (Ms : made_on (built_grid id Triangle b) sf trial).
Hypothesis (Fl : flat_cells X (built_grid id Triangle b) b).
Hypothesis (Pr : proper_rules X) (Re : rules_exist X Triangle (after calls)).
Hypothesis (Bt : (0 < get_batch_size (after calls) < wmod)%nat).
Hypothesis (Cw : (2 * ent_count (built_grid id Triangle b) 2 * ent_count (built_grid id Triangle b) 2 <= wmod)%nat).
Hypothesis (Lr : legal_runtime (s_add Sc) rt).

Definition turn_facts (m : list T) (k : nat) (s t o : bool) : Prop :=
  exists tau, renumbering (ent_count (built_grid id Triangle b) 2) tau /\ carries b (octahedral k s t o) tau /\
    commutes Sc test trial m tau /\ forall c, (c < ent_count (built_grid id Triangle b) 2)%nat -> like_sums Sc test trial m c (tau c).

Lemma facts_from_numbers one m L f h k s t o : ring_theory (s_zero Sc) one (s_add Sc) (s_mul Sc) (s_sub Sc) (s_neg Sc) eq ->
  serial_space test -> serial_space trial -> fs_grid test = built_grid id Triangle b -> fs_grid trial = fs_grid test ->
  renumbering (ent_count (built_grid id Triangle b) 2) (L 2%nat) -> carries b (octahedral k s t o) (L 2%nat) ->
  renumbering (global_size (fs_space test)) f -> renumbering (global_size (fs_space trial)) h ->
  (forall c, (c < ent_count (fs_grid test) 2)%nat -> dofs_at test c = map f (dofs_at test (L 2%nat c)) /\ dofs_at trial c = map h (dofs_at trial (L 2%nat c))) ->
  (forall i j, (i < global_size (fs_space test))%nat -> (j < global_size (fs_space trial))%nat ->
      exists x, entry_at (global_size (fs_space test)) m i j = Some x /\ entry_at (global_size (fs_space test)) m (f i) (h j) = Some x) ->
  turn_facts m k s t o.
Proof.
  intros RT St Ss Gt Same Bj Ca Rf Rh Df H. exists (L 2%nat). split; [exact Bj|]. split; [exact Ca|]. rewrite <- Gt in *. split.
  - now apply (commutes_numbers Sc one RT test trial m (L 2%nat) f h).
  - intros c Hc. apply (sums_numbers Sc one RT test trial m c (L 2%nat c) f h); auto; [now apply Bj|now apply Df|now apply Df].
Qed.

Theorem laplace_facts : forall kd (G : @green T R), radial Sc G -> exists m,
  assemble Sc X rt wmod (laplace_operator kd G) (after calls) trial test = Ok m /\ forall k s t o, upright k s t o -> turn_facts m k s t o.
Proof.
  intros kd G Rd.
  destruct (made_dense T R Sc X wmod (laplace_operator kd G) calls (built_grid id Triangle b) tf sf test trial Triangle) as (deg & pts & D); auto.
  { exact (shape_sphere real_numbers level id b E). } { apply laplace_shipped. }
  assert (Gt : fs_grid test = built_grid id Triangle b) by apply Mt. assert (Gs : fs_grid trial = built_grid id Triangle b) by apply Ms.
  assert (Same : fs_grid trial = fs_grid test) by congruence.
  assert (Ex' := Ex). destruct Ex' as ((one & RT) & _).
  assert (One : forall x, s_mul Sc one x = x) by (intros x; apply (Rmul_1_l RT)).
  assert (A : forall k s t o, upright k s t o -> exists m, assemble Sc X rt wmod (laplace_operator kd G) (after calls) trial test = Ok m /\ turn_facts m k s t o).
  { intros k s t o U. destruct (turn_automorphism level id b E k s t o U) as (L & Au & Ca).
    destruct (laplace_automorphism Sc X (octahedral k s t o) (turn_matrix Sc one k s t o) one G kd rt wmod (after calls) deg pts Triangle test trial L) as (m & f & h & Em & Rf & Rh & Df & H); auto.
    - now apply turn_orthogonal.
    - apply radial_similar; auto. now apply cast_neg.
    - rewrite Gt. exact Au.
    - rewrite Gt. now apply (turn_moved Sc X level).
    - pose proof (rg_bijective _ _ _ Au 2 (le_n 2)) as Bj. exists m. split; [exact Em|].
      apply (facts_from_numbers one m L f h); auto; apply D. }
  destruct (A 0%nat false false false) as (m & Em & _); [now left|]. exists m. split; [exact Em|].
  intros k s t o U. destruct (A k s t o U) as (m' & Em' & H). rewrite Em in Em'. injection Em' as <-. exact H.
Qed.

Theorem helmholtz_facts : forall kd (G : R -> @green T R) wavenumber, radial Sc (G wavenumber) -> exists m,
  assemble Sc X rt wmod (helmholtz_operator Sc kd G wavenumber) (after calls) trial test = Ok m /\ forall k s t o, upright k s t o -> turn_facts m k s t o.
Proof.
  intros kd G wn Rd.
  destruct (made_dense T R Sc X wmod (helmholtz_operator Sc kd G wn) calls (built_grid id Triangle b) tf sf test trial Triangle) as (deg & pts & D); auto.
  { exact (shape_sphere real_numbers level id b E). } { apply helmholtz_shipped. }
  assert (Gt : fs_grid test = built_grid id Triangle b) by apply Mt. assert (Gs : fs_grid trial = built_grid id Triangle b) by apply Ms.
  assert (Same : fs_grid trial = fs_grid test) by congruence.
  assert (Ex' := Ex). destruct Ex' as ((one & RT) & _).
  assert (One : forall x, s_mul Sc one x = x) by (intros x; apply (Rmul_1_l RT)).
  assert (A : forall k s t o, upright k s t o -> exists m, assemble Sc X rt wmod (helmholtz_operator Sc kd G wn) (after calls) trial test = Ok m /\ turn_facts m k s t o).
  { intros k s t o U. destruct (turn_automorphism level id b E k s t o U) as (L & Au & Ca).
    destruct (helmholtz_automorphism Sc X (octahedral k s t o) (turn_matrix Sc one k s t o) one G wn kd rt wmod (after calls) deg pts Triangle test trial L) as (m & f & h & Em & Rf & Rh & Df & H); auto.
    - now apply turn_orthogonal.
    - apply radial_similar; auto. now apply cast_neg.
    - rewrite Gt. exact Au.
    - rewrite Gt. now apply (turn_moved Sc X level).
    - pose proof (rg_bijective _ _ _ Au 2 (le_n 2)) as Bj. exists m. split; [exact Em|].
      apply (facts_from_numbers one m L f h); auto; apply D. }
  destruct (A 0%nat false false false) as (m & Em & _); [now left|]. exists m. split; [exact Em|].
  intros k s t o U. destruct (A k s t o U) as (m' & Em' & H). rewrite Em in Em'. injection Em' as <-. exact H.
Qed.
End Matrices.

(** ** The statements of C120 *)

Theorem laplace_commutes : forall {T : Type} (Sc : scalar T R) (X : externals R) level id wmod (b : builder vec) calls tf sf (test trial : fspace T R) rt,
  exact Sc -> exact_cast Sc -> r_neg Sc = Ropp -> regular_sphere real_numbers level 1 = Ok b -> standard tf -> standard sf ->
  made_on (built_grid id Triangle b) tf test -> made_on (built_grid id Triangle b) sf trial ->
  flat_cells X (built_grid id Triangle b) b -> proper_rules X -> rules_exist X Triangle (after calls) ->
  (0 < get_batch_size (after calls) < wmod)%nat ->
  (2 * ent_count (built_grid id Triangle b) 2 * ent_count (built_grid id Triangle b) 2 <= wmod)%nat -> legal_runtime (s_add Sc) rt ->
  forall kd (G : @green T R), radial Sc G -> exists m,
    assemble Sc X rt wmod (laplace_operator kd G) (after calls) trial test = Ok m /\
    forall k s t o, upright k s t o -> exists tau, renumbering (ent_count (built_grid id Triangle b) 2) tau /\
      carries b (octahedral k s t o) tau /\ commutes Sc test trial m tau.
Proof.
  intros T Sc X level id wmod b calls tf sf test trial rt Ex Ec En E Htf Hsf Mt Ms Fl Pr Re Bt Cw Lr kd G Rd.
  destruct (laplace_facts Sc X level id wmod b calls tf sf test trial rt Ex Ec En E Htf Hsf Mt Ms Fl Pr Re Bt Cw Lr kd G Rd) as (m & Em & H).
  exists m. split; [exact Em|]. intros k s t o U. destruct (H k s t o U) as (tau & H1 & H2 & H3 & _). exists tau. auto.
Qed.

Theorem helmholtz_commutes : forall {T : Type} (Sc : scalar T R) (X : externals R) level id wmod (b : builder vec) calls tf sf (test trial : fspace T R) rt,
  exact Sc -> exact_cast Sc -> r_neg Sc = Ropp -> regular_sphere real_numbers level 1 = Ok b -> standard tf -> standard sf ->
  made_on (built_grid id Triangle b) tf test -> made_on (built_grid id Triangle b) sf trial ->
  flat_cells X (built_grid id Triangle b) b -> proper_rules X -> rules_exist X Triangle (after calls) ->
  (0 < get_batch_size (after calls) < wmod)%nat ->
  (2 * ent_count (built_grid id Triangle b) 2 * ent_count (built_grid id Triangle b) 2 <= wmod)%nat -> legal_runtime (s_add Sc) rt ->
  forall kd (G : R -> @green T R) wavenumber, radial Sc (G wavenumber) -> exists m,
    assemble Sc X rt wmod (helmholtz_operator Sc kd G wavenumber) (after calls) trial test = Ok m /\
    forall k s t o, upright k s t o -> exists tau, renumbering (ent_count (built_grid id Triangle b) 2) tau /\
      carries b (octahedral k s t o) tau /\ commutes Sc test trial m tau.
Proof.
  intros T Sc X level id wmod b calls tf sf test trial rt Ex Ec En E Htf Hsf Mt Ms Fl Pr Re Bt Cw Lr kd G wn Rd.
  destruct (helmholtz_facts Sc X level id wmod b calls tf sf test trial rt Ex Ec En E Htf Hsf Mt Ms Fl Pr Re Bt Cw Lr kd G wn Rd) as (m & Em & H).
  exists m. split; [exact Em|]. intros k s t o U. destruct (H k s t o U) as (tau & H1 & H2 & H3 & _). exists tau. auto.
Qed.

(** Symmetric data, symmetric solutions. *)
Theorem symmetric_data : forall {T R : Type} (Sc : scalar T R) G sf (test trial : fspace T R) m tau x y,
  exact Sc -> shape_grid G -> standard sf -> fs_grid test = G -> made_on G sf trial -> renumbering (ent_count G 2) tau -> commutes Sc test trial m tau ->
  at_most_one Sc (global_size (fs_space test)) (global_size (fs_space trial)) m y -> turned test tau y y ->
  product Sc (global_size (fs_space test)) (global_size (fs_space trial)) m x y -> turned trial tau x x.
Proof.
  intros T R Sc G sf test trial m tau x y Ex Sh Hs Gt Ms Rt C U Ty P. assert (Gs := mo_grid _ _ _ Ms).
  apply (symmetric_solution Sc test trial m tau x y); auto; [|congruence|now rewrite Gt].
  now apply (made_serial T R G sf).
Qed.

(** The octahedron: every cell is the image of every other. *)
Lemma facts_octahedron {T : Type} (Sc : scalar T R) id (b : builder vec) (test trial : fspace T R) m : regular_sphere real_numbers 0 1 = Ok b ->
  (forall k s t o, upright k s t o -> turn_facts Sc id b test trial m k s t o) ->
  forall c c', (c < 8)%nat -> (c' < 8)%nat -> like_sums Sc test trial m c c'.
Proof.
  intros E H c c' Hc Hc'.
  assert (C8 : ent_count (built_grid id Triangle b) 2 = 8%nat) by (apply (proj1 entity_counts real_numbers 0%nat b id E)).
  destruct (octahedron_transitive b c c' E) as (k & s & t & o & p & q & r & U & H1 & H2); auto.
  destruct (H k s t o U) as (tau & _ & Ca & _ & Sm). rewrite <- (carried_to 0 b _ tau c c' p q r E H1 H2 Ca). apply Sm. lia.
Qed.

Theorem octahedron_sums : forall {T : Type} (Sc : scalar T R) (X : externals R) id wmod (b : builder vec) calls tf sf (test trial : fspace T R) rt,
  exact Sc -> exact_cast Sc -> r_neg Sc = Ropp -> regular_sphere real_numbers 0 1 = Ok b -> standard tf -> standard sf ->
  made_on (built_grid id Triangle b) tf test -> made_on (built_grid id Triangle b) sf trial ->
  flat_cells X (built_grid id Triangle b) b -> proper_rules X -> rules_exist X Triangle (after calls) ->
  (0 < get_batch_size (after calls) < wmod)%nat -> (128 <= wmod)%nat -> legal_runtime (s_add Sc) rt ->
  (forall kd (G : @green T R), radial Sc G -> exists m,
     assemble Sc X rt wmod (laplace_operator kd G) (after calls) trial test = Ok m /\ forall c c', (c < 8)%nat -> (c' < 8)%nat -> like_sums Sc test trial m c c') /\
  (forall kd (G : R -> @green T R) wavenumber, radial Sc (G wavenumber) -> exists m,
     assemble Sc X rt wmod (helmholtz_operator Sc kd G wavenumber) (after calls) trial test = Ok m /\ forall c c', (c < 8)%nat -> (c' < 8)%nat -> like_sums Sc test trial m c c').
Proof.
  intros T Sc X id wmod b calls tf sf test trial rt Ex Ec En E Htf Hsf Mt Ms Fl Pr Re Bt Cw Lr.
  assert (C8 : ent_count (built_grid id Triangle b) 2 = 8%nat) by (apply (proj1 entity_counts real_numbers 0%nat b id E)).
  assert (Cw' : (2 * ent_count (built_grid id Triangle b) 2 * ent_count (built_grid id Triangle b) 2 <= wmod)%nat) by (rewrite C8; exact Cw).
  split.
  - intros kd G Rd. destruct (laplace_facts Sc X 0 id wmod b calls tf sf test trial rt Ex Ec En E Htf Hsf Mt Ms Fl Pr Re Bt Cw' Lr kd G Rd) as (m & Em & H).
    exists m. split; [exact Em|]. now apply (facts_octahedron Sc id b).
  - intros kd G wn Rd. destruct (helmholtz_facts Sc X 0 id wmod b calls tf sf test trial rt Ex Ec En E Htf Hsf Mt Ms Fl Pr Re Bt Cw' Lr kd G wn Rd) as (m & Em & H).
    exists m. split; [exact Em|]. now apply (facts_octahedron Sc id b).
Qed.

(** One function on each cell. *)
Lemma row_sum_unique {T R : Type} (Sc : scalar T R) rows cols m i v w : row_sum Sc rows cols m i v -> row_sum Sc rows cols m i w -> v = w.
Proof. intros (l & E1 & E2) (l' & E1' & E2'). congruence. Qed.
Lemma column_sum_unique {T R : Type} (Sc : scalar T R) rows m i v w : column_sum Sc rows m i v -> column_sum Sc rows m i w -> v = w.
Proof. intros (l & E1 & E2) (l' & E1' & E2'). congruence. Qed.

Theorem one_function_sums : forall {T : Type} (Sc : scalar T R) id (b : builder vec) (test trial : fspace T R) m,
  regular_sphere real_numbers 0 1 = Ok b ->
  made_on (built_grid id Triangle b) (interior_only (fun _ => 1%nat)) test -> made_on (built_grid id Triangle b) (interior_only (fun _ => 1%nat)) trial ->
  (forall c c', (c < 8)%nat -> (c' < 8)%nat -> like_sums Sc test trial m c c') ->
  exists r s, (forall i, (i < 8)%nat -> row_sum Sc 8 8 m i r) /\ (forall j, (j < 8)%nat -> column_sum Sc 8 m j s).
Proof.
  intros T Sc id b test trial m E Mt Ms H.
  assert (C8 : ent_count (built_grid id Triangle b) 2 = 8%nat) by (apply (proj1 entity_counts real_numbers 0%nat b id E)).
  assert (Sh : shape_grid (built_grid id Triangle b)) by exact (shape_sphere real_numbers 0 id b E).
  assert (Std : standard (interior_only (fun _ => 1%nat))) by (constructor; intros; lia).
  assert (One : forall fs : fspace T R, made_on (built_grid id Triangle b) (interior_only (fun _ => 1%nat)) fs ->
    global_size (fs_space fs) = 8%nat /\ (exists i0, nth_error (dofs_at fs 0) 0 = Some i0) /\
    forall i, (i < 8)%nat -> exists c, (c < 8)%nat /\ nth_error (dofs_at fs c) 0 = Some i).
  { intros fs Mk. assert (Gf := mo_grid _ _ _ Mk). assert (Ff := mo_family _ _ _ Mk).
    assert (Ser : serial_space fs) by now apply (made_serial T R (built_grid id Triangle b) (interior_only (fun _ => 1%nat))).
    assert (Dim : forall c, (c < 8)%nat -> length (dofs_at fs c) = 1%nat).
    { intros c Hc. rewrite (dofs_at_dim fs c Ser) by (rewrite Gf, C8; exact Hc). rewrite Ff, Gf. reflexivity. }
    assert (Sz : global_size (fs_space fs) = 8%nat).
    { destruct (made_size T R _ _ fs Sh Std Mk) as (_ & _ & _ & K). rewrite (K _ eq_refl), C8. reflexivity. }
    split; [exact Sz|]. split.
    - specialize (Dim 0%nat ltac:(lia)). destruct (dofs_at fs 0) as [|x l]; [discriminate|]. now exists x.
    - intros i Hi. rewrite <- Sz, (serial_size fs Ser) in Hi. destruct (dof_in_cell fs i Ser Hi) as (c & a & Hc & Ha). rewrite Gf, C8 in Hc.
      exists c. split; [exact Hc|]. assert (La : (a < length (dofs_at fs c))%nat) by (apply nth_error_Some; congruence).
      rewrite (Dim c Hc) in La. assert (a = 0%nat) by lia. now subst a. }
  destruct (One test Mt) as (S1 & (i0 & Hi0) & Cov1). destruct (One trial Ms) as (S2 & (j0 & Hj0) & Cov2).
  destruct (H 0%nat 0%nat ltac:(lia) ltac:(lia)) as (A1 & A2). rewrite S1, S2 in A1. rewrite S1 in A2.
  destruct (A1 0%nat i0 i0 Hi0 Hi0) as (r & Hr & _). destruct (A2 0%nat j0 j0 Hj0 Hj0) as (s & Hs & _).
  exists r, s. split.
  - intros i Hi. destruct (Cov1 i Hi) as (c & Hc & Hic). destruct (H 0%nat c ltac:(lia) Hc) as (B1 & _). rewrite S1, S2 in B1.
    destruct (B1 0%nat i0 i Hi0 Hic) as (v & V1 & V2). now rewrite (row_sum_unique Sc _ _ _ _ _ _ Hr V1).
  - intros j Hj. destruct (Cov2 j Hj) as (c & Hc & Hjc). destruct (H 0%nat c ltac:(lia) Hc) as (_ & B2). rewrite S1 in B2.
    destruct (B2 0%nat j0 j Hj0 Hjc) as (v & V1 & V2). now rewrite (column_sum_unique Sc _ _ _ _ _ Hs V1).
Qed.
