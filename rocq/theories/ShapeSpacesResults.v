(** * Spaces and matrices on the built-in shapes *)
From Verif Require Import Base BaseFacts Topology TopologyFacts DofMap SpecDof DofMapResults Process Space SpecSpace SpaceFacts SpaceScript SpaceResults Serial SerialResults
  Colouring SpecColour Shapes SpecShapes DimensionResults Options SpecOptions OptionsResults Batch Adjacency SpecAdjacency AdjacencyExamples
  Scalar Integrand CellPair Operators SpecLocal LocalResults
  Interleave InterleaveFacts Assembly SpecAssembly AssemblyFacts AssemblySingular AssemblyDense AssemblyResults SpecDistributed SpecShapeSpaces.

Lemma shape_counted G : shape_grid G -> exists t V E F, (t = Triangle \/ t = Quadrilateral) /\ counted t G V E F.
Proof.
  intros [R L i b H|n i b H|n i b H].
  - exists Triangle. do 3 eexists. split; [now left|]. eapply sphere_counted; eauto.
  - exists Triangle. do 3 eexists. split; [now left|]. eapply triangles_counted; eauto.
  - exists Quadrilateral. do 3 eexists. split; [now right|]. eapply quads_counted; eauto.
Qed.

Lemma standard_wf fam types : standard fam -> wf_family types fam.
Proof. intros [p _|n _]; [apply lagrange_wf_family|apply interior_only_wf_family]. Qed.

Lemma standard_pos fam t : t = Triangle \/ t = Quadrilateral -> standard fam -> 0 < el_dim (fam t).
Proof. intros Ht [p Hp|n Hn]; [|specialize (Hn t)]; destruct Ht as [-> | ->]; cbn; lia. Qed.

Section Made.
Variables T R : Type.

Lemma made_serial G fam (fs : fspace T R) : shape_grid G -> standard fam -> made_on G fam fs -> serial_space fs.
Proof.
  intros Hg Hf [E1 E2 E3 E4 (dm & eager & sp & A & C & E5)]. destruct (shape_counted G Hg) as (t & V & E & F & Ht & [W _ Ty O _ _ _ _ _]).
  assert (Fam : wf_family (g_types G 2) fam) by now apply standard_wf.
  assert (D : sp_dofmap (fs_space fs) = dm).
  { rewrite E5. apply (created_dofmap 1 (fun _ => G) fam (fun _ => dm) eager sp 0); auto.
    - now apply whole_dist.
    - intros r Hr. replace r with 0 by lia. exact A. }
  constructor; rewrite ?E1, ?E2, ?D; auto.
  - intros t0 H0. rewrite Ty in H0. injection H0 as <-. now apply standard_pos.
  - exists eager, sp. auto.
Qed.

Lemma spaces_exist : forall G fam components basis, shape_grid G -> standard fam -> (forall t, 0 < components t) ->
  exists fs : fspace T R, made_on G fam fs /\ fs_components fs = components /\ fs_basis fs = basis.
Proof.
  intros G fam components basis Hg Hf Hc. destruct (shape_counted G Hg) as (t & V & E & F & Ht & [W _ Ty O _ _ _ _ _]).
  assert (Fam : wf_family (g_types G 2) fam) by now apply standard_wf.
  destruct (assign_dofs_total 0 G fam W Fam) as (dm & A).
  exists (mkFspace T R G fam 1 (final_space 1 (fun _ => dm) 0) components basis). split; [|auto]. constructor; auto.
  exists dm, synchronous, (final_space 1 (fun _ => dm)). split; auto. split; auto. apply (eager_completes 1 (fun _ => G) fam).
  - now apply whole_dist.
  - intros r Hr. replace r with 0 by lia. exact A.
  - intros r q m key Hr Hin. replace r with 0 in Hin by lia. destruct Hin.
Qed.

Lemma made_size G fam (fs : fspace T R) : shape_grid G -> standard fam -> made_on G fam fs ->
  (forall Rn L b i p, G = built_grid i Triangle b -> regular_sphere Rn L 1 = Ok b -> 1 <= p -> fam = lagrange p -> global_size (fs_space fs) = p * p * 4 ^ (L + 1) + 2) /\
  (forall n b i p, G = built_grid i Triangle b -> screen_triangles n = Ok b -> 1 <= p -> fam = lagrange p -> global_size (fs_space fs) = (p * n + 1) * (p * n + 1)) /\
  (forall n b i p, G = built_grid i Quadrilateral b -> screen_quadrilaterals n = Ok b -> 1 <= p -> fam = lagrange p -> global_size (fs_space fs) = (p * n + 1) * (p * n + 1)) /\
  (forall n, fam = interior_only n -> global_size (fs_space fs) = ent_count G 2 * n (hd Point (g_types G 2))).
Proof.
  intros Hg Hf M. destruct (shape_counted G Hg) as (t & V & E & F & Ht & K). pose proof K as [W _ Ty O _ _ _ _ CF].
  destruct M as [_ _ _ _ (dm & eager & sp & A & C & E5)].
  assert (Fam : wf_family (g_types G 2) fam) by now apply standard_wf.
  assert (P := whole_partition G W O). assert (D := whole_dist G fam W Fam O).
  assert (H : dofmaps 1 (fun _ => G) fam (fun _ => dm)) by (intros r Hr; replace r with 0 by lia; exact A). rewrite E5.
  split; [|split; [|split]].
  - intros Rn L b i p -> Eb Hp ->. eapply sphere_dimension; eauto.
  - intros n b i p -> Eb Hp ->. eapply triangles_dimension; eauto.
  - intros n b i p -> Eb Hp ->. eapply quads_dimension; eauto.
  - intros n ->. rewrite CF. rewrite Ty. cbn [hd].
    rewrite (global_interior t G V E F K (interior_only n) 1 (fun _ => G) (fun _ _ e => e) (fun _ => dm) eager sp 0); auto.
    + destruct Ht as [-> | ->]; cbn [el_dim interior_only ref_count]; lia.
    + apply interior_only_wf_family.
    + intros u d i _ Hd. unfold el_ndofs, interior_only. cbn [el_edofs]. destruct (i <? ref_count u d); auto. destruct d as [|[|d]]; auto. lia.
Qed.

Variables (S : scalar T R) (X : externals R).

Lemma made_dense_fit wmod O calls G tf sf test trial t : shape_grid G -> standard tf -> standard sf -> made_on G tf test -> made_on G sf trial ->
  g_types G 2 = [t] -> shipped S O -> proper_rules X -> rules_exist X t (after calls) ->
  0 < get_batch_size (after calls) < wmod -> 2 * ent_count G 2 <= wmod -> pairs_fit wmod G ->
  exists deg pts, dense_setting X wmod O (after calls) deg pts t test trial.
Proof.
  intros Hg Htf Hsf Mt Ms Ety Sh Pr [Re1 Re2] (B1 & B2) Cw' Pf. destruct (shape_counted G Hg) as (t' & V & E & F & Ht & [W Cf Ty O' _ _ _ _ _]).
  rewrite Ety in Ty. injection Ty as <-. assert (Su : supported t) by exact Ht.
  destruct (options_history calls) as (Hr & Hs & _). destruct (Hr t Su) as (n & En & _). destruct (Hs (t, t) Su Su) as (m & Em & _).
  pose proof (mo_grid _ _ _ Mt) as Gt. pose proof (mo_grid _ _ _ Ms) as Gs.
  assert (Gd : g_gdim G = 3) by (destruct Hg; reflexivity).
  exists (fun _ _ => m), (fun _ => n). constructor; rewrite ?Gt, ?Gs; auto.
  - now apply (made_serial G tf).
  - now apply (made_serial G sf).
  - intros _. congruence.
  - unfold in_space. now rewrite Gt.
  - unfold in_space. now rewrite Gs.
  - intros u _. apply (mo_components _ _ _ Mt).
  - intros u _. apply (mo_components _ _ _ Ms).
  - now apply (shipped_fitting S).
  - intros u [<-|[]]. split; auto.
  - intros _. split; [|split; [|split]].
    + intros u s [<-|[]] [<-|[]]. exact Em.
    + intros u s p kind [<-|[]] [<-|[]] Hp Hk. eapply Re2; eauto.
    + exact Cf.
    + exact Pf.
Qed.

Lemma made_dense wmod O calls G tf sf test trial t : shape_grid G -> standard tf -> standard sf -> made_on G tf test -> made_on G sf trial ->
  g_types G 2 = [t] -> shipped S O -> proper_rules X -> rules_exist X t (after calls) ->
  0 < get_batch_size (after calls) < wmod -> 2 * ent_count G 2 * ent_count G 2 <= wmod ->
  exists deg pts, dense_setting X wmod O (after calls) deg pts t test trial.
Proof.
  intros Hg Htf Hsf Mt Ms Ety Sh Pr Re B Cw. apply (made_dense_fit wmod O calls G tf sf); auto.
  - destruct (ent_count G 2); lia.
  - apply pairs_fit_square. lia.
Qed.

Lemma shapes_assemble_fit : forall wmod O calls G tf sf test trial t rt, shape_grid G -> standard tf -> standard sf -> made_on G tf test -> made_on G sf trial ->
  g_types G 2 = [t] -> shipped S O -> proper_rules X -> rules_exist X t (after calls) ->
  0 < get_batch_size (after calls) < wmod -> 2 * ent_count G 2 <= wmod -> pairs_fit wmod G -> legal_runtime (s_add S) rt ->
  (exists m, assemble S X rt wmod O (after calls) trial test = Ok m /\ length m = global_size (fs_space test) * global_size (fs_space trial)) /\
  exists sm, assemble_singular S X rt wmod O (after calls) trial test = Ok sm.
Proof.
  intros wmod O calls G tf sf test trial t rt Hg Htf Hsf Mt Ms Ety Sh Pr Re B Cw Pf Lg.
  destruct (made_dense_fit wmod O calls G tf sf test trial t Hg Htf Hsf Mt Ms Ety Sh Pr Re B Cw Pf) as (deg & pts & D).
  split.
  - destruct (into_memory_Ok S X rt wmod O (after calls) deg pts t test trial (repeat (s_zero S) (global_size (fs_space test) * global_size (fs_space trial))) Lg D (repeat_length _ _))
      as (q & tcol & scol & tcl & scl & _ & _ & _ & _ & _ & _ & _ & Ea).
    rewrite assemble_on_zeros in Ea by (apply mo_processes with (1 := Mt) || apply mo_processes with (1 := Ms)).
    injection Ea as Ea. eexists. split; [exact Ea|]. rewrite length_after_ops. apply repeat_length.
  - assert (Eg : g_id (fs_grid test) = g_id (fs_grid trial)) by now rewrite (mo_grid _ _ _ Mt), (mo_grid _ _ _ Ms).
    pose proof (dense_singular _ wmod O (after calls) deg pts t test trial D Eg) as SS.
    destruct (singular_part_inside S X rt wmod O (after calls) deg test trial Lg SS) as (m & Em & _).
    unfold assemble_singular. unfold shape_of in Em. rewrite Em. cbn [bind]. destruct (_ || _); eauto.
Qed.
Lemma shapes_assemble : forall wmod O calls G tf sf test trial t rt, shape_grid G -> standard tf -> standard sf -> made_on G tf test -> made_on G sf trial ->
  g_types G 2 = [t] -> shipped S O -> proper_rules X -> rules_exist X t (after calls) ->
  0 < get_batch_size (after calls) < wmod -> 2 * ent_count G 2 * ent_count G 2 <= wmod -> legal_runtime (s_add S) rt ->
  (exists m, assemble S X rt wmod O (after calls) trial test = Ok m /\ length m = global_size (fs_space test) * global_size (fs_space trial)) /\
  exists sm, assemble_singular S X rt wmod O (after calls) trial test = Ok sm.
Proof.
  intros wmod O calls G tf sf test trial t rt Hg Htf Hsf Mt Ms Ety Sh Pr Re B Cw Lg. apply (shapes_assemble_fit wmod O calls G tf sf test trial t rt); auto.
  - destruct (ent_count G 2); lia.
  - apply pairs_fit_square. lia.
Qed.
End Made.
