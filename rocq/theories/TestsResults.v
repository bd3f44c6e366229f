(** * The test suites pass on all grids, families and degrees *)
From Coq Require Import ZArith.
From Verif Require Import Base BaseFacts Topology TopologyFacts DofMap DofMapFacts SpecDof DofMapResults DofExamples Process Space SpecSpace SpaceFacts SpaceScript SpaceResults Serial SerialResults
  Colouring SpecColour ColouringResults Shapes SpecShapes DimensionResults Python SpecPython PythonFacts PythonResults PythonAssembly PythonAssemblyResults Options SpecOptions
  Batch Adjacency SpecAdjacency Scalar Integrand CellPair Operators SpecLocal LocalResults Interleave InterleaveFacts Assembly SpecAssembly AssemblyFacts AssemblySingular AssemblyDense AssemblyResults SplitResults
  SpecShapeSpaces ShapeSpacesResults Tests SpecTests.

Lemma for_each_ok {A : Type} (f : A -> res unit) l : (forall x, In x l -> f x = Ok tt) -> for_each f l = Ok tt.
Proof.
  intros H. unfold for_each. induction l as [|x l IH]; cbn [foldM]; auto. rewrite (H x) by now left. cbn [bind]. apply IH. intros; apply H; now right.
Qed.

Lemma check_ok b : b = true -> check b = Ok tt.
Proof. now intros ->. Qed.

(** ** One process *)

Section Serial.
Variables (g : grid) (fam : family).
Hypothesis W : wf_grid g.
Hypothesis F : wf_family (g_types g 2) fam.
Hypothesis U : unshared g.

Lemma unshared_dist : wf_dist 1 (fun _ => g) fam.
Proof. constructor; auto. intros. exfalso. eapply U; eauto. Qed.

Lemma serial_made : exists dm sp, assign_dofs 0 g fam = Ok dm /\ new_serial g fam = Ok sp /\ sp_dofmap sp = dm /\
  global_size sp = local_size sp /\ local_size sp = dm_size dm /\
  (forall i, i < local_size sp -> global_dof_index sp i = Ok i /\ ownership_of sp i = Ok Owned).
Proof.
  destruct (assign_dofs_total 0 g fam W F) as (dm & A).
  assert (D : dofmaps 1 (fun _ => g) fam (fun _ => dm)) by (intros r Hr; replace r with 0 by lia; exact A).
  destruct (buffered_creation 1 _ fam _ unshared_dist D) as (sp & bound & Cr & _).
  destruct (serial_identity g fam dm buffered sp W F U A Cr) as (_ & E1 & E2 & E3 & _ & E4).
  assert (E5 : sp_dofmap (sp 0) = dm) by (apply (created_dofmap 1 (fun _ => g) fam (fun _ => dm) buffered sp 0); auto using unshared_dist).
  exists dm, (sp 0). split; [exact A|]. split; [|auto].
  unfold new_serial. rewrite A. cbn [bind]. destruct Cr as (n & s & St & Fin).
  assert (n = 0) by (eapply E4; eauto). subst n.
  assert (Es : s = start 1 (fun _ => dm)) by (inversion St; auto). rewrite Es in Fin.
  assert (Ef : fs_new 0 1 dm = Ret (sp 0)) by exact (Fin 0 Nat.lt_0_1). now rewrite Ef.
Qed.

Lemma run_test_passes : run_test g fam = Ok tt.
Proof.
  destruct (assign_dofs_total 0 g fam W F) as (dm & A). unfold run_test. rewrite A. cbn [bind].
  assert (D : dofmaps 1 (fun _ => g) fam (fun _ => dm)) by (intros r Hr; replace r with 0 by lia; exact A).
  destruct (the_inv 0 g fam dm W F A) as (tags & I). destruct (inv_shape _ _ _ _ _ _ _ I) as [S1 S2 S3 S4].
  rewrite for_each_ok; [cbn [bind]; rewrite for_each_ok; [cbn [bind]|]|].
  - apply for_each_ok. intros rows Hr. apply for_each_ok. intros l Hl. apply for_each_ok. intros n Hn. apply check_ok, Nat.ltb_lt.
    apply In_nth_error in Hr, Hl, Hn. destruct Hr as (d & Hd), Hl as (e & He), Hn as (k & Hk).
    apply (listed_lt_iff 0 g fam dm W F A). exists d, e, k. exists l. split; auto.
    unfold get_local_dof_numbers, vget. rewrite Hd. cbn [unwrap bind]. now rewrite He.
  - intros l Hl. apply In_nth_error in Hl. destruct Hl as (c & Hc). assert (Lc : c < ent_count g 2) by (rewrite <- S4; apply nth_error_Some; congruence).
    assert (E : l = nth c (dm_cells dm) []) by now rewrite (nth_error_nth_Some _ _ _ _ Hc).
    apply for_each_ok. intros (i, n) Hi. cbn [fst snd]. apply In_enumerate in Hi.
    rewrite check_ok.
    2:{ apply Nat.ltb_lt. apply (cell_row_lt 0 g fam dm W F A c); auto. rewrite <- E. now apply nth_error_In in Hi. }
    cbn [bind]. apply for_each_ok. intros m Hm. apply check_ok, Bool.negb_true_iff, Nat.eqb_neq. intros <-.
    pose proof (cell_row_NoDup 0 g fam dm W F A c Lc) as N. rewrite <- E in N.
    apply In_nth_error in Hm. destruct Hm as (k & Hk). 
    assert (Hk' : nth_error l (i + 1 + k) = Some n).
    { rewrite <- (firstn_skipn (i + 1) l). rewrite nth_error_app2; rewrite firstn_length_le; try lia.
      - now replace (i + 1 + k - (i + 1)) with k by lia.
      - assert (i < length l) by (apply nth_error_Some; congruence). lia.
      - assert (i < length l) by (apply nth_error_Some; congruence). lia. }
    pose proof (NoDup_nth_error_inj _ _ _ _ N Hi Hk'). lia.
  - intros o Ho. apply In_nth_error in Ho. destruct Ho as (i & Ho).
    destruct (owner_origin 1 _ fam _ unshared_dist D 0 i o Nat.lt_0_1 Ho) as (d & e & k & _ & Eo & c & j & Hs).
    unfold own_of in Eo. apply check_ok, Nat.eqb_eq. destruct (g_own g d e) eqn:Eg; try (subst o; reflexivity).
    exfalso. eapply U; eauto.
Qed.

Lemma dofmap_passes n : (forall dm, assign_dofs 0 g fam = Ok dm -> dm_size dm = n) -> test_dofmap g fam n = Ok tt.
Proof.
  intros H. destruct serial_made as (dm & sp & A & E & _ & E1 & E2 & _). unfold test_dofmap. rewrite E. cbn [bind].
  rewrite E1, Nat.eqb_refl, E2, (H dm A), Nat.eqb_refl. reflexivity.
Qed.

Section Colours.
Variable t : cell_type.
Hypothesis Ty : g_types g 2 = [t].
Hypothesis Pos : 0 < el_dim (fam t).

Lemma single_ctype c : c < ent_count g 2 -> g_ctype g c = t.
Proof. intros Hc. pose proof (wf_ctype g W c Hc) as H. rewrite Ty in H. destruct H as [|[]]; auto. Qed.

Lemma single_count : g_count g t = ent_count g 2.
Proof. unfold ent_count. rewrite Ty. cbn. lia. Qed.

Lemma classes_made : exists col classes, cell_colouring g fam = Ok col /\ assoc ct_eqb t col = Some classes /\ test_classes g t classes = Ok tt /\
  (forall k l c, nth_error classes k = Some l -> In c l -> c < ent_count g 2 /\ in_class col t k c) /\
  class_count col (length classes).
Proof.
  assert (Hd : head_dim_pos g fam) by (intros t0 H0; rewrite Ty in H0; injection H0 as <-; auto).
  destruct (colouring_partition g fam W F Hd) as (col & K & E & Ef & CC & All & Uni & In2 & ND).
  assert (Ha : exists classes, assoc ct_eqb t col = Some classes).
  { rewrite Ty in Ef. destruct col as [|(t', cl) [|]]; try discriminate. injection Ef as ->. exists cl. cbn. now rewrite ct_eqb_refl. }
  destruct Ha as (classes & Ha). exists col, classes. split; [exact E|]. split; [exact Ha|].
  assert (Kc : length classes = K) by (eapply CC; eauto).
  assert (Ic : forall k l c, nth_error classes k = Some l -> In c l -> in_class col t k c) by (intros; exists classes, l; auto).
  split; [|split].
  2:{ intros k l c Hk Hc. split; [|eauto]. apply (In2 t k c). eauto. }
  2:{ intros t' cl' H'. rewrite Kc. eapply CC; eauto. }
  unfold test_classes. rewrite check_ok; [cbn [bind]|].
  - apply for_each_ok. intros (i, ci) Hi. apply for_each_ok. intros (j, cj) Hj. apply In_enumerate in Hi, Hj. cbn [fst snd].
    destruct (Nat.eqb_spec i j) as [|Ne]; auto. apply for_each_ok. intros a Ia. apply for_each_ok. intros b Ib.
    apply check_ok, Bool.negb_true_iff, Nat.eqb_neq. intros <-. apply Ne. apply (Uni t i t j a); eauto.
  - apply Nat.eqb_eq. rewrite single_count.
    assert (El : sum_list (map (@length nat) classes) = length (concat classes)).
    { clear. induction classes as [|x l IH]; cbn; auto. rewrite app_length. unfold sum_list in IH. now rewrite IH. }
    rewrite El. rewrite <- (seq_length (ent_count g 2) 0). apply Permutation_length, NoDup_Permutation.
    + apply (NoDup_blocks (fun k l => nth_error classes k = Some l) (seq 0 (length classes)) classes).
      * clear. assert (H : forall s pre, length pre = s -> Forall2 (fun k l => nth_error (pre ++ classes) k = Some l) (seq s (length classes)) classes).
        { induction classes as [|x l IH]; intros s pre Hs; cbn; constructor.
          - rewrite nth_error_app2 by lia. now replace (s - length pre) with 0 by lia.
          - specialize (IH (S s) (pre ++ [x])). rewrite <- app_assoc in IH. apply IH. rewrite app_length. cbn. lia. }
        exact (H 0 [] eq_refl).
      * apply seq_NoDup.
      * intros k l _ Hk. eapply ND; eauto.
      * intros k l k' l' x _ _ Hk Hk' Hx Hx'. apply (Uni t k t k' x); eauto.
    + apply seq_NoDup.
    + intros c. rewrite in_concat, in_seq. split.
      * intros (l & Hl & Hc). apply In_nth_error in Hl. destruct Hl as (k & Hk). split; [lia|]. apply (In2 t k c). eauto.
      * intros (_ & Hc). destruct (All c Hc) as (k & _ & cl & l & H1 & H2 & H3). rewrite (single_ctype c Hc) in H1.
        assert (cl = classes) by congruence. subst cl. exists l. split; auto. now apply nth_error_In in H2.
Qed.

(** Cells with a common sub-entity that carries DOFs have a DOF in common. *)
Lemma common_conflict dm d c c' e : assign_dofs 0 g fam = Ok dm -> dofs_on t fam d -> c < ent_count g 2 -> c' < ent_count g 2 ->
  In e (g_sub g c d) -> In e (g_sub g c' d) -> conflict dm c c'.
Proof.
  intros A (Hd & Hn) Hc Hc' He He'. apply In_nth_error in He, He'. destruct He as (i & He), He' as (i' & He').
  assert (S : sub_at g c d i e) by (split; auto). assert (S' : sub_at g c' d i' e) by (split; auto).
  assert (Hi : i < ref_count t d).
  { rewrite <- (single_ctype c Hc), <- (wf_sub_length g W c d Hc Hd). apply nth_error_Some. congruence. }
  pose proof (Hn i Hi) as P. unfold el_ndofs in P.
  assert (Hi' : i' < ref_count t d).
  { rewrite <- (single_ctype c' Hc'), <- (wf_sub_length g W c' d Hc' Hd). apply nth_error_Some. congruence. }
  pose proof (Hn i' Hi') as P'. unfold el_ndofs in P'.
  destruct (el_edofs (fam t) d i) as [l|] eqn:El; [|lia]. destruct (el_edofs (fam t) d i') as [l'|] eqn:El'; [|lia].
  destruct l as [|x l]; [cbn in P; lia|]. destruct l' as [|x' l']; [cbn in P'; lia|].
  destruct (cell_dofs_of_entity 0 g fam dm c d i e (x :: l) (nth c (dm_cells dm) []) W F A S) as (ns & N1 & N2 & N3).
  { now rewrite (single_ctype c Hc). } { now apply (cell_row 0 g fam). }
  destruct (cell_dofs_of_entity 0 g fam dm c' d i' e (x' :: l') (nth c' (dm_cells dm) []) W F A S') as (ns' & N1' & N2' & N3').
  { now rewrite (single_ctype c' Hc'). } { now apply (cell_row 0 g fam). }
  rewrite N1 in N1'. injection N1' as <-. destruct ns as [|n ns]; [discriminate|].
  exists (nth c (dm_cells dm) []), (nth c' (dm_cells dm) []), n.
  split; [now apply (cell_row 0 g fam)|]. split; [now apply (cell_row 0 g fam)|].
  specialize (N3 0 x eq_refl). specialize (N3' 0 x' eq_refl). cbn in N3, N3'. split; eapply nth_error_In; eauto.
Qed.

(** Cells with a common edge have a common vertex. *)
Lemma common_edge c c' e : c < ent_count g 2 -> c' < ent_count g 2 -> In e (g_sub g c 1) -> In e (g_sub g c' 1) ->
  exists v, In v (g_sub g c 0) /\ In v (g_sub g c' 0).
Proof.
  intros Hc Hc' He He'. apply In_nth_error in He, He'. destruct He as (i & He), He' as (i' & He').
  assert (Ends : forall c i e, c < ent_count g 2 -> nth_error (g_sub g c 1) i = Some e -> exists a b va vb,
    nth_error (ref_edges (g_ctype g c)) i = Some (a, b) /\ nth_error (g_sub g c 0) a = Some va /\ nth_error (g_sub g c 0) b = Some vb).
  { clear - W. intros c i e Hc He.
    assert (St : surface_type (g_ctype g c)) by (apply (wf_types2_surface g W), (wf_ctype g W), Hc).
    assert (Hi : i < ref_count (g_ctype g c) 1) by (rewrite <- (wf_sub_length g W c 1 Hc ltac:(lia)); apply nth_error_Some; congruence).
    assert (L0 := wf_sub_length g W c 0 Hc ltac:(lia)).
    assert (Hab : exists a b, nth_error (ref_edges (g_ctype g c)) i = Some (a, b) /\ a < ref_count (g_ctype g c) 0 /\ b < ref_count (g_ctype g c) 0).
    { clear L0 He. destruct St as [Et | Et]; rewrite Et in *; cbn in Hi |- *; do 4 (destruct i as [|i]; [first [lia | do 2 eexists; split; [reflexivity|lia]]|]); lia. }
    destruct Hab as (a & b & E & Ha & Hb). rewrite <- L0 in Ha, Hb. apply nth_error_Some in Ha, Hb.
    destruct (nth_error (g_sub g c 0) a) as [va|] eqn:Ea; [|congruence]. destruct (nth_error (g_sub g c 0) b) as [vb|] eqn:Eb; [|congruence].
    exists a, b, va, vb. auto. }
  destruct (Ends c i e Hc He) as (a & b & va & vb & E1 & E2 & E3). destruct (Ends c' i' e Hc' He') as (a' & b' & va' & vb' & E1' & E2' & E3').
  destruct (wf_edge g W c c' i i' e a b a' b' va vb va' vb' Hc Hc' He He' E1 E1' E2 E3 E2' E3') as [(-> & _)|(-> & _)].
  - exists va'. split; eapply nth_error_In; eauto.
  - exists vb'. split; eapply nth_error_In; eauto.
Qed.

Lemma colouring_passes d : dofs_on t fam d \/ (d = 1 /\ dofs_on t fam 0) -> test_colouring g t fam d = Ok tt.
Proof.
  intros Hd. destruct serial_made as (dm & sp & A & E & _). destruct classes_made as (col & classes & Ec & Ea & Et & Hin & _).
  unfold test_colouring. rewrite E. cbn [bind]. rewrite Ec. cbn [bind]. rewrite Ea. cbn [unwrap bind]. rewrite Et. cbn [bind].
  unfold test_apart. apply for_each_ok. intros l Hl. apply In_nth_error in Hl. destruct Hl as (k & Hk).
  apply for_each_ok. intros c Ic. apply for_each_ok. intros c' Ic'. destruct (Nat.eqb_spec c c') as [|Ne]; auto.
  destruct (Hin k l c Hk Ic) as (Hc & Kc). destruct (Hin k l c' Hk Ic') as (Hc' & Kc').
  unfold entity_exists. rewrite (proj2 (Nat.ltb_lt _ _) Hc), (proj2 (Nat.ltb_lt _ _) Hc'). cbn [check bind].
  apply for_each_ok. intros e He. apply for_each_ok. intros e' He'. apply check_ok, Bool.negb_true_iff, Nat.eqb_neq. intros <-.
  apply (colouring_proper 0 g fam dm col t t k c c' W F A Ec Kc Kc' Ne).
  destruct Hd as [Hd|(-> & Hd)]; [eapply common_conflict; eauto|].
  destruct (common_edge c c' e Hc Hc' He He') as (v & V & V'). eapply common_conflict; eauto.
Qed.

Lemma one_colour_passes : interior_family [t] fam -> 0 < ent_count g 2 -> test_colouring_one g t fam = Ok tt.
Proof.
  intros If Hn. destruct serial_made as (dm & sp & A & E & _). destruct classes_made as (col & classes & Ec & Ea & Et & Hin & CC).
  unfold test_colouring_one. rewrite E. cbn [bind]. rewrite Ec. cbn [bind]. rewrite Ea. cbn [unwrap bind]. rewrite Et. cbn [bind].
  apply check_ok, Nat.eqb_eq. rewrite <- Ty in If. exact (colouring_interior 0 g fam dm col _ W F A Ec CC If Hn).
Qed.

End Colours.
End Serial.

(** ** The built-in shapes *)

Lemma interior_only_interior types n : interior_family types (interior_only n).
Proof.
  intros t d i _ Hd. unfold el_ndofs. cbn [interior_only el_edofs]. destruct (i <? ref_count t d); [|reflexivity]. destruct d as [|[|d]]; try reflexivity. lia.
Qed.

Lemma counted_unshared t G V E F : counted t G V E F -> unshared G.
Proof. intros C c d i e p x _. rewrite (cn_owned _ _ _ _ _ C). discriminate. Qed.

Lemma shape_run_test : forall G fam, shape_grid G -> wf_family (g_types G 2) fam -> run_test G fam = Ok tt.
Proof.
  intros G fam Hg Hf. destruct (shape_counted G Hg) as (t & V & E & F & Ht & C).
  apply run_test_passes; auto; [apply C|eapply counted_unshared; eauto].
Qed.

Section Shape.
Variable G : grid.
Hypothesis Hg : shape_grid G.
Hypothesis Ty : g_types G 2 = [Triangle].

Lemma triangle_counted : exists V E F, counted Triangle G V E F /\ g_count G Point = V /\ g_count G Interval = E /\ g_count G Triangle = F.
Proof.
  destruct (shape_counted G Hg) as (t & V & E & F & Ht & C). assert (t = Triangle) by (pose proof (cn_types _ _ _ _ _ C); congruence). subst t.
  exists V, E, F. split; auto. pose proof (cn_wf _ _ _ _ _ C) as W.
  pose proof (cn_V _ _ _ _ _ C) as HV. pose proof (cn_E _ _ _ _ _ C) as HE. pose proof (cn_F _ _ _ _ _ C) as HF.
  unfold ent_count in HV, HE, HF. rewrite (wf_types0 G W) in HV. rewrite (wf_types1 G W) in HE. rewrite Ty in HF. cbn in HV, HE, HF. lia.
Qed.

Lemma lagrange0_passes : test_lagrange0 G = Ok tt.
Proof.
  destruct triangle_counted as (V & E & F & C & HV & HE & HF). apply dofmap_passes; [apply C|apply interior_only_wf_family|eapply counted_unshared; eauto|].
  intros dm A. rewrite HF, (interior_size Triangle G V E F C (interior_only (fun _ => 1)) dm); auto.
  - cbn. lia.
  - apply interior_only_wf_family.
  - apply interior_only_interior.
Qed.

Lemma lagrange1_passes : test_lagrange1 G = Ok tt.
Proof.
  destruct triangle_counted as (V & E & F & C & HV & HE & HF). apply dofmap_passes; [apply C|apply lagrange_wf_family|eapply counted_unshared; eauto|].
  intros dm A. rewrite HV, (lagrange_size Triangle G V E F C 1 dm); auto. cbn. lia.
Qed.

Lemma lagrange2_passes : test_lagrange2 G = Ok tt.
Proof.
  destruct triangle_counted as (V & E & F & C & HV & HE & HF). apply dofmap_passes; [apply C|apply lagrange_wf_family|eapply counted_unshared; eauto|].
  intros dm A. rewrite HV, HE, (lagrange_size Triangle G V E F C 2 dm); auto. cbn. lia.
Qed.

Lemma local_numbers_passes p : 1 <= p -> test_local_numbers G p = Ok tt.
Proof.
  intros Hp. destruct triangle_counted as (V & E & F & C & HV & HE & HF). pose proof (cn_wf _ _ _ _ _ C) as W.
  assert (Fm : wf_family (g_types G 2) (lagrange p)) by apply lagrange_wf_family.
  destruct (serial_made G (lagrange p) W Fm (counted_unshared _ _ _ _ _ C)) as (dm & sp & A & En & Ed & _).
  unfold test_local_numbers. rewrite En. cbn [bind]. rewrite Ed.
  assert (Size : forall d e n, d <= 2 -> e < ent_count G d -> (forall i, i < ref_count Triangle d -> el_ndofs (lagrange p Triangle) d i = n) ->
    (l <- get_local_dof_numbers dm d e ;; dofs <- py_copy l ;; check (length dofs =? n)) = Ok tt).
  { intros d e n Hd He Hn. rewrite (get_local_Ok 0 G (lagrange p) dm W Fm A d e Hd He). cbn [bind]. rewrite py_copy_id. cbn [bind].
    destruct (cn_used _ _ _ _ _ C d e Hd He) as (c & Hc & _ & Hin). apply In_nth_error in Hin. destruct Hin as (i & Hi).
    rewrite (edof_length 0 G (lagrange p) dm W Fm A c d i e) by (split; auto). rewrite (cn_ctype _ _ _ _ _ C c), Hn; [now rewrite Nat.eqb_refl|].
    rewrite <- (cn_ctype _ _ _ _ _ C c), <- (wf_sub_length G W c d Hc Hd). apply nth_error_Some. congruence. }
  rewrite for_each_ok; [cbn [bind]; rewrite for_each_ok; [cbn [bind]|]|].
  - apply for_each_ok. intros i Hi. apply in_seq in Hi. apply Size; [lia|rewrite (cn_F _ _ _ _ _ C); lia|].
    intros j Hj. unfold el_ndofs. cbn [lagrange el_edofs]. rewrite (proj2 (Nat.ltb_lt _ _) Hj). now rewrite seq_length.
  - intros i Hi. apply in_seq in Hi. apply Size; [lia|rewrite (cn_E _ _ _ _ _ C); lia|].
    intros j Hj. unfold el_ndofs. cbn [lagrange el_edofs]. rewrite (proj2 (Nat.ltb_lt _ _) Hj). now rewrite seq_length.
  - intros i Hi. apply in_seq in Hi. apply Size; [lia|rewrite (cn_V _ _ _ _ _ C); lia|].
    intros j Hj. unfold el_ndofs. cbn [lagrange el_edofs]. now rewrite (proj2 (Nat.ltb_lt _ _) Hj).
Qed.

Lemma triangle_dim p : 1 <= p -> el_dim (lagrange p Triangle) = (p + 1) * (p + 2) / 2.
Proof.
  intros Hp. cbn [lagrange el_dim ref_count lagrange_interior]. destruct p as [|p]; [lia|].
  replace (S p - 1) with p by lia. replace (S p - 2) with (p - 1) by lia.
  replace ((S p + 1) * (S p + 2)) with ((3 + 3 * p) * 2 + p * (p - 1)) by (destruct p as [|q]; [reflexivity|replace (S q - 1) with q by lia; ring]).
  rewrite Nat.div_add_l by lia. lia.
Qed.

Lemma cell_dofs_passes p : 1 <= p -> test_cell_dofs G p = Ok tt.
Proof.
  intros Hp. destruct triangle_counted as (V & E & F & C & HV & HE & HF). pose proof (cn_wf _ _ _ _ _ C) as W.
  assert (Fm : wf_family (g_types G 2) (lagrange p)) by apply lagrange_wf_family.
  destruct (serial_made G (lagrange p) W Fm (counted_unshared _ _ _ _ _ C)) as (dm & sp & A & En & Ed & _).
  unfold test_cell_dofs. rewrite En. cbn [bind]. rewrite Ed. apply for_each_ok. intros c Hc. apply in_seq in Hc.
  assert (Hc' : c < ent_count G 2) by (rewrite (cn_F _ _ _ _ _ C); lia).
  rewrite (cell_row 0 G (lagrange p) dm W Fm A c Hc'). cbn [bind py_cell_dofs]. rewrite py_copy_id. cbn [bind unwrap].
  rewrite (cell_row_length 0 G (lagrange p) dm W Fm A c Hc'), (cn_ctype _ _ _ _ _ C c), triangle_dim by auto. now rewrite Nat.eqb_refl.
Qed.

End Shape.

Lemma shape_lagrange0 : forall G, shape_grid G -> g_types G 2 = [Triangle] -> test_lagrange0 G = Ok tt /\ test_lagrange1 G = Ok tt /\ test_lagrange2 G = Ok tt.
Proof. intros G Hg Ty. split; [|split]; auto using lagrange0_passes, lagrange1_passes, lagrange2_passes. Qed.

Lemma lagrange_dofs_on t p : 1 <= p -> dofs_on t (lagrange p) 0.
Proof. intros Hp. split; [lia|]. intros i Hi. unfold el_ndofs. cbn [lagrange el_edofs]. rewrite (proj2 (Nat.ltb_lt _ _) Hi). cbn. lia. Qed.

Lemma shape_colouring : forall G t fam d, shape_grid G -> g_types G 2 = [t] -> wf_family [t] fam ->
  dofs_on t fam d \/ (d = 1 /\ dofs_on t fam 0) -> test_colouring G t fam d = Ok tt.
Proof.
  intros G t fam d Hg Ty Fm Hd. destruct (shape_counted G Hg) as (t' & V & E & F & Ht & C). pose proof (cn_wf _ _ _ _ _ C) as W.
  assert (t' = t) by (pose proof (cn_types _ _ _ _ _ C); congruence). subst t'.
  apply colouring_passes; auto; try (now rewrite Ty); [eapply counted_unshared; eauto|].
  assert (exists d, dofs_on t fam d) as (k & Hk & Hn) by (destruct Hd as [|(_ & H)]; eauto).
  assert (R0 : 0 < ref_count t k) by (destruct Ht as [-> | ->]; destruct k as [|[|[|k]]]; cbn; lia).
  specialize (Hn 0 R0). unfold el_ndofs in Hn. destruct (el_edofs (fam t) k 0) as [l|] eqn:El; [|lia].
  destruct l as [|x l]; [cbn in Hn; lia|]. destruct Fm as [Fe _]. specialize (Fe t (or_introl eq_refl)).
  pose proof (we_part _ _ Fe) as P. assert (Hx : In x (el_all_dofs t (fam t))).
  { unfold el_all_dofs. apply in_flat_map. exists k. split; [apply in_seq; lia|]. apply in_flat_map. exists 0. split; [apply in_seq; lia|]. rewrite El. now left. }
  apply (Permutation_in _ P) in Hx. apply in_seq in Hx. lia.
Qed.

Lemma shape_one_colour : forall G t n, shape_grid G -> g_types G 2 = [t] -> 0 < n t -> test_colouring_one G t (interior_only n) = Ok tt.
Proof.
  intros G t n Hg Ty Hn. destruct (shape_counted G Hg) as (t' & V & E & F & Ht & C). pose proof (cn_wf _ _ _ _ _ C) as W.
  assert (t' = t) by (pose proof (cn_types _ _ _ _ _ C); congruence). subst t'.
  apply one_colour_passes; auto; try apply interior_only_wf_family.
  - eapply counted_unshared; eauto.
  - cbn. destruct Ht as [-> | ->]; cbn; lia.
  - apply interior_only_interior.
  - destruct Hg as [R L i b H|m i b H|m i b H].
    + rewrite (cn_F _ _ _ _ _ (sphere_counted R L b i H)). pose proof (Nat.pow_nonzero 4 L). lia.
    + rewrite (cn_F _ _ _ _ _ (triangles_counted m b i H)). destruct m; [discriminate|]. cbn. lia.
    + rewrite (cn_F _ _ _ _ _ (quads_counted m b i H)). destruct m; [discriminate|]. cbn. lia.
Qed.

Lemma shape_python : forall G p, shape_grid G -> g_types G 2 = [Triangle] -> 1 <= p ->
  test_local_numbers G p = Ok tt /\ test_cell_dofs G p = Ok tt /\ test_global G p = Ok tt /\ test_ownership G p = Ok tt.
Proof.
  intros G p Hg Ty Hp. split; [now apply local_numbers_passes|]. split; [now apply cell_dofs_passes|].
  destruct (triangle_counted G Hg Ty) as (V & E & F & C & _). pose proof (cn_wf _ _ _ _ _ C) as W.
  destruct (serial_made G (lagrange p) W (lagrange_wf_family _ _) (counted_unshared _ _ _ _ _ C)) as (dm & sp & A & En & Ed & E1 & E2 & E3).
  unfold test_global, test_ownership. rewrite En. cbn [bind]. rewrite E1, Nat.eqb_refl. cbn [check bind].
  split; apply for_each_ok; intros i Hi; apply in_seq in Hi; destruct (E3 i ltac:(lia)) as (Ha & Hb); rewrite ?Ha, ?Hb; cbn [bind is_owned check]; auto.
  now rewrite Nat.eqb_refl.
Qed.

(** ** The sparse and the dense matrix *)

Lemma singular_passes : forall (T R : Type) (S : scalar T R) (X : externals R) rt rt' wmod close (a : typed (operator T R * options)) (trial test : typed (fspace T R)) deg pts ct,
  legal_runtime (s_add S) rt -> legal_runtime (s_add S) rt' -> (forall v, close (s_add S (s_zero S) v) v = true) ->
  ty_dtype a = F32 \/ ty_dtype a = F64 -> ty_dtype trial = ty_dtype a -> ty_dtype test = ty_dtype a ->
  dense_setting X wmod (fst (ty_native a)) (snd (ty_native a)) deg pts ct (ty_native test) (ty_native trial) ->
  interior_family [ct] (fs_family (ty_native test)) -> interior_family [ct] (fs_family (ty_native trial)) ->
  test_singular S X rt rt' wmod close a trial test = PyReturn tt.
Proof.
  intros T R S X rt rt' wmod close a trial test deg pts ct L L' Cl Hd Es Et D F1 F2.
  destruct (single_values S X rt' wmod _ _ deg pts ct _ _ L' D F1 F2) as (m & Em & _).
  assert (Sg : exists sm, assemble_singular S X rt wmod (fst (ty_native a)) (snd (ty_native a)) (ty_native trial) (ty_native test) = Ok sm).
  { destruct (Nat.eq_dec (g_id (fs_grid (ty_native test))) (g_id (fs_grid (ty_native trial)))) as [e|n].
    - pose proof (dense_singular _ wmod _ _ deg pts ct _ _ D e) as SS.
      destruct (singular_part_inside S X rt wmod _ _ deg _ _ L SS) as (m0 & Em0 & _).
      unfold assemble_singular. unfold shape_of in Em0. rewrite Em0. cbn [bind]. destruct (_ || _); eauto.
    - destruct (other_grid_no_singular S X rt wmod (fst (ty_native a)) (snd (ty_native a)) (ty_native trial) (ty_native test) n) as (C & _). eauto. }
  destruct Sg as (sm & Esm).
  unfold test_singular, py_assemble_singular, py_assemble. rewrite (check_Ok a trial test (ty_dtype a) Hd eq_refl Es Et).
  cbn [py_then lib exported nd_zeros nd_data nd_rows nd_cols]. rewrite Esm. cbn [from_native py_then].
  rewrite assemble_on_zeros; [|exact (ss_processes _ (dn_test _ _ _ _ _ _ _ _ _ D))|exact (ss_processes _ (dn_trial _ _ _ _ _ _ _ _ _ D))].
  rewrite Em. cbn [from_native py_then]. destruct sm as [sh|sh rows cols data]; [reflexivity|].
  destruct (single_triplets S X rt' rt wmod _ _ deg pts ct _ _ L' L D F1 F2 sh rows cols data Esm) as (m' & Em' & _ & _ & _ & H).
  rewrite Em in Em'. injection Em' as <-.
  assert (G : forall l, (forall x, In x l -> In x (combine (combine rows cols) data)) ->
    fold_left (fun r ijv => py_then r (fun _ => py_then (nd_get (mkNdarray (global_size (fs_space (ty_native test))) (global_size (fs_space (ty_native trial))) m)
      (fst (fst ijv)) (snd (fst ijv))) (fun x => if close x (snd ijv) then PyReturn tt else PyRaise))) l (PyReturn tt) = PyReturn tt).
  { induction l as [|((i, j), v) l IH]; intros Hl; [reflexivity|]. cbn [fold_left fst snd py_then].
    destruct (H i j v (Hl _ (or_introl eq_refl))) as (Hi & Hj & Hv). unfold nd_get at 2. cbn [nd_rows nd_cols nd_data].
    rewrite (proj2 (Nat.ltb_lt _ _) Hi), (proj2 (Nat.ltb_lt _ _) Hj). cbn [andb]. rewrite Hv. cbn [py_then]. rewrite Cl. apply IH. intros; apply Hl; now right. }
  apply G. auto.
Qed.

(** ** Options *)

Lemma set_nth_last {A : Type} (l : list A) x y : set_nth (l ++ [x]) (length l) y = l ++ [y].
Proof. induction l as [|a l IH]; cbn; [reflexivity|now rewrite IH]. Qed.

Section Session.
Variables (N : list options) (O : list py_options) (A : list py_assembler).
Definition last_session (o : options) : session := mkSession (N ++ [o]) (O ++ [mkPyOptions false (length N)]) A.

Lemma last_setter o known v set : (0 <= v < 2 ^ 64)%Z ->
  py_setter (length O) known v set (last_session o) =
  if known o then Done (last_session (set (Z.to_nat v) o)) else Raised (last_session o).
Proof.
  intros Hv. unfold py_setter, last_session. cbn [se_options se_native se_assemblers]. rewrite !nth_error_app_last. cbn [po_read_only po_handle].
  rewrite nth_error_app_last. destruct (known o); [|reflexivity]. cbn [negb]. unfold to_usize.
  rewrite (proj2 (Z.leb_le 0 v)), (proj2 (Z.ltb_lt v _)) by lia. cbn [andb]. now rewrite set_nth_last.
Qed.

Lemma last_regular o t : py_regular_degree (last_session o) (length O) t = get_regular_quadrature_degree t o.
Proof. unfold py_regular_degree, last_session. cbn [se_options se_native]. rewrite nth_error_app_last. cbn [po_handle]. now rewrite nth_error_app_last. Qed.
Lemma last_singular o t0 t1 : py_singular_degree (last_session o) (length O) t0 t1 = get_singular_quadrature_degree (t0, t1) o.
Proof. unfold py_singular_degree, last_session. cbn [se_options se_native]. rewrite nth_error_app_last. cbn [po_handle]. now rewrite nth_error_app_last. Qed.
Lemma last_batch o : py_batch_size (last_session o) (length O) = Some (get_batch_size o).
Proof. unfold py_batch_size, last_session. cbn [se_options se_native]. rewrite nth_error_app_last. cbn [po_handle]. now rewrite nth_error_app_last. Qed.
End Session.

Lemma reads_to v : (0 <= v)%Z -> reads (Some (Z.to_nat v)) v = true.
Proof. intros H. unfold reads. rewrite Z2Nat.id by auto. apply Z.eqb_refl. Qed.

Lemma create_passes : forall op v n s, op <> ElectricFieldOp -> op <> MagneticFieldOp ->
  (0 <= v < 2 ^ 64)%Z -> (0 <= n < 2 ^ 64)%Z -> v <> 37%Z -> v <> 4%Z -> test_create_assembler op v n s = true.
Proof.
  intros op v n [N O A] H1 H2 Hv Hn N37 N4. unfold test_create_assembler, returns, raises. cbn [se_options execute].
  change (new_options (mkSession N O A)) with (last_session N O A default_options).
  rewrite !last_regular. 
  replace (reads (get_regular_quadrature_degree Triangle default_options) v) with false.
  2:{ symmetry. apply Z.eqb_neq. intros E. apply N37. rewrite <- E. reflexivity. }
  cbn [andb negb]. rewrite last_setter by auto.
  replace (is_some (get_regular_quadrature_degree Triangle default_options)) with true by reflexivity. cbn [andb negb].
  rewrite last_regular.
  replace (get_regular_quadrature_degree Triangle (set_regular_quadrature_degree Triangle (Z.to_nat v) default_options)) with (Some (Z.to_nat v)) by reflexivity.
  rewrite reads_to by lia. cbn [andb]. rewrite last_setter by auto.
  replace (is_some (get_regular_quadrature_degree Interval (set_regular_quadrature_degree Triangle (Z.to_nat v) default_options))) with false by reflexivity.
  cbn [negb andb]. rewrite !last_regular, !last_singular.
  replace (is_some (get_regular_quadrature_degree Interval (set_regular_quadrature_degree Triangle (Z.to_nat v) default_options))) with false by reflexivity.
  replace (get_singular_quadrature_degree (Triangle, Triangle) (set_regular_quadrature_degree Triangle (Z.to_nat v) default_options)) with (Some 4) by reflexivity.
  replace (reads (Some 4) v) with false.
  2:{ symmetry. apply Z.eqb_neq. intros E. apply N4. rewrite <- E. reflexivity. }
  cbn [negb andb is_some]. rewrite last_setter by auto.
  replace (is_some (get_singular_quadrature_degree (Triangle, Triangle) (set_regular_quadrature_degree Triangle (Z.to_nat v) default_options))) with true by reflexivity.
  rewrite last_singular.
  match goal with |- context [get_singular_quadrature_degree (Triangle, Triangle) ?o] => replace (get_singular_quadrature_degree (Triangle, Triangle) o) with (Some (Z.to_nat v)) by reflexivity end.
  rewrite reads_to by lia. cbn [andb]. rewrite last_setter by auto.
  match goal with |- context [is_some (get_singular_quadrature_degree (Interval, Interval) ?o)] => replace (is_some (get_singular_quadrature_degree (Interval, Interval) o)) with false by reflexivity end.
  rewrite last_setter by auto. rewrite last_batch.
  match goal with |- context [get_batch_size ?o] => replace (get_batch_size o) with (Z.to_nat n) by reflexivity end.
  rewrite reads_to by lia. cbn [andb]. unfold create_laplace_assembler, last_session. cbn [se_options]. rewrite nth_error_app_last.
  destruct op; try reflexivity; congruence.
Qed.

(** ** The example *)

Lemma serial_made_on {T R : Type} g fam components basis : wf_grid g -> wf_family (g_types g 2) fam -> unshared g -> (forall t, 0 < components t) ->
  exists sp, new_serial g fam = Ok sp /\ made_on g fam (mkFspace T R g fam 1 sp components basis).
Proof.
  intros W F U Co. destruct (assign_dofs_total 0 g fam W F) as (dm & A).
  assert (D : dofmaps 1 (fun _ => g) fam (fun _ => dm)) by (intros r Hr; replace r with 0 by lia; exact A).
  destruct (buffered_creation 1 _ fam _ (unshared_dist g fam W F U) D) as (sp & bound & Cr & _).
  destruct (serial_identity g fam dm buffered sp W F U A Cr) as (_ & E1 & E2 & E3 & _ & E4).
  exists (sp 0). split.
  - unfold new_serial. rewrite A. cbn [bind]. destruct Cr as (n & s & St & Fin).
    assert (n = 0) by (eapply E4; eauto). subst n.
    assert (Es : s = start 1 (fun _ => dm)) by (inversion St; auto). rewrite Es in Fin.
    assert (Ef : fs_new 0 1 dm = Ret (sp 0)) by exact (Fin 0 Nat.lt_0_1). now rewrite Ef.
  - constructor; cbn; auto. exists dm, buffered, sp. auto.
Qed.

Lemma mapM_total {A B : Type} (f : A -> res B) l : (forall x, In x l -> exists y, f x = Ok y) ->
  exists l', mapM f l = Ok l' /\ length l' = length l /\ forall k x, nth_error l k = Some x -> exists y, f x = Ok y /\ nth_error l' k = Some y.
Proof.
  induction l as [|x l IH]; intros H.
  - exists []. split; [reflexivity|]. split; [reflexivity|]. intros [|k] x; discriminate.
  - destruct (H x) as (y & Ey); [now left|]. destruct IH as (l' & El & Ll & Hl); [intros; apply H; now right|].
    exists (y :: l'). cbn [mapM]. rewrite Ey. cbn [bind]. rewrite El. split; [reflexivity|]. split; [cbn; now rewrite Ll|].
    intros [|k] z Hz; cbn in Hz |- *; [injection Hz as <-; eauto|now apply Hl].
Qed.

Theorem example_passes : forall {T R : Type} (S : scalar T R) (X : externals R) rt wmod (O : operator T R) G t fam components basis regular singular,
  shape_grid G -> g_types G 2 = [t] -> standard fam -> (forall u, 0 < components u) -> shipped S O -> proper_rules X ->
  rules_exist X t (after [SetRegular t regular; SetSingular (t, t) singular]) -> 128 < wmod -> 2 * ent_count G 2 * ent_count G 2 <= wmod ->
  legal_runtime (s_add S) rt ->
  exists printed sp, example_assembly S X rt wmod O G t fam components basis regular singular = Ok printed /\
    new_serial G fam = Ok sp /\ length printed = global_size sp /\ forall i row, nth_error printed i = Some row -> length row = global_size sp.
Proof.
  intros T R S X rt wmod O G t fam components basis regular singular Hg Ty Std Co Sh Pr Re Bt Cw Lr.
  destruct (shape_counted G Hg) as (t0 & V & E & F & Ht & C).
  assert (Ft : wf_family (g_types G 2) fam) by (rewrite Ty; now apply standard_wf).
  destruct (serial_made_on (T := T) (R := R) G fam components basis) as (sp & En & M); auto; [apply C|eapply counted_unshared; eauto|].
  destruct (shapes_assemble T R S X wmod O [SetRegular t regular; SetSingular (t, t) singular] G fam fam _ _ t rt Hg Std Std M M Ty Sh Pr Re) as ((m & Em & Lm) & _); auto.
  { cbn. lia. }
  cbn [fs_space] in Lm.
  unfold example_assembly. rewrite En. cbn [bind].
  assert (Em' : assemble S X rt wmod O (set_singular_quadrature_degree (t, t) singular (set_regular_quadrature_degree t regular default_options))
    (mkFspace T R G fam 1 sp components basis) (mkFspace T R G fam 1 sp components basis) = Ok m) by exact Em.
  rewrite Em'. cbn [bind].
  set (n := global_size sp) in *.
  assert (Rows : forall i, In i (seq 0 n) -> exists row, mapM (fun j => vget m (i + n * j)) (seq 0 n) = Ok row /\ length row = n).
  { intros i Hi. apply in_seq in Hi.
    destruct (mapM_total (fun j => vget m (i + n * j)) (seq 0 n)) as (row & Er & Lr' & _).
    - intros j Hj. apply in_seq in Hj. assert (K : i + n * j < length m) by (rewrite Lm; nia).
      apply nth_error_Some in K. unfold vget. destruct (nth_error m (i + n * j)) as [x|]; [now exists x|congruence].
    - exists row. split; [exact Er|]. now rewrite Lr', seq_length. }
  destruct (mapM_total (fun i => mapM (fun j => vget m (i + n * j)) (seq 0 n)) (seq 0 n)) as (printed & Ep & Lp & Hp).
  { intros i Hi. destruct (Rows i Hi) as (row & Er & _). now exists row. }
  exists printed, sp. split; [exact Ep|]. split; [reflexivity|]. split; [now rewrite Lp, seq_length|].
  intros i row Hr. assert (Hi : i < length (seq 0 n)) by (rewrite <- Lp; apply nth_error_Some; congruence).
  apply nth_error_Some in Hi. destruct (nth_error (seq 0 n) i) as [x|] eqn:Ex; [|congruence].
  destruct (Hp i x Ex) as (row' & E1 & E2). destruct (Rows x (nth_error_In _ _ Ex)) as (row'' & E3 & L3).
  rewrite E1 in E3. injection E3 as E3. rewrite Hr in E2. injection E2 as E2. rewrite E2, E3. exact L3.
Qed.
