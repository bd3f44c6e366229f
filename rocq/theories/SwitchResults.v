(** * The singular part as a matrix of its own: proofs *)
From Coq Require Import Reals Ring_theory Permutation.
From Verif Require Import Base BaseFacts Topology TopologyFacts DofMap Space Options SpecOptions Scalar Integrand CellPair Operators SpecLocal SpecOperators
  Interleave Assembly SpecAssembly AssemblyResults AssemblySingular AssemblyDense AssemblyExact SpecAlgebra AlgebraFacts AlgebraResults SpecDistributed DistributedResults SpecRenumber RenumberResults SpecParts PartsResults SpecSimilar SpecRounding
  SpecShapeSpaces ShapeSpacesResults SpecAutomorphism Shapes SpecShapes SpecSphere SpecScreen SpecWidth SpecSymmetry SpecTurns TurnResults SpecShift SpecToeplitz ToeplitzResults SpecSwitch.
Local Open Scope nat_scope.

(** ** Lists by columns *)

Lemma columns_length {A} (f : nat -> nat -> A) rows : forall columns start,
  length (flat_map (fun j => map (fun i => f i j) (seq 0 rows)) (seq start columns)) = rows * columns.
Proof.
  induction columns as [|n IH]; intros start; cbn [seq flat_map]; [cbn; lia|]. rewrite app_length, map_length, seq_length, IH. lia.
Qed.

Lemma columns_at {A} (f : nat -> nat -> A) rows : forall columns start i j, i < rows -> j < columns ->
  nth_error (flat_map (fun j => map (fun i => f i j) (seq 0 rows)) (seq start columns)) (i + rows * j) = Some (f i (start + j)).
Proof.
  induction columns as [|n IH]; intros start i j Hi Hj; [lia|]. cbn [seq flat_map]. destruct j as [|j].
  - rewrite nth_error_app1 by (rewrite map_length, seq_length; lia). replace (i + rows * 0) with i by lia.
    rewrite nth_error_map. rewrite (nth_error_nth' (seq 0 rows) 0) by (rewrite seq_length; lia). rewrite seq_nth by lia. cbn. f_equal. f_equal. lia.
  - rewrite nth_error_app2 by (rewrite map_length, seq_length; nia). rewrite map_length, seq_length.
    replace (i + rows * S j - rows) with (i + rows * j) by nia. rewrite IH by lia. f_equal. f_equal. lia.
Qed.

Section Switch.
Context {T R : Type} (S : scalar T R) (X : externals R).

Lemma filled_length rows columns m : length (filled S rows columns m) = rows * columns.
Proof. apply (columns_length (sparse_entry S m)). Qed.

Lemma filled_at rows columns m i j : i < rows -> j < columns -> nth_error (filled S rows columns m) (i + rows * j) = Some (sparse_entry S m i j).
Proof. intros Hi Hj. exact (columns_at (sparse_entry S m) rows columns 0 i j Hi Hj). Qed.

Lemma filled_unique rows columns m l : length l = rows * columns ->
  (forall i j, i < rows -> j < columns -> nth_error l (i + rows * j) = Some (sparse_entry S m i j)) -> l = filled S rows columns m.
Proof.
  intros Hl H. apply nth_error_ext. intros k. destruct (Nat.lt_ge_cases k (rows * columns)) as [Hk|Hk].
  - assert (rows <> 0) by nia. pose proof (Nat.div_mod k rows H0) as Hd. pose proof (Nat.mod_upper_bound k rows H0) as Hm.
    assert (k / rows < columns) by (apply Nat.div_lt_upper_bound; lia).
    replace k with (k mod rows + rows * (k / rows)) by lia. rewrite H, filled_at by auto. reflexivity.
  - rewrite (proj2 (nth_error_None l k)) by lia. symmetry. apply nth_error_None. now rewrite filled_length.
Qed.

Lemma off_proper : proper_rules X -> proper_rules (regular_off S X).
Proof.
  intros P. constructor; [|exact (pr_duffy _ P)]. intros t n q. cbn [regular_off x_simplex].
  destruct (x_simplex X t n) as [q'|] eqn:E; [|discriminate]. intros H. injection H as <-. cbn [qd_points qd_weights]. rewrite map_length.
  exact (pr_simplex _ P t n q' E).
Qed.

Lemma off_setting wmod (O : operator T R) o deg pts ct test trial :
  dense_setting X wmod O o deg pts ct test trial -> dense_setting (regular_off S X) wmod O o deg pts ct test trial.
Proof.
  intros D. destruct D. constructor; auto using off_proper.
  intros t Ht. destruct (dn_simplex t Ht) as (E & q & Eq). split; [exact E|]. cbn [regular_off x_simplex]. rewrite Eq. eauto.
Qed.

Lemma off_rules t o : rules_exist X t o -> rules_exist (regular_off S X) t o.
Proof.
  intros [A B]. constructor; [|exact B]. intros n H. destruct (A n H) as (q & E). cbn [regular_off x_simplex]. rewrite E. eauto.
Qed.

Section Ring.
Variables (one : T) (RT : ring_theory (s_zero S) one (s_add S) (s_mul S) (s_sub S) (s_neg S) eq) (Ec : exact_cast S) (Ez : cast_zero S).
Add Ring Tring : RT.

Lemma fold_same {A} (l : list A) (f : T -> A -> T) acc : (forall x a, In a l -> f x a = x) -> fold_left f l acc = acc.
Proof. revert acc. induction l as [|a l IH]; intros acc H; cbn; [reflexivity|]. rewrite H by (now left). apply IH. intros; apply H; now right. Qed.

Lemma off_weights (ws : list R) p w : In (p, w) (enumerate (map (fun _ => r_zero S) ws)) -> w = r_zero S.
Proof. intros H. apply in_combine_r in H. apply in_map_iff in H. destruct H as (x & <- & _). reflexivity. Qed.

Lemma off_tensor f G x y phi psi (wt ws : list R) a b :
  tensor_entry S f G x y phi psi (map (fun _ => r_zero S) wt) (map (fun _ => r_zero S) ws) a b = s_zero S.
Proof.
  unfold tensor_entry. apply fold_same. intros acc [p w] Hp. apply off_weights in Hp. subst w. apply fold_same. intros acc' [q w'] _.
  cbn [fst snd]. rewrite (proj1 Ec (r_zero S) (cm_jdet x p)), Ez. ring.
Qed.

Lemma off_value (O : operator T R) deg pts test trial t s a b v : pair_value S (regular_off S X) O deg pts test trial t s a b v ->
  (touching test trial t s /\ singular_value S X O deg test trial t s a b v) \/ (~ touching test trial t s /\ v = s_zero S).
Proof.
  intros [(To & V)|(To & (qt & qs & Et & Es & ->))]; [left; split; [exact To|exact V]|right]. split; [exact To|].
  cbn [regular_off x_simplex] in Et, Es.
  destruct (x_simplex X _ (pts (g_ctype (fs_grid test) t))); [|discriminate]. destruct (x_simplex X _ (pts (g_ctype (fs_grid trial) s))); [|discriminate].
  injection Et as <-. injection Es as <-. cbn [qd_weights]. apply off_tensor.
Qed.
End Ring.

(** With the regular rules switched off, the dense matrix is the singular part. *)
Theorem switched_off rt rt' wmod (O : operator T R) o deg pts ct test trial :
  exact S -> exact_cast S -> cast_zero S -> legal_runtime (s_add S) rt -> legal_runtime (s_add S) rt' -> dense_setting X wmod O o deg pts ct test trial ->
  exists m, assemble_singular_part S X rt wmod O o (global_size (fs_space test), global_size (fs_space trial)) trial test = Ok m /\
    assemble S (regular_off S X) rt' wmod O o trial test = Ok (filled S (global_size (fs_space test)) (global_size (fs_space trial)) m).
Proof.
  intros ((one & RT) & _) Ec Ez L L' D.
  destruct (near_entries S one RT X rt wmod O o deg pts ct test trial L D) as (m & val & Em & V & H).
  destruct (assembled S one RT (regular_off S X) rt' wmod O o deg pts ct test trial L' (off_setting _ _ _ _ _ _ _ _ D)) as (l & val' & El & Ln & V' & H').
  exists m. split; [exact Em|]. rewrite El. f_equal. apply filled_unique; [exact Ln|]. intros i j Hi Hj. rewrite (H' i j Hi Hj). f_equal.
  unfold sparse_entry. rewrite H. unfold matrix_entry. apply total_ext. intros t Ht. apply total_ext. intros s Hs. apply total_ext. intros ai _.
  apply total_ext. intros bj _. destruct (_ && _); [|reflexivity]. apply in_seq in Ht, Hs.
  assert (Ht' : t < ent_count (fs_grid test) 2) by lia. assert (Hs' : s < ent_count (fs_grid trial) 2) by lia.
  destruct (off_value one RT Ec Ez O deg pts test trial t s _ _ _ (V' t s (fst ai) (fst bj) Ht' Hs')) as [(To & Sv)|(To & ->)].
  - destruct (touchb test trial t s) eqn:Tb; [|apply touchb_spec in To; [congruence|exact (dn_same _ _ _ _ _ _ _ _ _ D)]].
    apply (pair_value_unique S X O deg pts test trial t s (fst ai) (fst bj)); [left; auto|auto].
  - destruct (touchb test trial t s) eqn:Tb; [apply touchb_spec in Tb; [contradiction|exact (dn_same _ _ _ _ _ _ _ _ _ D)]|reflexivity].
Qed.

Lemma filled_is rows columns m i j x : i < rows -> j < columns -> nth_error (filled S rows columns m) (i + rows * j) = Some x -> x = sparse_entry S m i j.
Proof. intros Hi Hj. rewrite filled_at by auto. now intros [= <-]. Qed.

Lemma off_renumbered whole fs L : @renumbered_space T R X whole fs L -> renumbered_space (regular_off S X) whole fs L.
Proof. intros []. constructor; auto. Qed.

Lemma off_part whole fs L : @part_of T R X whole fs L -> part_of (regular_off S X) whole fs L.
Proof. intros []. constructor; auto. Qed.

(** Renumbered grids. *)
Theorem renumbered_singular wmod (O : operator T R) o deg pts ct test trial wtest wtrial L M :
  dense_setting X wmod O o deg pts ct wtest wtrial ->
  serial_space test -> serial_space trial -> same_object test trial ->
  renumbered_space X wtest test L -> renumbered_space X wtrial trial M -> renumbered_alike wtest wtrial test trial L M ->
  forall rt rt', exact S -> exact_cast S -> cast_zero S -> legal_runtime (s_add S) rt -> legal_runtime (s_add S) rt' ->
  exists m m' f h,
    assemble_singular_part S X rt wmod O o (global_size (fs_space wtest), global_size (fs_space wtrial)) wtrial wtest = Ok m /\
    assemble_singular_part S X rt' wmod O o (global_size (fs_space test), global_size (fs_space trial)) trial test = Ok m' /\
    renumbering (global_size (fs_space wtest)) f /\ renumbering (global_size (fs_space wtrial)) h /\
    (forall c, c < ent_count (fs_grid test) 2 -> dofs_at test c = map f (dofs_at wtest (L 2 c))) /\
    (forall c, c < ent_count (fs_grid trial) 2 -> dofs_at trial c = map h (dofs_at wtrial (M 2 c))) /\
    forall i j, i < global_size (fs_space wtest) -> j < global_size (fs_space wtrial) -> sparse_entry S m' (f i) (h j) = sparse_entry S m i j.
Proof.
  intros D St Ss Sa Rt Rs Al rt rt' Ex Ec Ez Lr Lr'.
  pose proof (renumbered_setting X wmod O o deg pts ct test trial wtest wtrial L M D St Ss Sa Rt Rs Al) as D'.
  destruct (switched_off rt rt wmod O o deg pts ct wtest wtrial Ex Ec Ez Lr Lr D) as (m & Em & Am).
  destruct (switched_off rt' rt' wmod O o deg pts ct test trial Ex Ec Ez Lr' Lr' D') as (m' & Em' & Am').
  destruct (renumbered_matrix S (regular_off S X) wmod O o deg pts ct test trial wtest wtrial L M (off_setting _ _ _ _ _ _ _ _ D) St Ss Sa
    (off_renumbered _ _ _ Rt) (off_renumbered _ _ _ Rs) Al rt rt' Ex Lr Lr') as (l & l' & f & h & El & El' & Ln & Rf & Rh & Df & Dh & H).
  rewrite Am in El. rewrite Am' in El'. injection El as <-. injection El' as <-.
  destruct (renumbered_dofs X wtest test L (dn_test _ _ _ _ _ _ _ _ _ D) St Rt) as (Z1 & _).
  destruct (renumbered_dofs X wtrial trial M (dn_trial _ _ _ _ _ _ _ _ _ D) Ss Rs) as (Z2 & _).
  exists m, m', f, h. do 6 (split; [assumption|]). intros i j Hi Hj. destruct (H i j Hi Hj) as (x & X1 & X2).
  apply filled_is in X1; auto. rewrite Z1, Z2 in X2. apply filled_is in X2; [congruence|now apply Rf|now apply Rh].
Qed.

(** Parts of grids. *)
Theorem parts_singular wmod (O : operator T R) o deg pts ct test trial wtest wtrial L M :
  dense_setting X wmod O o deg pts ct wtest wtrial ->
  serial_space test -> serial_space trial -> same_object test trial ->
  part_of X wtest test L -> part_of X wtrial trial M -> placed wtest wtrial test trial L M ->
  forall rt rt', exact S -> exact_cast S -> cast_zero S -> legal_runtime (s_add S) rt -> legal_runtime (s_add S) rt' ->
  exists m m' f h,
    assemble_singular_part S X rt wmod O o (global_size (fs_space wtest), global_size (fs_space wtrial)) wtrial wtest = Ok m /\
    assemble_singular_part S X rt' wmod O o (global_size (fs_space test), global_size (fs_space trial)) trial test = Ok m' /\
    embeds wtest test L f /\ embeds wtrial trial M h /\
    forall i j, i < global_size (fs_space test) -> j < global_size (fs_space trial) ->
      supported wtest test L (f i) -> supported wtrial trial M (h j) -> sparse_entry S m' i j = sparse_entry S m (f i) (h j).
Proof.
  intros D St Ss Sa Pt Ps Pl rt rt' Ex Ec Ez Lr Lr'.
  pose proof (parts_setting X wmod O o deg pts ct test trial wtest wtrial L M D St Ss Sa Pt Ps Pl) as D'.
  destruct (switched_off rt rt wmod O o deg pts ct wtest wtrial Ex Ec Ez Lr Lr D) as (m & Em & Am).
  destruct (switched_off rt' rt' wmod O o deg pts ct test trial Ex Ec Ez Lr' Lr' D') as (m' & Em' & Am').
  destruct (parts_matrix S (regular_off S X) wmod O o deg pts ct test trial wtest wtrial L M (off_setting _ _ _ _ _ _ _ _ D) St Ss Sa
    (off_part _ _ _ Pt) (off_part _ _ _ Ps) Pl rt rt' Ex Lr Lr') as (l & l' & f & h & El & El' & Ef & Eh & H).
  rewrite Am in El. rewrite Am' in El'. injection El as <-. injection El' as <-.
  exists m, m', f, h. do 4 (split; [assumption|]). intros i j Hi Hj Si Sj. destruct (H i j Hi Hj Si Sj) as (x & X1 & X2).
  apply filled_is in X1; [|now apply Ef|now apply Eh]. apply filled_is in X2; auto. congruence.
Qed.
End Switch.

(** ** Screens and spheres *)

Section Screens.
Context {T : Type} (Sc : scalar T R) (X : externals R).
Variables (n id wmod : nat) (t : cell_type) (b : builder (nat * nat)) (calls : list setter) (tf sf : family) (test trial : fspace T R) (rt : runtime T).
Hypothesis (Ex : exact Sc) (Ec : exact_cast Sc) (Ez : cast_zero Sc) (Sn : screen n t b) (Htf : standard tf) (Hsf : standard sf).
Hypothesis (Mt : made_on (built_grid id t b) tf test) (Ms : made_on (built_grid id t b) sf trial).
Hypothesis (Fl : flat_screen n X (built_grid id t b) b) (Pr : proper_rules X) (Re : rules_exist X t (after calls)).
Hypothesis (Bt : (0 < get_batch_size (after calls) < wmod)%nat).
Hypothesis (Cw : (2 * ent_count (built_grid id t b) 2 * ent_count (built_grid id t b) 2 <= wmod)%nat).
Hypothesis (Lr : legal_runtime (s_add Sc) rt).

Lemma moved_lt fam (fs : fspace T R) dx dy i i' : serial_space fs -> made_on (built_grid id t b) fam fs -> moved_function b fs dx dy i i' ->
  i < global_size (fs_space fs) /\ i' < global_size (fs_space fs).
Proof.
  intros Sf Mf ((c & c' & a & (Hc & Hc' & _) & Ha & Ha') & _).
  assert (Eq : ent_count (fs_grid fs) 2 = length (cells_of b)) by (rewrite (mo_grid _ _ _ Mf); now apply (screen_cell_count n)).
  rewrite (serial_size fs Sf). split; eapply (serial_dofs_lt fs Sf); [|eapply nth_error_In; exact Ha| |eapply nth_error_In; exact Ha']; lia.
Qed.

Lemma moved_filled O deg pts m : dense_setting X wmod O (after calls) deg pts t test trial ->
  same_when_moved b test trial (filled Sc (global_size (fs_space test)) (global_size (fs_space trial)) m) ->
  forall dx dy i j i' j', moved_function b test dx dy i i' -> moved_function b trial dx dy j j' -> sparse_entry Sc m i' j' = sparse_entry Sc m i j.
Proof.
  intros D H dx dy i j i' j' Fi Fj. destruct (H dx dy i j i' j' Fi Fj) as (x & X1 & X2). unfold entry_at in X1, X2.
  destruct (moved_lt tf test dx dy i i' (dn_test _ _ _ _ _ _ _ _ _ D) Mt Fi), (moved_lt sf trial dx dy j j' (dn_trial _ _ _ _ _ _ _ _ _ D) Ms Fj).
  apply filled_is in X1; auto. apply filled_is in X2; auto. congruence.
Qed.

Theorem laplace_singular_moved : forall kd (G : @green T R), radial Sc G -> exists m,
  assemble_singular_part Sc X rt wmod (laplace_operator kd G) (after calls) (global_size (fs_space test), global_size (fs_space trial)) trial test = Ok m /\
  forall dx dy i j i' j', moved_function b test dx dy i i' -> moved_function b trial dx dy j j' -> sparse_entry Sc m i' j' = sparse_entry Sc m i j.
Proof.
  intros kd G Rd.
  destruct (screen_dense Sc X n id wmod t b calls tf sf test trial Sn Htf Hsf Mt Ms Pr Re Bt Cw (laplace_operator kd G) (laplace_shipped Sc kd G)) as (deg & pts & D).
  destruct (switched_off Sc X rt rt wmod _ _ deg pts t test trial Ex Ec Ez Lr Lr D) as (m & Em & Am).
  destruct (laplace_toeplitz Sc (regular_off Sc X) n id wmod t b calls tf sf test trial rt Ex Ec Sn Htf Hsf Mt Ms Fl
    (off_proper Sc X Pr) (off_rules Sc X t _ Re) Bt Cw Lr kd G Rd) as (l & El & H).
  rewrite Am in El. injection El as <-. exists m. split; [exact Em|]. exact (moved_filled _ deg pts m D H).
Qed.

Theorem helmholtz_singular_moved : forall kd (G : R -> @green T R) wavenumber, radial Sc (G wavenumber) -> exists m,
  assemble_singular_part Sc X rt wmod (helmholtz_operator Sc kd G wavenumber) (after calls) (global_size (fs_space test), global_size (fs_space trial)) trial test = Ok m /\
  forall dx dy i j i' j', moved_function b test dx dy i i' -> moved_function b trial dx dy j j' -> sparse_entry Sc m i' j' = sparse_entry Sc m i j.
Proof.
  intros kd G wn Rd.
  destruct (screen_dense Sc X n id wmod t b calls tf sf test trial Sn Htf Hsf Mt Ms Pr Re Bt Cw (helmholtz_operator Sc kd G wn) (helmholtz_shipped Sc kd G wn)) as (deg & pts & D).
  destruct (switched_off Sc X rt rt wmod _ _ deg pts t test trial Ex Ec Ez Lr Lr D) as (m & Em & Am).
  destruct (helmholtz_toeplitz Sc (regular_off Sc X) n id wmod t b calls tf sf test trial rt Ex Ec Sn Htf Hsf Mt Ms Fl
    (off_proper Sc X Pr) (off_rules Sc X t _ Re) Bt Cw Lr kd G wn Rd) as (l & El & H).
  rewrite Am in El. injection El as <-. exists m. split; [exact Em|]. exact (moved_filled _ deg pts m D H).
Qed.
End Screens.

Section Spheres.
Context {T : Type} (Sc : scalar T R) (X : externals R).
Variables (level id wmod : nat) (b : builder vec) (calls : list setter) (tf sf : family) (test trial : fspace T R) (rt : runtime T).
Hypothesis (Ex : exact Sc) (Ec : exact_cast Sc) (Ez : cast_zero Sc) (En : r_neg Sc = Ropp).
Hypothesis (E : regular_sphere real_numbers level 1 = Ok b).
Hypothesis (Htf : standard tf) (Hsf : standard sf).
Hypothesis (Mt : made_on (built_grid id Triangle b) tf test) (Ms : made_on (built_grid id Triangle b) sf trial).
Hypothesis (Fl : flat_cells X (built_grid id Triangle b) b).
Hypothesis (Pr : proper_rules X) (Re : rules_exist X Triangle (after calls)).
Hypothesis (Bt : (0 < get_batch_size (after calls) < wmod)%nat).
Hypothesis (Cw : (2 * ent_count (built_grid id Triangle b) 2 * ent_count (built_grid id Triangle b) 2 <= wmod)%nat).
Hypothesis (Lr : legal_runtime (s_add Sc) rt).

Lemma turned_filled O deg pts m tau : dense_setting X wmod O (after calls) deg pts Triangle test trial -> renumbering (ent_count (built_grid id Triangle b) 2) tau ->
  same_on_images test trial (filled Sc (global_size (fs_space test)) (global_size (fs_space trial)) m) tau ->
  same_sparse_on_images Sc test trial m tau.
Proof.
  intros D Rt H c c' a a' i j i' j' Hc Hc' Hi Hj Hi' Hj'. destruct (H c c' a a' i j i' j' Hc Hc' Hi Hj Hi' Hj') as (x & X1 & X2). unfold entry_at in X1, X2.
  rewrite <- (mo_grid _ _ _ Mt) in Rt. pose proof (proj1 Rt c Hc) as Kc.
  assert (Kc' : tau c' < ent_count (fs_grid trial) 2).
  { rewrite (mo_grid _ _ _ Ms), <- (mo_grid _ _ _ Mt) in Hc' |- *. exact (proj1 Rt c' Hc'). }
  assert (Lt := serial_dofs_lt test (dn_test _ _ _ _ _ _ _ _ _ D)). assert (Ls := serial_dofs_lt trial (dn_trial _ _ _ _ _ _ _ _ _ D)).
  rewrite <- (serial_size test (dn_test _ _ _ _ _ _ _ _ _ D)) in Lt. rewrite <- (serial_size trial (dn_trial _ _ _ _ _ _ _ _ _ D)) in Ls.
  apply filled_is in X1; [|eapply Lt; [|eapply nth_error_In; exact Hi]|eapply Ls; [|eapply nth_error_In; exact Hj]]; auto.
  apply filled_is in X2; [|eapply Lt; [|eapply nth_error_In; exact Hi']|eapply Ls; [|eapply nth_error_In; exact Hj']]; auto.
  congruence.
Qed.

Theorem laplace_singular_turns : forall kd (G : @green T R), radial Sc G -> exists m,
  assemble_singular_part Sc X rt wmod (laplace_operator kd G) (after calls) (global_size (fs_space test), global_size (fs_space trial)) trial test = Ok m /\
  forall k s t o, upright k s t o -> exists tau, renumbering (ent_count (built_grid id Triangle b) 2) tau /\
    carries b (octahedral k s t o) tau /\ same_sparse_on_images Sc test trial m tau.
Proof.
  intros kd G Rd.
  destruct (made_dense T R Sc X wmod (laplace_operator kd G) calls (built_grid id Triangle b) tf sf test trial Triangle) as (deg & pts & D); auto.
  { exact (shape_sphere real_numbers level id b E). } { apply laplace_shipped. }
  destruct (switched_off Sc X rt rt wmod _ _ deg pts Triangle test trial Ex Ec Ez Lr Lr D) as (m & Em & Am).
  destruct (laplace_turns Sc (regular_off Sc X) level id wmod b calls tf sf test trial rt Ex Ec En E Htf Hsf Mt Ms Fl
    (off_proper Sc X Pr) (off_rules Sc X Triangle _ Re) Bt Cw Lr kd G Rd) as (l & El & H).
  rewrite Am in El. injection El as <-. exists m. split; [exact Em|]. intros k s t o U. destruct (H k s t o U) as (tau & Rt & Ca & Sa).
  exists tau. split; [exact Rt|]. split; [exact Ca|]. exact (turned_filled _ deg pts m tau D Rt Sa).
Qed.

Theorem helmholtz_singular_turns : forall kd (G : R -> @green T R) wavenumber, radial Sc (G wavenumber) -> exists m,
  assemble_singular_part Sc X rt wmod (helmholtz_operator Sc kd G wavenumber) (after calls) (global_size (fs_space test), global_size (fs_space trial)) trial test = Ok m /\
  forall k s t o, upright k s t o -> exists tau, renumbering (ent_count (built_grid id Triangle b) 2) tau /\
    carries b (octahedral k s t o) tau /\ same_sparse_on_images Sc test trial m tau.
Proof.
  intros kd G wn Rd.
  destruct (made_dense T R Sc X wmod (helmholtz_operator Sc kd G wn) calls (built_grid id Triangle b) tf sf test trial Triangle) as (deg & pts & D); auto.
  { exact (shape_sphere real_numbers level id b E). } { apply helmholtz_shipped. }
  destruct (switched_off Sc X rt rt wmod _ _ deg pts Triangle test trial Ex Ec Ez Lr Lr D) as (m & Em & Am).
  destruct (helmholtz_turns Sc (regular_off Sc X) level id wmod b calls tf sf test trial rt Ex Ec En E Htf Hsf Mt Ms Fl
    (off_proper Sc X Pr) (off_rules Sc X Triangle _ Re) Bt Cw Lr kd G wn Rd) as (l & El & H).
  rewrite Am in El. injection El as <-. exists m. split; [exact Em|]. intros k s t o U. destruct (H k s t o U) as (tau & Rt & Ca & Sa).
  exists tau. split; [exact Rt|]. split; [exact Ca|]. exact (turned_filled _ deg pts m tau D Rt Sa).
Qed.
End Spheres.
