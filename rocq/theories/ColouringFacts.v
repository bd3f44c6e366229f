(** * The invariant of the colouring loop *)
From Verif Require Import Base BaseFacts Topology TopologyFacts DofMap DofMapFacts SpecDof DofMapResults Colouring.

Lemma assoc_insert_fst {K V} (eqb : K -> K -> bool) k (v : V) m :
  (forall a b, eqb a b = true <-> a = b) ->
  In k (map fst m) -> map fst (assoc_insert eqb k v m) = map fst m.
Proof.
  intros He. induction m as [|[k' v'] t IH]; simpl; [tauto|]. intros H.
  destruct (eqb k k') eqn:E; simpl; auto. f_equal. apply IH.
  destruct H as [H|H]; auto. subst. rewrite (proj2 (He k k) eq_refl) in E. discriminate.
Qed.

Lemma assoc_assoc_insert {K V} (eqb : K -> K -> bool) k k2 (v : V) m :
  (forall a b, eqb a b = true <-> a = b) ->
  assoc eqb k2 (assoc_insert eqb k v m) = if eqb k2 k then Some v else assoc eqb k2 m.
Proof.
  intros He. induction m as [|[k' v'] t IH]; simpl.
  - reflexivity.
  - destruct (eqb k k') eqn:E; simpl.
    + apply He in E. subst. destruct (eqb k2 k'); auto.
    + rewrite IH. destruct (eqb k2 k') eqn:E2; auto.
      apply He in E2. subst. destruct (eqb k' k) eqn:E3; auto.
      apply He in E3. subst. rewrite (proj2 (He k k) eq_refl) in E. discriminate.
Qed.

Lemma assoc_In_Some {K V} (eqb : K -> K -> bool) k (m : list (K * V)) :
  (forall a b, eqb a b = true <-> a = b) -> In k (map fst m) -> exists v, assoc eqb k m = Some v.
Proof.
  intros He. induction m as [|[k' v'] t IH]; simpl; [tauto|]. intros H.
  destruct (eqb k k') eqn:E; eauto. apply IH. destruct H as [H|H]; auto.
  subst. rewrite (proj2 (He k k) eq_refl) in E. discriminate.
Qed.

Lemma filter_snoc {A} (p : A -> bool) l x : filter p (l ++ [x]) = filter p l ++ if p x then [x] else [].
Proof. rewrite filter_app. simpl. destruct (p x); auto. Qed.

Section Colouring.
Variables (g : grid) (edim : nat).
Hypothesis W : wf_grid g.
Hypothesis Hedim : edim <= 2.

Notation sub c := (g_sub g c edim).

(** Cells that have an entity of dimension [edim] in common. *)
Definition touch (c c' : nat) : Prop := exists v, In v (sub c) /\ In v (sub c').

Record CInv (P : list nat) (f : nat -> nat) (K : nat) (st : colour_map * list (list nat)) : Prop := {
  ci_keys : map fst (fst st) = g_types g 2;
  ci_len : forall t classes, assoc ct_eqb t (fst st) = Some classes -> length classes = K;
  ci_classes : forall t classes k, assoc ct_eqb t (fst st) = Some classes -> k < K ->
    nth_error classes k = Some (filter (fun c => ct_eqb (g_ctype g c) t && (f c =? k)) P);
  ci_ec_len : length (snd st) = ent_count g edim;
  ci_ec : forall v, v < ent_count g edim ->
    nth_error (snd st) v = Some (map f (filter (fun c => memb v (sub c)) P));
  ci_lt : forall c, In c P -> f c < K;
  ci_used : forall k, k < K -> exists c, In c P /\ f c = k;
  ci_proper : forall c c', In c P -> In c' P -> c <> c' -> f c = f c' -> ~ touch c c';
  ci_greedy : forall c k, In c P -> k < f c -> exists c', In c' P /\ c' <> c /\ f c' = k /\ touch c c';
  ci_first : forall pre c post k, P = pre ++ c :: post -> k < f c -> exists c', In c' pre /\ f c' = k /\ touch c c'
}.

Lemma colour_taken_spec P f K st c indices :
  CInv P f K st -> (forall v, In v indices -> v < ent_count g edim) ->
  exists b, colour_taken (snd st) indices c = Ok b /\
    (b = true <-> exists c' v, In c' P /\ f c' = c /\ In v indices /\ In v (sub c')).
Proof.
  intros I. induction indices as [|v t IH]; intros Hv.
  - exists false. split; auto. split; [discriminate|]. intros (c' & v & _ & _ & [] & _).
  - simpl. assert (Hlt : v < ent_count g edim) by (apply Hv; now left).
    rewrite (proj2 (vget_Ok _ _ _) (ci_ec _ _ _ _ I v Hlt)). cbn [bind].
    destruct (memb c (map f (filter (fun c0 => memb v (sub c0)) P))) eqn:E.
    + exists true. split; auto. split; auto. intros _.
      apply memb_In in E. apply in_map_iff in E. destruct E as (c' & E1 & E2).
      apply filter_In in E2. destruct E2 as [E2 E3]. apply memb_In in E3.
      exists c', v. repeat split; simpl; auto.
    + destruct IH as (b & Hb1 & Hb2); [intros; apply Hv; now right|].
      exists b. split; auto. rewrite Hb2. split.
      * intros (c' & v' & H1 & H2 & H3 & H4). exists c', v'. repeat split; simpl; auto.
      * intros (c' & v' & H1 & H2 & [<-|H3] & H4).
        -- exfalso. apply memb_false in E. apply E. apply in_map_iff. exists c'. split; auto.
           apply filter_In. split; auto. now apply memb_In.
        -- exists c', v'. auto.
Qed.

Lemma find_colour_spec P f K st indices left : forall c,
  CInv P f K st -> (forall v, In v indices -> v < ent_count g edim) -> c + left = K ->
  exists r, find_colour (snd st) indices left c = Ok r /\ c <= r <= K /\
    (forall k, c <= k < r -> exists c' v, In c' P /\ f c' = k /\ In v indices /\ In v (sub c')) /\
    (r < K -> forall c' v, In c' P -> f c' = r -> In v indices -> ~ In v (sub c')).
Proof.
  induction left as [|left IH]; intros c I Hv HK; simpl.
  - exists c. split; auto. split; [lia|]. split; [lia|]. lia.
  - destruct (colour_taken_spec P f K st c indices I Hv) as (b & Hb & Hbi). rewrite Hb. cbn [bind].
    destruct b.
    + destruct (IH (S c) I Hv) as (r & H1 & H2 & H3 & H4); [lia|].
      exists r. split; auto. split; [lia|]. split; auto.
      intros k Hk. destruct (Nat.eq_dec k c) as [->|Hne].
      * now apply Hbi.
      * apply H3. lia.
    + exists c. split; auto. split; [lia|]. split; [lia|].
      intros _ c' v H1 H2 H3 H4. assert (false = true); [|discriminate].
      apply Hbi. exists c', v. auto.
Qed.

Lemma mark_colours_spec c indices : forall ec,
  NoDup indices -> (forall v, In v indices -> v < length ec) ->
  exists ec', mark_colours ec indices c = Ok ec' /\ length ec' = length ec /\
    forall v, nth v ec' [] = nth v ec [] ++ (if memb v indices then [c] else []).
Proof.
  unfold mark_colours. induction indices as [|w t IH]; intros ec Hn Hv; simpl.
  - exists ec. split; auto. split; auto. intros. now rewrite app_nil_r.
  - inversion Hn; subst. rewrite (vget_nth _ _ []) by (apply Hv; now left). cbn [bind].
    rewrite vset_lt by (apply Hv; now left). cbn [bind].
    destruct (IH (set_nth ec w (nth w ec [] ++ [c]))) as (ec' & E1 & E2 & E3); auto.
    { intros v Hv'. rewrite length_set_nth. apply Hv. now right. }
    exists ec'. split; auto. rewrite length_set_nth in E2. split; auto.
    intros v. rewrite E3, nth_set_nth. rewrite (proj2 (Nat.ltb_lt w (length ec))) by (apply Hv; now left).
    rewrite andb_true_r. destruct (Nat.eqb_spec w v) as [->|Hne].
    + rewrite Nat.eqb_refl. simpl. fold (memb v t). rewrite (proj2 (memb_false v t)) by auto.
      now rewrite app_nil_r.
    + rewrite (proj2 (Nat.eqb_neq v w)) by auto. reflexivity.
Qed.

Lemma new_class_spec t cell col K :
  map fst col = g_types g 2 -> In t (g_types g 2) ->
  (forall u classes, assoc ct_eqb u col = Some classes -> length classes = K) ->
  exists col', new_class g t cell col = Ok col' /\ map fst col' = g_types g 2 /\
    forall u, assoc ct_eqb u col' =
      match assoc ct_eqb u col with
      | Some classes => Some (classes ++ [if ct_eqb u t then [cell] else []])
      | None => None
      end.
Proof.
  intros Hk Ht HK. unfold new_class.
  destruct (foldM_inv
    (fun col ct => classes <- unwrap (assoc ct_eqb ct col) ;;
           Ok (assoc_insert ct_eqb ct (classes ++ [if ct_eqb ct t then [cell] else []]) col))
    (fun pre c' => map fst c' = g_types g 2 /\
       forall u, assoc ct_eqb u c' =
         match assoc ct_eqb u col with
         | Some classes => Some (if existsb (ct_eqb u) pre then classes ++ [if ct_eqb u t then [cell] else []] else classes)
         | None => None
         end) (g_types g 2) col) as (col' & H1 & H2 & H3).
  - split; auto. intros u. simpl. destruct (assoc ct_eqb u col); auto.
  - intros pre x post c0 Hl [H1 H2].
    assert (Hx : In x (g_types g 2)) by (rewrite Hl; apply in_or_app; right; now left).
    assert (Hnx : existsb (ct_eqb x) pre = false).
    { assert (Hn := wf_types2_nodup g W). rewrite Hl in Hn. apply NoDup_remove_2 in Hn.
      apply Bool.not_true_is_false. intros Hex. apply existsb_exists in Hex.
      destruct Hex as (y & Hy & He). apply ct_eqb_eq in He. subst y. apply Hn. apply in_or_app. now left. }
    destruct (assoc_In_Some ct_eqb x col ct_eqb_eq) as (cl & Hcl); [now rewrite Hk|].
    assert (Hc0 : assoc ct_eqb x c0 = Some cl) by (rewrite H2, Hcl, Hnx; reflexivity).
    rewrite Hc0. cbn [unwrap bind]. eexists. split; [reflexivity|]. split.
    + rewrite assoc_insert_fst; auto using ct_eqb_eq. now rewrite H1.
    + intros u. rewrite assoc_assoc_insert by apply ct_eqb_eq.
      rewrite existsb_app. simpl. rewrite orb_false_r.
      destruct (ct_eqb u x) eqn:E.
      * apply ct_eqb_eq in E. subst u. rewrite Hcl, orb_true_r. reflexivity.
      * rewrite orb_false_r. apply H2.
  - exists col'. split; auto. split; auto. intros u. rewrite H3.
    destruct (assoc ct_eqb u col) eqn:E; auto.
    assert (Hu : In u (g_types g 2)).
    { rewrite <- Hk. apply assoc_Some_In in E; [|apply ct_eqb_eq]. apply in_map_iff. exists (u, l). auto. }
    assert (Hex : existsb (ct_eqb u) (g_types g 2) = true).
    { apply existsb_exists. exists u. split; auto. apply ct_eqb_refl. }
    now rewrite Hex.
Qed.

Lemma old_class_spec t cell c col K :
  map fst col = g_types g 2 -> In t (g_types g 2) -> c < K ->
  (forall u classes, assoc ct_eqb u col = Some classes -> length classes = K) ->
  exists col', old_class t cell c col = Ok col' /\ map fst col' = g_types g 2 /\
    forall u, assoc ct_eqb u col' =
      match assoc ct_eqb u col with
      | Some classes => Some (if ct_eqb u t then set_nth classes c (nth c classes [] ++ [cell]) else classes)
      | None => None
      end.
Proof.
  intros Hk Ht Hc HK. unfold old_class.
  destruct (assoc_In_Some ct_eqb t col ct_eqb_eq) as (cl & Hcl); [now rewrite Hk|].
  rewrite Hcl. cbn [unwrap bind]. assert (L := HK t cl Hcl).
  rewrite (vget_nth _ _ []) by lia. cbn [bind]. rewrite vset_lt by lia. cbn [bind].
  eexists. split; [reflexivity|]. split.
  - rewrite assoc_insert_fst; auto using ct_eqb_eq. now rewrite Hk.
  - intros u. rewrite assoc_assoc_insert by apply ct_eqb_eq.
    destruct (ct_eqb u t) eqn:E.
    + apply ct_eqb_eq in E. subst u. now rewrite Hcl.
    + destruct (assoc ct_eqb u col); auto.
Qed.

Lemma filter_ext_upd (p : nat -> nat -> bool) (f f' : nat -> nat) l :
  (forall c, In c l -> f' c = f c) -> filter (fun x => p x (f' x)) l = filter (fun x => p x (f x)) l.
Proof. intros H. apply filter_ext_in. intros a Ha. now rewrite H. Qed.

Lemma rev_case {A : Type} (l : list A) : l = [] \/ exists q z, l = q ++ [z].
Proof. destruct l as [|a l] using rev_ind; [now left|right; eauto]. Qed.

Lemma colour_cell_inv P f K st cell :
  CInv P f K st -> cell < ent_count g 2 -> ~ In cell P ->
  (forall c, In c P -> c < ent_count g 2) ->
  exists st' f' K', colour_cell g edim st cell = Ok st' /\ CInv (P ++ [cell]) f' K' st'.
Proof.
  intros I Hc Hnew HP. destruct st as [col ec]. unfold colour_cell.
  set (t := g_ctype g cell). assert (Ht : In t (g_types g 2)) by (now apply wf_ctype).
  destruct (assoc_In_Some ct_eqb t col ct_eqb_eq) as (cl & Hcl); [assert (Hkeys := ci_keys _ _ _ _ I); cbn [fst] in Hkeys; rewrite Hkeys; auto|].
  rewrite Hcl. cbn [unwrap bind]. assert (L := ci_len _ _ _ _ I t cl Hcl).
  assert (Hsub : forall v, In v (sub cell) -> v < ent_count g edim) by (intros; eapply wf_sub_lt; eauto).
  destruct (find_colour_spec P f K (col, ec) (sub cell) (length cl) 0 I Hsub) as (r & Hr & Hr2 & Hr3 & Hr4); [lia|].
  cbn [snd] in Hr. rewrite Hr. cbn [bind].
  assert (Hmark : exists ec', mark_colours ec (sub cell) r = Ok ec' /\ length ec' = length ec /\
             forall v, nth v ec' [] = nth v ec [] ++ (if memb v (sub cell) then [r] else [])).
  { apply mark_colours_spec; [now apply wf_sub_nodup|].
    intros v Hv. assert (Hl := ci_ec_len _ _ _ _ I). cbn [snd] in Hl. rewrite Hl. auto. }
  destruct Hmark as (ec' & Hm1 & Hm2 & Hm3).
  assert (Hex : exists f', (forall c, In c P -> f' c = f c) /\ f' cell = r).
  { exists (fun x => if x =? cell then r else f x). split; [|now rewrite Nat.eqb_refl].
    intros c Hin. destruct (Nat.eqb_spec c cell); auto. subst; tauto. }
  destruct Hex as (f' & Hf' & Hfc).
  (* facts that do not depend on the branch *)
  assert (Hec_len : length ec' = ent_count g edim) by (rewrite Hm2; apply (ci_ec_len _ _ _ _ I)).
  assert (Hec : forall v, v < ent_count g edim ->
      nth_error ec' v = Some (map f' (filter (fun c => memb v (sub c)) (P ++ [cell])))).
  { intros v Hv. rewrite (nth_error_nth' ec' [] ) by lia. f_equal. rewrite Hm3.
    rewrite filter_snoc, map_app. assert (E := ci_ec _ _ _ _ I v Hv). cbn [snd] in E.
    rewrite (nth_error_nth _ _ [] E). f_equal.
    - apply map_ext_in. intros a Ha. symmetry. apply Hf'. now apply filter_In in Ha.
    - destruct (memb v (sub cell)); simpl; now rewrite ?Hfc. }
  assert (Hproper : forall c c', In c (P ++ [cell]) -> In c' (P ++ [cell]) -> c <> c' -> f' c = f' c' -> ~ touch c c').
  { assert (Hone : forall c, In c P -> f c = r -> ~ touch cell c).
    { intros c Hin Hfr (v & H1 & H2). assert (Hlt : f c < K) by apply (ci_lt _ _ _ _ I c Hin).
      rewrite Hfr in Hlt. exact (Hr4 Hlt c v Hin Hfr H1 H2). }
    intros c c' H1 H2 Hne Hfe Ht'. apply in_app_or in H1, H2.
    destruct H1 as [H1|[<-|[]]], H2 as [H2|[<-|[]]].
    - rewrite !Hf' in Hfe by auto. exact (ci_proper _ _ _ _ I c c' H1 H2 Hne Hfe Ht').
    - rewrite Hfc, Hf' in Hfe by auto. apply (Hone c H1 Hfe).
      destruct Ht' as (v & ? & ?). exists v; auto.
    - rewrite Hfc, Hf' in Hfe by auto. exact (Hone c' H2 (eq_sym Hfe) Ht').
    - congruence. }
  assert (Hgreedy : forall c k, In c (P ++ [cell]) -> k < f' c ->
      exists c', In c' (P ++ [cell]) /\ c' <> c /\ f' c' = k /\ touch c c').
  { intros c k H1 Hk. apply in_app_or in H1. destruct H1 as [H1|[<-|[]]].
    - rewrite Hf' in Hk by auto. destruct (ci_greedy _ _ _ _ I c k H1 Hk) as (c' & A & B & C & D).
      exists c'. rewrite Hf' by auto. repeat split; auto. apply in_or_app; now left.
    - rewrite Hfc in Hk. destruct (Hr3 k) as (c' & v & A & B & C & D); [lia|].
      exists c'. rewrite Hf' by auto. repeat split; auto.
      + apply in_or_app; now left.
      + intros ->. tauto.
      + exists v. auto. }
  assert (Hfirst : forall pre c post k, P ++ [cell] = pre ++ c :: post -> k < f' c ->
      exists c', In c' pre /\ f' c' = k /\ touch c c').
  { intros pre c post k E Hk. destruct (rev_case post) as [->|(q & z & ->)].
    - apply app_inj_tail in E. destruct E as (<- & <-). rewrite Hfc in Hk.
      destruct (Hr3 k) as (c' & v & A & B & C & D); [lia|]. exists c'. rewrite Hf' by auto. repeat split; auto. exists v. auto.
    - rewrite app_comm_cons, app_assoc in E. apply app_inj_tail in E. destruct E as (E & _).
      assert (Hin : In c P) by (rewrite E; apply in_elt). rewrite Hf' in Hk by auto.
      destruct (ci_first _ _ _ _ I pre c q k E Hk) as (c' & A & B & C). exists c'. split; auto. split; auto.
      rewrite Hf'; auto. rewrite E. apply in_or_app. now left. }
  destruct (Nat.eqb_spec r (length cl)) as [Heq|Hneq].
  - (* a new class *)
    destruct (new_class_spec t cell col K (ci_keys _ _ _ _ I) Ht (ci_len _ _ _ _ I)) as (col' & H1 & H2 & H3).
    rewrite H1. cbn [bind]. rewrite Hm1. cbn [bind].
    exists (col', ec'), f', (S K). split; auto. assert (HKr : r = K) by lia. rewrite HKr in Hfc.
    constructor; cbn [fst snd]; auto.
    + intros u classes Hu. rewrite H3 in Hu. destruct (assoc ct_eqb u col) eqn:E; inversion Hu.
      rewrite app_length. simpl. rewrite (ci_len _ _ _ _ I u l E). lia.
    + intros u classes k Hu Hk. rewrite H3 in Hu. destruct (assoc ct_eqb u col) as [l|] eqn:E; inversion Hu; subst classes.
      assert (Ll := ci_len _ _ _ _ I u l E). rewrite filter_snoc, Hfc.
      destruct (Nat.eq_dec k K) as [->|Hne].
      * rewrite nth_error_app2 by lia. rewrite Ll, Nat.sub_diag. simpl. f_equal.
        rewrite Nat.eqb_refl, andb_true_r.
        replace (filter (fun c => ct_eqb (g_ctype g c) u && (f' c =? K)) P) with (@nil nat).
        2:{ symmetry. destruct (filter _ P) as [|a q] eqn:Ef; auto. exfalso.
            assert (Ha : In a (filter (fun c => ct_eqb (g_ctype g c) u && (f' c =? K)) P)) by (rewrite Ef; now left).
            apply filter_In in Ha. destruct Ha as [Ha1 Ha2]. apply andb_prop in Ha2. destruct Ha2 as [_ Ha2].
            apply Nat.eqb_eq in Ha2. rewrite Hf' in Ha2 by auto. assert (Hx := ci_lt _ _ _ _ I a Ha1). lia. }
        simpl. fold t. destruct (ct_eqb u t) eqn:E1, (ct_eqb t u) eqn:E2; auto.
        -- apply ct_eqb_eq in E1. subst. rewrite ct_eqb_refl in E2. discriminate.
        -- apply ct_eqb_eq in E2. subst. rewrite ct_eqb_refl in E1. discriminate.
      * rewrite nth_error_app1 by lia. assert (E4 := ci_classes _ _ _ _ I u l k E ltac:(lia)).
        rewrite E4. f_equal. rewrite (proj2 (Nat.eqb_neq K k)) by lia. rewrite andb_false_r, app_nil_r.
        symmetry. exact (filter_ext_upd (fun c z => ct_eqb (g_ctype g c) u && (z =? k)) f f' P Hf').
    + intros c Hin. apply in_app_or in Hin. destruct Hin as [Hin|[<-|[]]]; [|lia].
      rewrite Hf' by auto. assert (Hx := ci_lt _ _ _ _ I c Hin). lia.
    + intros k Hk. destruct (Nat.eq_dec k K) as [->|Hne].
      * exists cell. split; auto. apply in_or_app; right; now left.
      * destruct (ci_used _ _ _ _ I k) as (c & A & B); [lia|]. exists c. rewrite Hf' by auto.
        split; auto. apply in_or_app; now left.
  - (* an existing class *)
    assert (HrK : r < K) by lia.
    destruct (old_class_spec t cell r col K (ci_keys _ _ _ _ I) Ht HrK (ci_len _ _ _ _ I)) as (col' & H1 & H2 & H3).
    rewrite H1. cbn [bind]. rewrite Hm1. cbn [bind].
    exists (col', ec'), f', K. split; auto.
    constructor; cbn [fst snd]; auto.
    + intros u classes Hu. rewrite H3 in Hu. destruct (assoc ct_eqb u col) eqn:E; inversion Hu.
      destruct (ct_eqb u t); rewrite ?length_set_nth; apply (ci_len _ _ _ _ I u l E).
    + intros u classes k Hu Hk. rewrite H3 in Hu. destruct (assoc ct_eqb u col) as [l|] eqn:E; inversion Hu; subst classes.
      assert (Ll := ci_len _ _ _ _ I u l E). rewrite filter_snoc, Hfc. fold t.
      assert (E4 := ci_classes _ _ _ _ I u l k E Hk).
      rewrite (filter_ext_upd (fun c z => ct_eqb (g_ctype g c) u && (z =? k)) f f' P Hf').
      destruct (ct_eqb u t) eqn:E1.
      * apply ct_eqb_eq in E1. subst u. rewrite ct_eqb_refl. simpl.
        destruct (Nat.eqb_spec r k) as [->|Hne].
        -- rewrite nth_error_set_nth_eq by lia. f_equal. f_equal. now apply nth_error_nth.
        -- rewrite nth_error_set_nth_neq by auto. now rewrite app_nil_r.
      * assert (E2 : ct_eqb t u = false).
        { apply ct_eqb_neq. apply ct_eqb_neq in E1. auto. }
        rewrite E2. simpl. now rewrite app_nil_r.
    + intros c Hin. apply in_app_or in Hin. destruct Hin as [Hin|[<-|[]]]; [|lia].
      rewrite Hf' by auto. apply (ci_lt _ _ _ _ I c Hin).
    + intros k Hk. destruct (ci_used _ _ _ _ I k Hk) as (c & A & B). exists c. rewrite Hf' by auto.
      split; auto. apply in_or_app; now left.
Qed.

Lemma colour_fold_inv :
  exists st f K, foldM (colour_cell g edim) (g_iter g 2) (map (fun t => (t, [])) (g_types g 2), repeat [] (ent_count g edim)) = Ok st
    /\ CInv (g_iter g 2) f K st.
Proof.
  assert (Hcell : forall c, In c (g_iter g 2) -> c < ent_count g 2) by (intros c Hin; apply (wf_iter_In g W 2 c); auto).
  destruct (foldM_inv (colour_cell g edim) (fun pre st => exists f K, CInv pre f K st) (g_iter g 2)
     (map (fun t => (t, [])) (g_types g 2), repeat [] (ent_count g edim))) as (st & H1 & f & K & H2).
  - exists (fun _ => 0), 0. constructor; cbn [fst snd]; try (intros; lia); try (intros; contradiction).
    + rewrite map_map. simpl. apply map_id.
    + intros t classes H. apply assoc_Some_In in H; [|apply ct_eqb_eq].
      apply in_map_iff in H. destruct H as (u & Hu & _). inversion Hu. reflexivity.
    + apply repeat_length.
    + intros v Hv. simpl. now apply nth_error_repeat.
  - intros pre x post s0 Hl (f & K & I).
    assert (Hn := wf_iter_nodup g W 2 (le_n 2)). rewrite Hl in Hn.
    destruct (colour_cell_inv pre f K s0 x I) as (st' & f' & K' & A & B).
    + apply Hcell. rewrite Hl. apply in_or_app; right; now left.
    + apply NoDup_remove_2 in Hn. intros Hin. apply Hn. apply in_or_app. now left.
    + intros c Hin. apply Hcell. rewrite Hl. apply in_or_app. now left.
    + eauto.
  - eauto.
Qed.
End Colouring.
