(** * Cells of a DOF and terms of an entry *)
From Verif Require Import Base BaseFacts Topology TopologyFacts DofMap SpecDof DofMapFacts DofMapResults Process Space SpecSpace
  Shapes SpecShapes SphereFacts SphereSurface SphereResults ScreenFacts ScreenEdges ShapesResults DimensionResults
  Options SpecOptions Adjacency SpecAdjacency Scalar Integrand CellPair Operators SpecLocal
  Interleave Assembly SpecAssembly AssemblyRaces SpecOrder SpecBroken BrokenResults SpecShapeSpaces ShapeSpacesResults CountsSphere CountsScreen SpecCounts CountsResults
  DofExamples SpecDigits.

Lemma at_most_exactly {A : Type} k m (P : A -> Prop) : exactly k P -> k <= m -> at_most m P.
Proof. intros (l & N & H & <-) L l' N' H'. transitivity (length l); auto. apply NoDup_incl_length; auto. intros x Hx. now apply H, H'. Qed.

Lemma at_most_incl {A : Type} k (P Q : A -> Prop) : (forall x, P x -> Q x) -> at_most k Q -> at_most k P.
Proof. intros H HQ l N HL. apply HQ; auto. Qed.

Section Spaces.
Context {T R : Type}.

(** A DOF of an entity belongs to the cells that contain the entity. *)
Lemma carried_entity (fs : fspace T R) d e k i : serial_space fs -> listed (sp_dofmap (fs_space fs)) d e k i ->
  forall c, carried fs i c <-> contains (fs_grid fs) c d e.
Proof.
  intros Sp HL c. assert (W := ss_grid _ Sp). assert (WF := ss_family _ Sp). assert (HA := ss_dofs _ Sp).
  apply (listed_edof 0 _ _ _ W WF HA) in HL. split.
  - intros (Hc & Hi). rewrite dofs_at_row in Hi by auto.
    destruct (shared_dof 0 _ _ _ W WF HA c c i Hc Hc Hi Hi) as (d' & e' & C & _ & I).
    apply In_nth_error in I. destruct I as (k' & I). destruct (edof_unique 0 _ _ _ W WF HA _ _ _ _ _ _ _ HL I) as (-> & -> & _). exact C.
  - intros (Hc & Hd & He). split; auto. apply In_nth_error in He. destruct He as (j & Hj).
    assert (Hs : sub_at (fs_grid fs) c d j e) by (repeat split; auto).
    assert (Ln := edof_length 0 _ _ _ W WF HA c d j e Hs). unfold el_ndofs in Ln.
    destruct (el_edofs (fs_family fs (g_ctype (fs_grid fs) c)) d j) as [l|] eqn:El; [|destruct (edof _ d e); [now destruct k|discriminate]].
    assert (Hk : k < length l) by (rewrite <- Ln; apply nth_error_Some; congruence).
    destruct (nth_error l k) as [x|] eqn:Ex; [|apply nth_error_None in Ex; lia].
    destruct (cell_row_entity 0 _ _ _ W WF HA c d j e l k x Hs El Ex) as (n & H1 & H2).
    rewrite dofs_at_row by auto. apply (nth_error_In _ x). congruence.
Qed.

Lemma dofs_distinct (fs : fspace T R) c : serial_space fs -> c < ent_count (fs_grid fs) 2 -> NoDup (dofs_at fs c).
Proof.
  intros Sp Hc. rewrite dofs_at_row by auto. eapply cell_row_NoDup; eauto; apply Sp.
Qed.

(** All cells of a DOF have a vertex in common. *)
Lemma common_vertex (fs : fspace T R) i : serial_space fs -> exists v, forall c, carried fs i c -> cell_at_vertex (fs_grid fs) v c.
Proof.
  intros Sp. assert (W := ss_grid _ Sp). assert (WF := ss_family _ Sp). assert (HA := ss_dofs _ Sp).
  destruct (Nat.lt_ge_cases i (dm_size (sp_dofmap (fs_space fs)))) as [Hi|Hi].
  2:{ exists 0. intros c (Hc & I). exfalso. rewrite dofs_at_row in I by auto. assert (B := cell_row_lt 0 _ _ _ W WF HA c i Hc I). lia. }
  destruct (dof_in_cell fs i Sp Hi) as (c0 & a0 & Hc0 & Ha0).
  apply (listed_lt_iff 0 _ _ _ W WF HA) in Hi. destruct Hi as (d & e & k & HL).
  assert (Q := carried_entity fs d e k i Sp HL).
  assert (C0 : contains (fs_grid fs) c0 d e) by (apply Q; split; auto; eapply nth_error_In; eauto).
  destruct d as [|[|[|d]]]; [| | |destruct C0 as (_ & C0 & _); lia].
  - exists e. intros c Hc. apply Q in Hc. destruct Hc as (Hc & _ & He). split; auto.
  - destruct C0 as (_ & _ & He). apply In_nth_error in He. destruct He as (j & He).
    assert (S0 : sub_at (fs_grid fs) c0 1 j e) by (repeat split; auto).
    destruct (shared_edge_ends _ c0 c0 j j e W S0 S0) as (a & b & _ & _ & va & vb & R1 & _ & A & B & _).
    exists va. intros c Hc. apply Q in Hc. destruct Hc as (Hc & _ & He'). apply In_nth_error in He'. destruct He' as (j' & He').
    assert (S1 : sub_at (fs_grid fs) c 1 j' e) by (repeat split; auto).
    destruct (shared_edge_ends _ c0 c j j' e W S0 S1) as (x & y & x' & y' & wa & wb & X1 & X2 & A' & B' & _ & D).
    rewrite R1 in X1. injection X1 as <- <-. assert (Ew : va = wa) by congruence.
    split; auto.
    assert (Sx : surface_type (g_ctype (fs_grid fs) c)) by (apply wf_cell_surface; auto).
    destruct (ref_edges_lt _ _ _ _ Sx X2) as (La' & Lb' & _). rewrite <- (wf_sub_length _ W c 0) in La', Lb' by (auto; lia).
    rewrite Ew. destruct D as [(D & _)|(_ & D)]; rewrite <- D; now apply nth_In.
  - assert (L := wf_sub_length _ W c0 0 Hc0 ltac:(lia)).
    assert (Sx : surface_type (g_ctype (fs_grid fs) c0)) by (apply wf_cell_surface; auto).
    assert (Hv : exists v, In v (g_sub (fs_grid fs) c0 0)).
    { destruct (g_sub (fs_grid fs) c0 0) as [|v r]; [|exists v; now left]. exfalso. destruct Sx as [E|E]; rewrite E in L; discriminate L. }
    destruct Hv as (v & Hv). exists v. intros c Hc. apply Q in Hc. destruct Hc as (Hc & _ & He). destruct C0 as (_ & _ & E0).
    rewrite (wf_sub_cell _ W) in He, E0 by auto. destruct He as [<-|[]], E0 as [E0|[]]. subst c0. split; auto.
Qed.

(** ** Terms of an entry *)

Lemma index_unique (l : list nat) a b x : NoDup l -> nth_error l a = Some x -> nth_error l b = Some x -> a = b.
Proof. intros N A B. apply (proj1 (NoDup_nth_error l) N); [apply nth_error_Some; congruence|congruence]. Qed.

Definition place (l : list nat) (x : nat) : nat :=
  length ((fix before (l : list nat) : list nat := match l with [] => [] | y :: r => if y =? x then [] else y :: before r end) l).

Lemma place_at l x : In x l -> nth_error l (place l x) = Some x.
Proof.
  unfold place. induction l as [|y r IH]; intros H; [destruct H|]. destruct (Nat.eqb_spec y x) as [->|Ne]; [reflexivity|].
  destruct H as [->|H]; [contradiction|]. cbn [length nth_error]. now apply IH.
Qed.

Definition term_of (test trial : fspace T R) i j (p : nat * nat) : label :=
  (p, (place (dofs_at test (fst p)) i, place (dofs_at trial (snd p)) j)).

Lemma terms_exactly (test trial : fspace T R) i j k m : serial_space test -> serial_space trial ->
  exactly k (carried test i) -> exactly m (carried trial j) -> exactly (k * m) (contributes test trial i j).
Proof.
  intros St Ss (l & N & H & <-) (l' & N' & H' & <-).
  exists (map (term_of test trial i j) (list_prod l l')). split; [|split].
  - apply FinFun.Injective_map_NoDup; [intros p q E; now injection E|].
    clear H H'. induction l as [|x l IH]; [constructor|]. inversion N as [|? ? N1 N2]; subst. cbn [list_prod]. apply NoDup_app_iff. split; [|split].
    + apply FinFun.Injective_map_NoDup; auto. intros a b E. congruence.
    + now apply IH.
    + intros (a & b) A B. apply in_map_iff in A. destruct A as (y & A & _). injection A as <- <-. apply in_prod_iff in B. tauto.
  - intros ((t, s), (a, b)). rewrite in_map_iff. split.
    + intros ((t0, s0) & E & I). injection E as <- <- <- <-. apply in_prod_iff in I. destruct I as (I & I').
      apply H in I. apply H' in I'. destruct I as (A & B), I' as (A' & B'). cbn [fst snd]. repeat split; auto; now apply place_at.
    + intros (Ht & Hs & Ha & Hb). exists (t, s).
      assert (Ia := nth_error_In _ _ Ha). assert (Ib := nth_error_In _ _ Hb). split.
      * unfold term_of. cbn [fst snd]. f_equal. f_equal.
        -- eapply index_unique; [apply (dofs_distinct test t St Ht)|now apply place_at|exact Ha].
        -- eapply index_unique; [apply (dofs_distinct trial s Ss Hs)|now apply place_at|exact Hb].
      * apply in_prod_iff. split; [apply H|apply H']; split; auto.
  - now rewrite map_length, prod_length.
Qed.

Lemma carried_finite (fs : fspace T R) i : exists k, exactly k (carried fs i).
Proof.
  exists (length (filter (fun c => if in_dec Nat.eq_dec i (dofs_at fs c) then true else false) (seq 0 (ent_count (fs_grid fs) 2)))).
  eexists. split; [|split; [|reflexivity]]; [apply NoDup_filter, seq_NoDup|].
  intros c. rewrite filter_In, in_seq. unfold carried. destruct (in_dec Nat.eq_dec i (dofs_at fs c)); split; intros (A & B); split; auto; try lia; try discriminate; contradiction.
Qed.

Lemma terms_at_most (test trial : fspace T R) i j k m : serial_space test -> serial_space trial ->
  at_most k (carried test i) -> at_most m (carried trial j) -> at_most (k * m) (contributes test trial i j).
Proof.
  intros St Ss Hk Hm. destruct (carried_finite test i) as (a & Ha), (carried_finite trial j) as (b & Hb).
  apply (at_most_exactly (a * b)); [now apply terms_exactly|].
  destruct Ha as (l & N & H & <-), Hb as (l' & N' & H' & <-). apply Nat.mul_le_mono; [apply Hk|apply Hm]; auto; intros x Hx; [now apply H|now apply H'].
Qed.
End Spaces.

(** ** The shapes *)

Section Screens.
Variable n : nat.

Lemma grid_place v : exists x y, x <= n /\ v = y * (n + 1) + x.
Proof.
  exists (v mod (n + 1)), (v / (n + 1)). assert (B := Nat.mod_upper_bound v (n + 1) ltac:(lia)). split; [lia|].
  rewrite (Nat.div_mod v (n + 1)) at 1 by lia. lia.
Qed.

Lemma valence_incl cells v l : NoDup cells -> (forall c, In c cells -> In v c -> In c l) -> valence cells v <= length l.
Proof.
  intros N H. unfold valence, cnt. apply NoDup_incl_length; [now apply NoDup_filter|]. intros c Hc. apply filter_In in Hc. destruct Hc as (A & B).
  apply H; auto. now apply memb_In.
Qed.

Ltac same_place := repeat match goal with H : ?b * (n + 1) + ?a = ?b' * (n + 1) + ?a' |- _ => apply (id_inj n a b a' b') in H; [|lia|lia]; destruct H; subst end.

Lemma triangle_valence v : valence (triangle_cells n) v <= 6.
Proof.
  destruct (grid_place v) as (x & y & Hx & ->).
  apply (valence_incl _ _ [lower n x y; upper n x y; lower n (x - 1) y; lower n (x - 1) (y - 1); upper n (x - 1) (y - 1); upper n x (y - 1)]); [apply triangles_NoDup|].
  intros c Hc Hv. apply In_triangle_cells in Hc. destruct Hc as (x' & y' & Hx' & Hy' & [-> | ->]); [apply In_lower in Hv|apply In_upper in Hv];
    destruct Hv as [E|[E|E]]; same_place; rewrite ?Nat.add_sub; cbn [In]; tauto.
Qed.

Lemma quad_valence v : valence (quad_cells n) v <= 4.
Proof.
  destruct (grid_place v) as (x & y & Hx & ->).
  apply (valence_incl _ _ [quad n x y; quad n (x - 1) y; quad n x (y - 1); quad n (x - 1) (y - 1)]); [apply quads_NoDup|].
  intros c Hc Hv. apply In_quad_cells in Hc. destruct Hc as (x' & y' & Hx' & Hy' & ->). apply In_quad in Hv.
  destruct Hv as [E|[E|[E|E]]]; same_place; rewrite ?Nat.add_sub; cbn [In]; tauto.
Qed.
End Screens.

Definition most_cells (t : cell_type) : nat := match t with Quadrilateral => 4 | _ => 6 end.

Lemma shape_valence G t v : shape_grid G -> g_types G 2 = [t] -> at_most (most_cells t) (cell_at_vertex G v).
Proof.
  intros [R L i b E|n i b E|n i b E] Et.
  - destruct (sphere_facts R L b i E) as (cells & Eg & W & SU & Rg & _). rewrite Eg in *. injection Et as <-.
    destruct (Nat.lt_ge_cases v (2 + 4 ^ (L + 1))) as [Hv|Hv].
    + eapply at_most_exactly; [apply vertex_cells; now left|]. rewrite (Rg v Hv). cbn [most_cells]. destruct (v <? 6); lia.
    + eapply at_most_exactly; [apply vertex_cells; now left|]. transitivity 0; [|lia]. unfold valence, cnt.
      destruct (filter (memb v) cells) as [|c l] eqn:El; [cbn; lia|exfalso].
      assert (I : In c (filter (memb v) cells)) by (rewrite El; now left). apply filter_In in I. destruct I as (I & M). apply memb_In in M.
      destruct (su_cell _ _ SU c I) as (x & y & z & -> & B & _). cbn [In] in M. intuition lia.
  - destruct (built_triangles n b i E) as (Hn & Eg). rewrite Eg in *. injection Et as <-.
    eapply at_most_exactly; [apply vertex_cells; now left|]. apply triangle_valence.
  - destruct (built_quads n b i E) as (Hn & Eg). rewrite Eg in *. injection Et as <-.
    eapply at_most_exactly; [apply vertex_cells; now right|]. apply quad_valence.
Qed.

Section Shapes.
Context {T R : Type}.

Lemma shape_carried (fs : fspace T R) t k i : shape_grid (fs_grid fs) -> serial_space fs -> g_types (fs_grid fs) 2 = [t] -> cells_per_dof t (fs_family fs) k ->
  at_most k (carried fs i).
Proof.
  intros SG Sp Et H. inversion H as [p Hp E1 E2 E3|p Hp E1 E2 E3|t' n E1 E2 E3]; subst.
  - destruct (common_vertex fs i Sp) as (v & Hv). eapply at_most_incl; [exact Hv|]. now apply (shape_valence _ Triangle).
  - destruct (common_vertex fs i Sp) as (v & Hv). eapply at_most_incl; [exact Hv|]. now apply (shape_valence _ Quadrilateral).
  - intros l N HL. destruct l as [|c [|c' l]]; cbn [length]; try lia. exfalso.
    destruct (HL c (or_introl eq_refl)) as (Hc & I), (HL c' (or_intror (or_introl eq_refl))) as (Hc' & I').
    rewrite dofs_at_row in I, I' by auto.
    assert (c = c'); [|subst; inversion N as [|? ? N1 _]; apply N1; now left].
    eapply (interior_disjoint 0 _ _ _ (ss_grid _ Sp) (ss_family _ Sp) (ss_dofs _ Sp)); eauto.
    rewrite <- E2. intros u d j _ Hd. unfold el_ndofs, interior_only. cbn [el_edofs]. destruct (j <? ref_count u d); auto. destruct d as [|[|d]]; auto. lia.
Qed.

Lemma shape_terms (test trial : fspace T R) t i j k m : shape_grid (fs_grid test) -> shape_grid (fs_grid trial) -> serial_space test -> serial_space trial ->
  g_types (fs_grid test) 2 = [t] -> g_types (fs_grid trial) 2 = [t] -> cells_per_dof t (fs_family test) k -> cells_per_dof t (fs_family trial) m ->
  at_most (k * m) (contributes test trial i j).
Proof. intros. apply terms_at_most; auto; eapply shape_carried; eauto. Qed.
End Shapes.
