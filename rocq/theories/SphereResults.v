(** * The sphere: levels, counts, conformity *)
From Verif Require Import Base BaseFacts Topology TopologyFacts Shapes SpecShapes SphereFacts SphereSurface SpecAdjacency.

Lemma octahedron_surface : surface 6 octahedron_cells.
Proof.
  constructor.
  - intros c H. repeat (destruct H as [<-|H]; [eexists _, _, _; split; [reflexivity|lia]|]). contradiction.
  - unfold octahedron_cells. repeat constructor; cbn; intros C; repeat (destruct C as [C|C]; [discriminate C|]); contradiction.
  - intros c c' e H H' He He'.
    repeat (destruct H as [<-|H]; [repeat (destruct H' as [<-|H']; [first [reflexivity|
      exfalso; cbn in He, He'; repeat (destruct He as [<-|He]; [repeat (destruct He' as [He'|He']; [discriminate He'|]); contradiction|]); contradiction]|]); contradiction|]). contradiction.
  - intros c u v H He. unfold octahedron_cells in *.
    repeat (destruct H as [<-|H]; [cbn in He; repeat (destruct He as [He|He]; [injection He as <- <-|]); try contradiction;
      match goal with |- exists c', _ /\ In ?e _ => 
        let find := (fun c => exists c; split; [cbn; tauto|cbn; tauto]) in
        first [find [0;1;2]|find [0;2;3]|find [0;3;4]|find [0;4;1]|find [5;2;1]|find [5;3;2]|find [5;4;3]|find [5;1;4]] end|]). contradiction.
  - intros c c' H H' Hs.
    repeat (destruct H as [<-|H]; [repeat (destruct H' as [<-|H']; [first [reflexivity|
      exfalso; match type of Hs with forall v, In v [?a; ?b; ?d] -> _ =>
        first [destruct (Hs a) as [E|[E|[E|[]]]]; [cbn; tauto|discriminate..]|destruct (Hs b) as [E|[E|[E|[]]]]; [cbn; tauto|discriminate..]
              |destruct (Hs d) as [E|[E|[E|[]]]]; [cbn; tauto|discriminate..]] end]|]); contradiction|]). contradiction.
  - intros v H. do 6 (destruct v as [|v]; [first [exists [0; 1; 2]; split; [cbn; tauto|cbn; tauto]|exists [0; 3; 4]; split; [cbn; tauto|cbn; tauto]|
      exists [5; 1; 4]; split; [cbn; tauto|cbn; tauto]]|]). lia.
Qed.

(** ** The builder *)

Lemma add_points_spec {P : Type} (l : list P) k0 b : b_points b = combine (seq 0 k0) (map snd (b_points b)) -> length (b_points b) = k0 ->
  foldM add_point (combine (seq k0 (length l)) l) b = Ok (mkBuilder (b_ppc b) (b_points b ++ combine (seq k0 (length l)) l) (b_cells b)).
Proof.
  revert k0 b. induction l as [|p l IH]; intros k0 b E L; cbn [length seq combine foldM].
  - rewrite app_nil_r. now destruct b.
  - assert (F : map fst (b_points b) = seq 0 k0) by (rewrite E; apply map_fst_combine; rewrite map_length, seq_length; lia).
    unfold add_point at 1. cbn [fst]. rewrite F. replace (memb k0 (seq 0 k0)) with false by (symmetry; apply memb_false; rewrite in_seq; lia). cbn [bind].
    rewrite IH; cbn [b_points b_ppc b_cells].
    + now rewrite <- app_assoc.
    + rewrite map_app. cbn [map snd]. rewrite E at 1. rewrite seq_S. symmetry. apply combine_snoc. rewrite map_length, seq_length. lia.
    + rewrite app_length. cbn. lia.
Qed.

Lemma add_cells_spec {P : Type} (l : list (list nat)) k0 (b : builder P) : b_cells b = combine (seq 0 k0) (map snd (b_cells b)) -> length (b_cells b) = k0 ->
  (forall c, In c l -> length c = b_ppc b) ->
  foldM add_cell (combine (seq k0 (length l)) l) b = Ok (mkBuilder (b_ppc b) (b_points b) (b_cells b ++ combine (seq k0 (length l)) l)).
Proof.
  revert k0 b. induction l as [|p l IH]; intros k0 b E L H; cbn [length seq combine foldM].
  - rewrite app_nil_r. now destruct b.
  - assert (F : map fst (b_cells b) = seq 0 k0) by (rewrite E; apply map_fst_combine; rewrite map_length, seq_length; lia).
    unfold add_cell at 1. cbn [fst snd]. rewrite F. replace (memb k0 (seq 0 k0)) with false by (symmetry; apply memb_false; rewrite in_seq; lia).
    rewrite (H p (or_introl eq_refl)), Nat.eqb_refl. cbn [bind].
    rewrite IH; cbn [b_points b_ppc b_cells].
    + now rewrite <- app_assoc.
    + rewrite map_app. cbn [map snd]. rewrite E at 1. rewrite seq_S. symmetry. apply combine_snoc. rewrite map_length, seq_length. lia.
    + rewrite app_length. cbn. lia.
    + intros c Hc. apply H. now right.
Qed.

Section Sphere.
Variable R : real_ops.

Lemma refine_invariant (P : list (vec3 R) -> list (list nat) -> Prop) :
  (forall pts cells np, surface (length pts) cells -> P pts cells -> Forall2 (made_for R pts) (grid_edges Triangle cells) np ->
     P (pts ++ np) (flat_map (children (mid (length pts) (grid_edges Triangle cells))) cells)) ->
  forall L pts cells, surface (length pts) cells -> P pts cells ->
  exists pts' cells', refine_levels R L (pts, length pts, cells) = Ok (pts', length pts', cells') /\
    surface (length pts') cells' /\ P pts' cells' /\ length cells' = 4 ^ L * length cells /\
    2 * length pts' + length cells = 2 * length pts + length cells'.
Proof.
  intros Hstep. induction L as [|L IH]; intros pts cells SU HP; cbn [refine_levels].
  - exists pts, cells. cbn [Nat.pow]. repeat (split; [auto; lia|]). lia.
  - destruct (refine_level_spec R pts (length pts) eq_refl cells) as (np & E & F).
    { intros c Hc. destruct (su_cell _ _ SU c Hc) as (a & b & d & -> & B & _). exists a, b, d. tauto. }
    assert (Ln : length (pts ++ np) = length pts + length (grid_edges Triangle cells)).
    { rewrite app_length. f_equal. symmetry. clear - F. induction F; cbn; congruence. }
    rewrite E, <- Ln. cbn [bind].
    destruct (IH (pts ++ np) (flat_map (children (mid (length pts) (grid_edges Triangle cells))) cells)) as (pts' & cells' & E' & S' & P' & C1 & C2).
    + rewrite Ln. now apply refined_surface.
    + now apply Hstep.
    + exists pts', cells'. split; auto. split; auto. split; auto. rewrite (children_count _ _ SU) in C1, C2.
      pose proof (edge_count _ _ SU). split; [cbn [Nat.pow]; lia|lia].
Qed.

(** The sphere of degree 1. *)
Lemma sphere_built (P : list (vec3 R) -> list (list nat) -> Prop) L :
  (forall pts cells np, surface (length pts) cells -> P pts cells -> Forall2 (made_for R pts) (grid_edges Triangle cells) np ->
     P (pts ++ np) (flat_map (children (mid (length pts) (grid_edges Triangle cells))) cells)) ->
  P (octahedron_points R) octahedron_cells ->
  exists b, regular_sphere R L 1 = Ok b /\
    b_points b = enumerate (points_of b) /\ b_cells b = enumerate (cells_of b) /\
    length (points_of b) = 2 + 4 ^ (L + 1) /\ length (cells_of b) = 8 * 4 ^ L /\
    surface (length (points_of b)) (cells_of b) /\ P (points_of b) (cells_of b).
Proof.
  intros Hstep H0. destruct (refine_invariant P Hstep L (octahedron_points R) octahedron_cells octahedron_surface H0) as (pts & cells & E & SU & HP & C1 & C2).
  unfold regular_sphere. cbn [length octahedron_points] in E. rewrite E. cbn [bind].
  unfold enumerate at 1. rewrite (add_points_spec pts 0 (new_builder Triangle 1)) by reflexivity. cbn [bind new_builder b_ppc b_cells b_points app].
  unfold enumerate at 1. rewrite (add_cells_spec cells 0) by (try reflexivity; intros c Hc; destruct (su_cell _ _ SU c Hc) as (a & b & d & -> & _); reflexivity).
  eexists. split; [reflexivity|]. unfold points_of, cells_of. cbn [b_points b_cells app]. change (combine (seq 0 (length pts)) pts) with (enumerate pts). change (combine (seq 0 (length cells)) cells) with (enumerate cells). rewrite !map_snd_enumerate.
  split; auto. split; auto. cbn [length octahedron_points octahedron_cells] in C1, C2. rewrite Nat.pow_add_r. cbn [Nat.pow].
  split; [lia|]. split; [lia|]. auto.
Qed.

(** Any other degree is refused. *)
Lemma sphere_other_degree L degree : degree <> 1 -> regular_sphere R L degree = Panic.
Proof.
  intros D. destruct (refine_invariant (fun _ _ => True) ltac:(auto) L (octahedron_points R) octahedron_cells octahedron_surface I) as (pts & cells & E & SU & _ & C1 & _).
  unfold regular_sphere. cbn [length octahedron_points] in E. rewrite E. cbn [bind].
  unfold enumerate at 1. rewrite (add_points_spec pts 0 (new_builder Triangle degree)) by reflexivity. cbn [bind new_builder b_ppc b_cells b_points app].
  destruct cells as [|c cells]; [cbn in C1; pose proof (Nat.pow_nonzero 4 L ltac:(lia)); lia|].
  destruct (su_cell _ _ SU c (or_introl eq_refl)) as (a & b & d & -> & _).
  unfold enumerate. cbn [length seq combine foldM]. unfold add_cell at 1. cbn [fst snd map b_cells memb existsb length b_ppc].
  replace (3 =? points_per_cell Triangle degree) with false; [reflexivity|]. symmetry. apply Nat.eqb_neq. cbn [points_per_cell]. intros C.
  destruct degree as [|[|k]]; [cbn in C; lia|lia|].
  assert (6 <= (Datatypes.S (Datatypes.S k) + 1) * (Datatypes.S (Datatypes.S k) + 2) / 2) by (apply Nat.div_le_lower_bound; lia). lia.
Qed.

End Sphere.

(** ** The grid *)

Section Grid.
Context (n : nat) (cells : list (list nat)) (SU : surface n cells).

Lemma surface_valid : valid_cells Triangle n cells.
Proof.
  split; [now left|]. intros c Hc. destruct (su_cell _ _ SU c Hc) as (a & b & d & -> & B & N1 & N2 & N3). split; [reflexivity|]. split.
  - repeat constructor; cbn; intros C; repeat (destruct C as [C|C]; [congruence|]); contradiction.
  - intros v [<-|[<-|[<-|[]]]]; lia.
Qed.

Lemma cell_at i c : nth_error cells i = Some c -> nth i cells [] = c.
Proof. apply nth_error_nth_Some. Qed.

Lemma same_position i j c : nth_error cells i = Some c -> nth_error cells j = Some c -> i = j.
Proof. apply NoDup_nth_error_inj. apply (su_nodup _ _ SU). Qed.

(** Every edge belongs to exactly two cells, in opposite directions. *)
Lemma surface_two_cells i c u v : nth_error cells i = Some c -> In (u, v) (directed_edges c) ->
  exists j c', j <> i /\ nth_error cells j = Some c' /\ In (v, u) (directed_edges c') /\
    forall k d, nth_error cells k = Some d -> In u d -> In v d -> k = i \/ k = j.
Proof.
  intros Hi He. pose proof (nth_error_In _ _ Hi) as Hc. destruct (su_closed _ _ SU c u v Hc He) as (c' & Hc' & He').
  destruct (In_nth_error _ _ Hc') as (j & Hj). exists j, c'.
  apply (edge_rot_cell n cells SU) in He; auto. destruct He as (w & R). destruct (rot_facts n cells SU _ _ _ _ Hc R) as (B & N1 & N2 & N3).
  split.
  { intros ->. assert (c' = c) by congruence. subst c'. apply (edge_rot_cell n cells SU) in He'; auto. destruct He' as (w' & R').
    apply rot_turn, rot_turn in R'. destruct (rot_unique n cells SU c u v w w' v Hc R) as (-> & E); [now apply rot_turn, rot_turn|congruence]. }
  split; auto. split; auto. intros k d Hk Hu Hv. pose proof (nth_error_In _ _ Hk) as Hd.
  destruct (su_cell _ _ SU d Hd) as (a & b & e & -> & _).
  assert (In (u, v) (directed_edges [a; b; e]) \/ In (v, u) (directed_edges [a; b; e])) as [E|E].
  { cbn in Hu, Hv. destruct Hu as [<-|[<-|[<-|[]]]], Hv as [<-|[<-|[<-|[]]]]; cbn; auto; congruence. }
  - left. eapply same_position; [exact Hk|]. rewrite (su_edge _ _ SU [a; b; e] c (u, v)); auto. apply (edge_rot_cell n cells SU); eauto.
  - right. eapply same_position; [exact Hk|]. now rewrite (su_edge _ _ SU [a; b; e] c' (v, u)).
Qed.

Lemma surface_conforming id : conforming (grid_of_cells id Triangle n cells).
Proof.
  intros i j v w Hi Hj Hij Hvw Vi Vj Wi Wj. cbn [g_sub grid_of_cells] in *.
  change (ent_count (grid_of_cells id Triangle n cells) 2) with (length cells + 0) in Hi, Hj. rewrite Nat.add_0_r in Hi, Hj.
  destruct (nth_error cells i) as [c|] eqn:Ec; [|apply nth_error_None in Ec; lia]. destruct (nth_error cells j) as [c'|] eqn:Ec'; [|apply nth_error_None in Ec'; lia].
  rewrite (cell_at _ _ Ec) in *. rewrite (cell_at _ _ Ec') in *.
  assert (G : forall k d, nth k cells [] = d -> nth_error cells k = Some d -> In v d -> In w d -> edge_of (grid_of_cells id Triangle n cells) k v w).
  { intros k d Hk He Hv Hw. destruct (su_cell _ _ SU d (nth_error_In _ _ He)) as (a & b & e & -> & _).
    unfold edge_of. cbn [g_sub grid_of_cells g_ctype]. rewrite Hk. cbn in Hv, Hw.
    destruct Hv as [<-|[<-|[<-|[]]]], Hw as [<-|[<-|[<-|[]]]]; try congruence.
    - exists 0, 1. split; [cbn; auto|]. left. auto.
    - exists 0, 2. split; [cbn; auto|]. left. auto.
    - exists 0, 1. split; [cbn; auto|]. right. auto.
    - exists 1, 2. split; [cbn; auto|]. left. auto.
    - exists 0, 2. split; [cbn; auto|]. right. auto.
    - exists 1, 2. split; [cbn; auto|]. right. auto. }
  split; [apply (G i c); auto; now apply cell_at|]. split; [apply (G j c'); auto; now apply cell_at|].
  intros u Ui Uj. destruct (Nat.eq_dec u v); auto. destruct (Nat.eq_dec u w); auto. exfalso. apply Hij.
  apply (same_position i j c); auto. rewrite Ec'. f_equal. symmetry. apply (su_sets _ _ SU); eauto using nth_error_In.
  destruct (su_cell _ _ SU c (nth_error_In _ _ Ec)) as (a & b & d & -> & _ & N1 & N2 & N3).
  cbn in Vi, Wi, Ui. intros x Hx. cbn in Hx.
  assert (x = u \/ x = v \/ x = w) as [->|[->| ->]]; auto.
  clear - Vi Wi Ui Hx Hvw n0 n1. destruct Vi as [<-|[<-|[<-|[]]]], Wi as [<-|[<-|[<-|[]]]]; try congruence; destruct Ui as [<-|[<-|[<-|[]]]]; try congruence; destruct Hx as [<-|[<-|[<-|[]]]]; auto.
Qed.

End Grid.
