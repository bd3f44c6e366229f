(** * First-fit colours computed *)
From Verif Require Import Base BaseFacts Topology TopologyFacts DofMap SpecDof DofMapResults DofExamples ColouringExamples
  Colouring SpecColour ColouringResults SpecFit FitResults FitScreens Shapes SpecShapes.

(** The colours of the eight triangles of [screen_triangles(2)]. *)
Definition screen2_colour (c : nat) : nat := nth c [0; 1; 1; 2; 3; 0; 4; 5] 0.

Lemma screen2_fit : exists dm, wf_grid screen2 /\ wf_family (g_types screen2 2) (lagrange 2) /\ head_dim_pos screen2 (lagrange 2) /\
  assign_dofs 0 screen2 (lagrange 2) = Ok dm /\ first_fit screen2 dm screen2_colour /\ colours_used screen2 screen2_colour 6 /\
  cell_colouring screen2 (lagrange 2) = Ok [(Triangle, [[0; 5]; [1; 2]; [3]; [4]; [6]; [7]])] /\
  classes_of screen2 screen2_colour 6 = [(Triangle, [[0; 5]; [1; 2]; [3]; [4]; [6]; [7]])].
Proof.
  assert (W : wf_grid screen2) by exact screen2_wf. assert (WF : wf_family (g_types screen2 2) (lagrange 2)) by apply lagrange_wf_family.
  destruct (assign_dofs_total 0 screen2 (lagrange 2) W WF) as (dm & HA). exists dm. split; auto. split; auto.
  assert (Hd : head_dim_pos screen2 (lagrange 2)) by (apply lagrange_head; auto). split; auto. split; auto.
  destruct (first_fit_holds 0 screen2 (lagrange 2) dm W WF Hd HA) as (f & K & F & U & E).
  assert (E' : cell_colouring screen2 (lagrange 2) = Ok [(Triangle, [[0; 5]; [1; 2]; [3]; [4]; [6]; [7]])]) by (vm_compute; reflexivity).
  assert (Kd : K = 6).
  { rewrite E' in E. injection E as E. apply (f_equal (@length (list nat))) in E. rewrite map_length, seq_length in E. now symmetry. }
  subst K.
  assert (Q : forall c, c < 8 -> f c = screen2_colour c).
  { intros c Hc. destruct U as (U & _). specialize (U c Hc).
    assert (P : forall k l, k < 6 -> nth_error [[0; 5]; [1; 2]; [3]; [4]; [6]; [7]] k = Some l -> In c l -> f c = k).
    { intros k l Hk N I. assert (E3 : classes_of screen2 f 6 = [(Triangle, [[0; 5]; [1; 2]; [3]; [4]; [6]; [7]])]) by congruence.
      assert (N' : nth_error (snd (hd (Triangle, []) (classes_of screen2 f 6))) k = Some l) by (rewrite E3; exact N).
      change (nth_error (map (fun k => filter (fun c => ct_eqb (g_ctype screen2 c) Triangle && (f c =? k)) (g_iter screen2 2)) (seq 0 6)) k = Some l) in N'.
      rewrite (map_nth_error _ _ _ (nth_error_seq 0 6 k Hk)) in N'. assert (Si : forall (A : Type) (a b : A), Some a = Some b -> a = b) by (intros; congruence).
      apply Si in N'. rewrite <- N' in I. apply filter_In in I. destruct I as (_ & I).
      apply andb_true_iff in I. destruct I as (_ & I). now apply Nat.eqb_eq in I. }
    do 8 (destruct c as [|c]; [solve [apply (P 0 [0; 5]); cbn; auto; lia | apply (P 1 [1; 2]); cbn; auto; lia | apply (P 2 [3]); cbn; auto; lia
      | apply (P 3 [4]); cbn; auto; lia | apply (P 4 [6]); cbn; auto; lia | apply (P 5 [7]); cbn; auto; lia]|]). lia. }
  assert (Q' : forall c, c < ent_count screen2 2 -> f c = screen2_colour c) by exact Q.
  split; [|split; [|split; [exact E'|vm_compute; reflexivity]]].
  - intros e c l Es. assert (Hc := split_lt screen2 e c l W Es). destruct Hc as (Hc & _ & He). destruct (F e c l Es) as (A & B). rewrite <- (Q' c Hc). split.
    + intros c' H1 H2. rewrite <- (Q' c') by auto. now apply A.
    + intros k Hk. destruct (B k Hk) as (c' & H1 & H2 & H3). exists c'. rewrite <- (Q' c') by auto. auto.
  - destruct U as (U1 & U2). split.
    + intros c Hc. rewrite <- (Q' c Hc). auto.
    + intros k Hk. destruct (U2 k Hk) as (c & Hc & H). exists c. rewrite <- (Q' c Hc). auto.
Qed.

(** Giving every cell its own colour is a proper colouring, but not a first fit. *)
Lemma own_colours_not_first_fit : forall dm, assign_dofs 0 screen2 (lagrange 2) = Ok dm ->
  (forall c c', c <> c' -> conflict dm c c' -> (fun c : nat => c) c <> c') /\ ~ first_fit screen2 dm (fun c => c).
Proof.
  intros dm HA. split; [auto|]. intros F. destruct screen2_fit as (dm' & W & WF & Hd & HA' & F' & _). rewrite HA in HA'. injection HA' as <-.
  assert (B : 2 < ent_count screen2 2) by (vm_compute; lia). assert (E := first_fit_unique screen2 dm _ _ W F F' 2 B). discriminate E.
Qed.

Definition nine_quads := Eval vm_compute in match screen_quadrilaterals 3 with Ok b => b | _ => new_builder Triangle 1 end.
Definition four_by_four := Eval vm_compute in match screen_triangles 4 with Ok b => b | _ => new_builder Triangle 1 end.
Definition four_by_four_classes : list (list nat) := Eval vm_compute in
  match cell_colouring (built_grid 0 Triangle four_by_four) (lagrange 1) with Ok [(_, l)] => l | _ => [] end.

(** DOFs at vertices and DOFs in cells only: different lowest dimensions, different
    colours.  A triangle and a quadrilateral: one list for each type and colour. *)
Lemma fit_examples :
  cell_colouring mixed_grid (lagrange 1) = Ok [(Triangle, [[]; [1]]); (Quadrilateral, [[0]; []])] /\
  cell_colouring mixed_grid (lagrange 4) = cell_colouring mixed_grid (lagrange 1) /\
  cell_colouring mixed_grid (interior_only (fun _ => 1)) <> cell_colouring mixed_grid (lagrange 1) /\
  lowest_dofs (g_types mixed_grid 2) (lagrange 4) 0 /\ lowest_dofs (g_types mixed_grid 2) (interior_only (fun _ => 1)) 2 /\
  (exists b, screen_quadrilaterals 3 = Ok b /\
     cell_colouring (built_grid 0 Quadrilateral b) (lagrange 2) = Ok [(Quadrilateral, [[0; 2; 6; 8]; [1; 7]; [3; 5]; [4]])]) /\
  (exists b, screen_triangles 4 = Ok b /\ exists l, cell_colouring (built_grid 0 Triangle b) (lagrange 1) = Ok [(Triangle, l)] /\ length l = 7 /\ nth 6 l [] = [29]).
Proof.
  assert (St : forall t, In t (g_types mixed_grid 2) -> surface_type t) by (intros t [<-|[<-|[]]]; [left|right]; reflexivity).
  split; [vm_compute; reflexivity|]. split; [vm_compute; reflexivity|]. split; [vm_compute; discriminate|].
  split; [apply lagrange_lowest; auto; lia|]. split; [apply interior_lowest; auto|].
  split.
  - exists nine_quads. split; vm_compute; reflexivity.
  - exists four_by_four. split; [vm_compute; reflexivity|]. exists four_by_four_classes. split; [vm_compute; reflexivity|]. split; vm_compute; reflexivity.
Qed.
