(** * Which entries depend on which data: examples *)
From Coq Require Import QArith Qcanon.
From Verif Require Import Base BaseFacts Topology DofMap Space Options Adjacency SpecAdjacency Scalar Integrand CellPair Operators SpecLocal Interleave Assembly SpecAssembly
  AssemblySingular AssemblyDense AssemblyResults AssemblyExamples LocalExamples AlgebraExamples SpecOrder OrderResults OrderExamples SpecOperators OperatorsResults SpecScalars ScalarsResults LocalResults SpecReach ReachResults.
Local Open Scope nat_scope.

(** ** One cell is moved *)
Definition moved_externals : externals Qc := mkExternals Qc (x_simplex demo_externals) (x_duffy demo_externals)
  (fun g t points c => demo_cell (if c =? 7 then 70 else c)).

Lemma moved_dense : dense_setting moved_externals 256 demo_op demo_options (fun _ _ => 2) (fun _ => 2) Triangle screen2_p1 screen2_dp0.
Proof.
  destruct demo_dense as [A1 A2 A3 A4 A5 A6 A7 A8 A9 A10 A11 A12 A13 A14 A15 A16 A17]. constructor; auto.
  split; [apply (pr_simplex _ A11)|apply (pr_duffy _ A11)].
Qed.

Lemma moved_geometry g c : c <> 7 -> same_geometry demo_externals moved_externals g c.
Proof.
  intros H points p _. cbv zeta. cbn [x_geometry demo_externals moved_externals]. apply Nat.eqb_neq in H. rewrite H. repeat split; reflexivity.
Qed.

Lemma moved_untouched : untouched demo_externals moved_externals demo_op demo_op screen2_p1 screen2_dp0 screen2_p1 screen2_dp0 1 0.
Proof.
  intros t s a b H. apply order_example in H.
  assert (E : t <> 7 /\ s <> 7) by (cbn in H; repeat destruct H as [H|H]; try contradiction; injection H; intros; subst; split; discriminate).
  destruct E as (E1 & E2). split; [now apply moved_geometry|]. split; [now apply moved_geometry|].
  split; [intros points d p _; reflexivity|]. split; [intros points d p _; reflexivity|]. intros points points' p q n _ _. reflexivity.
Qed.

(** The positions of the entries that are different in two matrices, and what should
    be these: the entries of test DOFs of the cell 7 and of its trial DOF 7. *)
Definition differences (m m' : list Qc) : list nat :=
  filter (fun k => match nth_error m k, nth_error m' k with Some x, Some y => negb (Qc_eq_bool x y) | _, _ => true end) (seq 0 (length m)).
Definition entries_of_cell_7 : list nat :=
  filter (fun k => existsb (Nat.eqb (k mod 9)) (dofs_at screen2_p1 7) || existsb (Nat.eqb (k / 9)) (dofs_at screen2_dp0 7)) (seq 0 72).

Lemma moved_matrices :
  match assemble qc_scalar demo_externals demo_rt 256 demo_op demo_options screen2_dp0 screen2_p1,
        assemble qc_scalar moved_externals demo_rt 256 demo_op demo_options screen2_dp0 screen2_p1 with
  | Ok m, Ok m' => differences m m' = entries_of_cell_7 /\ length entries_of_cell_7 = 30
  | _, _ => False end.
Proof. vm_compute. split; reflexivity. Qed.

Lemma reach_example :
  dense_setting demo_externals 256 demo_op demo_options (fun _ _ => 2) (fun _ => 2) Triangle screen2_p1 screen2_dp0 /\
  dense_setting moved_externals 256 demo_op demo_options (fun _ _ => 2) (fun _ => 2) Triangle screen2_p1 screen2_dp0 /\
  singular_setting moved_externals 256 demo_op demo_options (fun _ _ => 2) screen2_p1 screen2_dp0 /\
  same_dofs screen2_p1 screen2_p1 /\ same_dofs screen2_dp0 screen2_dp0 /\ same_rules demo_externals moved_externals /\
  untouched demo_externals moved_externals demo_op demo_op screen2_p1 screen2_dp0 screen2_p1 screen2_dp0 1 0 /\
  match assemble qc_scalar demo_externals demo_rt 256 demo_op demo_options screen2_dp0 screen2_p1,
        assemble qc_scalar moved_externals demo_rt 256 demo_op demo_options screen2_dp0 screen2_p1 with
  | Ok m, Ok m' => differences m m' = entries_of_cell_7 /\ length entries_of_cell_7 = 30
  | _, _ => False end.
Proof.
  split; [exact demo_dense|]. split; [exact moved_dense|].
  split; [exact (dense_singular _ _ _ _ _ _ _ _ _ moved_dense eq_refl)|].
  split; [repeat split|]. split; [repeat split|]. split; [split; reflexivity|]. split; [exact moved_untouched|exact moved_matrices].
Qed.

(** ** Numbers that are not numbers *)
Definition lift2 (f : Qc -> Qc -> Qc) (x y : option Qc) : option Qc := match x, y with Some a, Some b => Some (f a b) | _, _ => None end.
Definition nan_scalar : scalar (option Qc) Qc :=
  {| s_zero := Some 0%Qc; s_add := lift2 Qcplus; s_mul := lift2 Qcmult; s_sub := lift2 Qcminus; s_neg := option_map Qcopp; s_div := lift2 Qcdiv;
     r_zero := 0%Qc; r_mul := Qcmult; r_neg := Qcopp; s_cast := Some; s_large := fun x => match x with Some a => negb (Qc_eq_bool a 0%Qc) | None => false end |}.

Lemma nan_absorbing : absorbing nan_scalar (fun x => x = None).
Proof. constructor; intros [x|] [y|] H; cbn in *; try discriminate; reflexivity. Qed.

Definition nan_space (fs : fspace Qc Qc) : fspace (option Qc) Qc :=
  mkFspace (option Qc) Qc (fs_grid fs) (fs_family fs) (fs_processes fs) (fs_space fs) (fs_components fs)
    (fun t points d p b j => Some (fs_basis fs t points d p b j)).

(** A kernel without value at one point of the cell 7. *)
Definition nan_green (i : nat) (x y : Qc * Qc * Qc) : option Qc :=
  if Qc_eq_bool (fst (fst x)) (qz 8) then None else Some (demo_green i x y).

Lemma nan_dense : dense_setting demo_externals 256 (laplace_single_layer nan_green) demo_options (fun _ _ => 2) (fun _ => 2) Triangle
  (nan_space screen2_p1) (nan_space screen2_dp0).
Proof.
  refine (mapped_setting Some demo_externals 256 demo_op _ demo_options _ _ _ screen2_p1 screen2_dp0 _ _ _ _ _ demo_dense).
  - constructor; reflexivity.
  - constructor; reflexivity.
  - apply (shipped_fitting nan_scalar). constructor.
Qed.

Definition nans (m : list (option Qc)) : list nat :=
  filter (fun k => match nth_error m k with Some (Some _) => false | _ => true end) (seq 0 (length m)).

Lemma nan_spoiled : spoiled nan_scalar demo_externals (laplace_single_layer nan_green) (fun _ _ => 2) (fun _ => 2) (nan_space screen2_p1) (nan_space screen2_dp0)
  (fun x => x = None) 7 2 1 0.
Proof.
  right. split.
  - intros (_ & v & H1 & H2).
    assert (E : existsb (fun v => existsb (Nat.eqb v) (g_sub (fs_grid (nan_space screen2_p1)) 2 0)) (g_sub (fs_grid (nan_space screen2_p1)) 7 0) = false)
      by (vm_compute; reflexivity).
    rewrite <- Bool.not_true_iff_false in E. apply E. apply existsb_exists. exists v. split; [exact H1|]. apply existsb_exists. exists v. split; [exact H2|apply Nat.eqb_refl].
  - eexists. eexists. exists 1, 0. split; [reflexivity|]. split; [reflexivity|].
    split; [cbn; lia|]. split; [cbn; lia|]. vm_compute. reflexivity.
Qed.

Lemma nan_example :
  absorbing nan_scalar (fun x => x = None) /\
  dense_setting demo_externals 256 (laplace_single_layer nan_green) demo_options (fun _ _ => 2) (fun _ => 2) Triangle (nan_space screen2_p1) (nan_space screen2_dp0) /\
  contributes (nan_space screen2_p1) (nan_space screen2_dp0) 8 2 ((7, 2), (1, 0)) /\
  spoiled nan_scalar demo_externals (laplace_single_layer nan_green) (fun _ _ => 2) (fun _ => 2) (nan_space screen2_p1) (nan_space screen2_dp0)
    (fun x => x = None) 7 2 1 0 /\
  match assemble nan_scalar demo_externals (sequential (s_add nan_scalar)) 256 (laplace_single_layer nan_green) demo_options (nan_space screen2_dp0) (nan_space screen2_p1) with
  | Ok m => nans m = filter (fun k => existsb (Nat.eqb (k mod 9)) (dofs_at screen2_p1 7)) (seq 0 72) /\ length (nans m) = 24
  | _ => False end.
Proof.
  split; [exact nan_absorbing|]. split; [exact nan_dense|].
  split; [|split; [exact nan_spoiled|vm_compute; split; reflexivity]].
  split; [apply Nat.ltb_lt; vm_compute; reflexivity|]. split; [apply Nat.ltb_lt; vm_compute; reflexivity|]. split; vm_compute; reflexivity.
Qed.
