(** * Examples: cells in one plane *)
From Coq Require Import ZArith SpecFloat Reals Lra.
From Verif Require Import Base Topology DofMap SpecDof Process Space Options SpecOptions Scalar Integrand CellPair Operators Adjacency SpecAdjacency SpecLocal LocalResults SpecOperators Interleave Assembly SpecAssembly
  SphereResults ShapesResults AssemblyResults SpecTransfer SpecAlgebra AlgebraResults SpecRounding SpecShapeSpaces ShapeSpacesResults Shapes SpecShapes SpecSphere SpecScreen SpecWidth SpecTurns TurnResults TurnExamples
  SpecGauss SpecShift SpecToeplitz ToeplitzResults ToeplitzExamples SpecPlanes PlaneResults PlaneFloats.

Definition one64 : spec_float := S754_finite false 4503599627370496 (-52).
Definition half64 : spec_float := S754_finite false 4503599627370496 (-53).

Definition finite_or_zero (x : spec_float) : spec_float := match x with S754_finite _ _ _ => x | _ => S754_zero false end.

Lemma finite_or_zero_finite x : float_finite (finite_or_zero x).
Proof. destruct x; try (left; now exists false). right. cbn. eauto. Qed.

(** Squares in a row, at height zero. *)
Definition float_externals : externals spec_float := mkExternals spec_float
  (fun t k => Some (mkQuadrature (repeat half64 (2 * k)) (repeat half64 k)))
  (fun ki d p k => Some (mkPairQuadrature (repeat half64 (2 * k)) (repeat half64 (2 * k)) (repeat half64 k)))
  (fun g t points c => mkCellMap
    (fun j i => match i with
      | 0 => SFadd 53 1024 (nth (2 * j) points one64) (binary_normalize 53 1024 (Z.of_nat c) 0 false)
      | 1 => nth (2 * j + 1) points one64
      | _ => S754_zero false end)
    (fun j i => match i with 2 => one64 | _ => S754_zero (Nat.even i) end)
    (fun j i => match i with 0 | 4 => one64 | _ => S754_zero false end)
    (fun j => one64)).

(** A gradient with the direction of the difference, where this is finite. *)
Definition float_green (i : nat) (x y : spec_float * spec_float * spec_float) : spec_float :=
  match i with
  | 0 => one64
  | 1 => finite_or_zero (SFsub 53 1024 (fst (fst x)) (fst (fst y)))
  | 2 => finite_or_zero (SFsub 53 1024 (snd (fst x)) (snd (fst y)))
  | _ => SFmul 53 1024 one64 (SFsub 53 1024 (snd x) (snd y))
  end.

Theorem float_example : forall n t id tf, (0 < n)%nat -> t = Triangle \/ t = Quadrilateral -> standard tf -> exists b (test : fspace spec_float spec_float) deg pts wmod,
  screen n t b /\ fs_grid test = built_grid id t b /\ made_on (built_grid id t b) tf test /\
  (forall kd, kd = Double \/ kd = Adjoint -> dense_setting float_externals wmod (laplace_operator kd float_green) (after [SetBatch 3]) deg pts t test test) /\
  finite_data binary64 float_finite float_externals test test /\
  level_grid binary64 float_zero float_finite float_externals (fs_grid test) (S754_zero false) /\
  level_kernel float_zero float_finite float_externals float_green deg pts test test.
Proof.
  intros n t id tf Hn Ht Hf. destruct (screen_exists n t Hn Ht) as (b & Sn). pose proof (screen_is_shape n id t b Sn) as Sh.
  destruct (spaces_exist spec_float spec_float (built_grid id t b) tf (fun _ => 1%nat) (fun _ _ _ _ _ _ => one64) Sh Hf) as (u & Mu & _ & Bu); [intros; lia|].
  assert (Pr : proper_rules float_externals).
  { split.
    - intros t' k q H. inversion H; subst. cbn [qd_points qd_weights]. rewrite !repeat_length. auto.
    - intros k d p m q H. inversion H; subst. cbn [pq_test pq_trial pq_weights]. rewrite !repeat_length. auto. }
  set (wmod := (4 + 2 * ent_count (built_grid id t b) 2 * ent_count (built_grid id t b) 2)%nat).
  destruct (made_dense spec_float spec_float binary64 float_externals wmod (laplace_double_layer float_green) [SetBatch 3] (built_grid id t b) _ _ u u t Sh Hf Hf Mu Mu eq_refl (sh_laplace_double binary64 float_green) Pr) as (deg & pts & D).
  { split; intros; eexists; reflexivity. }
  { split; [cbn; lia|]. change (get_batch_size (after [SetBatch 3])) with 3%nat. unfold wmod. lia. }
  { unfold wmod. lia. }
  assert (One : float_finite one64) by (right; unfold one64; eauto). assert (Half : float_finite half64) by (right; unfold half64; eauto).
  exists b, u, deg, pts, wmod. split; [exact Sn|]. split; [apply Mu|]. split; [exact Mu|]. split.
  { intros kd [-> | ->]; [exact D|]. eapply dense_operator; [|exact D]. apply (shipped_fitting binary64), sh_laplace_adjoint. }
  split. { constructor.
    - intros fs t' points p a [-> | ->] _ _ _; rewrite Bu; exact One.
    - intros fs t' k q p w c _ H Hw _. inversion H; subst q. cbn [qd_weights qd_points] in *. apply nth_error_In, repeat_spec in Hw. subst w. exact Half.
    - intros t' s' kind dim pairs k q p w c d H Hw _ _. inversion H; subst q. cbn [pq_weights] in *. apply nth_error_In, repeat_spec in Hw. subst w. exact Half. }
  split. { intros t' points c p _ _ _. cbn. split; [reflexivity|]. split; [now exists true|]. split; [now exists false|exact One]. }
  intros t' s' x p y q _ _ U. cbn [float_green fst snd Nat.add]. split; [apply finite_or_zero_finite|]. split; [apply finite_or_zero_finite|].
  intros _. destruct U; cbn; now exists false.
Qed.

(** The matrices are zero for these data. *)
Example float_screens_zero : forall n t id tf, (0 < n)%nat -> t = Triangle \/ t = Quadrilateral -> standard tf -> exists b (test : fspace spec_float spec_float) wmod,
  screen n t b /\ made_on (built_grid id t b) tf test /\
  exists m, assemble binary64 float_externals (sequential (s_add binary64)) wmod (laplace_double_layer float_green) (after [SetBatch 3]) test test = Ok m /\
    length m = (global_size (fs_space test) * global_size (fs_space test))%nat /\ Forall float_zero m.
Proof.
  intros n t id tf Hn Ht Hf. destruct (float_example n t id tf Hn Ht Hf) as (b & u & deg & pts & wmod & Sn & Gu & Mu & D & F & Lv & Lk).
  exists b, u, wmod. split; [exact Sn|]. split; [exact Mu|].
  destruct (level_zero binary64 float_zero float_finite (binary_zeros _ _ _) float_externals Double float_green (or_introl eq_refl) deg pts t u u wmod (after [SetBatch 3])
    (D Double (or_introl eq_refl)) F (sequential (s_add binary64)) (S754_zero false) (sequential_legal _) Lv Lv Lk) as (m & E & Ln & Z & _).
  exists m. auto.
Qed.

Local Open Scope R_scope.

Lemma reals_cast : real_cast reals.
Proof. split; reflexivity. Qed.
Lemma complexes_cast : real_cast complexes.
Proof. split; [reflexivity|]. intros a b. cbn. f_equal. ring. Qed.
Lemma reals_unit v : s_mul reals (s_cast reals 1) v = v.
Proof. cbn. ring. Qed.
Lemma complexes_unit v : s_mul complexes (s_cast complexes 1) v = v.
Proof. destruct v. cbn. f_equal; ring. Qed.

(** Real numbers with the limit of the code. *)
Definition limited : scalar R R := mkScalar R R 0 Rplus Rmult Rminus Ropp Rdiv 0 Rmult Ropp (fun r => r) (fun x => if Rlt_dec (/ 10000000000) (Rabs x) then true else false).

Lemma limited_exact : exact limited /\ exact_cast limited /\ real_cast limited /\ radial limited laplace_green /\ s_large limited (s_zero limited) = false /\ s_large limited 1 = true.
Proof.
  destruct reals_exact as ((R1 & R2) & R3). split; [split; [exact R1|exact R2]|]. split; [exact R3|]. split; [split; reflexivity|]. split; [exact laplace_radial|].
  cbn. split; destruct (Rlt_dec _ _) as [H|H]; try reflexivity; exfalso.
  - rewrite Rabs_R0 in H. lra.
  - apply H. rewrite Rabs_R1. lra.
Qed.

Section Both.
Context (T : Type) (S : scalar T R).

Theorem plane_sphere_example : forall level id tf (G : @green T R) (basis : cell_type -> list R -> nat -> nat -> nat -> nat -> T), standard tf -> exists b X (test : fspace T R) deg pts wmod,
  regular_sphere real_numbers level 1 = Ok b /\ fs_grid test = built_grid id Triangle b /\ made_on (built_grid id Triangle b) tf test /\ fs_basis test = basis /\
  flat_cells X (built_grid id Triangle b) b /\
  forall kd, kd = Double \/ kd = Adjoint -> dense_setting X wmod (laplace_operator kd G) (after [SetBatch 3]) deg pts Triangle test test.
Proof.
  intros level id tf G basis Hf. destruct (sphere_exists real_numbers level) as (b & E).
  pose proof (shape_sphere real_numbers level id b E) as Sh.
  destruct (spaces_exist T R (built_grid id Triangle b) tf (fun _ => 1%nat) basis Sh Hf) as (u & Mu & _ & Bu); [intros; lia|].
  set (wmod := (4 + 2 * ent_count (built_grid id Triangle b) 2 * ent_count (built_grid id Triangle b) 2)%nat).
  destruct (made_dense T R S (flat_externals b) wmod (laplace_double_layer G) [SetBatch 3] (built_grid id Triangle b) _ _ u u Triangle Sh Hf Hf Mu Mu eq_refl (sh_laplace_double S G) (flat_proper b) (flat_rules b _ _)) as (deg & pts & D).
  { split; [cbn; lia|]. change (get_batch_size (after [SetBatch 3])) with 3%nat. unfold wmod. lia. }
  { unfold wmod. lia. }
  exists b, (flat_externals b), u, deg, pts, wmod. split; [exact E|]. split; [apply Mu|]. split; [exact Mu|]. split; [exact Bu|]. split; [apply flat_flat|].
  intros kd [-> | ->]; [exact D|]. eapply dense_operator; [|exact D]. apply (shipped_fitting S), sh_laplace_adjoint.
Qed.

Theorem plane_screen_example : forall n t id tf (G : R -> @green T R) (k : R) (basis : cell_type -> list R -> nat -> nat -> nat -> nat -> T), (0 < n)%nat -> t = Triangle \/ t = Quadrilateral -> standard tf ->
  exists b X (test : fspace T R) deg pts wmod,
  screen n t b /\ fs_grid test = built_grid id t b /\ made_on (built_grid id t b) tf test /\ fs_basis test = basis /\
  flat_screen n X (built_grid id t b) b /\
  (forall kd, kd = Double \/ kd = Adjoint -> dense_setting X wmod (laplace_operator kd (G k)) (after [SetBatch 3]) deg pts t test test) /\
  dense_setting X wmod (helmholtz_hypersingular S G k) (after [SetBatch 3]) deg pts t test test.
Proof.
  intros n t id tf G k basis Hn Ht Hf. destruct (screen_exists n t Hn Ht) as (b & Sn). pose proof (screen_is_shape n id t b Sn) as Sh.
  destruct (spaces_exist T R (built_grid id t b) tf (fun _ => 1%nat) basis Sh Hf) as (u & Mu & _ & Bu); [intros; lia|].
  set (wmod := (4 + 2 * ent_count (built_grid id t b) 2 * ent_count (built_grid id t b) 2)%nat).
  destruct (made_dense T R S (flat_screen_externals n b) wmod (helmholtz_hypersingular S G k) [SetBatch 3] (built_grid id t b) _ _ u u t Sh Hf Hf Mu Mu eq_refl (sh_helmholtz_hyper S G k) (flat_screen_proper n b)) as (deg & pts & D).
  { split; intros; eexists; reflexivity. }
  { split; [cbn; lia|]. change (get_batch_size (after [SetBatch 3])) with 3%nat. unfold wmod. lia. }
  { unfold wmod. lia. }
  exists b, (flat_screen_externals n b), u, deg, pts, wmod. split; [exact Sn|]. split; [apply Mu|]. split; [exact Mu|]. split; [exact Bu|]. split; [apply flat_screen_flat|].
  split; [|exact D]. intros kd Hk. eapply dense_operator; [|exact D]. destruct Hk as [-> | ->]; apply (shipped_fitting S); [apply sh_laplace_double|apply sh_laplace_adjoint].
Qed.
End Both.

Theorem scalars_example : exact reals /\ exact_cast reals /\ real_cast reals /\ (forall v, s_mul reals (s_cast reals 1%R) v = v) /\ radial reals laplace_green /\
  exact complexes /\ exact_cast complexes /\ real_cast complexes /\ (forall v, s_mul complexes (s_cast complexes 1%R) v = v) /\ (forall k, radial complexes (helmholtz_green k)).
Proof.
  destruct reals_exact, complexes_exact.
  repeat (split; auto using reals_cast, complexes_cast, reals_unit, complexes_unit, laplace_radial, helmholtz_radial).
Qed.
