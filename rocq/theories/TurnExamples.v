(** * Examples: flat triangles, Green's functions *)
From Coq Require Import Reals Lra Ring_theory.
From Verif Require Import Base Topology DofMap Space Options SpecOptions Scalar Integrand CellPair Operators SpecLocal SpecOperators Interleave Assembly SpecAssembly
  SphereResults ShapesResults AssemblyResults AssemblyExamples SpecAlgebra SpecRounding SpecShapeSpaces ShapeSpacesResults Shapes SpecShapes SpecSphere SpecWidth SpecSymmetry SpecTurns TurnResults.

Local Open Scope R_scope.

Definition flat_map_of (b : builder vec) (points : list R) (c : nat) : cell_map R :=
  let corner i := position (points_of b) (nth i (nth c (cells_of b) []) 0%nat) in
  let p := corner 0%nat in let q := corner 1%nat in let r := corner 2%nat in
  let size := sqrt (inner (normal p q r) (normal p q r)) in
  mkCellMap
    (fun j i => coordinate i p + nth (2 * j) points 0 * coordinate i (vsub q p) + nth (2 * j + 1) points 0 * coordinate i (vsub r p))
    (fun j i => coordinate i (normal p q r) / size)
    (fun j i => if (i <? 3)%nat then coordinate i (vsub q p) else coordinate (i - 3) (vsub r p))
    (fun j => size).

Definition flat_externals (b : builder vec) : externals R := mkExternals R
  (fun t n => Some (mkQuadrature (repeat (/ 3) (2 * n)) (repeat (/ INR (2 * n)) n)))
  (fun k d p n => Some (mkPairQuadrature (repeat (/ 4) (2 * n)) (repeat (/ 3) (2 * n)) (repeat (/ INR (4 * n)) n)))
  (fun g t points c => flat_map_of b points c).

Lemma flat_flat g b : flat_cells (flat_externals b) g b.
Proof.
  intros t points k p q r (u & v & w & Hk & Hu & Hv & Hw).
  assert (Ep : forall i x y, nth_error [u; v; w] i = Some x -> nth_error (points_of b) x = Some y -> position (points_of b) (nth i (nth k (cells_of b) []) 0%nat) = y).
  { intros i x y Hi Hx. rewrite (nth_error_nth _ _ [] Hk), (nth_error_nth _ _ 0%nat Hi). unfold position. now apply nth_error_nth. }
  unfold flat_externals, flat_map_of. cbn [x_geometry]. rewrite (Ep 0%nat u p eq_refl Hu), (Ep 1%nat v q eq_refl Hv), (Ep 2%nat w r eq_refl Hw).
  constructor; intros; cbn [cm_point cm_normal cm_jacobian cm_jdet]; try reflexivity.
  destruct i as [|[|[|i]]]; try lia; reflexivity.
  destruct i as [|[|[|i]]]; try lia; reflexivity.
Qed.

Lemma flat_proper b : proper_rules (flat_externals b).
Proof.
  split.
  - intros t n q H. inversion H; subst. cbn [qd_points qd_weights]. rewrite !repeat_length. auto.
  - intros k d p n q H. inversion H; subst. cbn [pq_test pq_trial pq_weights]. rewrite !repeat_length. auto.
Qed.

Lemma flat_rules b t o : rules_exist (flat_externals b) t o.
Proof. split; intros; eexists; reflexivity. Qed.

(** [1 / (4 pi r)] and its gradient with respect to the first point. (The sign of the
    gradient plays no part in [radial]; [newton] and [waves] in SpecWaves have the gradient
    with respect to either point.) *)
Definition laplace_green : @green R R := fun i x y =>
  let d := sqrt (chord2 x y) in
  match i with
  | 0%nat => / (4 * PI * d)
  | _ => - / (4 * PI * (d * d * d)) * coordinate (i - 1) (vsub x y)
  end.

Lemma laplace_radial : radial reals laplace_green.
Proof.
  exists (fun s => / (4 * PI * sqrt s)), (fun s => - / (4 * PI * (sqrt s * sqrt s * sqrt s))). split; [reflexivity|].
  intros i x y Hi. destruct i as [|[|[|i]]]; try lia; reflexivity.
Qed.

(** [exp (i k r) / (4 pi r)] and its gradient with respect to the first point. *)
Definition helmholtz_green (k : R) : @green (R * R) R := fun i x y =>
  let d := sqrt (chord2 x y) in
  match i with
  | 0%nat => (cos (k * d) / (4 * PI * d), sin (k * d) / (4 * PI * d))
  | _ => s_mul complexes
      (s_mul complexes (cos (k * d) / (4 * PI * (d * d * d)), sin (k * d) / (4 * PI * (d * d * d))) (- (1), k * d))
      (coordinate (i - 1) (vsub x y), 0)
  end.

Lemma helmholtz_radial k : radial complexes (helmholtz_green k).
Proof.
  exists (fun s => (cos (k * sqrt s) / (4 * PI * sqrt s), sin (k * sqrt s) / (4 * PI * sqrt s))),
    (fun s => s_mul complexes (cos (k * sqrt s) / (4 * PI * (sqrt s * sqrt s * sqrt s)), sin (k * sqrt s) / (4 * PI * (sqrt s * sqrt s * sqrt s))) (- (1), k * sqrt s)).
  split; [reflexivity|]. intros i x y Hi. destruct i as [|[|[|i]]]; try lia; reflexivity.
Qed.

Lemma reals_exact : exact reals /\ exact_cast reals.
Proof.
  split; [split|split; reflexivity].
  - exists 1. constructor; intros; cbn; ring.
  - exists Rinv. reflexivity.
Qed.
Lemma complexes_exact : exact complexes /\ exact_cast complexes.
Proof.
  split; [split|split].
  - exists (1, 0). constructor; repeat intros [? ?]; cbn; f_equal; ring.
  - exists (fun y => (fst y / (fst y * fst y + snd y * snd y), - snd y / (fst y * fst y + snd y * snd y))).
    intros [a a'] [c c']; cbn; f_equal; unfold Rdiv; ring.
  - intros a c; cbn; f_equal; ring.
  - intros a; cbn; f_equal; ring.
Qed.

(** On every level there are flat triangles, spaces and Green's functions. *)
Theorem turns_example : forall level id tf sf (basis : cell_type -> list R -> nat -> nat -> nat -> nat -> R) (cbasis : cell_type -> list R -> nat -> nat -> nat -> nat -> R * R),
  standard tf -> standard sf -> exists b X,
  regular_sphere real_numbers level 1 = Ok b /\ flat_cells X (built_grid id Triangle b) b /\ proper_rules X /\
  rules_exist X Triangle (after [SetBatch 3]) /\ get_batch_size (after [SetBatch 3]) = 3%nat /\
  (exists test trial : fspace R R, made_on (built_grid id Triangle b) tf test /\ made_on (built_grid id Triangle b) sf trial /\ fs_basis test = basis /\ fs_basis trial = basis) /\
  (exists test trial : fspace (R * R) R, made_on (built_grid id Triangle b) tf test /\ made_on (built_grid id Triangle b) sf trial /\ fs_basis test = cbasis /\ fs_basis trial = cbasis) /\
  exact reals /\ exact_cast reals /\ r_neg reals = Ropp /\ radial reals laplace_green /\ legal_runtime (s_add reals) (sequential (s_add reals)) /\
  exact complexes /\ exact_cast complexes /\ r_neg complexes = Ropp /\ (forall k, radial complexes (helmholtz_green k)) /\
  legal_runtime (s_add complexes) (sequential (s_add complexes)).
Proof.
  intros level id tf sf basis cbasis Htf Hsf. destruct (sphere_exists real_numbers level) as (b & E).
  pose proof (shape_sphere real_numbers level id b E) as Sh.
  destruct (spaces_exist R R (built_grid id Triangle b) tf (fun _ => 1%nat) basis Sh Htf) as (u & Mu & _ & Bu); [intros; lia|].
  destruct (spaces_exist R R (built_grid id Triangle b) sf (fun _ => 1%nat) basis Sh Hsf) as (v & Mv & _ & Bv); [intros; lia|].
  destruct (spaces_exist (R * R) R (built_grid id Triangle b) tf (fun _ => 1%nat) cbasis Sh Htf) as (u' & Mu' & _ & Bu'); [intros; lia|].
  destruct (spaces_exist (R * R) R (built_grid id Triangle b) sf (fun _ => 1%nat) cbasis Sh Hsf) as (v' & Mv' & _ & Bv'); [intros; lia|].
  exists b, (flat_externals b). split; [exact E|]. split; [apply flat_flat|]. split; [apply flat_proper|]. split; [apply flat_rules|]. split; [reflexivity|].
  split; [exists u, v; auto|]. split; [exists u', v'; auto|].
  destruct reals_exact, complexes_exact. repeat (split; auto using laplace_radial, helmholtz_radial, sequential_legal).
Qed.
