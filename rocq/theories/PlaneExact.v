(** * Cells in one plane, exact arithmetic: double layer matrices of spheres and screens *)
From Coq Require Import Reals Lra Ring_theory Ring.
From Verif Require Import Base BaseFacts Topology TopologyFacts DofMap SpecDof Process Space SpecSpace Options
  Adjacency SpecAdjacency Scalar Integrand CellPair Operators SpecLocal SpecOperators Interleave Assembly SpecAssembly
  AssemblyFacts AssemblyExact AssemblyResults SpecAlgebra SpecBroken BrokenResults SpecTransfer SpecDigits SpecGauss
  Shapes SpecShapes SpecSphere SpecScreen SpecWidth SpecTurns SpecShift SpecToeplitz ToeplitzResults SpecMeasure GaussResults GalerkinResults SpecPlanes PlaneResults.

Local Open Scope R_scope.

Section Exact.
Context {T : Type} (S : scalar T R) (one : T) (RT : ring_theory (s_zero S) one (s_add S) (s_mul S) (s_sub S) (s_neg S) eq).
Context (Ec : exact_cast S) (Rc : real_cast S).
Add Ring scalar_ring : RT.

Lemma ring_zeros : zeros S (fun v => v = s_zero S) (fun _ => True).
Proof. constructor; intros; subst; ring. Qed.

Lemma everything_finite X (test trial : fspace T R) : finite_data S (fun _ => True) X test trial.
Proof. now constructor. Qed.

Lemma cast_zero : s_cast S 0 = s_zero S.
Proof.
  destruct Rc as (_ & A). pose proof (A 0 0) as H. rewrite Rplus_0_l in H.
  transitivity (s_sub S (s_add S (s_cast S 0) (s_cast S 0)) (s_cast S 0)); [ring|]. rewrite <- H. ring.
Qed.

Lemma cast_product a b : s_cast S (a * b) = s_mul S (s_cast S a) (s_cast S b).
Proof. destruct Ec as (M & _), Rc as (E & _). rewrite E in M. apply M. Qed.

Lemma cast_sum a b : s_cast S (a + b) = s_add S (s_cast S a) (s_cast S b).
Proof. apply Rc. Qed.

Lemma dot_orthogonal c u (m : nat -> R) l (N : vec) : (forall i, (i < 3)%nat -> m i = l * coordinate i N) -> inner N u = 0 ->
  dot S (fun i => s_mul S c (s_cast S (coordinate i u))) (fun i => s_cast S (m i)) = s_zero S.
Proof.
  intros M O. unfold dot. rewrite !M by lia. destruct u as [[u0 u1] u2], N as [[n0 n1] n2]. cbn [coordinate inner] in *.
  transitivity (s_mul S c (s_cast S (l * (n0 * u0 + n1 * u1 + n2 * u2)))).
  - rewrite !cast_product, !cast_sum, !cast_product. ring.
  - rewrite O, Rmult_0_r, cast_zero. ring.
Qed.

Context (X : externals R) (kd : kind) (G : @green T R) (Hk : kd = Double \/ kd = Adjoint) (HG : radial S G).
Context (wmod : nat) (o : options) (deg : cell_type -> cell_type -> nat) (pts : cell_type -> nat) (ct : cell_type) (test trial : fspace T R).
Context (D : dense_setting X wmod (laplace_operator kd G) o deg pts ct test trial).

Lemma plane_derivative N d t s : in_plane X (fs_grid test) N d t -> in_plane X (fs_grid trial) N d s ->
  no_normal_derivative S (fun v => v = s_zero S) X kd G deg pts test trial t s.
Proof.
  intros It Is x p y q U. destruct HG as (phi & psi & _ & Hg).
  destruct (used_rules X kd G deg pts ct test trial wmod o D _ _ _ _ _ _ U) as (t' & ps & ps' & R1 & R2 & Lp & Lq & -> & s' & ->).
  destruct (It t' ps p R1 Lp) as (H1 & l & N1), (Is s' ps' q R2 Lq) as (H2 & l' & N2).
  set (x := SpecLocal.position (x_geometry X (fs_grid test) _ _ _) _) in *. set (y := SpecLocal.position (x_geometry X (fs_grid trial) _ _ _) _) in *.
  assert (O : inner N (vsub x y) = 0).
  { clearbody x y. destruct x as [[? ?] ?], y as [[? ?] ?], N as [[? ?] ?]. cbn in *. lra. }
  assert (E : forall n, dot S (fun i => G (1 + i)%nat x y) n = dot S (fun i => s_mul S (psi (chord2 x y)) (s_cast S (coordinate i (vsub x y)))) n).
  { intros n. unfold dot. rewrite !Hg by lia. reflexivity. }
  rewrite E. destruct Hk as [-> | ->]; unfold SpecLocal.normal; eapply dot_orthogonal; eauto.
Qed.

(** Entries of functions all of whose cells lie in one plane. *)
Theorem plane_entries rt : legal_runtime (s_add S) rt ->
  exists m, assemble S X rt wmod (laplace_operator kd G) o trial test = Ok m /\
  forall N d i j, (i < global_size (fs_space test))%nat -> (j < global_size (fs_space trial))%nat ->
    (forall t, carried test i t -> in_plane X (fs_grid test) N d t) -> (forall s, carried trial j s -> in_plane X (fs_grid trial) N d s) ->
    nth_error m (i + global_size (fs_space test) * j) = Some (s_zero S).
Proof.
  intros L. destruct (zero_entries S _ _ ring_zeros X kd G Hk deg pts test trial (dn_proper _ _ _ _ _ _ _ _ _ D) (everything_finite X test trial) rt wmod o ct L D) as (m & E & H).
  exists m. split; [exact E|]. intros N d i j Hi Hj It Is. destruct (H i j Hi Hj) as (v & Ev & ->); [|exact Ev].
  intros t s Ct Cs. apply (plane_derivative N d); auto.
Qed.

(** Grids in one plane. *)
Theorem plane_matrix rt N d : legal_runtime (s_add S) rt ->
  (forall t, (t < ent_count (fs_grid test) 2)%nat -> in_plane X (fs_grid test) N d t) ->
  (forall s, (s < ent_count (fs_grid trial) 2)%nat -> in_plane X (fs_grid trial) N d s) ->
  assemble S X rt wmod (laplace_operator kd G) o trial test = Ok (repeat (s_zero S) (global_size (fs_space test) * global_size (fs_space trial))) /\
  (s_large S (s_zero S) = false ->
    assemble_singular S X rt wmod (laplace_operator kd G) o trial test = Ok (CsrEmpty (global_size (fs_space test), global_size (fs_space trial)))).
Proof.
  intros L It Is.
  assert (Q : forall t s, (t < ent_count (fs_grid test) 2)%nat -> (s < ent_count (fs_grid trial) 2)%nat -> no_normal_derivative S (fun v => v = s_zero S) X kd G deg pts test trial t s)
    by (intros; apply (plane_derivative N d); auto).
  split.
  - destruct (zero_matrix S _ _ ring_zeros X kd G Hk deg pts ct test trial wmod o D (everything_finite X test trial) rt L Q) as (m & E & Ln & F).
    rewrite E. f_equal. rewrite <- Ln. clear - F. induction F as [|v m -> F IH]; cbn; [reflexivity|]. now rewrite <- IH.
  - intros Z. apply (zero_singular S _ _ ring_zeros X kd G Hk deg pts ct test trial wmod o D (everything_finite X test trial) rt L); auto.
    intros v ->. exact Z.
Qed.
End Exact.

(** ** Flat triangles *)
Lemma flat_in_plane (X : externals R) g c p q r : (forall t points, flat_cell points p q r (x_geometry X g t points c)) ->
  in_plane X g (normal p q r) (inner (normal p q r) p) c.
Proof.
  intros F t points j _ _. destruct (F t points) as [F1 F2 _ _ _]. split.
  - unfold SpecLocal.position. rewrite !F1 by lia. destruct p as [[p0 p1] p2], q as [[q0 q1] q2], r as [[r0 r1] r2].
    unfold normal, vsub. cbn [cross inner coordinate]. ring.
  - exists (/ sqrt (inner (normal p q r) (normal p q r))). intros i Hi. rewrite F2 by exact Hi. unfold Rdiv. ring.
Qed.

Section Shapes.
Context {T : Type} (S : scalar T R) (ES : exact S) (Ec : exact_cast S) (Rc : real_cast S).
Context (X : externals R) (kd : kind) (G : @green T R) (Hk : kd = Double \/ kd = Adjoint) (HG : radial S G).
Context (wmod id : nat) (o : options) (deg : cell_type -> cell_type -> nat) (pts : cell_type -> nat) (ct : cell_type) (test trial : fspace T R).
Context (D : dense_setting X wmod (laplace_operator kd G) o deg pts ct test trial).

(** Functions of one cell. *)
Theorem own_entries rt b : legal_runtime (s_add S) rt -> flat_cells X (fs_grid test) b -> flat_cells X (fs_grid trial) b ->
  exists m, assemble S X rt wmod (laplace_operator kd G) o trial test = Ok m /\
  forall i j c p q r, (i < global_size (fs_space test))%nat -> (j < global_size (fs_space trial))%nat -> corners_of b c p q r ->
    (forall t, carried test i t -> t = c) -> (forall s, carried trial j s -> s = c) ->
    nth_error m (i + global_size (fs_space test) * j) = Some (s_zero S).
Proof.
  intros L Ft Fs. destruct ES as ((one & RT) & _). destruct (plane_entries S one RT Ec Rc X kd G Hk HG wmod o deg pts ct test trial D rt L) as (m & E & H).
  exists m. split; [exact E|]. intros i j c p q r Hi Hj Co It Is.
  apply (H (normal p q r) (inner (normal p q r) p)); auto.
  - intros t C. rewrite (It t C). apply flat_in_plane. intros. now apply (Ft t0 points c p q r).
  - intros t C. rewrite (Is t C). apply flat_in_plane. intros. now apply (Fs t0 points c p q r).
Qed.

Theorem screen_zero rt n b : legal_runtime (s_add S) rt -> screen n ct b -> fs_grid test = built_grid id ct b -> fs_grid trial = built_grid id ct b -> flat_screen n X (built_grid id ct b) b ->
  assemble S X rt wmod (laplace_operator kd G) o trial test = Ok (repeat (s_zero S) (global_size (fs_space test) * global_size (fs_space trial))) /\
  (s_large S (s_zero S) = false ->
    assemble_singular S X rt wmod (laplace_operator kd G) o trial test = Ok (CsrEmpty (global_size (fs_space test), global_size (fs_space trial)))).
Proof.
  intros L Sn Et Es Fl. destruct ES as ((one & RT) & _).
  assert (P : forall c, (c < ent_count (built_grid id ct b) 2)%nat -> in_plane X (built_grid id ct b) (0, 0, 1) 0 c).
  { intros c Hc t points p _ _. pose proof Hc as Hc'. rewrite (screen_cell_count n id ct b Sn) in Hc.
    assert (Ge : (3 <= ref_count ct 0)%nat) by (destruct Sn; cbn; lia).
    destruct (corner_exists n ct b Sn c 0 Hc ltac:(lia)) as (x & Cx), (corner_exists n ct b Sn c 1 Hc ltac:(lia)) as (y & Cy), (corner_exists n ct b Sn c 2 Hc ltac:(lia)) as (z & Cz).
    destruct (Fl t points c x y z Cx Cy Cz) as [F1 F2 _ _ _]. split.
    - unfold SpecLocal.position. rewrite !F1 by lia. unfold screen_position. cbn [vsub inner coordinate]. ring.
    - eexists. intros i Hi. rewrite F2 by exact Hi. unfold screen_position. cbn [vsub]. unfold normal. cbn [vsub cross].
      destruct i as [|[|[|i]]]; [| | |lia]; cbn [coordinate].
      + replace (_ * _ - _ * _) with 0 by ring. unfold Rdiv. rewrite Rmult_0_l, Rmult_0_r. reflexivity.
      + replace (_ * _ - _ * _) with 0 by ring. unfold Rdiv. rewrite Rmult_0_l, Rmult_0_r. reflexivity.
      + rewrite Rmult_1_r. reflexivity. }
  apply (plane_matrix S one RT Ec Rc X kd G Hk HG wmod o deg pts ct test trial D rt (0, 0, 1) 0 L); [rewrite Et|rewrite Es]; exact P.
Qed.
End Shapes.

(** Functions of the interior of cells: the blocks on the diagonal. *)
Theorem sphere_blocks : forall (T : Type) (S : scalar T R) (X : externals R) rt wmod kd (G : @green T R) o deg pts level id b (test trial : fspace T R),
  exact S -> exact_cast S -> real_cast S -> kd = Double \/ kd = Adjoint -> radial S G -> legal_runtime (s_add S) rt ->
  dense_setting X wmod (laplace_operator kd G) o deg pts Triangle test trial ->
  regular_sphere real_numbers level 1 = Ok b -> fs_grid test = built_grid id Triangle b -> fs_grid trial = built_grid id Triangle b -> flat_cells X (built_grid id Triangle b) b ->
  interior_family [Triangle] (fs_family test) -> interior_family [Triangle] (fs_family trial) ->
  exists m, assemble S X rt wmod (laplace_operator kd G) o trial test = Ok m /\
  forall c i j, (c < ent_count (fs_grid test) 2)%nat -> In i (dofs_at test c) -> In j (dofs_at trial c) ->
    nth_error m (i + global_size (fs_space test) * j) = Some (s_zero S).
Proof.
  intros T S X rt wmod kd G o deg pts level id b test trial ES EC RC Hk HG L D E Et Es Fl It Is.
  pose proof (dn_test _ _ _ _ _ _ _ _ _ D) as St. pose proof (dn_trial _ _ _ _ _ _ _ _ _ D) as Ss.
  destruct (own_entries S ES EC RC X kd G Hk HG wmod o deg pts Triangle test trial D rt b L) as (m & Em & H); [now rewrite Et|now rewrite Es|].
  exists m. split; [exact Em|]. intros c i j Hc Hi Hj. assert (Hc' : (c < ent_count (fs_grid trial) 2)%nat) by (now rewrite Es, <- Et).
  assert (Hb : (c < length (cells_of b))%nat).
  { pose proof (proj1 (sphere_cells level id b E)) as Nc. rewrite Et in Hc. exact (eq_ind (ent_count (built_grid id Triangle b) 2) (fun k => (c < k)%nat) Hc _ Nc). }
  destruct (proj2 (sphere_cells level id b E) c Hb) as (p & q & r & Co & _).
  apply (H i j c p q r); [|auto..| |].
  - eapply serial_lt; eauto.
  - eapply serial_lt; eauto.
  - intros t (Ht & Hit). apply (serial_disjoint test t c i); auto. now rewrite Et.
  - intros t (Ht & Hit). apply (serial_disjoint trial t c j); auto. now rewrite Es.
Qed.

Theorem exact_plane_entries : forall (T : Type) (S : scalar T R) (X : externals R) rt wmod kd (G : @green T R) o deg pts ct (test trial : fspace T R),
  exact S -> exact_cast S -> real_cast S -> kd = Double \/ kd = Adjoint -> radial S G -> legal_runtime (s_add S) rt ->
  dense_setting X wmod (laplace_operator kd G) o deg pts ct test trial ->
  exists m, assemble S X rt wmod (laplace_operator kd G) o trial test = Ok m /\
  forall N d i j, (i < global_size (fs_space test))%nat -> (j < global_size (fs_space trial))%nat ->
    (forall t, carried test i t -> in_plane X (fs_grid test) N d t) -> (forall s, carried trial j s -> in_plane X (fs_grid trial) N d s) ->
    nth_error m (i + global_size (fs_space test) * j) = Some (s_zero S).
Proof.
  intros T S X rt wmod kd G o deg pts ct test trial ((one & RT) & _) EC RC Hk HG L D.
  exact (plane_entries S one RT EC RC X kd G Hk HG wmod o deg pts ct test trial D rt L).
Qed.

Theorem screens_zero : forall (T : Type) (S : scalar T R) (X : externals R) rt wmod kd (G : @green T R) o deg pts n id ct b (test trial : fspace T R),
  exact S -> exact_cast S -> real_cast S -> kd = Double \/ kd = Adjoint -> radial S G -> legal_runtime (s_add S) rt ->
  dense_setting X wmod (laplace_operator kd G) o deg pts ct test trial ->
  screen n ct b -> fs_grid test = built_grid id ct b -> fs_grid trial = built_grid id ct b -> flat_screen n X (built_grid id ct b) b ->
  assemble S X rt wmod (laplace_operator kd G) o trial test = Ok (repeat (s_zero S) (global_size (fs_space test) * global_size (fs_space trial))) /\
  (s_large S (s_zero S) = false ->
    assemble_singular S X rt wmod (laplace_operator kd G) o trial test = Ok (CsrEmpty (global_size (fs_space test), global_size (fs_space trial)))).
Proof.
  intros T S X rt wmod kd G o deg pts n id ct b test trial ES EC RC Hk HG L D Sn Et Es Fl.
  exact (screen_zero S ES EC RC X kd G Hk HG wmod id o deg pts ct test trial D rt n b L Sn Et Es Fl).
Qed.

Theorem same_double : forall (T R : Type) (S : scalar T R) kd (G : R -> @green T R) k, kd = Double \/ kd = Adjoint ->
  helmholtz_operator S kd G k = laplace_operator kd (G k).
Proof. intros T R S kd G k [-> | ->]; reflexivity. Qed.
