(** * Two types of scalars *)
From Coq Require Import Ring_theory Ring.
From Verif Require Import Base BaseFacts Topology TopologyFacts DofMap DofMapFacts SpecDof DofMapResults Process Space SpecSpace
  DofExamples SpaceScript SpaceResults Options Adjacency SpecAdjacency AdjacencyFacts Scalar Integrand CellPair Operators SpecLocal LocalResults Interleave Assembly SpecAssembly
  AssemblySingular AssemblyDense AssemblyExact AssemblyResults SpecAlgebra AlgebraFacts SpecOrder OrderResults SpecTransfer TransferResults SpecOperators OperatorsResults SpecScalars.

Section Scalars.
Context {T T' R : Type} (S : scalar T R) (S' : scalar T' R) (f : T -> T') (H : scalar_map S S' f) (X : externals R).

Definition to_image (a : T) (a' : T') : Prop := a' = f a.

Lemma mapped_arithmetic : related_arithmetic to_image eq eq S S'.
Proof.
  constructor.
  - symmetry. apply (sc_zero _ _ _ H).
  - intros x x' y y' -> ->. symmetry. apply (sc_add _ _ _ H).
  - intros x x' y y' -> ->. symmetry. apply (sc_mul _ _ _ H).
  - intros r r' <-. symmetry. apply (sc_cast _ _ _ H).
  - intros r r' z z' <- <-. apply (sc_real_mul _ _ _ H).
  - auto.
Qed.

Lemma mapped_operations : related_operations to_image eq eq S S'.
Proof.
  constructor.
  - intros x x' y y' -> ->. symmetry. apply (sc_sub _ _ _ H).
  - intros r r' <-. symmetry. apply (sc_cast _ _ _ H).
  - intros x x' ->. symmetry. apply (sc_neg _ _ _ H).
  - intros x x' r r' -> <-. unfold to_image. rewrite (sc_div _ _ _ H). f_equal. symmetry. apply (sc_cast _ _ _ H).
Qed.

(** The integrands have corresponding values. *)
Definition mapped_value (i : integrand T) (i' : integrand T') : Prop := related_integrand to_image eq eq S S' i i'.

Lemma mapped_integrand_value i : mapped_value i (map_integrand f i).
Proof.
  apply (related_form_value to_image eq eq eq S S' mapped_arithmetic); [exact mapped_operations|].
  induction i; cbn [map_integrand related_form]; auto. split; auto. reflexivity.
Qed.

Section Setting.
Variables (wmod : nat) (O : operator T R) (O' : operator T' R) (o : options) (deg : cell_type -> cell_type -> nat) (pts : cell_type -> nat) (ct : cell_type).
Variables (test trial : fspace T R) (test' trial' : fspace T' R).
Hypothesis (Ht : mapped_space f test test') (Hs : mapped_space f trial trial').

Lemma mapped_serial (fs : fspace T R) (fs' : fspace T' R) : mapped_space f fs fs' -> serial_space fs -> serial_space fs'.
Proof.
  intros [E0 E1 E2 E3 E4 _] [W F P Ow D C Np]. constructor; rewrite ?E0, ?E1, ?E2, ?E3, ?E4; auto.
Qed.

Lemma mapped_setting : fitting O' -> dense_setting X wmod O o deg pts ct test trial -> dense_setting X wmod O' o deg pts ct test' trial'.
Proof.
  intros Fo [A1 A2 A3 A4 A5 A6 A7 A8 A9 A10 A11 A12 A13 A14 A15 A16 A17].
  pose proof (mapped_serial _ _ Ht A1) as St. pose proof (mapped_serial _ _ Hs A2) as Ss.
  destruct Ht as [_ E1 E2 E3 E4 _]. destruct Hs as [_ F1 F2 F3 F4 _].
  constructor; unfold same_object, in_space, has_components in *; rewrite ?E1, ?F1, ?E3, ?F3; auto.
Qed.

Theorem mapped_matrix rt rt' : legal_runtime (s_add S) rt -> legal_runtime (s_add S') rt' ->
  mapped_value (op_integrand O) (op_integrand O') -> mapped_kernel f O O' -> fitting O' ->
  dense_setting X wmod O o deg pts ct test trial ->
  exists m, assemble S X rt wmod O o trial test = Ok m /\ assemble S' X rt' wmod O' o trial' test' = Ok (map f m).
Proof.
  intros L L' Hi Hk Fo D. pose proof (mapped_setting Fo D) as D'.
  destruct (transfer_matrix to_image eq eq eq eq S S' mapped_arithmetic) with (X := X) (X' := X) (wmod := wmod) (wmod' := wmod) (O := O) (O' := O') (o := o) (o' := o)
    (deg := deg) (pts := pts) (ct := ct) (test := test) (trial := trial) (test' := test') (trial' := trial') (rt := rt) (rt' := rt') as (m & m' & E & E' & F); auto.
  - destruct Ht as [_ E1 E2 _ E4 _]. repeat split; congruence.
  - destruct Hs as [_ E1 E2 _ E4 _]. repeat split; congruence.
  - constructor.
    + intros t n q q' E1 E2. assert (q' = q) by congruence. subst q'. split; [reflexivity|]. now induction (qd_weights q); constructor.
    + intros k d p n q q' E1 E2. assert (q' = q) by congruence. subst q'. split; [reflexivity|]. split; [reflexivity|]. now induction (pq_weights q); constructor.
    + intros g t points points' c p <- _ _. repeat split.
  - constructor.
    + intros t s qt qt' qs qs' p q n tt st _ _ _ E1 E2 E3 E4 _ _ _. assert (qt' = qt) by congruence. assert (qs' = qs) by congruence. subst. apply Hk.
    + intros t s pairs kind dim q q' p n g tt st _ _ _ _ _ _ E1 E2 _ _. assert (q' = q) by congruence. subst. apply Hk.
  - intros t points points' d p b <- _ _ _. apply (mp_basis _ _ _ Ht).
  - intros t points points' d p b <- _ _ _. apply (mp_basis _ _ _ Hs).
  - exists m. split; auto. rewrite E'. f_equal. clear - F. induction F; cbn; congruence.
Qed.
End Setting.
End Scalars.

Section Corollaries.
Context {T T' R : Type} (S : scalar T R) (S' : scalar T' R) (f : T -> T') (X : externals R).

Theorem change_of_scalars wmod O O' o deg pts ct test trial test' trial' rt rt' :
  scalar_map S S' f -> legal_runtime (s_add S) rt -> legal_runtime (s_add S') rt' ->
  op_integrand O' = map_integrand f (op_integrand O) -> mapped_kernel f O O' -> fitting O' ->
  mapped_space f test test' -> mapped_space f trial trial' ->
  dense_setting X wmod O o deg pts ct test trial ->
  exists m, assemble S X rt wmod O o trial test = Ok m /\ assemble S' X rt' wmod O' o trial' test' = Ok (map f m).
Proof.
  intros H L L' Hi Hk Fo Mt Ms D. apply (mapped_matrix S S' f H X wmod O O' o deg pts ct test trial test' trial'); auto.
  rewrite Hi. now apply mapped_integrand_value.
Qed.

(** Helmholtz operators with wavenumber zero are Laplace operators. *)
Theorem wavenumber_zero wmod kd (G : @green T R) (G' : R -> @green T' R) w o deg pts ct test trial test' trial' rt rt' :
  scalar_map S S' f -> legal_runtime (s_add S) rt -> legal_runtime (s_add S') rt' ->
  s_cast S' (r_neg S' (r_mul S' w w)) = s_zero S' -> null_factor S' -> (forall i x y, G' w i x y = f (G i x y)) ->
  mapped_space f test test' -> mapped_space f trial trial' ->
  dense_setting X wmod (laplace_operator kd G) o deg pts ct test trial ->
  exists m, assemble S X rt wmod (laplace_operator kd G) o trial test = Ok m /\
    assemble S' X rt' wmod (helmholtz_operator S' kd G' w) o trial' test' = Ok (map f m).
Proof.
  intros H L L' Hw (Z1 & Z2) HG Mt Ms D.
  destruct (helmholtz_computes S' kd G' w) as (K & Fo & _).
  apply (mapped_matrix S S' f H X wmod _ _ o deg pts ct test trial test' trial'); auto.
  - destruct kd; try exact (mapped_integrand_value S S' f H (op_integrand (laplace_operator _ G))).
    intros k k' phi phi' psi psi' x x' p y y' q Hk Hp Hq Hx Hy.
    pose proof (mapped_integrand_value S S' f H HypersingularCurlCurl k k' phi phi' psi psi' x x' p y y' q Hk Hp Hq Hx Hy) as V.
    cbn [laplace_operator helmholtz_operator laplace_hypersingular helmholtz_hypersingular op_integrand] in *.
    unfold to_image in *. rewrite <- V. cbn [map_integrand]. rewrite Hw.
    cbn [integrand_value]. now rewrite Z1, Z2.
  - intros i x y. rewrite K. destruct (laplace_computes S kd G) as (-> & _). apply HG.
Qed.

(** Opposite wavenumbers: the conjugate matrix. *)
Theorem opposite_wavenumber wmod kd (G : R -> @green T R) w w' o deg pts ct test trial rt rt' (conj : T -> T) :
  scalar_map S S conj -> legal_runtime (s_add S) rt -> legal_runtime (s_add S) rt' ->
  r_mul S w' w' = r_mul S w w -> (forall i x y, G w' i x y = conj (G w i x y)) ->
  mapped_space conj test test -> mapped_space conj trial trial ->
  dense_setting X wmod (helmholtz_operator S kd G w) o deg pts ct test trial ->
  exists m, assemble S X rt wmod (helmholtz_operator S kd G w) o trial test = Ok m /\
    assemble S X rt' wmod (helmholtz_operator S kd G w') o trial test = Ok (map conj m).
Proof.
  intros H L L' Hw HG Mt Ms D.
  destruct (helmholtz_computes S kd G w') as (K & Fo & _).
  apply (mapped_matrix S S conj H X wmod _ _ o deg pts ct test trial test trial); auto.
  - replace (op_integrand (helmholtz_operator S kd G w')) with (map_integrand conj (op_integrand (helmholtz_operator S kd G w))).
    + now apply mapped_integrand_value.
    + destruct kd; try reflexivity. cbn [helmholtz_operator helmholtz_hypersingular op_integrand map_integrand]. now rewrite (sc_cast _ _ _ H), Hw.
  - intros i x y. rewrite K. destruct (helmholtz_computes S kd G w) as (-> & _). apply HG.
Qed.
End Corollaries.
