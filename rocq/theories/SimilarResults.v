(** * Moved and scaled grids *)
From Coq Require Import Ring_theory Ring.
From Verif Require Import Base BaseFacts Topology TopologyFacts DofMap SpecDof Process Space SpecSpace
  Options Adjacency SpecAdjacency AdjacencyFacts AdjacencyResults
  Scalar Integrand CellPair Operators SpecLocal LocalFacts LocalResults SpecOperators Interleave Assembly SpecAssembly AssemblyFacts
  AssemblyValues AssemblySingular AssemblyDense AssemblyExact AssemblyResults SpecAlgebra AlgebraFacts AlgebraResults SpecSimilar.

Section Similar.
Context {T R : Type} (S : scalar T R) (one : T) (RT : ring_theory (s_zero S) one (s_add S) (s_mul S) (s_sub S) (s_neg S) eq).
Context (inv : T -> T) (Hdiv : forall a b, s_div S a b = s_mul S a (inv b)) (Hcast : exact_cast S).
Add Ring similar_ring : RT.
Local Notation "a +! b" := (s_add S a b) (at level 50, left associativity).
Local Notation "a -! b" := (s_sub S a b) (at level 50, left associativity).
Local Notation "a *! b" := (s_mul S a b) (at level 40, left associativity).
Context (move : R * R * R -> R * R * R) (A : nat -> nat -> T) (scale sign mu : T).
Hypothesis (Orth : orthogonal S A) (Sign : forall x, sign *! (sign *! x) = x) (Out : divides_out S scale).

Lemma dot_ext u u' v v' : (forall i, i < 3 -> u i = u' i) -> (forall i, i < 3 -> v i = v' i) -> dot S u v = dot S u' v'.
Proof. intros H K. unfold dot. rewrite !H, !K by lia. reflexivity. Qed.
Lemma dot_scale a b u v : dot S (fun i => a *! u i) (fun i => b *! v i) = a *! b *! dot S u v.
Proof. unfold dot. ring. Qed.
Lemma dot_scale_l a u v : dot S (fun i => a *! u i) v = a *! dot S u v.
Proof. unfold dot. ring. Qed.

Lemma neg_scale k : scale *! scale *! s_neg S (k *! k) = s_neg S (scale *! k *! (scale *! k)).
Proof. ring. Qed.

Definition image (u : nat -> T) (i : nat) : T := dot S (A i) u.
Lemma image_dot u v : dot S (image u) (image v) = dot S u v. Proof. apply Orth. Qed.

Lemma similar_curl x x' p phi i : similar_cell S move A scale sign x x' -> i < 3 ->
  curl S x' p phi i = scale *! image (curl S x p phi) i.
Proof.
  intros [_ _ Hj _] Hi. unfold curl. pose proof (Hj p 1 i ltac:(lia) Hi) as E1. pose proof (Hj p 0 i ltac:(lia) Hi) as E0.
  cbn [Nat.mul Nat.add] in E0, E1. change (3 + i) with (Datatypes.S (Datatypes.S (Datatypes.S i))). rewrite E1, E0.
  unfold image, dot. cbn [Nat.add]. ring.
Qed.

(** The integrand of an operator and of the one with the kernel of the moved grid. *)
Definition scaling (c : T) (f f' : integrand T) (k k' : nat -> T) : Prop :=
  forall x x' y y' p q phi psi, similar_cell S move A scale sign x x' -> similar_cell S move A scale sign y y' ->
    integrand_value S f' k' phi psi x' p y' q *! (scale *! scale) *! (scale *! scale) = c *! integrand_value S f k phi psi x p y q.

Definition moved_values (k k' : nat -> T) : Prop :=
  k' 0 = mu *! k 0 /\ forall i, i < 3 -> scale *! k' (1 + i) = mu *! image (fun j => k (1 + j)) i.

Lemma div_scale a d : s_div S a (scale *! scale *! d) *! (scale *! scale) = s_div S a d.
Proof.
  rewrite <- (Out a d), <- (Out a (scale *! d)). replace (scale *! (scale *! d)) with (scale *! scale *! d) by ring. ring.
Qed.

Lemma scaling_single k k' : moved_values k k' -> scaling (mu *! (scale *! scale) *! (scale *! scale)) SingleLayer SingleLayer k k'.
Proof. intros (E & _) x x' y y' p q phi psi _ _. cbn [integrand_value]. rewrite E. ring. Qed.

Lemma scaling_double k k' : moved_values k k' -> scaling (sign *! mu *! scale *! (scale *! scale)) DoubleLayer DoubleLayer k k'.
Proof.
  intros (_ & E) x x' y y' p q phi psi _ Sy. cbn [integrand_value].
  assert (H : scale *! dot S (fun i => k' (1 + i)) (normal S y' q) = sign *! mu *! dot S (fun i => k (1 + i)) (normal S y q)).
  { rewrite <- dot_scale_l. rewrite (dot_ext _ (fun i => mu *! image (fun j => k (1 + j)) i) _ (fun i => sign *! image (normal S y q) i)).
    - rewrite dot_scale, image_dot. ring.
    - exact E.
    - intros i Hi. exact (sc_normal _ _ _ _ _ _ _ Sy q i Hi). }
  transitivity ((scale *! dot S (fun i => k' (1 + i)) (normal S y' q)) *! (phi 0 *! psi 0) *! (scale *! (scale *! scale))); [ring|]. rewrite H. ring.
Qed.

Lemma scaling_adjoint k k' : moved_values k k' -> scaling (sign *! mu *! scale *! (scale *! scale)) AdjointDoubleLayer AdjointDoubleLayer k k'.
Proof.
  intros (_ & E) x x' y y' p q phi psi Sx _. cbn [integrand_value].
  assert (H : scale *! dot S (fun i => k' (1 + i)) (normal S x' p) = sign *! mu *! dot S (fun i => k (1 + i)) (normal S x p)).
  { rewrite <- dot_scale_l. rewrite (dot_ext _ (fun i => mu *! image (fun j => k (1 + j)) i) _ (fun i => sign *! image (normal S x p) i)).
    - rewrite dot_scale, image_dot. ring.
    - exact E.
    - intros i Hi. exact (sc_normal _ _ _ _ _ _ _ Sx p i Hi). }
  transitivity (s_neg S (scale *! dot S (fun i => k' (1 + i)) (normal S x' p)) *! (phi 0 *! psi 0) *! (scale *! (scale *! scale))); [ring|].
  rewrite H. ring.
Qed.

Lemma scaling_curl k k' : moved_values k k' -> scaling (mu *! (scale *! scale)) HypersingularCurlCurl HypersingularCurlCurl k k'.
Proof.
  intros (E & _) x x' y y' p q phi psi Sx Sy. cbn [integrand_value]. rewrite E.
  rewrite (dot_ext _ (fun i => scale *! image (curl S x p phi) i) _ (fun i => scale *! image (curl S y q psi) i))
    by (intros; now apply similar_curl).
  rewrite dot_scale, image_dot. unfold jdet. rewrite (sc_area _ _ _ _ _ _ _ Sx p), (sc_area _ _ _ _ _ _ _ Sy q).
  rewrite div_scale.
  rewrite (Hdiv _ (s_cast S (cm_jdet y q))), (Hdiv _ (scale *! scale *! s_cast S (cm_jdet x p))).
  set (i := inv (s_cast S (cm_jdet y q))). set (j := inv (scale *! scale *! s_cast S (cm_jdet x p))).
  assert (Hj : j *! (scale *! scale) = inv (s_cast S (cm_jdet x p))).
  { pose proof (div_scale one (s_cast S (cm_jdet x p))) as H. rewrite !Hdiv in H. fold j in H.
    transitivity (one *! j *! (scale *! scale)); [ring|]. rewrite H. ring. }
  transitivity (mu *! (scale *! scale) *! k 0 *! dot S (curl S x p phi) (curl S y q psi) *! (j *! (scale *! scale)) *! i); [ring|].
  rewrite Hj. unfold i. rewrite !Hdiv. ring.
Qed.

Lemma scaling_normal c c' k k' : moved_values k k' -> scale *! scale *! c' = c ->
  scaling (mu *! (scale *! scale)) (TimesScalar c HypersingularNormalNormal) (TimesScalar c' HypersingularNormalNormal) k k'.
Proof.
  intros (E & _) Ec x x' y y' p q phi psi Sx Sy. cbn [integrand_value]. rewrite E.
  rewrite (dot_ext _ (fun i => sign *! image (normal S y q) i) _ (fun i => sign *! image (normal S x p) i)).
  - rewrite dot_scale, image_dot, <- Ec.
    transitivity (mu *! (scale *! scale) *! (scale *! scale *! c') *! k 0 *! (sign *! (sign *! dot S (normal S y q) (normal S x p))) *! phi 0 *! psi 0); [ring|].
    rewrite Sign. ring.
  - intros i Hi. exact (sc_normal _ _ _ _ _ _ _ Sy q i Hi).
  - intros i Hi. exact (sc_normal _ _ _ _ _ _ _ Sx p i Hi).
Qed.

Lemma scaling_sum c f0 f0' f1 f1' k k' : scaling c f0 f0' k k' -> scaling c f1 f1' k k' -> scaling c (Sum f0 f1) (Sum f0' f1') k k'.
Proof.
  intros H0 H1 x x' y y' p q phi psi Sx Sy. cbn [integrand_value].
  specialize (H0 x x' y y' p q phi psi Sx Sy). specialize (H1 x x' y y' p q phi psi Sx Sy).
  transitivity (integrand_value S f0' k' phi psi x' p y' q *! (scale *! scale) *! (scale *! scale)
             +! integrand_value S f1' k' phi psi x' p y' q *! (scale *! scale) *! (scale *! scale)); [ring|]. rewrite H0, H1. ring.
Qed.

(** ** Quadrature formulas *)

Definition scaled_form (c : T) (f f' : integrand T) (G G' : @green T R) : Prop :=
  forall x y, scaling c f f' (fun i => G i x y) (fun i => G' i (move x) (move y)).

Lemma cast_mul a b : s_cast S (r_mul S a b) = s_cast S a *! s_cast S b. Proof. apply (proj1 Hcast). Qed.

Lemma tensor_scaled c f f' G G' x x' y y' phi psi wt ws a b : scaled_form c f f' G G' ->
  similar_cell S move A scale sign x x' -> similar_cell S move A scale sign y y' ->
  tensor_entry S f' G' x' y' phi psi wt ws a b = c *! tensor_entry S f G x y phi psi wt ws a b.
Proof.
  intros H Sx Sy. rewrite !(tensor_total S one RT), <- (total_mul S one RT). apply total_ext. intros [p w] _. rewrite <- (total_mul S one RT).
  apply total_ext. intros [q v] _. unfold tensor_term. cbn [fst snd].
  rewrite (sc_position _ _ _ _ _ _ _ Sx p), (sc_position _ _ _ _ _ _ _ Sy q), !cast_mul, (sc_area _ _ _ _ _ _ _ Sx p), (sc_area _ _ _ _ _ _ _ Sy q).
  specialize (H (position x p) (position y q) x x' y y' p q (fun d => phi d p a) (fun d => psi d q b) Sx Sy).
  match type of H with ?l *! _ *! _ = _ => transitivity (l *! (scale *! scale) *! (scale *! scale) *! s_cast S v *! s_cast S (cm_jdet y q) *! s_cast S w *! s_cast S (cm_jdet x p)) end; [ring|].
  rewrite H. ring.
Qed.

Lemma pairwise_scaled c f f' G G' x x' y y' phi psi w a b : scaled_form c f f' G G' ->
  similar_cell S move A scale sign x x' -> similar_cell S move A scale sign y y' ->
  pairwise_entry S f' G' x' y' phi psi w a b = c *! pairwise_entry S f G x y phi psi w a b.
Proof.
  intros H Sx Sy. rewrite !(pairwise_total S one RT), <- (total_mul S one RT). apply total_ext. intros [p v] _. unfold pairwise_term. cbn [fst snd].
  rewrite (sc_position _ _ _ _ _ _ _ Sx p), (sc_position _ _ _ _ _ _ _ Sy p), !cast_mul, (sc_area _ _ _ _ _ _ _ Sx p), (sc_area _ _ _ _ _ _ _ Sy p).
  specialize (H (position x p) (position y p) x x' y y' p p (fun d => phi d p a) (fun d => psi d p b) Sx Sy).
  match type of H with ?l *! _ *! _ = _ => transitivity (l *! (scale *! scale) *! (scale *! scale) *! s_cast S v *! s_cast S (cm_jdet y p) *! s_cast S (cm_jdet x p)) end; [ring|].
  rewrite H. ring.
Qed.

(** ** Matrices *)

Context (X X' : externals R) (O O' : operator T R) (c : T).
Hypothesis (Hf : scaled_form c (op_integrand O) (op_integrand O') (kn_value (op_kernel O)) (kn_value (op_kernel O'))).
Hypothesis (Hfit : fitting O -> fitting O') (Hd : op_table_derivs O' = op_table_derivs O).

Lemma similar_pair deg pts test trial t s a b v :
  similar_externals S move A scale sign (fs_grid test) X X' -> similar_externals S move A scale sign (fs_grid trial) X X' -> same_object test trial ->
  t < ent_count (fs_grid test) 2 -> s < ent_count (fs_grid trial) 2 ->
  pair_value S X O deg pts test trial t s a b v -> pair_value S X' O' deg pts test trial t s a b (c *! v).
Proof.
  intros Ht Hs Same Lt Ls [(C & p & k & d & q & A1 & A2 & A3 & A4 & ->)|(C & q & r & A1 & A2 & ->)].
  - left. split; auto. exists p, k, d, q. do 3 (split; [assumption|]). split; [rewrite (sx_duffy _ _ _ _ _ _ _ _ Ht); exact A4|].
    symmetry. apply pairwise_scaled; [exact Hf| |]; apply Ht; auto. rewrite (Same (proj1 C)). auto.
  - right. split; auto. exists q, r. split; [rewrite (sx_simplex _ _ _ _ _ _ _ _ Ht); exact A1|].
    split; [rewrite (sx_simplex _ _ _ _ _ _ _ _ Ht); exact A2|].
    symmetry. apply tensor_scaled; [exact Hf| |]; [apply Ht|apply Hs]; auto.
Qed.

Lemma similar_setting wmod o deg pts ct test trial : similar_externals S move A scale sign (fs_grid test) X X' ->
  dense_setting X wmod O o deg pts ct test trial -> dense_setting X' wmod O' o deg pts ct test trial.
Proof.
  intros [E1 E2 _] [A1 A2 A3 A4 A5 A6 A7 A8 A9 B1 B2 B3 B4 B5 B6 B7 B8]. constructor; auto.
  - destruct B2 as [P1 P2]. constructor; [rewrite E1|rewrite E2]; assumption.
  - unfold has_simplex in *. rewrite E1. exact B3.
  - unfold has_duffy in *. rewrite E2. exact B8.
Qed.

Lemma similar_setting_singular wmod o deg test trial : similar_externals S move A scale sign (fs_grid test) X X' ->
  singular_setting X wmod O o deg test trial -> singular_setting X' wmod O' o deg test trial.
Proof.
  intros [E1 E2 _] [A1 A2 A3 A4 A5 A6 A7 A8 A9 B1 B2 B3 B4 B5]. constructor; auto.
  - destruct A8 as [P1 P2]. constructor; [rewrite E1|rewrite E2]; assumption.
  - unfold has_duffy in *. rewrite E2. exact B1.
Qed.

Theorem similar_matrix rt rt' wmod o deg pts ct test trial :
  legal_runtime (s_add S) rt -> legal_runtime (s_add S) rt' ->
  similar_externals S move A scale sign (fs_grid test) X X' -> similar_externals S move A scale sign (fs_grid trial) X X' ->
  dense_setting X wmod O o deg pts ct test trial ->
  exists m m', assemble S X rt wmod O o trial test = Ok m /\ assemble S X' rt' wmod O' o trial test = Ok m' /\ m' = map (s_mul S c) m.
Proof.
  intros L L' Ht Hs D. pose proof (similar_setting wmod o deg pts ct test trial Ht D) as D'.
  destruct (assembled S one RT X rt wmod _ o deg pts ct test trial L D) as (m & val & E & Ll & V & H).
  destruct (assembled S one RT X' rt' wmod _ o deg pts ct test trial L' D') as (m' & val' & E' & Ll' & V' & H').
  exists m, m'. do 2 (split; [assumption|]). apply nth_error_ext. intros k. rewrite nth_error_map.
  destruct (lt_dec k (global_size (fs_space test) * global_size (fs_space trial))) as [Hk|Hk].
  - destruct (position_split _ _ k Hk) as (i & j & Hi & Hj & ->). rewrite H, H' by auto. cbn [option_map]. f_equal.
    rewrite <- (matrix_mul S one RT). apply matrix_ext. intros t s a b Lt Ls.
    exact (pair_value_unique S X' _ deg pts test trial t s a b _ _ (V' t s a b Lt Ls)
      (similar_pair deg pts test trial t s a b _ Ht Hs (dn_same _ _ _ _ _ _ _ _ _ D) Lt Ls (V t s a b Lt Ls))).
  - rewrite (proj2 (nth_error_None m k)) by lia. rewrite (proj2 (nth_error_None m' k)) by lia. reflexivity.
Qed.

Lemma similar_rules trial test : similar_externals S move A scale sign (fs_grid test) X X' ->
  make_rule X' O' trial test = make_rule X O trial test.
Proof. intros [_ E _]. unfold make_rule. now rewrite E, Hd. Qed.

Lemma similar_triplets deg test trial p : similar_externals S move A scale sign (fs_grid test) X X' ->
  fst p < ent_count (fs_grid test) 2 -> snd p < ent_count (fs_grid test) 2 ->
  touching_triplets S X' O' deg test trial p = map (fun e => (fst e, c *! snd e)) (touching_triplets S X O deg test trial p).
Proof.
  intros Sx H1 H2. unfold touching_triplets. rewrite (sx_duffy _ _ _ _ _ _ _ _ Sx).
  destruct (get_singular_quadrature_rule _ _ _ _ _) as [q| | |]; try reflexivity.
  unfold pair_triplets. rewrite map_map. rewrite <- (map_map (fun e => (fst e, c *! snd e)) (fun e : nat * nat * T => (global_of test (fst (fst e)), global_of trial (snd (fst e)), snd e))).
  rewrite <- entry_list_map. f_equal. unfold entry_list. apply flat_map_ext. intros bj. apply map_ext. intros ai. f_equal.
  apply pairwise_scaled; [exact Hf| |]; now apply Sx.
Qed.

Lemma order_cells wmod (O1 : operator T R) o deg test trial st : singular_setting X wmod O1 o deg test trial ->
  singular_rules (make_rule X O1 trial test) o (g_types (fs_grid test) 2) = Ok st ->
  forall p, In p (pair_order st (fs_grid test)) -> fst p < ent_count (fs_grid test) 2 /\ snd p < ent_count (fs_grid test) 2.
Proof.
  intros SS Est p Hp. destruct (singular_part_blocks S X wmod O1 o deg test trial (shape_of test trial) SS) as (st' & blocks & Est' & Eb & Eo & _).
  assert (st' = st) by congruence. subst st'. destruct (member_grid test (sg_test _ _ _ _ _ _ _ SS)) as (W & _).
  destruct (blocks_once _ _ _ _ _ _ W Eb) as (_ & Ev). rewrite Eo in Ev. destruct p as [t s]. apply Ev in Hp. cbn. tauto.
Qed.

Theorem similar_singular rt rt' wmod o deg test trial :
  legal_runtime (s_add S) rt -> legal_runtime (s_add S) rt' ->
  similar_externals S move A scale sign (fs_grid test) X X' ->
  singular_setting X wmod O o deg test trial ->
  exists m m', assemble_singular_part S X rt wmod O o (shape_of test trial) trial test = Ok m /\
    assemble_singular_part S X' rt' wmod O' o (shape_of test trial) trial test = Ok m' /\
    sm_rows m' = sm_rows m /\ sm_cols m' = sm_cols m /\ sm_data m' = map (s_mul S c) (sm_data m).
Proof.
  intros L L' Ht D. pose proof (similar_setting_singular wmod o deg test trial Ht D) as D'.
  destruct (singular_part_values S X rt wmod _ o deg test trial L D) as (st & m & Est & Em & E1 & E2 & E3 & _).
  destruct (singular_part_values S X' rt' wmod _ o deg test trial L' D') as (st' & m' & Est' & Em' & E1' & E2' & E3' & _).
  rewrite (similar_rules trial test Ht) in Est'. assert (st' = st) by congruence. subst st'.
  assert (Et : all_triplets S X' O' deg test trial st = map (fun e => (fst e, c *! snd e)) (all_triplets S X O deg test trial st)).
  { unfold all_triplets. pose proof (order_cells wmod O o deg test trial st D Est) as Hc.
    induction (pair_order st (fs_grid test)) as [|p l IH]; [reflexivity|]. cbn [flat_map]. rewrite map_app.
    destruct (Hc p (or_introl eq_refl)). rewrite (similar_triplets deg test trial p Ht) by auto. f_equal. apply IH. intros q Hq. apply Hc. now right. }
  exists m, m'. do 2 (split; [assumption|]). rewrite E1', E2', E3', E1, E2, E3, Et, !map_map. auto.
Qed.
End Similar.

Section Exact.
Context {T R : Type} (S : scalar T R).
Local Notation "a *! b" := (s_mul S a b) (at level 40, left associativity).

(** What all operators of the library have in common. *)
Lemma laplace_scaled one (RT : ring_theory (s_zero S) one (s_add S) (s_mul S) (s_sub S) (s_neg S) eq)
    inv (Hdiv : forall a b, s_div S a b = s_mul S a (inv b)) move A scale sign mu (G G' : @green T R) kd :
  orthogonal S A -> divides_out S scale -> similar_green S move A scale mu G G' ->
  scaled_form S move A scale sign (similarity_factor S scale sign mu kd) (op_integrand (laplace_operator kd G)) (op_integrand (laplace_operator kd G'))
    (kn_value (op_kernel (laplace_operator kd G))) (kn_value (op_kernel (laplace_operator kd G'))).
Proof.
  intros Or Out [V Gr] x y.
  assert (M : moved_values S A scale mu (fun i => G i x y) (fun i => G' i (move x) (move y))) by (split; [apply V|]; intros i Hi; now apply Gr).
  destruct kd; cbn.
  - now apply (scaling_single S one RT).
  - now apply (scaling_double S one RT).
  - now apply (scaling_adjoint S one RT).
  - now apply (scaling_curl S one RT inv Hdiv).
Qed.

Lemma helmholtz_scaled one (RT : ring_theory (s_zero S) one (s_add S) (s_mul S) (s_sub S) (s_neg S) eq)
    inv (Hdiv : forall a b, s_div S a b = s_mul S a (inv b)) move A scale sign mu (G G' : R -> @green T R) k k' kd :
  exact_cast S -> orthogonal S A -> divides_out S scale -> (forall x, sign *! (sign *! x) = x) ->
  s_cast S k = scale *! s_cast S k' -> similar_green S move A scale mu (G k) (G' k') ->
  scaled_form S move A scale sign (similarity_factor S scale sign mu kd)
    (op_integrand (helmholtz_operator S kd G k)) (op_integrand (helmholtz_operator S kd G' k'))
    (kn_value (op_kernel (helmholtz_operator S kd G k))) (kn_value (op_kernel (helmholtz_operator S kd G' k'))).
Proof.
  intros (Cm & Cn) Or Out Sg Ek Gr x y. destruct kd.
  - exact (laplace_scaled one RT inv Hdiv move A scale sign mu (G k) (G' k') Single Or Out Gr x y).
  - exact (laplace_scaled one RT inv Hdiv move A scale sign mu (G k) (G' k') Double Or Out Gr x y).
  - exact (laplace_scaled one RT inv Hdiv move A scale sign mu (G k) (G' k') Adjoint Or Out Gr x y).
  - cbn. apply (scaling_sum S one RT).
    + exact (laplace_scaled one RT inv Hdiv move A scale sign mu (G k) (G' k') Hypersingular Or Out Gr x y).
    + destruct Gr as [V Gr]. apply (scaling_normal S one RT); auto.
      * split; [apply V|]. intros i Hi. now apply Gr.
      * rewrite !Cn, !Cm, Ek. apply (neg_scale S one RT).
Qed.

Lemma laplace_fits kd (G G' : @green T R) : fitting (laplace_operator kd G) -> fitting (laplace_operator kd G').
Proof. destruct kd; exact (fun H => H). Qed.
Lemma helmholtz_fits kd (G G' : R -> @green T R) k k' : fitting (helmholtz_operator S kd G k) -> fitting (helmholtz_operator S kd G' k').
Proof. destruct kd; exact (fun H => H). Qed.

Theorem laplace_similar move A scale sign mu (G G' : @green T R) kd (X X' : externals R) rt rt' wmod o deg pts ct (test trial : fspace T R) :
  exact S -> exact_cast S -> orthogonal S A -> divides_out S scale -> similar_green S move A scale mu G G' ->
  legal_runtime (s_add S) rt -> legal_runtime (s_add S) rt' ->
  similar_externals S move A scale sign (fs_grid test) X X' -> similar_externals S move A scale sign (fs_grid trial) X X' ->
  dense_setting X wmod (laplace_operator kd G) o deg pts ct test trial ->
  exists m m', assemble S X rt wmod (laplace_operator kd G) o trial test = Ok m /\
    assemble S X' rt' wmod (laplace_operator kd G') o trial test = Ok m' /\
    m' = map (s_mul S (similarity_factor S scale sign mu kd)) m.
Proof.
  intros ((one & RT) & (inv & Hdiv)) Hc Or Out Gr L L' Ht Hs D.
  eapply (similar_matrix S one RT Hc move A scale sign X X'); try eassumption.
  - now apply (laplace_scaled one RT inv Hdiv).
  - apply laplace_fits.
  - destruct kd; reflexivity.
Qed.

Theorem helmholtz_similar move A scale sign mu (G G' : R -> @green T R) k k' kd (X X' : externals R) rt rt' wmod o deg pts ct (test trial : fspace T R) :
  exact S -> exact_cast S -> orthogonal S A -> divides_out S scale -> (forall x, sign *! (sign *! x) = x) ->
  s_cast S k = scale *! s_cast S k' -> similar_green S move A scale mu (G k) (G' k') ->
  legal_runtime (s_add S) rt -> legal_runtime (s_add S) rt' ->
  similar_externals S move A scale sign (fs_grid test) X X' -> similar_externals S move A scale sign (fs_grid trial) X X' ->
  dense_setting X wmod (helmholtz_operator S kd G k) o deg pts ct test trial ->
  exists m m', assemble S X rt wmod (helmholtz_operator S kd G k) o trial test = Ok m /\
    assemble S X' rt' wmod (helmholtz_operator S kd G' k') o trial test = Ok m' /\
    m' = map (s_mul S (similarity_factor S scale sign mu kd)) m.
Proof.
  intros ((one & RT) & (inv & Hdiv)) Hc Or Out Sg Ek Gr L L' Ht Hs D.
  eapply (similar_matrix S one RT Hc move A scale sign X X'); try eassumption.
  - now apply (helmholtz_scaled one RT inv Hdiv).
  - apply helmholtz_fits.
  - destruct kd; reflexivity.
Qed.

Theorem laplace_similar_singular move A scale sign mu (G G' : @green T R) kd (X X' : externals R) rt rt' wmod o deg (test trial : fspace T R) :
  exact S -> exact_cast S -> orthogonal S A -> divides_out S scale -> similar_green S move A scale mu G G' ->
  legal_runtime (s_add S) rt -> legal_runtime (s_add S) rt' ->
  similar_externals S move A scale sign (fs_grid test) X X' ->
  singular_setting X wmod (laplace_operator kd G) o deg test trial ->
  exists m m',
    assemble_singular_part S X rt wmod (laplace_operator kd G) o (global_size (fs_space test), global_size (fs_space trial)) trial test = Ok m /\
    assemble_singular_part S X' rt' wmod (laplace_operator kd G') o (global_size (fs_space test), global_size (fs_space trial)) trial test = Ok m' /\
    sm_rows m' = sm_rows m /\ sm_cols m' = sm_cols m /\ sm_data m' = map (s_mul S (similarity_factor S scale sign mu kd)) (sm_data m).
Proof.
  intros ((one & RT) & (inv & Hdiv)) Hc Or Out Gr L L' Ht D.
  eapply (similar_singular S one RT Hc move A scale sign X X'); try eassumption.
  - now apply (laplace_scaled one RT inv Hdiv).
  - apply laplace_fits.
  - destruct kd; reflexivity.
Qed.

Theorem helmholtz_similar_singular move A scale sign mu (G G' : R -> @green T R) k k' kd (X X' : externals R) rt rt' wmod o deg (test trial : fspace T R) :
  exact S -> exact_cast S -> orthogonal S A -> divides_out S scale -> (forall x, sign *! (sign *! x) = x) ->
  s_cast S k = scale *! s_cast S k' -> similar_green S move A scale mu (G k) (G' k') ->
  legal_runtime (s_add S) rt -> legal_runtime (s_add S) rt' ->
  similar_externals S move A scale sign (fs_grid test) X X' ->
  singular_setting X wmod (helmholtz_operator S kd G k) o deg test trial ->
  exists m m',
    assemble_singular_part S X rt wmod (helmholtz_operator S kd G k) o (global_size (fs_space test), global_size (fs_space trial)) trial test = Ok m /\
    assemble_singular_part S X' rt' wmod (helmholtz_operator S kd G' k') o (global_size (fs_space test), global_size (fs_space trial)) trial test = Ok m' /\
    sm_rows m' = sm_rows m /\ sm_cols m' = sm_cols m /\ sm_data m' = map (s_mul S (similarity_factor S scale sign mu kd)) (sm_data m).
Proof.
  intros ((one & RT) & (inv & Hdiv)) Hc Or Out Sg Ek Gr L L' Ht D.
  eapply (similar_singular S one RT Hc move A scale sign X X'); try eassumption.
  - now apply (helmholtz_scaled one RT inv Hdiv).
  - apply helmholtz_fits.
  - destruct kd; reflexivity.
Qed.

(** ** Motions without scaling *)

Lemma map_identity (f : T -> T) l : (forall x, f x = x) -> map f l = l.
Proof. intros H. induction l as [|x l IH]; cbn; [reflexivity|]. now rewrite H, IH. Qed.

Lemma unit_factor u kd : (forall x, u *! x = x) -> forall x, similarity_factor S u u u kd *! x = x.
Proof. intros H x. destruct kd; cbn [similarity_factor]; now rewrite !H. Qed.

Lemma unit_divides u : exact S -> (forall x, u *! x = x) -> divides_out S u.
Proof. intros ((one & RT) & _) H a b. rewrite H, (Rmul_comm RT). apply H. Qed.

Theorem laplace_rigid move A u (G G' : @green T R) kd (X X' : externals R) rt rt' wmod o deg pts ct (test trial : fspace T R) :
  exact S -> exact_cast S -> orthogonal S A -> (forall x, u *! x = x) -> similar_green S move A u u G G' ->
  legal_runtime (s_add S) rt -> legal_runtime (s_add S) rt' ->
  similar_externals S move A u u (fs_grid test) X X' -> similar_externals S move A u u (fs_grid trial) X X' ->
  dense_setting X wmod (laplace_operator kd G) o deg pts ct test trial ->
  exists m, assemble S X rt wmod (laplace_operator kd G) o trial test = Ok m /\
    assemble S X' rt' wmod (laplace_operator kd G') o trial test = Ok m.
Proof.
  intros Ex Hc Or Hu Gr L L' Ht Hs D.
  destruct (laplace_similar move A u u u G G' kd X X' rt rt' wmod o deg pts ct test trial Ex Hc Or (unit_divides u Ex Hu) Gr L L' Ht Hs D) as (m & m' & E & E' & Em).
  exists m. split; auto. rewrite E', Em, map_identity; auto. now apply unit_factor.
Qed.

Theorem helmholtz_rigid move A u (G G' : R -> @green T R) k kd (X X' : externals R) rt rt' wmod o deg pts ct (test trial : fspace T R) :
  exact S -> exact_cast S -> orthogonal S A -> (forall x, u *! x = x) -> similar_green S move A u u (G k) (G' k) ->
  legal_runtime (s_add S) rt -> legal_runtime (s_add S) rt' ->
  similar_externals S move A u u (fs_grid test) X X' -> similar_externals S move A u u (fs_grid trial) X X' ->
  dense_setting X wmod (helmholtz_operator S kd G k) o deg pts ct test trial ->
  exists m, assemble S X rt wmod (helmholtz_operator S kd G k) o trial test = Ok m /\
    assemble S X' rt' wmod (helmholtz_operator S kd G' k) o trial test = Ok m.
Proof.
  intros Ex Hc Or Hu Gr L L' Ht Hs D.
  assert (Su : forall x, u *! (u *! x) = x) by (intros x; now rewrite !Hu).
  destruct (helmholtz_similar move A u u u G G' k k kd X X' rt rt' wmod o deg pts ct test trial Ex Hc Or (unit_divides u Ex Hu) Su (eq_sym (Hu _)) Gr L L' Ht Hs D)
    as (m & m' & E & E' & Em).
  exists m. split; auto. rewrite E', Em, map_identity; auto. now apply unit_factor.
Qed.
End Exact.
