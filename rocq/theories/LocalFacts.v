(** * Facts about arrays, integrands and the cell pair assemblers *)
From Verif Require Import Base BaseFacts Scalar Integrand CellPair Operators SpecLocal.

(** ** Arrays *)

Lemma nth_error_blocks {A B : Type} (g : A -> list B) n (l : list A) i j x :
  (forall y, In y l -> length (g y) = n) -> i < n -> nth_error l j = Some x ->
  nth_error (flat_map g l) (i + n * j) = nth_error (g x) i.
Proof.
  revert j. induction l as [|y t IH]; intros j L Hi Hj.
  - destruct j; discriminate.
  - cbn [flat_map]. assert (Ly : length (g y) = n) by (apply L; now left).
    destruct j as [|j].
    + cbn in Hj. inversion Hj; subst. rewrite Nat.mul_0_r, Nat.add_0_r.
      apply nth_error_app1. lia.
    + cbn in Hj. rewrite nth_error_app2 by (rewrite Ly; nia).
      rewrite Ly. replace (i + n * S j - n) with (i + n * j) by nia.
      apply IH; auto. intros. apply L. now right.
Qed.

Lemma length_blocks {A B : Type} (g : A -> list B) n (l : list A) :
  (forall y, In y l -> length (g y) = n) -> length (flat_map g l) = n * length l.
Proof.
  induction l as [|y t IH]; intros L; cbn [flat_map length]; [nia|].
  rewrite app_length, IH, (L y (or_introl eq_refl)) by (intros; apply L; now right). nia.
Qed.

Lemma length_table2 {T : Type} n m (f : nat -> nat -> T) : length (table2 n m f) = n * m.
Proof.
  unfold table2. rewrite (length_blocks _ n), seq_length; auto.
  intros. now rewrite map_length, seq_length.
Qed.

Lemma nth_table2 {T : Type} n m (f : nat -> nat -> T) i j :
  i < n -> j < m -> nth_error (table2 n m f) (i + n * j) = Some (f i j).
Proof.
  intros Hi Hj. unfold table2.
  rewrite (nth_error_blocks _ n _ i j j); auto.
  - now apply map_nth_error with (f := fun i => f i j), (nth_error_seq 0 n i).
  - intros. now rewrite map_length, seq_length.
  - now apply (nth_error_seq 0 m j).
Qed.

Lemma length_table3 {T : Type} n m p (f : nat -> nat -> nat -> T) : length (table3 n m p f) = n * m * p.
Proof.
  unfold table3. rewrite (length_blocks _ (n * m)), seq_length; auto.
  intros. apply length_table2.
Qed.

Lemma nth_table3 {T : Type} n m p (f : nat -> nat -> nat -> T) i j k :
  i < n -> j < m -> k < p -> nth_error (table3 n m p f) (i + n * (j + m * k)) = Some (f i j k).
Proof.
  intros Hi Hj Hk. unfold table3.
  replace (i + n * (j + m * k)) with ((i + n * j) + n * m * k) by nia.
  rewrite (nth_error_blocks _ (n * m) _ _ k k); auto.
  - now apply (nth_table2 n m (fun i j => f i j k)).
  - intros. apply length_table2.
  - nia.
  - now apply (nth_error_seq 0 p k).
Qed.

Lemma length_table4 {T : Type} n m p q (f : nat -> nat -> nat -> nat -> T) :
  length (table4 n m p q f) = n * m * p * q.
Proof.
  unfold table4. rewrite (length_blocks _ (n * m * p)), seq_length; auto.
  intros. apply length_table3.
Qed.

Lemma nth_table4 {T : Type} n m p q (f : nat -> nat -> nat -> nat -> T) i j k l :
  i < n -> j < m -> k < p -> l < q ->
  nth_error (table4 n m p q f) (i + n * (j + m * (k + p * l))) = Some (f i j k l).
Proof.
  intros Hi Hj Hk Hl. unfold table4.
  replace (i + n * (j + m * (k + p * l))) with ((i + n * (j + m * k)) + n * m * p * l) by nia.
  rewrite (nth_error_blocks _ (n * m * p) _ _ l l); auto.
  - now apply (nth_table3 n m p (fun i j k => f i j k l)).
  - intros. apply length_table3.
  - assert (j + m * k < m * p) by nia. nia.
  - now apply (nth_error_seq 0 q l).
Qed.

Ltac flat := unfold aget; cbn [a_shape a_data flat_index];
  repeat match goal with |- context [?i <? ?n] =>
    replace (i <? n) with true by (symmetry; apply Nat.ltb_lt; lia) end; cbn match;
  rewrite ?Nat.mul_0_r, ?Nat.add_0_r.

Lemma aget_table2 {T : Type} n m (f : nat -> nat -> T) i j :
  i < n -> j < m -> aget (mkArray [n; m] (table2 n m f)) [i; j] = Ok (f i j).
Proof. intros. flat. apply uget_Ok. now apply nth_table2. Qed.

Lemma aget_table3 {T : Type} n m p (f : nat -> nat -> nat -> T) i j k :
  i < n -> j < m -> k < p -> aget (mkArray [n; m; p] (table3 n m p f)) [i; j; k] = Ok (f i j k).
Proof. intros. flat. apply uget_Ok. now apply nth_table3. Qed.

Lemma aget_table4 {T : Type} n m p q (f : nat -> nat -> nat -> nat -> T) i j k l :
  i < n -> j < m -> k < p -> l < q ->
  aget (mkArray [n; m; p; q] (table4 n m p q f)) [i; j; k; l] = Ok (f i j k l).
Proof. intros. flat. apply uget_Ok. now apply nth_table4. Qed.

Lemma uget_map_seq {A : Type} (f : nat -> A) n i : i < n -> uget (map f (seq 0 n)) i = Ok (f i).
Proof. intros H. apply uget_Ok. rewrite (map_nth_error f i (seq 0 n) (nth_error_seq 0 n i H)). reflexivity. Qed.

Lemma deriv_count_0 d : 1 <= deriv_count d.
Proof. unfold deriv_count. apply Nat.div_le_lower_bound; nia. Qed.

Lemma deriv_count_1 d : 1 <= d -> 3 <= deriv_count d.
Proof. intros. unfold deriv_count. apply Nat.div_le_lower_bound; nia. Qed.

(** ** Integrands *)

Section Eval.
Context {T R : Type} (S : scalar T R).

Lemma evaluate_value (f : integrand T) kr tr sr gt gs nk nd k phi psi (x : cell_map R) p (y : cell_map R) q :
  kernel_used f <= nk -> derivs_used f <= nd ->
  (forall i, i < nk -> kr i = Ok (k i)) ->
  (forall d, d < deriv_count nd -> tr d 0 = Ok (phi d)) ->
  (forall d, d < deriv_count nd -> sr d 0 = Ok (psi d)) ->
  (forall i, i < 3 -> ga_normal gt i = Ok (normal S x p i)) ->
  (forall i, i < 3 -> ga_normal gs i = Ok (normal S y q i)) ->
  (forall i, i < 6 -> ga_jacobian gt i = Ok (s_cast S (cm_jacobian x p i))) ->
  (forall i, i < 6 -> ga_jacobian gs i = Ok (s_cast S (cm_jacobian y q i))) ->
  ga_jdet gt = Ok (jdet S x p) -> ga_jdet gs = Ok (jdet S y q) ->
  evaluate S f kr tr sr gt gs = Ok (integrand_value S f k phi psi x p y q).
Proof.
  intros Hk Hd K P Q Nt Ns Jt Js Dt Ds.
  assert (D0 := deriv_count_0 nd).
  induction f; cbn [kernel_used derivs_used] in *; cbn [evaluate].
  - rewrite K, P, Q by lia. reflexivity.
  - rewrite !K, !Ns, P, Q by lia. reflexivity.
  - rewrite !K, !Nt, P, Q by lia. reflexivity.
  - assert (D1 := deriv_count_1 nd Hd).
    rewrite !P, !Q, K, !Jt, !Js, Dt, Ds by lia. reflexivity.
  - rewrite K, !Ns, !Nt, P, Q by lia. reflexivity.
  - rewrite IHf1, IHf2 by lia. reflexivity.
  - rewrite IHf by lia. reflexivity.
Qed.

(** ** The arrays of a cell *)

(** The arrays holding the data of cell [c]. *)
Definition arrays_of (ev : evaluator R) (c : nat) : cell_arrays R :=
  mkArrays (mkArray [3; ev_npts ev] (table2 3 (ev_npts ev) (fun i p => cm_point (ev_cell ev c) p i)))
           (mkArray [3; ev_npts ev] (table2 3 (ev_npts ev) (fun i p => cm_normal (ev_cell ev c) p i)))
           (mkArray [6; ev_npts ev] (table2 6 (ev_npts ev) (fun i p => cm_jacobian (ev_cell ev c) p i)))
           (map (cm_jdet (ev_cell ev c)) (seq 0 (ev_npts ev))).

(** Arrays for [n] points: they hold the data of some cell map. *)
Definition holds (n : nat) (cm : cell_map R) (a : cell_arrays R) : Prop :=
  a = arrays_of (mkEvaluator n (fun _ => cm)) 0.

Lemma arrays_of_holds ev c : holds (ev_npts ev) (ev_cell ev c) (arrays_of ev c).
Proof. reflexivity. Qed.

Definition zero_map : cell_map R :=
  mkCellMap (fun _ _ => r_zero S) (fun _ _ => r_zero S) (fun _ _ => r_zero S) (fun _ => r_zero S).

Lemma repeat_map_seq {A : Type} (z : A) a n : repeat z n = map (fun _ => z) (seq a n).
Proof. revert a. induction n as [|n IH]; intros; cbn; f_equal; auto. Qed.

Lemma table2_const {A : Type} (z : A) n m : table2 n m (fun _ _ => z) = repeat z (n * m).
Proof.
  unfold table2. generalize 0 at 2 as b. induction m as [|m IH]; intros b.
  - rewrite Nat.mul_0_r. reflexivity.
  - cbn [seq flat_map]. rewrite IH, <- repeat_map_seq, <- repeat_app. f_equal. nia.
Qed.

Lemma table3_const {A : Type} (z : A) n m p : table3 n m p (fun _ _ _ => z) = repeat z (n * m * p).
Proof.
  unfold table3. generalize 0 as b. induction p as [|p IH]; intros b.
  - rewrite Nat.mul_0_r. reflexivity.
  - cbn [seq flat_map]. rewrite IH, table2_const, <- repeat_app. f_equal. nia.
Qed.

Lemma new_arrays_hold n : holds n zero_map (new_arrays S n).
Proof.
  unfold holds, new_arrays, arrays_of, new_array, size_of. cbn [ev_npts ev_cell fold_right zero_map cm_point cm_normal cm_jacobian cm_jdet].
  rewrite !table2_const, <- repeat_map_seq, !Nat.mul_1_r. reflexivity.
Qed.

Lemma write_arrays_Ok ev c cm a : holds (ev_npts ev) cm a -> write_arrays ev c a = Ok (arrays_of ev c).
Proof.
  unfold holds. intros ->. unfold write_arrays, write_points, write_normals, write_jacobians, write_jdets, arrays_of, fill.
  cbn [ca_pts ca_normals ca_jacobians ca_jdets a_data a_shape ev_npts ev_cell].
  rewrite !length_table2, map_length, seq_length, !Nat.eqb_refl. reflexivity.
Qed.

Lemma geometry_holds n cm a p : holds n cm a -> p < n ->
  (forall i, i < 3 -> ga_normal (geometry_at S (geometry_of a) p) i = Ok (normal S cm p i)) /\
  (forall i, i < 6 -> ga_jacobian (geometry_at S (geometry_of a) p) i = Ok (s_cast S (cm_jacobian cm p i))) /\
  ga_jdet (geometry_at S (geometry_of a) p) = Ok (jdet S cm p) /\
  uget (ca_jdets a) p = Ok (cm_jdet cm p).
Proof.
  unfold holds. intros -> Hp. unfold geometry_at, geometry_of, arrays_of.
  cbn [ga_normal ga_jacobian ga_jdet ge_normals ge_jacobians ge_jdets ca_normals ca_jacobians ca_jdets ev_npts ev_cell].
  split; [|split; [|split]].
  - intros i Hi. rewrite aget_table2 by auto. reflexivity.
  - intros i Hi. rewrite aget_table2 by auto. reflexivity.
  - rewrite uget_map_seq by auto. reflexivity.
  - now rewrite uget_map_seq by auto.
Qed.

Lemma points3_table f n : @points3 R (table2 3 n f) = map (fun p => (f 0 p, f 1 p, f 2 p)) (seq 0 n).
Proof.
  unfold table2. enough (H : forall l, points3 (flat_map (fun j => map (fun i => f i j) (seq 0 3)) l)
    = map (fun p => (f 0 p, f 1 p, f 2 p)) l) by apply H.
  induction l as [|x l IH]; [reflexivity|]. cbn. f_equal. exact IH.
Qed.

Lemma points3_holds n cm a : holds n cm a -> points3 (a_data (ca_pts a)) = map (position cm) (seq 0 n).
Proof. unfold holds. intros ->. unfold arrays_of. cbn [ca_pts a_data ev_npts ev_cell]. now rewrite points3_table. Qed.

Lemma pts_length n cm a : holds n cm a -> length (a_data (ca_pts a)) = 3 * n.
Proof. unfold holds. intros ->. unfold arrays_of. cbn [ca_pts a_data ev_npts]. apply length_table2. Qed.

(** ** The kernel arrays *)

Lemma flat_map_map {A B C : Type} (f : B -> list C) (g : A -> B) l : flat_map f (map g l) = flat_map (fun x => f (g x)) l.
Proof. induction l; cbn; f_equal; auto. Qed.

Lemma assemble_st_Ok (K : kernel T R) nt ns xt xs at_ as_ k nk :
  holds nt xt at_ -> holds ns xs as_ -> components (kn_type K) = nk ->
  a_shape k = [nk; nt; ns] -> length (a_data k) = nk * nt * ns ->
  assemble_st K (a_data (ca_pts at_)) (a_data (ca_pts as_)) k =
  Ok (mkArray [nk; nt; ns] (table3 nk nt ns (fun i p q => kn_value K i (position xt p) (position xs q)))).
Proof.
  intros Ht Hs Hc Sh Le. unfold assemble_st.
  rewrite (points3_holds _ _ _ Ht), (points3_holds _ _ _ Hs), Hc.
  set (d := flat_map _ _).
  assert (E : d = table3 nk nt ns (fun i p q => kn_value K i (position xt p) (position xs q))).
  { unfold d, table3, table2. rewrite flat_map_map. apply flat_map_ext. intros q. now rewrite flat_map_map. }
  rewrite E, length_table3, Le, Nat.eqb_refl. unfold fill. now rewrite Sh.
Qed.

Lemma combine_map_same {A B C : Type} (f : A -> B) (g : A -> C) l :
  combine (map f l) (map g l) = map (fun x => (f x, g x)) l.
Proof. induction l; cbn; f_equal; auto. Qed.

Lemma assemble_pairwise_Ok (K : kernel T R) n xt xs at_ as_ k nk :
  holds n xt at_ -> holds n xs as_ -> components (kn_type K) = nk ->
  a_shape k = [nk; n] -> length (a_data k) = nk * n ->
  assemble_pairwise_st K (a_data (ca_pts at_)) (a_data (ca_pts as_)) k =
  Ok (mkArray [nk; n] (table2 nk n (fun i p => kn_value K i (position xt p) (position xs p)))).
Proof.
  intros Ht Hs Hc Sh Le. unfold assemble_pairwise_st.
  rewrite (points3_holds _ _ _ Ht), (points3_holds _ _ _ Hs), (pts_length _ _ _ Ht), (pts_length _ _ _ Hs), Hc.
  set (d := flat_map _ _).
  assert (E : d = table2 nk n (fun i p => kn_value K i (position xt p) (position xs p))).
  { unfold d, table2. rewrite combine_map_same, flat_map_map. reflexivity. }
  rewrite E, length_table2, Le, !Nat.eqb_refl. unfold fill. now rewrite Sh.
Qed.

(** ** Filling a local matrix *)

Lemma fill_matrix_Ok (f : nat -> nat -> res T) (g : nat -> nat -> T) m n (mat : array T) :
  a_shape mat = [m; n] ->
  (forall a b, a < m -> b < n -> f a b = Ok (g a b)) ->
  fill_matrix f mat = Ok (mkArray [m; n] (table2 m n g)).
Proof.
  intros Sh H. unfold fill_matrix. rewrite Sh.
  rewrite (mapM_Ok_all _ (fun b => map (fun a => g a b) (seq 0 m))).
  - cbn [bind]. unfold fill, table2. rewrite Sh, <- flat_map_concat_map. reflexivity.
  - intros b Hb. apply in_seq in Hb. apply mapM_Ok_all. intros a Ha. apply in_seq in Ha. apply H; lia.
Qed.

Lemma foldM_fold {St A : Type} (f : St -> A -> res St) (g : St -> A -> St) l s :
  (forall s x, In x l -> f s x = Ok (g s x)) -> foldM f l s = Ok (fold_left g l s).
Proof. intros H. rewrite <- foldM_pure. now apply foldM_ext. Qed.

(** ** One call of [assemble] *)

Lemma singular_assemble_Ok (a : @singular_assembler T R) mat op n vt vs dt ds ft fs xt xs :
  fitting op ->
  su_integrand (sa_setup a) = op_integrand op -> su_kernel (sa_setup a) = op_kernel op ->
  su_test_table (sa_setup a) = tabulated (op_table_derivs op) n dt vt ft ->
  su_trial_table (sa_setup a) = tabulated (op_table_derivs op) n ds vs fs ->
  0 < vt -> 0 < vs -> length (sa_weights a) = n ->
  a_shape (sa_k a) = [op_deriv_size op; n] -> length (a_data (sa_k a)) = op_deriv_size op * n ->
  holds n xt (sa_test a) -> holds n xs (sa_trial a) ->
  a_shape mat = [dt; ds] ->
  singular_assemble S a mat =
  Ok (mkSingular (sa_setup a) (sa_test_ev a)
        (mkArray [op_deriv_size op; n]
           (table2 (op_deriv_size op) n (fun i p => kn_value (op_kernel op) i (position xt p) (position xs p))))
        (sa_test a) (sa_trial a) (sa_weights a) (sa_test_cell a) (sa_trial_cell a),
      mkArray [dt; ds] (table2 dt ds (pairwise_entry S (op_integrand op) (kn_value (op_kernel op)) xt xs
        (fun d p b => ft d p b 0) (fun d p b => fs d p b 0) (sa_weights a)))).
Proof.
  intros (Fc & Fk & Fd) Ei Ek Et Es Hvt Hvs Lw Sk Lk Ht Hs Sm.
  unfold singular_assemble. rewrite Ek.
  rewrite (assemble_pairwise_Ok _ _ _ _ _ _ _ _ Ht Hs Fc Sk Lk). cbn [bind].
  rewrite (fill_matrix_Ok _ (pairwise_entry S (op_integrand op) (kn_value (op_kernel op)) xt xs
        (fun d p b => ft d p b 0) (fun d p b => fs d p b 0) (sa_weights a)) dt ds mat Sm); [reflexivity|].
  intros i j Hi Hj. unfold pairwise_entry. apply foldM_fold.
  intros s [p w] Hp. apply In_enumerate in Hp.
  assert (Lp : p < n) by (rewrite <- Lw; apply nth_error_Some; congruence).
  destruct (geometry_holds _ _ _ p Ht Lp) as (Nt & Jt & Dt & Ut).
  destruct (geometry_holds _ _ _ p Hs Lp) as (Ns & Js & Ds & Us).
  unfold singular_term, evaluate_singular. rewrite Ei, Et, Es.
  erewrite (evaluate_value _ _ _ _ _ _ _ _ (fun c => kn_value (op_kernel op) c (position xt p) (position xs p))
    (fun d => ft d p i 0) (fun d => fs d p j 0) xt p xs p Fk Fd); eauto.
  - rewrite Ut, Us. reflexivity.
  - intros c Hc. now rewrite aget_table2.
  - intros d Hd. unfold table_at, tabulated. now rewrite aget_table4.
  - intros d Hd. unfold table_at, tabulated. now rewrite aget_table4.
Qed.

Lemma nonsingular_assemble_Ok (a : @nonsingular_assembler T R) mat op nt ns vt vs dt ds ft fs at_ xt xs :
  fitting op ->
  su_integrand (na_setup a) = op_integrand op -> su_kernel (na_setup a) = op_kernel op ->
  su_test_table (na_setup a) = tabulated (op_table_derivs op) nt dt vt ft ->
  su_trial_table (na_setup a) = tabulated (op_table_derivs op) ns ds vs fs ->
  0 < vt -> 0 < vs -> length (na_test_weights a) = nt -> length (na_trial_weights a) = ns ->
  a_shape (na_k a) = [op_deriv_size op; nt; ns] -> length (a_data (na_k a)) = op_deriv_size op * nt * ns ->
  nth_error (na_tests a) (na_test_cell a) = Some at_ ->
  holds nt xt at_ -> holds ns xs (na_trial a) ->
  a_shape mat = [dt; ds] ->
  nonsingular_assemble S a mat =
  Ok (mkNonsingular (na_setup a)
        (mkArray [op_deriv_size op; nt; ns]
           (table3 (op_deriv_size op) nt ns (fun i p q => kn_value (op_kernel op) i (position xt p) (position xs q))))
        (na_tests a) (na_trial a) (na_test_weights a) (na_trial_weights a)
        (na_test_cell a) (na_trial_cell a) (na_test_indices a),
      mkArray [dt; ds] (table2 dt ds (tensor_entry S (op_integrand op) (kn_value (op_kernel op)) xt xs
        (fun d p b => ft d p b 0) (fun d p b => fs d p b 0) (na_test_weights a) (na_trial_weights a)))).
Proof.
  intros (Fc & Fk & Fd) Ei Ek Et Es Hvt Hvs Lt Ls Sk Lk Hcell Ht Hs Sm.
  unfold nonsingular_assemble. rewrite (proj2 (uget_Ok _ _ _) Hcell). cbn [bind]. rewrite Ek.
  rewrite (assemble_st_Ok _ _ _ _ _ _ _ _ _ Ht Hs Fc Sk Lk). cbn [bind].
  rewrite (fill_matrix_Ok _ (tensor_entry S (op_integrand op) (kn_value (op_kernel op)) xt xs
        (fun d p b => ft d p b 0) (fun d p b => fs d p b 0) (na_test_weights a) (na_trial_weights a)) dt ds mat Sm); [reflexivity|].
  intros i j Hi Hj. unfold tensor_entry. apply foldM_fold.
  intros s [p w] Hp. apply In_enumerate in Hp.
  assert (Lp : p < nt) by (rewrite <- Lt; apply nth_error_Some; congruence).
  destruct (geometry_holds _ _ _ p Ht Lp) as (Nt & Jt & Dt & Ut).
  unfold nonsingular_row. rewrite Ut. cbn [bind fst snd]. apply foldM_fold.
  intros s' [q w'] Hq. apply In_enumerate in Hq.
  assert (Lq : q < ns) by (rewrite <- Ls; apply nth_error_Some; congruence).
  destruct (geometry_holds _ _ _ q Hs Lq) as (Ns & Js & Ds & Us).
  unfold nonsingular_term, evaluate_nonsingular. rewrite Ei, Et, Es.
  erewrite (evaluate_value _ _ _ _ _ _ _ _ (fun c => kn_value (op_kernel op) c (position xt p) (position xs q))
    (fun d => ft d p i 0) (fun d => fs d q j 0) xt p xs q Fk Fd); eauto.
  - rewrite Us. reflexivity.
  - intros c Hc. now rewrite aget_table3.
  - intros d Hd. unfold table_at, tabulated. now rewrite aget_table4.
  - intros d Hd. unfold table_at, tabulated. now rewrite aget_table4.
Qed.

(** ** Caching of the test cells *)

Lemma assoc_insert_get {V : Type} k (v : V) m k' :
  assoc Nat.eqb k' (assoc_insert Nat.eqb k v m) = if k' =? k then Some v else assoc Nat.eqb k' m.
Proof.
  induction m as [|[k0 v0] t IH]; cbn.
  - reflexivity.
  - destruct (k =? k0) eqn:E.
    + apply Nat.eqb_eq in E; subst. cbn. destruct (k' =? k0); reflexivity.
    + cbn. rewrite IH. destruct (k' =? k0) eqn:E0, (k' =? k) eqn:E1; auto.
      apply Nat.eqb_eq in E0, E1. subst. rewrite Nat.eqb_refl in E. discriminate.
Qed.

Lemma cache_spec ev : forall (l : list nat) b ind arr,
  (forall c i, assoc Nat.eqb c ind = Some i -> i < b) -> length arr = b ->
  exists ind',
    foldM (cache_cell ev) (combine (seq b (length l)) (combine l (map (fun _ => new_arrays S (ev_npts ev)) l))) (ind, arr)
      = Ok (ind', arr ++ map (arrays_of ev) l) /\
    (forall c i, assoc Nat.eqb c ind' = Some i ->
       (assoc Nat.eqb c ind = Some i) \/ (b <= i /\ nth_error l (i - b) = Some c)) /\
    (forall c, In c l \/ assoc Nat.eqb c ind <> None -> assoc Nat.eqb c ind' <> None).
Proof.
  induction l as [|c l IH]; intros b ind arr Hi La.
  - exists ind. cbn. rewrite app_nil_r. split; [reflexivity|]. split; intros; intuition.
  - cbn [length seq combine map foldM cache_cell].
    rewrite (write_arrays_Ok ev c zero_map) by apply new_arrays_hold. cbn [bind fst snd].
    destruct (IH (Datatypes.S b) (assoc_insert Nat.eqb c b ind) (arr ++ [arrays_of ev c])) as (ind' & E & A & B).
    + intros c' i'. rewrite assoc_insert_get. destruct (c' =? c).
      * intros H. inversion H; lia.
      * intros H. apply Hi in H. lia.
    + rewrite app_length. cbn. lia.
    + exists ind'. rewrite E, <- app_assoc. split; [reflexivity|]. split.
      * intros c' i' H. apply A in H. rewrite assoc_insert_get in H.
        destruct H as [H|[Hl H]].
        -- destruct (c' =? c) eqn:Ec; auto. right. inversion H; subst. apply Nat.eqb_eq in Ec. subst.
           split; auto. now rewrite Nat.sub_diag.
        -- right. split; [lia|]. replace (i' - b) with (Datatypes.S (i' - Datatypes.S b)) by lia. exact H.
      * intros c' H. apply B. rewrite assoc_insert_get. destruct (c' =? c) eqn:Ec; [right; discriminate|].
        destruct H as [[->|H]|H]; auto. rewrite Nat.eqb_refl in Ec. discriminate.
Qed.

Lemma nonsingular_new_Ok nt ns nk cells su ev wt ws : ev_npts ev = nt ->
  exists ind, nonsingular_new S nt ns nk cells su ev wt ws =
    Ok (mkNonsingular su (new_array (s_zero S) [nk; nt; ns]) (map (arrays_of ev) cells) (new_arrays S ns) wt ws 0 0 ind) /\
    (forall c i, assoc Nat.eqb c ind = Some i -> nth_error cells i = Some c) /\
    (forall c, In c cells -> assoc Nat.eqb c ind <> None).
Proof.
  intros <-. destruct (cache_spec ev cells 0 [] []) as (ind & E & A & B).
  - discriminate.
  - reflexivity.
  - exists ind. unfold nonsingular_new, enumerate. rewrite combine_length, map_length, Nat.min_id, E.
    cbn [bind fst snd app]. split; [reflexivity|]. split.
    + intros c i H. apply A in H. destruct H as [H|[_ H]]; [discriminate|]. now rewrite Nat.sub_0_r in H.
    + intros c H. apply B. now left.
Qed.

End Eval.
