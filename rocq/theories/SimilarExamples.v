(** * Moved and scaled grids: examples *)
From Coq Require Import QArith Qcanon.
From Verif Require Import Base BaseFacts Topology DofMap Space SpecSpace Options
  Scalar Integrand CellPair Operators SpecLocal LocalResults LocalExamples SpecOperators Interleave Assembly SpecAssembly AssemblyResults AssemblyExamples
  SpecAlgebra AlgebraExamples SpecSimilar SimilarResults.
Local Open Scope nat_scope.

(** A reflection that swaps the first two coordinates, a scaling by 2 and a
    translation. *)
Definition swap_axes (i j : nat) : Qc := match i, j with 0, 1 | 1, 0 | 2, 2 => 1%Qc | _, _ => 0%Qc end.
Definition two : Qc := qz 2.
Definition minus : Qc := qz (-1).
Definition half : Qc := (1 / qz 2)%Qc.
Definition swap_move (x : Qc * Qc * Qc) : Qc * Qc * Qc := let '(a, b, c) := x in (two * b + 1, two * a, two * c - qz 3)%Qc.
Definition swap_index (i : nat) : nat := match i with 0 => 1 | 1 => 0 | _ => i end.

Definition moved_cell (x : cell_map Qc) : cell_map Qc := mkCellMap
  (fun p i => match i with 0 => two * cm_point x p 1 + 1 | 1 => two * cm_point x p 0 | _ => two * cm_point x p 2 - qz 3 end%Qc)
  (fun p i => minus * cm_normal x p (swap_index i))%Qc
  (fun p i => (two * match i with
    | 0 => cm_jacobian x p 1 | 1 => cm_jacobian x p 0 | 2 => cm_jacobian x p 2
    | 3 => cm_jacobian x p 4 | 4 => cm_jacobian x p 3 | _ => cm_jacobian x p 5 end)%Qc)
  (fun p => two * two * cm_jdet x p)%Qc.

Definition moved_externals : externals Qc :=
  mkExternals Qc (x_simplex demo_externals) (x_duffy demo_externals) (fun g t points c => moved_cell (x_geometry demo_externals g t points c)).

(** A Green's function that depends on the wavenumber times the distance, times the
    wavenumber. *)
Definition wave_green (k : Qc) (i : nat) (s t : Qc * Qc * Qc) : Qc :=
  let '(a, b, c) := s in let '(x, y, z) := t in
  match i with
  | 0 => k * (1 + k * k * ((a - x) * (a - x) + (b - y) * (b - y) + (c - z) * (c - z)))
  | 1 => qz 2 * k * k * k * (a - x) | 2 => qz 2 * k * k * k * (b - y) | _ => qz 2 * k * k * k * (c - z)
  end%Qc.

Lemma half_two : (half * two = 1)%Qc. Proof. apply Qc_is_canon. reflexivity. Qed.
Lemma six_three : (qz 6 = two * qz 3)%Qc. Proof. apply Qc_is_canon. reflexivity. Qed.
Lemma qz_two : (qz 2 = 1 + 1)%Qc. Proof. apply Qc_is_canon. reflexivity. Qed.
Lemma minus_one : (minus = - (1))%Qc. Proof. apply Qc_is_canon. reflexivity. Qed.

Lemma swap_orthogonal : orthogonal qc_scalar swap_axes.
Proof. intros u v. unfold dot. cbn. ring. Qed.
Lemma two_divides : divides_out qc_scalar two.
Proof.
  intros a b. cbn [s_div s_mul qc_scalar]. destruct (Qc_eq_dec b 0%Qc) as [->|Hb].
  - replace (two * 0)%Qc with 0%Qc by ring. unfold Qcdiv. replace (/ 0)%Qc with 0%Qc by (apply Qc_is_canon; reflexivity). ring.
  - field. split; [exact Hb|]. intros E. apply (f_equal this) in E. discriminate E.
Qed.
Lemma minus_squared x : s_mul qc_scalar minus (s_mul qc_scalar minus x) = x.
Proof. cbn [s_mul qc_scalar]. rewrite minus_one. ring. Qed.

Lemma moved_similar x : similar_cell qc_scalar swap_move swap_axes two minus x (moved_cell x).
Proof.
  constructor.
  - intros p. reflexivity.
  - intros p i Hi. destruct i as [|[|[|i]]]; [| | |lia]; unfold dot; cbn -[two minus]; ring.
  - intros p k i Hk Hi. destruct k as [|[|k]]; [| |lia]; (destruct i as [|[|[|i]]]; [| | |lia]); unfold dot; cbn -[two minus]; ring.
  - intros p. reflexivity.
Qed.

Lemma scaled_green t h k : (h * t = 1)%Qc -> forall i s s',
  let m := fun x : Qc * Qc * Qc => let '(a, b, c) := x in (t * b + 1, t * a, t * c - qz 3)%Qc in
  (i = 0 -> wave_green k 0 (m s) (m s') = (h * wave_green (t * k) 0 s s')%Qc) /\
  (i < 3 -> (t * wave_green k (1 + i) (m s) (m s'))%Qc = (h * dot qc_scalar (swap_axes i) (fun j => wave_green (t * k) (1 + j) s s'))%Qc).
Proof.
  intros E i [[a b] c] [[x y] z] m. split.
  - intros _. unfold m. cbn [wave_green].
    transitivity ((h * t) * (k * (1 + k * k * (t * t) * ((a - x) * (a - x) + (b - y) * (b - y) + (c - z) * (c - z)))))%Qc; [rewrite E; ring|ring].
  - intros Hi. unfold m, dot. cbn [s_mul s_add qc_scalar].
    destruct i as [|[|[|i]]]; [| | |lia]; cbn [wave_green swap_axes Nat.add].
    + transitivity ((h * t) * (t * (qz 2 * k * k * k * (t * b + 1 - (t * y + 1)))))%Qc; [rewrite E; ring|ring].
    + transitivity ((h * t) * (t * (qz 2 * k * k * k * (t * a - t * x))))%Qc; [rewrite E; ring|ring].
    + transitivity ((h * t) * (t * (qz 2 * k * k * k * (t * c - qz 3 - (t * z - qz 3)))))%Qc; [rewrite E; ring|ring].
Qed.

Lemma wave_similar : similar_green qc_scalar swap_move swap_axes two half (wave_green (qz 6)) (wave_green (qz 3)).
Proof.
  rewrite six_three. constructor.
  - intros x y. exact (proj1 (scaled_green two half (qz 3) half_two 0 x y) eq_refl).
  - intros i x y Hi. exact (proj2 (scaled_green two half (qz 3) half_two i x y) Hi).
Qed.

Lemma moved_similar_externals g : similar_externals qc_scalar swap_move swap_axes two minus g demo_externals moved_externals.
Proof. constructor; [reflexivity|reflexivity|]. intros t points c _. apply moved_similar. Qed.

Lemma wave_dense kd : dense_setting demo_externals 256 (helmholtz_operator qc_scalar kd wave_green (qz 6)) demo_options (fun _ _ => 2) (fun _ => 2) Triangle screen2_linear screen2_linear.
Proof. apply linear_dense, (shipped_fitting qc_scalar). destruct kd; constructor. Qed.

(** All entries of the matrices of the moved grid are multiples of those of the
    original grid, which are not all zero. *)
Definition moved_check (kd : kind) : bool * bool :=
  match assemble qc_scalar demo_externals demo_rt 256 (helmholtz_operator qc_scalar kd wave_green (qz 6)) demo_options screen2_linear screen2_linear,
        assemble qc_scalar moved_externals demo_rt 256 (helmholtz_operator qc_scalar kd wave_green (qz 3)) demo_options screen2_linear screen2_linear with
  | Ok m, Ok m' =>
      (forallb (fun xy => Qeq_bool (this (snd xy)) (this (similarity_factor qc_scalar two minus half kd) * this (fst xy))) (combine m m'),
       existsb (fun x => negb (Qeq_bool (this x) 0)) m)
  | _, _ => (false, false)
  end.

Lemma similar_example :
  exact qc_scalar /\ exact_cast qc_scalar /\ orthogonal qc_scalar swap_axes /\ divides_out qc_scalar two /\
  (forall x, s_mul qc_scalar minus (s_mul qc_scalar minus x) = x) /\
  s_cast qc_scalar (qz 6) = s_mul qc_scalar two (s_cast qc_scalar (qz 3)) /\
  similar_green qc_scalar swap_move swap_axes two half (wave_green (qz 6)) (wave_green (qz 3)) /\
  similar_externals qc_scalar swap_move swap_axes two minus (fs_grid screen2_linear) demo_externals moved_externals /\
  legal_runtime (s_add qc_scalar) demo_rt /\
  (forall kd, dense_setting demo_externals 256 (helmholtz_operator qc_scalar kd wave_green (qz 6)) demo_options (fun _ _ => 2) (fun _ => 2) Triangle screen2_linear screen2_linear) /\
  map (fun kd => this (similarity_factor qc_scalar two minus half kd)) [Single; Double; Adjoint; Hypersingular] = [8 # 1; - (4) # 1; - (4) # 1; 2 # 1]%Q /\
  map moved_check [Single; Double; Adjoint; Hypersingular] = [(true, true); (true, true); (true, true); (true, true)].
Proof.
  split; [exact qc_exact|]. split; [exact qc_cast|]. split; [exact swap_orthogonal|]. split; [exact two_divides|]. split; [exact minus_squared|].
  split; [exact six_three|]. split; [exact wave_similar|]. split; [apply moved_similar_externals|]. split; [apply sequential_legal|].
  split; [exact wave_dense|]. split; [vm_compute; reflexivity|]. vm_compute. reflexivity.
Qed.
