(** * Two types of scalars: examples *)
From Coq Require Import QArith Qcanon Qround Zquot Ring_theory.
From Verif Require Import Base BaseFacts Topology TopologyFacts DofMap SpecDof DofMapResults DofExamples Process Space SpecSpace SpaceScript SpaceResults SpaceExamples
  Options Adjacency SpecAdjacency AdjacencyExamples Scalar Integrand CellPair Operators SpecLocal LocalResults Interleave Assembly SpecAssembly LocalExamples AssemblyExamples
  AssemblyResults AlgebraExamples SpecOperators OperatorsResults SpecScalars ScalarsResults.
Open Scope Qc_scope.

(** Complex numbers with rational parts. *)
Definition gauss : Type := Qc * Qc.
Definition g_inv (b : gauss) : gauss :=
  let n := fst b * fst b + snd b * snd b in (fst b / n, - snd b / n).
Definition g_mul (a b : gauss) : gauss := (fst a * fst b - snd a * snd b, fst a * snd b + snd a * fst b).
Definition gauss_scalar : scalar gauss Qc :=
  {| s_zero := (0, 0);
     s_add := fun a b => (fst a + fst b, snd a + snd b);
     s_mul := g_mul;
     s_sub := fun a b => (fst a - fst b, snd a - snd b);
     s_neg := fun a => (- fst a, - snd a);
     s_div := fun a b => g_mul a (g_inv b);
     r_zero := 0; r_mul := Qcmult; r_neg := Qcopp;
     s_cast := fun r => (r, 0);
     s_large := fun a => negb (Qc_eq_bool (fst a) 0 && Qc_eq_bool (snd a) 0) |}.

Lemma gauss_exact : exact gauss_scalar.
Proof.
  split.
  - exists (1, 0). constructor; intros; repeat match goal with x : gauss |- _ => destruct x end; cbn; unfold g_mul; cbn; f_equal; ring.
  - exists g_inv. reflexivity.
Qed.

Lemma gauss_null : null_factor gauss_scalar.
Proof. split; intros [a b]; cbn; unfold g_mul; cbn; f_equal; ring. Qed.

Definition embed (a : Qc) : gauss := (a, 0).
Definition conj (a : gauss) : gauss := (fst a, - snd a).

Lemma embed_map : scalar_map qc_scalar gauss_scalar embed.
Proof.
  constructor; intros; cbn; unfold embed, g_mul, g_inv; cbn; try (f_equal; ring); try reflexivity.
  destruct (Qc_eq_dec b 0) as [->|N].
  - unfold Qcdiv. change (/ 0) with 0. f_equal; ring.
  - f_equal; field; auto.
Qed.

Lemma conj_map : scalar_map gauss_scalar gauss_scalar conj.
Proof.
  constructor; intros; cbn; unfold conj, g_mul, g_inv; cbn; try (f_equal; ring); try reflexivity.
  f_equal; unfold Qcdiv.
  - replace (- snd b * - snd b) with (snd b * snd b) by ring. ring.
  - replace (- snd b * - snd b) with (snd b * snd b) by ring. ring.
Qed.

Open Scope nat_scope.

(** A space with complex values, the basis functions of which are those of a space
    with real values. *)
Definition complex_space (fs : fspace Qc Qc) : fspace gauss Qc :=
  mkFspace gauss Qc (fs_grid fs) (fs_family fs) (fs_processes fs) (fs_space fs) (fs_components fs)
    (fun t points d p b j => embed (fs_basis fs t points d p b j)).

Lemma complex_mapped fs : mapped_space embed fs (complex_space fs).
Proof. constructor; reflexivity. Qed.
Lemma conj_mapped fs : mapped_space conj (complex_space fs) (complex_space fs).
Proof. constructor; try reflexivity. Qed.

(** A kernel that depends on the wavenumber: the imaginary part is odd in it. *)
Definition wave_green (w : Qc) (i : nat) (x y : Qc * Qc * Qc) : gauss :=
  (demo_green i x y, Qcmult w (demo_green (S i) y x)).

Lemma wave_zero i x y : wave_green 0%Qc i x y = embed (demo_green i x y).
Proof. unfold wave_green, embed. f_equal. ring. Qed.
Lemma wave_opposite w i x y : wave_green (- w)%Qc i x y = conj (wave_green w i x y).
Proof. unfold wave_green, conj. cbn [fst snd]. f_equal. ring. Qed.

Lemma complex_dense kd w :
  dense_setting demo_externals 256 (helmholtz_operator gauss_scalar kd wave_green w) demo_options (fun _ _ => 2) (fun _ => 2) Triangle
    (complex_space screen2_linear) (complex_space screen2_linear).
Proof.
  refine (mapped_setting embed demo_externals 256 (laplace_operator kd demo_green) _ demo_options _ _ _ screen2_linear screen2_linear _ _ _ _ _ _).
  - apply complex_mapped.
  - apply complex_mapped.
  - apply helmholtz_computes.
  - apply linear_dense, (laplace_computes qc_scalar).
Qed.


(** Entries of the Helmholtz and Laplace matrices; not all of the former are real. *)
Definition wave_matrix (kd : kind) (w : Qc) : list gauss :=
  match assemble gauss_scalar demo_externals (sequential (s_add gauss_scalar)) 256 (helmholtz_operator gauss_scalar kd wave_green w) demo_options
    (complex_space screen2_linear) (complex_space screen2_linear) with Ok m => m | _ => [] end.
Definition not_real (m : list gauss) : nat := length (filter (fun a => negb (Qeq_bool (this (snd a)) 0)) m).

Lemma scalars_example :
  null_factor gauss_scalar /\ scalar_map qc_scalar gauss_scalar embed /\ scalar_map gauss_scalar gauss_scalar conj /\
  legal_runtime (s_add gauss_scalar) (sequential (s_add gauss_scalar)) /\
  mapped_space embed screen2_linear (complex_space screen2_linear) /\
  mapped_space conj (complex_space screen2_linear) (complex_space screen2_linear) /\
  (forall kd, dense_setting demo_externals 256 (laplace_operator kd demo_green) demo_options (fun _ _ => 2) (fun _ => 2) Triangle screen2_linear screen2_linear) /\
  (forall kd w, dense_setting demo_externals 256 (helmholtz_operator gauss_scalar kd wave_green w) demo_options (fun _ _ => 2) (fun _ => 2) Triangle
    (complex_space screen2_linear) (complex_space screen2_linear)) /\
  s_cast gauss_scalar (r_neg gauss_scalar (r_mul gauss_scalar 0%Qc 0%Qc)) = s_zero gauss_scalar /\
  (forall i x y, wave_green 0%Qc i x y = embed (demo_green i x y)) /\
  (forall w i x y, wave_green (r_neg gauss_scalar w) i x y = conj (wave_green w i x y)) /\
  (forall w, r_mul gauss_scalar (r_neg gauss_scalar w) (r_neg gauss_scalar w) = r_mul gauss_scalar w w) /\
  map (fun kd => (length (wave_matrix kd (qz 3)), not_real (wave_matrix kd (qz 3)))) [Single; Double; Adjoint; Hypersingular] =
    [(81, 77); (81, 79); (81, 79); (81, 77)].
Proof.
  split; [exact gauss_null|]. split; [exact embed_map|]. split; [exact conj_map|]. split; [apply sequential_legal|].
  split; [apply complex_mapped|]. split; [apply conj_mapped|].
  split; [intros kd; apply linear_dense, (laplace_computes qc_scalar)|]. split; [exact complex_dense|]. split; [reflexivity|].
  split; [exact wave_zero|]. split; [exact wave_opposite|]. split; [intros w; cbn; ring|]. vm_compute. reflexivity.
Qed.

(** ** Rounding *)

(** Complex numbers with fixed point parts, four binary digits after the point;
    products and quotients are rounded towards zero. *)
Open Scope Z_scope.
Definition fixed : Type := Z * Z.
Definition fixed_scalar : scalar fixed Qc :=
  {| s_zero := (0, 0);
     s_add := fun a b => (fst a + fst b, snd a + snd b);
     s_mul := fun a b => (Z.quot (fst a * fst b) 16 - Z.quot (snd a * snd b) 16, Z.quot (fst a * snd b) 16 + Z.quot (snd a * fst b) 16);
     s_sub := fun a b => (fst a - fst b, snd a - snd b);
     s_neg := fun a => (- fst a, - snd a);
     s_div := fun a b => (Z.quot (16 * fst a) (fst b), Z.quot (16 * snd a) (fst b));
     r_zero := 0%Qc; r_mul := Qcmult; r_neg := Qcopp;
     s_cast := fun r => (Qfloor (this r * 16), 0);
     s_large := fun a => negb ((fst a =? 0) && (snd a =? 0)) |}.

Definition fixed_conj (a : fixed) : fixed := (fst a, - snd a).

Lemma fixed_conj_map : scalar_map fixed_scalar fixed_scalar fixed_conj.
Proof.
  constructor; intros; cbn; unfold fixed_conj; cbn [fst snd]; try reflexivity; f_equal; try ring.
  - now rewrite Z.mul_opp_opp.
  - rewrite Z.mul_opp_r, Z.mul_opp_l, !Z.quot_opp_l by discriminate. ring.
  - change (- ((16 * snd a) ÷ fst b) = (16 * - snd a) ÷ fst b). replace (16 * - snd a) with (- (16 * snd a)) by ring. destruct (Z.eq_dec (fst b) 0) as [->|N]; [|now rewrite Z.quot_opp_l].
    now rewrite !Zquot_0_r.
Qed.

(** Multiplication is not associative. *)
Lemma fixed_not_exact : ~ exact fixed_scalar.
Proof.
  intros ((one & RT) & _). assert (E := Rmul_assoc RT (32, 0) (8, 0) (1, 0)). vm_compute in E. discriminate.
Qed.

(** The number rounded towards zero. *)
Definition to_fixed (a : Qc) : Z := Z.quot (Qnum (this a) * 16) (Zpos (Qden (this a))).
Definition fixed_space (fs : fspace Qc Qc) : fspace fixed Qc :=
  mkFspace fixed Qc (fs_grid fs) (fs_family fs) (fs_processes fs) (fs_space fs) (fs_components fs)
    (fun t points d p b j => (to_fixed (fs_basis fs t points d p b j), 0)).
Definition fixed_green (w : Qc) (i : nat) (x y : Qc * Qc * Qc) : fixed :=
  (to_fixed (demo_green i x y), Z.quot (to_fixed w * to_fixed (demo_green (S i) y x)) 16).

Lemma fixed_opposite i x y : fixed_green (qz (-3)) i x y = fixed_conj (fixed_green (qz 3) i x y).
Proof.
  unfold fixed_green, fixed_conj. cbn [fst snd]. f_equal. replace (to_fixed (qz (-3))) with (- to_fixed (qz 3)) by reflexivity.
  rewrite Z.mul_opp_l. apply Z.quot_opp_l. discriminate.
Qed.

Lemma fixed_dense kd w :
  dense_setting demo_externals 256 (helmholtz_operator fixed_scalar kd fixed_green w) demo_options (fun _ _ => 2%nat) (fun _ => 2%nat) Triangle
    (fixed_space screen2_linear) (fixed_space screen2_linear).
Proof.
  refine (mapped_setting (fun a => (to_fixed a, 0)) demo_externals 256 (laplace_operator kd demo_green) _ demo_options _ _ _ screen2_linear screen2_linear _ _ _ _ _ _).
  - constructor; reflexivity.
  - constructor; reflexivity.
  - apply helmholtz_computes.
  - apply linear_dense, (laplace_computes qc_scalar).
Qed.

Definition fixed_matrix (kd : kind) (w : Qc) : list fixed :=
  match assemble fixed_scalar demo_externals (sequential (s_add fixed_scalar)) 256 (helmholtz_operator fixed_scalar kd fixed_green w) demo_options
    (fixed_space screen2_linear) (fixed_space screen2_linear) with Ok m => m | _ => [] end.

Close Scope Z_scope.
Open Scope nat_scope.
Lemma fixed_example :
  ~ exact fixed_scalar /\ scalar_map fixed_scalar fixed_scalar fixed_conj /\
  r_mul fixed_scalar (qz (-3)) (qz (-3)) = r_mul fixed_scalar (qz 3) (qz 3) /\
  (forall i x y, fixed_green (qz (-3)) i x y = fixed_conj (fixed_green (qz 3) i x y)) /\
  mapped_space fixed_conj (fixed_space screen2_linear) (fixed_space screen2_linear) /\
  (forall kd w, dense_setting demo_externals 256 (helmholtz_operator fixed_scalar kd fixed_green w) demo_options (fun _ _ => 2) (fun _ => 2) Triangle
    (fixed_space screen2_linear) (fixed_space screen2_linear)) /\
  map (fun kd => (length (fixed_matrix kd (qz 3)), length (filter (fun a => negb (snd a =? 0)%Z) (fixed_matrix kd (qz 3))))) [Single; Double; Adjoint; Hypersingular] =
    [(81, 77); (81, 79); (81, 79); (81, 77)].
Proof.
  split; [exact fixed_not_exact|]. split; [exact fixed_conj_map|]. split; [vm_compute; reflexivity|]. split; [exact fixed_opposite|].
  split; [constructor; reflexivity|]. split; [exact fixed_dense|]. vm_compute. reflexivity.
Qed.
