(** * Local matrices: a concrete case *)
From Coq Require Import QArith Qcanon.
From Verif Require Import Base BaseFacts Scalar Integrand CellPair Operators SpecLocal LocalFacts LocalResults.

Local Open Scope nat_scope.

(** Exact rational numbers. *)
Definition qz (z : Z) : Qc := Q2Qc (inject_Z z).
Definition qc_large (x : Qc) : bool := negb (Qle_bool (this x * this x) (1 # 100000000000000000000)).
Definition qc_scalar : scalar Qc Qc :=
  mkScalar Qc Qc 0%Qc Qcplus Qcmult Qcminus Qcopp Qcdiv 0%Qc Qcmult Qcopp (fun x => x) qc_large.

Lemma qc_exact : exact qc_scalar.
Proof.
  split.
  - exists 1%Qc. exact Qcrt.
  - exists Qcinv. reflexivity.
Qed.

(** A cell numbered [c]: three points on a line, all data different. *)
Definition demo_cell (c : nat) : cell_map Qc :=
  let z (n : nat) := qz (Z.of_nat n) in
  mkCellMap (fun p i => z (c + p * (i + 1))) (fun p i => z (1 + c * i + p)) (fun p i => z (c + i * i + 2 * p)) (fun p => z (1 + c + p)).
Definition demo_evaluator (n : nat) : evaluator Qc := mkEvaluator n demo_cell.

(** A symmetric kernel with an antisymmetric gradient. *)
Definition demo_green (i : nat) (s t : Qc * Qc * Qc) : Qc :=
  let '(a, b, c) := s in let '(x, y, z) := t in
  match i with
  | 0 => 1 + (a - x) * (a - x) + (b - y) * (b - y) + (c - z) * (c - z)
  | 1 => a - x | 2 => b - y | _ => c - z
  end%Qc.

Definition demo_table (d p b j : nat) : Qc := qz (Z.of_nat (1 + d + 2 * p + 3 * b + j)).

Definition demo_op : operator Qc Qc := helmholtz_hypersingular qc_scalar (fun _ => demo_green) (qz 3).

Definition demo_setup (nt ns : nat) : setup :=
  mkSetup (op_integrand demo_op) (op_kernel demo_op) (demo_evaluator ns)
    (tabulated (op_table_derivs demo_op) nt 3 1 demo_table) (tabulated (op_table_derivs demo_op) ns 3 1 demo_table).

Definition demo_history : list call := [SetTrial 1; Assemble; SetTest 5; SetTest 2; Assemble; SetTest 5; SetTrial 3; SetTrial 4].

Definition weights2 : list Qc := [qz 1; qz 2].
Definition weights3 : list Qc := [qz 1; qz 2; qz 3].

(** The entry (1, 2) after the history, for cells 5 and 4. *)
Definition demo_nonsingular : res Qc :=
  a0 <- nonsingular_new qc_scalar 2 3 4 [2; 5] (demo_setup 2 3) (demo_evaluator 2) weights2 weights3 ;;
  ' am <- foldM (nonsingular_call qc_scalar) demo_history (a0, new_array 0%Qc [3; 3]) ;;
  ' am' <- nonsingular_assemble qc_scalar (fst am) (snd am) ;;
  aget (snd am') [1; 2].

Definition demo_singular : res Qc :=
  ' am <- foldM (singular_call qc_scalar) demo_history
     (singular_new qc_scalar 3 4 (demo_setup 3 3) (demo_evaluator 3) weights3, new_array 0%Qc [3; 3]) ;;
  ' am' <- singular_assemble qc_scalar (fst am) (snd am) ;;
  aget (snd am') [1; 2].

Lemma demo_values :
  shipped qc_scalar demo_op /\
  last_test demo_history None = Some 5 /\ last_trial demo_history None = Some 4 /\
  (exists v w, demo_nonsingular = Ok v /\ demo_singular = Ok w /\ v <> 0%Qc /\ w <> 0%Qc /\
     v = tensor_entry qc_scalar (op_integrand demo_op) demo_green (demo_cell 5) (demo_cell 4)
           (fun d p b => demo_table d p b 0) (fun d p b => demo_table d p b 0) weights2 weights3 1 2 /\
     w = pairwise_entry qc_scalar (op_integrand demo_op) demo_green (demo_cell 5) (demo_cell 4)
           (fun d p b => demo_table d p b 0) (fun d p b => demo_table d p b 0) weights3 1 2).
Proof.
  split; [constructor|]. split; [reflexivity|]. split; [reflexivity|].
  destruct (nonsingular_history qc_scalar demo_op 2 3 1 1 3 3 demo_table demo_table (demo_evaluator 2) (demo_evaluator 3)
    [2; 5] weights2 weights3 demo_history (new_array 0%Qc [3; 3])) as (a0 & E0 & a & m & E & H);
    auto; [apply (shipped_fitting qc_scalar); constructor|discriminate| |].
  { intros c H. cbn in H. repeat (destruct H as [H|H]; [inversion H; subst; cbn; auto|]); contradiction. }
  destruct (H 5 4 eq_refl eq_refl) as (a' & m' & EA & _ & _ & V).
  destruct (singular_history qc_scalar demo_op 3 1 1 3 3 demo_table demo_table (demo_evaluator 3) (demo_evaluator 3)
    weights3 demo_history (new_array 0%Qc [3; 3])) as (b & n & E' & H');
    auto; [apply (shipped_fitting qc_scalar); constructor|].
  destruct (H' 5 4 eq_refl eq_refl) as (b' & n' & EB & _ & _ & W).
  eexists _, _. split; [|split; [|split; [|split; [|split; reflexivity]]]].
  - unfold demo_nonsingular, demo_setup. cbn [op_deriv_size demo_op helmholtz_hypersingular] in E0.
    rewrite E0. cbn [bind]. rewrite E. cbn [bind fst snd]. rewrite EA. cbn [bind snd]. apply V; lia.
  - unfold demo_singular, demo_setup. cbn [op_deriv_size demo_op helmholtz_hypersingular] in E'.
    rewrite E'. cbn [bind fst snd]. rewrite EB. cbn [bind snd]. apply W; lia.
  - intros C. apply (f_equal this) in C. vm_compute in C. discriminate.
  - intros C. apply (f_equal this) in C. vm_compute in C. discriminate.
Qed.
