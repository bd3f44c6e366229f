(** * What the operators compute *)
From Coq Require Import QArith Qcanon.
From Verif Require Import Base Scalar Integrand CellPair Operators SpecLocal LocalResults LocalExamples SpecOperators.
Open Scope nat_scope.

Section Results.
Context {T R : Type} (S : scalar T R).

Theorem laplace_computes kd (G : @green T R) : computes S (laplace_operator kd G) G (form S kd None).
Proof.
  split; [now destruct kd|]. split; [destruct kd; apply (shipped_fitting S); constructor|]. split; [now destruct kd|].
  intros k phi psi x p y q. destruct kd; reflexivity.
Qed.

Theorem helmholtz_computes kd (G : R -> @green T R) w :
  computes S (helmholtz_operator S kd G w) (G w) (form S kd (Some (s_cast S (r_neg S (r_mul S w w))))).
Proof.
  split; [now destruct kd|]. split; [destruct kd; apply (shipped_fitting S); constructor|]. split; [now destruct kd|].
  intros k phi psi x p y q. destruct kd; reflexivity.
Qed.
End Results.

(** The forms differ: their values for one choice of the arguments. *)
Definition form_values : list Q :=
  map (fun kf => this (form qc_scalar (fst kf) (snd kf) (fun i => demo_green i (position (demo_cell 5) 0) (position (demo_cell 3) 1))
         (fun d => demo_table d 0 1 0) (fun d => demo_table d 1 2 0) (demo_cell 5) 0 (demo_cell 3) 1))
    [(Single, None); (Double, None); (Adjoint, None); (Hypersingular, None); (Hypersingular, Some (qz (-9)))].
Fixpoint distinct (l : list Q) : bool :=
  match l with [] => true | x :: r => negb (existsb (Qeq_bool x) r) && distinct r end.
Lemma forms_differ : distinct form_values = true.
Proof. vm_compute. reflexivity. Qed.
