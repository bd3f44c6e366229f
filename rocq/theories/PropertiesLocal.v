(** * Properties C36-C38: local matrices *)
From Verif Require Import Base Scalar Integrand CellPair Operators SpecLocal LocalResults LocalArrays LocalExamples.

(** C36: whatever was called before, with [t] and [s] the cells set last, [assemble]
    fills the local matrix with the tensor quadrature formula for [t] and [s].  For
    every arithmetic, every operator whose sizes fit, every batch of test cells. *)
Theorem C36_tensor_formula : forall (T R : Type) (S : scalar T R) (op : operator T R)
    nt ns vt vs dt ds ft fs (tev sev : evaluator R) cells wt ws h (m0 : array T),
  fitting op -> 0 < vt -> 0 < vs -> ev_npts tev = nt -> ev_npts sev = ns -> length wt = nt -> length ws = ns ->
  a_shape m0 = [dt; ds] -> cells <> [] -> (forall c, In (SetTest c) h -> In c cells) ->
  exists a0, nonsingular_new S nt ns (op_deriv_size op) cells
      (mkSetup (op_integrand op) (op_kernel op) sev
         (tabulated (op_table_derivs op) nt dt vt ft) (tabulated (op_table_derivs op) ns ds vs fs)) tev wt ws = Ok a0 /\
  exists a m, foldM (nonsingular_call S) h (a0, m0) = Ok (a, m) /\
    forall t s, last_test h None = Some t -> last_trial h None = Some s ->
    exists a' m', nonsingular_assemble S a m = Ok (a', m') /\ a_shape m' = [dt; ds] /\ length (a_data m') = dt * ds /\
      forall i j, i < dt -> j < ds ->
        aget m' [i; j] = Ok (tensor_entry S (op_integrand op) (kn_value (op_kernel op)) (ev_cell tev t) (ev_cell sev s)
          (fun d p b => ft d p b 0) (fun d p b => fs d p b 0) wt ws i j).
Proof. exact (@nonsingular_history). Qed.
Print Assumptions C36_tensor_formula.

(** A test cell outside the batch is refused. *)
Theorem C36_other_cells_refused : forall (T R : Type) (S : scalar T R) nt ns nk cells su tev (wt ws : list R) a0 c,
  ev_npts tev = nt -> nonsingular_new S nt ns nk cells su tev wt ws = Ok a0 ->
  ~ In c cells -> nonsingular_set_test c a0 = Panic.
Proof. exact (@nonsingular_set_test_outside). Qed.
Print Assumptions C36_other_cells_refused.

(** C37: the same for touching cells. *)
Theorem C37_pairwise_formula : forall (T R : Type) (S : scalar T R) (op : operator T R)
    n vt vs dt ds ft fs (tev sev : evaluator R) w h (m0 : array T),
  fitting op -> 0 < vt -> 0 < vs -> ev_npts tev = n -> ev_npts sev = n -> length w = n -> a_shape m0 = [dt; ds] ->
  exists a m,
    foldM (singular_call S) h
      (singular_new S n (op_deriv_size op)
         (mkSetup (op_integrand op) (op_kernel op) sev
            (tabulated (op_table_derivs op) n dt vt ft) (tabulated (op_table_derivs op) n ds vs fs)) tev w, m0) = Ok (a, m) /\
    forall t s, last_test h None = Some t -> last_trial h None = Some s ->
    exists a' m', singular_assemble S a m = Ok (a', m') /\ a_shape m' = [dt; ds] /\ length (a_data m') = dt * ds /\
      forall i j, i < dt -> j < ds ->
        aget m' [i; j] = Ok (pairwise_entry S (op_integrand op) (kn_value (op_kernel op)) (ev_cell tev t) (ev_cell sev s)
          (fun d p b => ft d p b 0) (fun d p b => fs d p b 0) w i j).
Proof. exact (@singular_history). Qed.
Print Assumptions C37_pairwise_formula.

(** C38: for the eight operators of [laplace] and [helmholtz], with arrays of the
    sizes the assembler allocates for them, the kernel fills its array exactly and
    no read of an integrand leaves an array. *)
Theorem C38_reads_inside : forall (T R : Type) (S : scalar T R) (op : operator T R)
    nt ns dt ds vt vs test_table trial_table k k2 gt gs p q a b,
  shipped S op -> 0 < vt -> 0 < vs ->
  allocated [deriv_count (op_table_derivs op); nt; dt; vt] test_table ->
  allocated [deriv_count (op_table_derivs op); ns; ds; vs] trial_table ->
  geometry_allocated nt gt -> geometry_allocated ns gs ->
  allocated [op_deriv_size op; nt; ns] k -> allocated [op_deriv_size op; nt] k2 ->
  p < nt -> q < ns -> a < dt -> b < ds ->
  components (kn_type (op_kernel op)) = op_deriv_size op /\
  (exists v, evaluate_nonsingular S (op_integrand op) test_table trial_table p q a b k gt gs = Ok v) /\
  (nt = ns -> exists v, evaluate_singular S (op_integrand op) test_table trial_table p a b k2 gt gs = Ok v).
Proof. exact (@shipped_reads). Qed.
Print Assumptions C38_reads_inside.

(** The assemblers allocate the geometry arrays of these sizes, and setting a cell
    writes them and keeps the sizes. *)
Theorem C38_arrays : forall (T R : Type) (S : scalar T R) (ev : evaluator R),
  geometry_allocated (ev_npts ev) (geometry_of (new_arrays S (ev_npts ev))) /\
  forall c a, geometry_allocated (ev_npts ev) (geometry_of a) -> allocated [3; ev_npts ev] (ca_pts a) ->
    exists a', write_arrays ev c a = Ok a' /\ geometry_allocated (ev_npts ev) (geometry_of a') /\ allocated [3; ev_npts ev] (ca_pts a').
Proof. exact arrays_allocated. Qed.
Print Assumptions C38_arrays.

(** So [C36_tensor_formula] and [C37_pairwise_formula] apply to the eight operators. *)
Theorem C38_operators_fit : forall (T R : Type) (S : scalar T R) (op : operator T R), shipped S op -> fitting op.
Proof. exact (@shipped_fitting). Qed.
Print Assumptions C38_operators_fit.

(** The order of derivatives chosen for the hypersingular operator is needed: with
    tables of values only, the integrand reads outside them. *)
Theorem C38_derivatives_needed : forall (T R : Type) (S : scalar T R) (G : green) nt ns dt vs
    test_table trial_table k gt gs p q a b,
  allocated [deriv_count 0; nt; dt; vs] test_table ->
  evaluate_nonsingular S (op_integrand (@laplace_hypersingular T R G)) test_table trial_table p q a b
    (mkArray [4; nt; ns] k) gt gs = UB.
Proof. exact (@hypersingular_needs_derivatives). Qed.
Print Assumptions C38_derivatives_needed.

(** Non-vacuity: the Helmholtz hypersingular operator in rational arithmetic, a
    history with changes of both cells. *)
Example C36_C37_hypotheses_met :
  shipped qc_scalar demo_op /\
  last_test demo_history None = Some 5 /\ last_trial demo_history None = Some 4 /\
  (exists v w, demo_nonsingular = Ok v /\ demo_singular = Ok w /\ v <> s_zero qc_scalar /\ w <> s_zero qc_scalar /\
     v = tensor_entry qc_scalar (op_integrand demo_op) demo_green (demo_cell 5) (demo_cell 4)
           (fun d p b => demo_table d p b 0) (fun d p b => demo_table d p b 0) weights2 weights3 1 2 /\
     w = pairwise_entry qc_scalar (op_integrand demo_op) demo_green (demo_cell 5) (demo_cell 4)
           (fun d p b => demo_table d p b 0) (fun d p b => demo_table d p b 0) weights3 1 2).
Proof. exact demo_values. Qed.
