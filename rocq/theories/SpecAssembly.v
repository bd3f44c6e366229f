(** * Specification vocabulary for the assembly of matrices *)
From Verif Require Import Base Topology DofMap SpecDof Colouring SpecColour Space SpecSpace Options Adjacency SpecAdjacency
  Scalar Integrand CellPair Operators SpecLocal Interleave Assembly.

(** What a list of additions makes of the number at one address, in order. *)
Definition effect {T : Type} (add : T -> T -> T) (x : nat) (ops : list (nat * T)) (v : T) : T :=
  fold_left (fun v o => if fst o =? x then add v (snd o) else v) ops v.

(** The memory after a list of additions made one after the other. *)
Definition after_ops {T : Type} (add : T -> T -> T) (ops : list (nat * T)) (memory : list T) : list T :=
  map (fun xv => effect add (fst xv) ops (snd xv)) (enumerate memory).

(** The address that a task reads or writes next. *)
Definition next_address {T : Type} (t : @thread T) : option nat :=
  match th_ops t with [] => None | (a, _) :: _ => Some a end.

(** Two different tasks are about to access the same address. *)
Definition race {T : Type} (c : @config T) : Prop :=
  exists i j t u a, i <> j /\ nth_error (cf_threads c) i = Some t /\ nth_error (cf_threads c) j = Some u /\
    next_address t = Some a /\ next_address u = Some a.

(** The addresses of all additions of a phase. *)
Definition addresses {T : Type} (tasks : list (list (nat * T))) : list nat := map fst (concat tasks).

(** The DOFs of a cell of a space. *)
Definition dofs_at {T R : Type} (fs : fspace T R) (c : nat) : list nat :=
  match cell_dofs (sp_dofmap (fs_space fs)) c with Ok (Some l) => l | _ => [] end.

(** A space as [FunctionSpace::new] makes it on one process. *)
Record serial_space {T R : Type} (fs : fspace T R) : Prop := {
  ss_grid : wf_grid (fs_grid fs);
  ss_family : wf_family (g_types (fs_grid fs) 2) (fs_family fs);
  ss_pos : head_dim_pos (fs_grid fs) (fs_family fs);
  ss_owned : forall d e, d <= 2 -> e < ent_count (fs_grid fs) d -> g_own (fs_grid fs) d e = Owned;
  ss_dofs : assign_dofs 0 (fs_grid fs) (fs_family fs) = Ok (sp_dofmap (fs_space fs));
  ss_created : exists eager sp, creates 1 eager (fun _ => sp_dofmap (fs_space fs)) sp /\ sp 0 = fs_space fs;
  ss_processes : fs_processes fs = 1
}.

(** Two spaces on the same grid object have the same grid. *)
Definition same_object {T R : Type} (test trial : fspace T R) : Prop :=
  g_id (fs_grid test) = g_id (fs_grid trial) -> fs_grid test = fs_grid trial.

(** The spaces that [FunctionSpace::new] makes on [N] processes. *)
Record distributed_space {T R : Type} (N : nat) (fs : nat -> fspace T R) : Prop := {
  ds_dist : wf_dist N (fun r => fs_grid (fs r)) (fs_family (fs 0));
  ds_family : forall r, r < N -> fs_family (fs r) = fs_family (fs 0);
  ds_dofs : dofmaps N (fun r => fs_grid (fs r)) (fs_family (fs 0)) (fun r => sp_dofmap (fs_space (fs r)));
  ds_created : exists eager sp, creates N eager (fun r => sp_dofmap (fs_space (fs r))) sp /\
    forall r, r < N -> sp r = fs_space (fs r);
  ds_processes : forall r, r < N -> fs_processes (fs r) = N
}.

(** One of them. *)
Definition member {T R : Type} (fs : fspace T R) : Prop :=
  exists N all r, distributed_space N all /\ r < N /\ all r = fs.

(** Quadrature rules have as many points as weights. *)
Record proper_rules {R : Type} (X : externals R) : Prop := {
  pr_simplex : forall t n q, x_simplex X t n = Some q -> length (qd_points q) = 2 * n /\ length (qd_weights q) = n;
  pr_duffy : forall k d p n q, x_duffy X k d p n = Some q ->
    length (pq_test q) = 2 * length (pq_weights q) /\ length (pq_trial q) = 2 * length (pq_weights q)
}.

(** There are singular rules for the given degrees. *)
Definition has_duffy {R : Type} (X : externals R) (types : list cell_type) (deg : cell_type -> cell_type -> nat) : Prop :=
  forall t s p kind, In t types -> In s types -> In p (possible_pairs t s) -> duffy_for t s = Some kind ->
    exists q, x_duffy X kind (connectivity_dimension p) p (deg t s) = Some q.

(** There are regular rules for the given numbers of points. *)
Definition has_simplex {R : Type} (X : externals R) (o : options) (types : list cell_type) (pts : cell_type -> nat) : Prop :=
  forall t, In t types -> get_regular_quadrature_degree t o = Some (pts t) /\ exists q, x_simplex X t (pts t) = Some q.

(** Elements with at least one component. *)
Definition has_components {T R : Type} (fs : fspace T R) : Prop :=
  forall t, In t (g_types (fs_grid fs) 2) -> 0 < fs_components fs t.

(** The grid is a surface in space. *)
Definition in_space {T R : Type} (fs : fspace T R) : Prop := g_gdim (fs_grid fs) = 3.

(** The value computed for test function [a] of cell [t] and trial function [b] of
    cell [s], two cells that touch: the Duffy rule for what the cells have in common,
    for the number of points in the options. *)
Definition singular_value {T R : Type} (S : scalar T R) (X : externals R) (O : operator T R) (deg : cell_type -> cell_type -> nat)
    (test trial : fspace T R) (t s a b : nat) (v : T) : Prop :=
  let g := fs_grid test in
  let tt := g_ctype g t in
  let st := g_ctype g s in
  exists pairs kind dim q,
    adjacency g t s pairs /\ duffy_for tt st = Some kind /\ shared_dimension g t s dim /\
    x_duffy X kind dim pairs (deg tt st) = Some q /\
    v = pairwise_entry S (op_integrand O) (kn_value (op_kernel O))
          (x_geometry X g tt (pq_test q) t) (x_geometry X g st (pq_trial q) s)
          (fun d p i => fs_basis test tt (pq_test q) d p i 0)
          (fun d p i => fs_basis trial st (pq_trial q) d p i 0) (pq_weights q) a b.

(** The value for two cells that do not touch: the product of the rules for the cell
    types. *)
Definition regular_value {T R : Type} (S : scalar T R) (X : externals R) (O : operator T R) (pts : cell_type -> nat)
    (test trial : fspace T R) (t s a b : nat) (v : T) : Prop :=
  let tt := g_ctype (fs_grid test) t in
  let st := g_ctype (fs_grid trial) s in
  exists qt qs, x_simplex X tt (pts tt) = Some qt /\ x_simplex X st (pts st) = Some qs /\
    v = tensor_entry S (op_integrand O) (kn_value (op_kernel O))
          (x_geometry X (fs_grid test) tt (qd_points qt) t) (x_geometry X (fs_grid trial) st (qd_points qs) s)
          (fun d p i => fs_basis test tt (qd_points qt) d p i 0)
          (fun d p i => fs_basis trial st (qd_points qs) d p i 0) (qd_weights qt) (qd_weights qs) a b.

(** The cells touch: they belong to the same grid object and share a vertex. *)
Definition touching {T R : Type} (test trial : fspace T R) (t s : nat) : Prop :=
  g_id (fs_grid test) = g_id (fs_grid trial) /\ touch (fs_grid test) t s.

(** The triplets of a sparse matrix. *)
Definition triplets {T : Type} (m : sparse T) : list (nat * nat * T) := combine (combine (sm_rows m) (sm_cols m)) (sm_data m).

(** A triplet of the pair of cells [(t, s)]: global numbers of the DOFs of basis
    functions [a] and [b], and their value. *)
Definition triplet_of {T R : Type} (test trial : fspace T R) (value : nat -> nat -> nat -> nat -> T -> Prop) (t s a b : nat)
    (x : nat * nat * T) : Prop :=
  exists i j, nth_error (dofs_at test t) a = Some i /\ nth_error (dofs_at trial s) b = Some j /\
    global_dof_index (fs_space test) i = Ok (fst (fst x)) /\ global_dof_index (fs_space trial) j = Ok (snd (fst x)) /\
    value t s a b (snd x).

(** What the singular part of the assembly relies on: spaces on one conforming grid
    in space, sizes that fit together, and an external crate that has the rules. *)
Record singular_setting {T R : Type} (X : externals R) (wmod : nat) (O : operator T R) (o : options)
    (deg : cell_type -> cell_type -> nat) (test trial : fspace T R) : Prop := {
  sg_test : member test;
  sg_trial : member trial;
  sg_same : fs_grid test = fs_grid trial;
  sg_space : in_space test;
  sg_ct : has_components test;
  sg_cs : has_components trial;
  sg_fitting : fitting O;
  sg_proper : proper_rules X;
  sg_degrees : has_degrees o (g_types (fs_grid test) 2) deg;
  sg_duffy : has_duffy X (g_types (fs_grid test) 2) deg;
  sg_conforming : conforming (fs_grid test);
  sg_batch : 0 < get_batch_size o;
  sg_batch_fits : get_batch_size o < wmod;
  sg_pairs_fit : pairs_fit wmod (fs_grid test)
}.

(** The labels (test cell, trial cell, test function, trial function) of the singular
    contributions: an owned test cell, a touching trial cell. *)
Definition singular_label {T R : Type} (test trial : fspace T R) (k : (nat * nat) * (nat * nat)) : Prop :=
  let '((t, s), (a, b)) := k in
  let g := fs_grid test in
  t < ent_count g 2 /\ s < ent_count g 2 /\ g_own g 2 t = Owned /\ touch g t s /\
  a < length (dofs_at test t) /\ b < length (dofs_at trial s).

(** What dense assembly relies on: serial spaces whose grids have only cells of one
    type [ct], with [pts ct] points of the regular rule, and, if they are on the same
    grid, the above. *)
Record dense_setting {T R : Type} (X : externals R) (wmod : nat) (O : operator T R) (o : options)
    (deg : cell_type -> cell_type -> nat) (pts : cell_type -> nat) (ct : cell_type) (test trial : fspace T R) : Prop := {
  dn_test : serial_space test;
  dn_trial : serial_space trial;
  dn_same : same_object test trial;
  dn_test_type : g_types (fs_grid test) 2 = [ct];
  dn_trial_type : g_types (fs_grid trial) 2 = [ct];
  dn_test_space : in_space test;
  dn_trial_space : in_space trial;
  dn_ct : has_components test;
  dn_cs : has_components trial;
  dn_fitting : fitting O;
  dn_proper : proper_rules X;
  dn_simplex : has_simplex X o [ct] pts;
  dn_batch : 0 < get_batch_size o;
  dn_batch_fits : get_batch_size o < wmod;
  dn_test_cells : 2 * ent_count (fs_grid test) 2 <= wmod;
  dn_trial_cells : 2 * ent_count (fs_grid trial) 2 <= wmod;
  dn_singular : g_id (fs_grid test) = g_id (fs_grid trial) ->
    has_degrees o [ct] deg /\ has_duffy X [ct] deg /\ conforming (fs_grid test) /\ pairs_fit wmod (fs_grid test)
}.

(** Sums. *)
Definition total {T R A : Type} (S : scalar T R) (l : list A) (f : A -> T) : T :=
  fold_right (fun x acc => s_add S (f x) acc) (s_zero S) l.

(** The sum of the values [val] over all pairs of cells and all pairs of basis
    functions with DOFs [i] and [j]. *)
Definition matrix_entry {T R : Type} (S : scalar T R) (val : nat -> nat -> nat -> nat -> T) (test trial : fspace T R) (i j : nat) : T :=
  total S (seq 0 (ent_count (fs_grid test) 2)) (fun t =>
    total S (seq 0 (ent_count (fs_grid trial) 2)) (fun s =>
      total S (enumerate (dofs_at test t)) (fun ai =>
        total S (enumerate (dofs_at trial s)) (fun bj =>
          if (snd ai =? i) && (snd bj =? j) then val t s (fst ai) (fst bj) else s_zero S)))).

(** The values of pairs of cells: singular rule if they touch, tensor rule if not. *)
Definition pair_value {T R : Type} (S : scalar T R) (X : externals R) (O : operator T R) (deg : cell_type -> cell_type -> nat)
    (pts : cell_type -> nat) (test trial : fspace T R) (t s a b : nat) (v : T) : Prop :=
  (touching test trial t s /\ singular_value S X O deg test trial t s a b v) \/
  (~ touching test trial t s /\ regular_value S X O pts test trial t s a b v).
