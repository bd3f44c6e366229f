(** * Property C74: grids with triangles and quadrilaterals *)
From Verif Require Import Base Topology TopologyFacts DofMap Colouring Space Options Adjacency Scalar Integrand CellPair Operators SpecLocal LocalExamples
  Interleave Assembly SpecAssembly AssemblyExamples MixedResults MixedExamples.

(** C74 is false: for piecewise constant functions the matrix is returned, but the
    entry of two cells of different types that do not touch is not the value of the
    quadrature formula. *)
Theorem C74_refuted : exists (X : externals _) (O : operator _ _) o pts test trial t s i j result v,
  shipped qc_scalar O /\ serial_space test /\ serial_space trial /\ in_space test /\ fs_grid test = fs_grid trial /\
  proper_rules X /\ has_simplex X o (g_types (fs_grid test) 2) pts /\
  t < ent_count (fs_grid test) 2 /\ s < ent_count (fs_grid trial) 2 /\ ~ touching test trial t s /\
  g_ctype (fs_grid test) t = Quadrilateral /\ g_ctype (fs_grid trial) s = Triangle /\ pts Triangle = pts Quadrilateral /\
  dofs_at test t = [i] /\ dofs_at trial s = [j] /\
  (forall rt, legal_runtime (s_add qc_scalar) rt -> assemble qc_scalar X rt 256 O o trial test = Ok result) /\
  nth_error result (i + global_size (fs_space test) * j) = Some v /\
  forall w, regular_value qc_scalar X O pts test trial t s 0 0 w -> v <> w.
Proof. exact mixed_constant_refuted. Qed.
Print Assumptions C74_refuted.

(** What holds: if the elements of the two types have different dimensions in the
    wrong direction, no matrix is returned, for every operator, arithmetic and
    schedule. *)
Theorem C74_different_dimensions : forall (T R : Type) (S : scalar T R) (X : externals R) rt wmod (O : operator T R) o trial test output t s nt ns,
  serial_space test -> serial_space trial -> same_object test trial -> proper_rules X ->
  t < ent_count (fs_grid test) 2 -> s < ent_count (fs_grid trial) 2 -> ~ touching test trial t s ->
  get_regular_quadrature_degree (g_ctype (fs_grid test) t) o = Some nt -> 0 < nt ->
  get_regular_quadrature_degree (g_ctype (fs_grid trial) s) o = Some ns -> 0 < ns ->
  (el_dim (fs_family test (g_ctype (fs_grid test) t)) < el_dim (fs_family test (g_ctype (fs_grid trial) s)) /\
     0 < el_dim (fs_family trial (g_ctype (fs_grid test) t)) \/
   el_dim (fs_family trial (g_ctype (fs_grid trial) s)) < el_dim (fs_family trial (g_ctype (fs_grid test) t)) /\
     0 < el_dim (fs_family test (g_ctype (fs_grid trial) s))) ->
  forall result, assemble_into_memory S X rt wmod O o trial test output <> Ran (Ok result).
Proof. exact (@mixed_dimensions_fail). Qed.
Print Assumptions C74_different_dimensions.

(** So continuous Lagrange functions of any degree never get a matrix when a triangle
    and a quadrilateral do not touch. *)
Theorem C74_continuous : forall (T R : Type) (S : scalar T R) (X : externals R) rt wmod (O : operator T R) o p q trial test output t s pts,
  serial_space test -> serial_space trial -> same_object test trial -> proper_rules X ->
  fs_family test = lagrange p -> fs_family trial = lagrange q ->
  t < ent_count (fs_grid test) 2 -> s < ent_count (fs_grid trial) 2 -> ~ touching test trial t s ->
  g_ctype (fs_grid test) t <> g_ctype (fs_grid trial) s ->
  (forall ct, surface_type ct -> get_regular_quadrature_degree ct o = Some (pts ct) /\ 0 < pts ct) ->
  forall result, assemble_into_memory S X rt wmod O o trial test output <> Ran (Ok result).
Proof. exact mixed_lagrange_fail. Qed.
Print Assumptions C74_continuous.

Example C74_hypotheses_met : exists t s, serial_space apart_p1 /\ same_object apart_p1 apart_p1 /\ proper_rules demo_externals /\
  fs_family apart_p1 = lagrange 1 /\ t < ent_count (fs_grid apart_p1) 2 /\ s < ent_count (fs_grid apart_p1) 2 /\ ~ touching apart_p1 apart_p1 t s /\
  g_ctype (fs_grid apart_p1) t <> g_ctype (fs_grid apart_p1) s /\
  forall ct, surface_type ct -> get_regular_quadrature_degree ct demo_options = Some 2 /\ 0 < 2.
Proof. exact mixed_hypotheses. Qed.
