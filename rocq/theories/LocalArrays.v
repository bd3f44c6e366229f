(** * The geometry arrays that the assemblers allocate *)
From Verif Require Import Base BaseFacts Scalar Integrand CellPair Operators SpecLocal LocalFacts.

Theorem arrays_allocated (T R : Type) (S : scalar T R) (ev : evaluator R) :
  geometry_allocated (ev_npts ev) (geometry_of (new_arrays S (ev_npts ev))) /\
  forall c a, geometry_allocated (ev_npts ev) (geometry_of a) -> allocated [3; ev_npts ev] (ca_pts a) ->
    exists a', write_arrays ev c a = Ok a' /\ geometry_allocated (ev_npts ev) (geometry_of a') /\ allocated [3; ev_npts ev] (ca_pts a').
Proof.
  split.
  - unfold geometry_allocated, allocated, geometry_of, new_arrays, new_array. cbn [ge_normals ge_jacobians ge_jdets ca_normals ca_jacobians ca_jdets a_shape a_data]. rewrite !repeat_length. auto.
  - intros c [ap an aj ad] ((N1 & N2) & (J1 & J2) & Dl) (P1 & P2). cbn [geometry_of ge_normals ge_jacobians ge_jdets ca_normals ca_jacobians ca_jdets ca_pts] in *.
    unfold size_of in N2, J2, P2. cbn [fold_right] in N2, J2, P2. rewrite Nat.mul_1_r in N2, J2, P2.
    unfold write_arrays, write_points, write_normals, write_jacobians, write_jdets. cbn [ca_normals ca_jacobians ca_jdets ca_pts]. rewrite N2, J2, P2, Dl, !Nat.eqb_refl. cbn [bind].
    eexists. split; [reflexivity|]. unfold geometry_allocated, allocated, geometry_of, fill. cbn [ge_normals ge_jacobians ge_jdets ca_normals ca_jacobians ca_jdets ca_pts a_shape a_data].
    rewrite N1, J1, P1, !length_table2, map_length, seq_length. unfold size_of. cbn [fold_right]. rewrite !Nat.mul_1_r. auto.
Qed.
