(** * Specification for the isometries of the sphere grid *)
From Coq Require Import Reals.
From Verif Require Import Base SpecSphere SpecWaves.

(** The map keeps distances: a rotation, a reflection, a translation or a combination. *)
Definition rigid (T : vec -> vec) : Prop := forall p q, SpecWaves.distance (T p) (T q) = SpecWaves.distance p q.
