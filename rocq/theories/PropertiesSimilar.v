(** * Property C77: moved and scaled grids *)
From Coq Require Import QArith Qcanon.
From Verif Require Import Base Topology DofMap Space Options Scalar Integrand CellPair Operators SpecLocal SpecOperators Interleave Assembly SpecAssembly AssemblyResults
  SpecAlgebra SpecSimilar SimilarResults LocalExamples AssemblyExamples AlgebraExamples SimilarExamples.
Local Open Scope nat_scope.

(** C77: if the grid is moved, reflected and scaled, the matrices are multiplied with
    the factor that belongs to the operator. *)
Theorem C77_laplace : forall (T R : Type) (S : scalar T R) move A scale sign mu (G G' : @green T R) kd (X X' : externals R) rt rt' wmod o deg pts ct (test trial : fspace T R),
  exact S -> exact_cast S -> orthogonal S A -> divides_out S scale -> similar_green S move A scale mu G G' ->
  legal_runtime (s_add S) rt -> legal_runtime (s_add S) rt' ->
  similar_externals S move A scale sign (fs_grid test) X X' -> similar_externals S move A scale sign (fs_grid trial) X X' ->
  dense_setting X wmod (laplace_operator kd G) o deg pts ct test trial ->
  exists m m', assemble S X rt wmod (laplace_operator kd G) o trial test = Ok m /\
    assemble S X' rt' wmod (laplace_operator kd G') o trial test = Ok m' /\
    m' = map (s_mul S (similarity_factor S scale sign mu kd)) m.
Proof. exact (@laplace_similar). Qed.
Print Assumptions C77_laplace.

(** The wavenumber is divided by the scale. *)
Theorem C77_helmholtz : forall (T R : Type) (S : scalar T R) move A scale sign mu (G G' : R -> @green T R) k k' kd (X X' : externals R) rt rt' wmod o deg pts ct (test trial : fspace T R),
  exact S -> exact_cast S -> orthogonal S A -> divides_out S scale -> (forall x, s_mul S sign (s_mul S sign x) = x) ->
  s_cast S k = s_mul S scale (s_cast S k') -> similar_green S move A scale mu (G k) (G' k') ->
  legal_runtime (s_add S) rt -> legal_runtime (s_add S) rt' ->
  similar_externals S move A scale sign (fs_grid test) X X' -> similar_externals S move A scale sign (fs_grid trial) X X' ->
  dense_setting X wmod (helmholtz_operator S kd G k) o deg pts ct test trial ->
  exists m m', assemble S X rt wmod (helmholtz_operator S kd G k) o trial test = Ok m /\
    assemble S X' rt' wmod (helmholtz_operator S kd G' k') o trial test = Ok m' /\
    m' = map (s_mul S (similarity_factor S scale sign mu kd)) m.
Proof. exact (@helmholtz_similar). Qed.
Print Assumptions C77_helmholtz.

(** The same for the singular parts, on any number of processes. *)
Theorem C77_laplace_singular : forall (T R : Type) (S : scalar T R) move A scale sign mu (G G' : @green T R) kd (X X' : externals R) rt rt' wmod o deg (test trial : fspace T R),
  exact S -> exact_cast S -> orthogonal S A -> divides_out S scale -> similar_green S move A scale mu G G' ->
  legal_runtime (s_add S) rt -> legal_runtime (s_add S) rt' ->
  similar_externals S move A scale sign (fs_grid test) X X' ->
  singular_setting X wmod (laplace_operator kd G) o deg test trial ->
  exists m m',
    assemble_singular_part S X rt wmod (laplace_operator kd G) o (global_size (fs_space test), global_size (fs_space trial)) trial test = Ok m /\
    assemble_singular_part S X' rt' wmod (laplace_operator kd G') o (global_size (fs_space test), global_size (fs_space trial)) trial test = Ok m' /\
    sm_rows m' = sm_rows m /\ sm_cols m' = sm_cols m /\ sm_data m' = map (s_mul S (similarity_factor S scale sign mu kd)) (sm_data m).
Proof. exact (@laplace_similar_singular). Qed.
Print Assumptions C77_laplace_singular.

Theorem C77_helmholtz_singular : forall (T R : Type) (S : scalar T R) move A scale sign mu (G G' : R -> @green T R) k k' kd (X X' : externals R) rt rt' wmod o deg (test trial : fspace T R),
  exact S -> exact_cast S -> orthogonal S A -> divides_out S scale -> (forall x, s_mul S sign (s_mul S sign x) = x) ->
  s_cast S k = s_mul S scale (s_cast S k') -> similar_green S move A scale mu (G k) (G' k') ->
  legal_runtime (s_add S) rt -> legal_runtime (s_add S) rt' ->
  similar_externals S move A scale sign (fs_grid test) X X' ->
  singular_setting X wmod (helmholtz_operator S kd G k) o deg test trial ->
  exists m m',
    assemble_singular_part S X rt wmod (helmholtz_operator S kd G k) o (global_size (fs_space test), global_size (fs_space trial)) trial test = Ok m /\
    assemble_singular_part S X' rt' wmod (helmholtz_operator S kd G' k') o (global_size (fs_space test), global_size (fs_space trial)) trial test = Ok m' /\
    sm_rows m' = sm_rows m /\ sm_cols m' = sm_cols m /\ sm_data m' = map (s_mul S (similarity_factor S scale sign mu kd)) (sm_data m).
Proof. exact (@helmholtz_similar_singular). Qed.
Print Assumptions C77_helmholtz_singular.

(** Rotations and translations change nothing. *)
Theorem C77_laplace_rigid : forall (T R : Type) (S : scalar T R) move A u (G G' : @green T R) kd (X X' : externals R) rt rt' wmod o deg pts ct (test trial : fspace T R),
  exact S -> exact_cast S -> orthogonal S A -> (forall x, s_mul S u x = x) -> similar_green S move A u u G G' ->
  legal_runtime (s_add S) rt -> legal_runtime (s_add S) rt' ->
  similar_externals S move A u u (fs_grid test) X X' -> similar_externals S move A u u (fs_grid trial) X X' ->
  dense_setting X wmod (laplace_operator kd G) o deg pts ct test trial ->
  exists m, assemble S X rt wmod (laplace_operator kd G) o trial test = Ok m /\
    assemble S X' rt' wmod (laplace_operator kd G') o trial test = Ok m.
Proof. exact (@laplace_rigid). Qed.
Print Assumptions C77_laplace_rigid.

Theorem C77_helmholtz_rigid : forall (T R : Type) (S : scalar T R) move A u (G G' : R -> @green T R) k kd (X X' : externals R) rt rt' wmod o deg pts ct (test trial : fspace T R),
  exact S -> exact_cast S -> orthogonal S A -> (forall x, s_mul S u x = x) -> similar_green S move A u u (G k) (G' k) ->
  legal_runtime (s_add S) rt -> legal_runtime (s_add S) rt' ->
  similar_externals S move A u u (fs_grid test) X X' -> similar_externals S move A u u (fs_grid trial) X X' ->
  dense_setting X wmod (helmholtz_operator S kd G k) o deg pts ct test trial ->
  exists m, assemble S X rt wmod (helmholtz_operator S kd G k) o trial test = Ok m /\
    assemble S X' rt' wmod (helmholtz_operator S kd G' k) o trial test = Ok m.
Proof. exact (@helmholtz_rigid). Qed.
Print Assumptions C77_helmholtz_rigid.

(** Non-vacuity: a reflection, scaling by 2 and translation; the factors are 8, -4,
    -4 and 2. *)
Example C77_hypotheses_met :
  exact qc_scalar /\ exact_cast qc_scalar /\ orthogonal qc_scalar swap_axes /\ divides_out qc_scalar two /\
  (forall x, s_mul qc_scalar minus (s_mul qc_scalar minus x) = x) /\
  s_cast qc_scalar (qz 6) = s_mul qc_scalar two (s_cast qc_scalar (qz 3)) /\
  similar_green qc_scalar swap_move swap_axes two half (wave_green (qz 6)) (wave_green (qz 3)) /\
  similar_externals qc_scalar swap_move swap_axes two minus (fs_grid screen2_linear) demo_externals moved_externals /\
  legal_runtime (s_add qc_scalar) demo_rt /\
  (forall kd, dense_setting demo_externals 256 (helmholtz_operator qc_scalar kd wave_green (qz 6)) demo_options (fun _ _ => 2) (fun _ => 2) Triangle screen2_linear screen2_linear) /\
  map (fun kd => this (similarity_factor qc_scalar two minus half kd)) [Single; Double; Adjoint; Hypersingular] = [8 # 1; - (4) # 1; - (4) # 1; 2 # 1]%Q /\
  map moved_check [Single; Double; Adjoint; Hypersingular] = [(true, true); (true, true); (true, true); (true, true)].
Proof. exact similar_example. Qed.
