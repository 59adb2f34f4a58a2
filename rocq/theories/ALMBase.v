(** Model of the arc-length solvers: src/gsALMSolvers/gsALMBase.h/.hpp and the four methods
    gsALMLoadControl, gsALMRiks, gsALMCrisfield, gsALMConsistentCrisfield (.h/.hpp).
    In this file: state, step() and the methods. Singular points: ALMSingular.v.

    Simplifications, beside those of DESIGN.md:
    - vectors are elements of an inner-product space, matrices are an abstract type;
    - a member that the constructors leave uninitialised has an arbitrary value;
    - where the code divides by zero (NaN or infinity in a member) the model stops with
      [ENaN]; the code goes on, but a NaN never passes the test m_residueU < m_toleranceU;
    - m_note, m_residueL and the coefficients m_a0..m_c2, m_alpha1..3, m_eta of Crisfield,
      which are written before each use, are not members of the state;
    - MaxIter is a natural number (a negative one behaves as 0). *)
From Verif Require Import VS Status.
Local Open Scope R_scope.

(** a / b; None stands for inf or NaN *)
Definition rdiv (a b : R) : option R := if Reqb b 0 then None else Some (a / b).
(** a < b for a possibly infinite or NaN a *)
Definition oltb (a : option R) (b : R) : bool := match a with Some a => Rltb a b | None => false end.

Inductive kind := LoadControl | Riks | Crisfield | ConsistentCrisfield.
(** gsALMBase.h l.393-401 *)
Inductive bifMethod := BifNothing | BifDeterminant | BifEigenvalue | BifUnknown.
(** gsALMCrisfield.h: struct angmethod *)
Inductive angleMethod := AngStep | AngIteration | AngPredictor.

Section ALM.
Context {S : VS} {Mat : Type}.

(** What the user and the linear algebra library provide. [p_residual U L] is
    m_residualFun, [p_jacobian U dU] is m_djacobian (None: returned false),
    [p_factor] whether the factorisation succeeds, [p_solve] the solution with a
    factorised matrix (None: an exception), [p_diag] vectorD() of the LDLT factorisation,
    [p_eig] the eigenvalues (None: no convergence), [p_ones] the vector of ones. *)
Record problem := mkProblem {
  p_residual : S -> R -> option S;
  p_jacobian : S -> S -> option Mat;
  p_factor : Mat -> bool;
  p_solve : Mat -> S -> option S;
  p_mul : Mat -> S -> S;
  p_diag : Mat -> list R;
  p_eig : Mat -> option (list R);
  p_F : S;
  p_ones : S;
  p_numDof : nat
}.
(** Options, defaultOptions and getOptions l.22-95, gsALMCrisfield.hpp l.22-40. The options
    that steps change (Length, AdaptiveLength, AdaptiveIterations) are in the state.
    [o_ldlt]: the solver is SimplicialLDLT. *)
Record opts := mkOpts {
  o_maxIt : nat; o_tol : R; o_tolF : R; o_tolU : R; o_tau : R;
  o_quasi : bool; o_quasiInterval : Z; o_bif : bifMethod; o_ldlt : bool;
  o_verbose : bool; o_relax : R; o_spFail : bool; o_spTestTol : R; o_spTestIt : nat;
  o_spTolE : R; o_spTolB : R; o_phiUser : bool; o_angle : angleMethod
}.

(** Evaluations, for the log: residual, Jacobian, factorisation, linear solve, eigenvalues;
    the boolean tells whether it succeeded. *)
Inductive event :=
| EvResidual (u : S) (l : R) (ok : bool)
| EvJacobian (u du : S) (ok : bool)
| EvFactor (m : Mat) (ok : bool)
| EvSolve (m : Mat) (f : S) (ok : bool)
| EvEigen (m : Mat) (ok : bool).
Definition isSome {A} (x : option A) : bool := match x with Some _ => true | None => false end.

(** the data members of gsALMBase and of the methods *)
Record st := mkSt {
  s_U : S (* m_U *);
  s_Uprev : S (* m_Uprev *);
  s_DU : S (* m_DeltaU *);
  s_dU : S (* m_deltaU *);
  s_dUbar : S (* m_deltaUbar *);
  s_dUt : S (* m_deltaUt *);
  s_DUold : S (* m_DeltaUold *);
  s_Vm : S (* m_V *);
  s_DV : S (* m_DeltaV *);
  s_dV : S (* m_deltaV *);
  s_dVbar : S (* m_deltaVbar *);
  s_dVt : S (* m_deltaVt *);
  s_resVec : S (* m_resVec *);
  s_L : R (* m_L *);
  s_Lprev : R (* m_Lprev *);
  s_DL : R (* m_DeltaL *);
  s_dL : R (* m_deltaL *);
  s_DLold : R (* m_DeltaLold *);
  s_guess : option (S * R) (* m_Uguess (None: empty) and m_Lguess *);
  s_jac : option Mat (* m_jacMat (None: empty) *);
  s_fact : option Mat (* the matrix factorised in m_solver *);
  s_len : R (* m_arcLength *);
  s_lenPrev : R (* m_arcLength_prev *);
  s_lenOri : R (* m_arcLength_ori *);
  s_adaptive : bool (* m_adaptiveLength *);
  s_desired : Z (* m_desiredIterations *);
  s_numIt : nat (* m_numIterations *);
  s_conv : bool (* m_converged *);
  s_stat : status (* m_status *);
  s_initialized : bool (* m_initialized *);
  s_resF : option R (* m_residueF (None: inf or NaN) *);
  s_resU : option R (* m_residueU *);
  s_basF : R (* m_basisResidualF *);
  s_basU : R (* m_basisResidualU *);
  s_resKT : R (* m_residueKTPhi *);
  s_phi : R (* m_phi *);
  s_stabVec : list R (* m_stabilityVec *);
  s_negatives : nat (* m_negatives *);
  s_indicator : R (* m_indicator *);
  s_stab : Z (* m_stability *);
  s_stabPrev : Z (* m_stabilityPrev *);
  s_log : list event (* not in the code: the evaluations made so far *)
}.
(** assignments to one member *)
Definition set_U (x : S) (s : st) : st := mkSt x (s_Uprev s) (s_DU s) (s_dU s) (s_dUbar s) (s_dUt s) (s_DUold s) (s_Vm s) (s_DV s) (s_dV s) (s_dVbar s) (s_dVt s) (s_resVec s) (s_L s) (s_Lprev s) (s_DL s) (s_dL s) (s_DLold s) (s_guess s) (s_jac s) (s_fact s) (s_len s) (s_lenPrev s) (s_lenOri s) (s_adaptive s) (s_desired s) (s_numIt s) (s_conv s) (s_stat s) (s_initialized s) (s_resF s) (s_resU s) (s_basF s) (s_basU s) (s_resKT s) (s_phi s) (s_stabVec s) (s_negatives s) (s_indicator s) (s_stab s) (s_stabPrev s) (s_log s).
Definition set_Uprev (x : S) (s : st) : st := mkSt (s_U s) x (s_DU s) (s_dU s) (s_dUbar s) (s_dUt s) (s_DUold s) (s_Vm s) (s_DV s) (s_dV s) (s_dVbar s) (s_dVt s) (s_resVec s) (s_L s) (s_Lprev s) (s_DL s) (s_dL s) (s_DLold s) (s_guess s) (s_jac s) (s_fact s) (s_len s) (s_lenPrev s) (s_lenOri s) (s_adaptive s) (s_desired s) (s_numIt s) (s_conv s) (s_stat s) (s_initialized s) (s_resF s) (s_resU s) (s_basF s) (s_basU s) (s_resKT s) (s_phi s) (s_stabVec s) (s_negatives s) (s_indicator s) (s_stab s) (s_stabPrev s) (s_log s).
Definition set_DU (x : S) (s : st) : st := mkSt (s_U s) (s_Uprev s) x (s_dU s) (s_dUbar s) (s_dUt s) (s_DUold s) (s_Vm s) (s_DV s) (s_dV s) (s_dVbar s) (s_dVt s) (s_resVec s) (s_L s) (s_Lprev s) (s_DL s) (s_dL s) (s_DLold s) (s_guess s) (s_jac s) (s_fact s) (s_len s) (s_lenPrev s) (s_lenOri s) (s_adaptive s) (s_desired s) (s_numIt s) (s_conv s) (s_stat s) (s_initialized s) (s_resF s) (s_resU s) (s_basF s) (s_basU s) (s_resKT s) (s_phi s) (s_stabVec s) (s_negatives s) (s_indicator s) (s_stab s) (s_stabPrev s) (s_log s).
Definition set_dU (x : S) (s : st) : st := mkSt (s_U s) (s_Uprev s) (s_DU s) x (s_dUbar s) (s_dUt s) (s_DUold s) (s_Vm s) (s_DV s) (s_dV s) (s_dVbar s) (s_dVt s) (s_resVec s) (s_L s) (s_Lprev s) (s_DL s) (s_dL s) (s_DLold s) (s_guess s) (s_jac s) (s_fact s) (s_len s) (s_lenPrev s) (s_lenOri s) (s_adaptive s) (s_desired s) (s_numIt s) (s_conv s) (s_stat s) (s_initialized s) (s_resF s) (s_resU s) (s_basF s) (s_basU s) (s_resKT s) (s_phi s) (s_stabVec s) (s_negatives s) (s_indicator s) (s_stab s) (s_stabPrev s) (s_log s).
Definition set_dUbar (x : S) (s : st) : st := mkSt (s_U s) (s_Uprev s) (s_DU s) (s_dU s) x (s_dUt s) (s_DUold s) (s_Vm s) (s_DV s) (s_dV s) (s_dVbar s) (s_dVt s) (s_resVec s) (s_L s) (s_Lprev s) (s_DL s) (s_dL s) (s_DLold s) (s_guess s) (s_jac s) (s_fact s) (s_len s) (s_lenPrev s) (s_lenOri s) (s_adaptive s) (s_desired s) (s_numIt s) (s_conv s) (s_stat s) (s_initialized s) (s_resF s) (s_resU s) (s_basF s) (s_basU s) (s_resKT s) (s_phi s) (s_stabVec s) (s_negatives s) (s_indicator s) (s_stab s) (s_stabPrev s) (s_log s).
Definition set_dUt (x : S) (s : st) : st := mkSt (s_U s) (s_Uprev s) (s_DU s) (s_dU s) (s_dUbar s) x (s_DUold s) (s_Vm s) (s_DV s) (s_dV s) (s_dVbar s) (s_dVt s) (s_resVec s) (s_L s) (s_Lprev s) (s_DL s) (s_dL s) (s_DLold s) (s_guess s) (s_jac s) (s_fact s) (s_len s) (s_lenPrev s) (s_lenOri s) (s_adaptive s) (s_desired s) (s_numIt s) (s_conv s) (s_stat s) (s_initialized s) (s_resF s) (s_resU s) (s_basF s) (s_basU s) (s_resKT s) (s_phi s) (s_stabVec s) (s_negatives s) (s_indicator s) (s_stab s) (s_stabPrev s) (s_log s).
Definition set_DUold (x : S) (s : st) : st := mkSt (s_U s) (s_Uprev s) (s_DU s) (s_dU s) (s_dUbar s) (s_dUt s) x (s_Vm s) (s_DV s) (s_dV s) (s_dVbar s) (s_dVt s) (s_resVec s) (s_L s) (s_Lprev s) (s_DL s) (s_dL s) (s_DLold s) (s_guess s) (s_jac s) (s_fact s) (s_len s) (s_lenPrev s) (s_lenOri s) (s_adaptive s) (s_desired s) (s_numIt s) (s_conv s) (s_stat s) (s_initialized s) (s_resF s) (s_resU s) (s_basF s) (s_basU s) (s_resKT s) (s_phi s) (s_stabVec s) (s_negatives s) (s_indicator s) (s_stab s) (s_stabPrev s) (s_log s).
Definition set_Vm (x : S) (s : st) : st := mkSt (s_U s) (s_Uprev s) (s_DU s) (s_dU s) (s_dUbar s) (s_dUt s) (s_DUold s) x (s_DV s) (s_dV s) (s_dVbar s) (s_dVt s) (s_resVec s) (s_L s) (s_Lprev s) (s_DL s) (s_dL s) (s_DLold s) (s_guess s) (s_jac s) (s_fact s) (s_len s) (s_lenPrev s) (s_lenOri s) (s_adaptive s) (s_desired s) (s_numIt s) (s_conv s) (s_stat s) (s_initialized s) (s_resF s) (s_resU s) (s_basF s) (s_basU s) (s_resKT s) (s_phi s) (s_stabVec s) (s_negatives s) (s_indicator s) (s_stab s) (s_stabPrev s) (s_log s).
Definition set_DV (x : S) (s : st) : st := mkSt (s_U s) (s_Uprev s) (s_DU s) (s_dU s) (s_dUbar s) (s_dUt s) (s_DUold s) (s_Vm s) x (s_dV s) (s_dVbar s) (s_dVt s) (s_resVec s) (s_L s) (s_Lprev s) (s_DL s) (s_dL s) (s_DLold s) (s_guess s) (s_jac s) (s_fact s) (s_len s) (s_lenPrev s) (s_lenOri s) (s_adaptive s) (s_desired s) (s_numIt s) (s_conv s) (s_stat s) (s_initialized s) (s_resF s) (s_resU s) (s_basF s) (s_basU s) (s_resKT s) (s_phi s) (s_stabVec s) (s_negatives s) (s_indicator s) (s_stab s) (s_stabPrev s) (s_log s).
Definition set_dV (x : S) (s : st) : st := mkSt (s_U s) (s_Uprev s) (s_DU s) (s_dU s) (s_dUbar s) (s_dUt s) (s_DUold s) (s_Vm s) (s_DV s) x (s_dVbar s) (s_dVt s) (s_resVec s) (s_L s) (s_Lprev s) (s_DL s) (s_dL s) (s_DLold s) (s_guess s) (s_jac s) (s_fact s) (s_len s) (s_lenPrev s) (s_lenOri s) (s_adaptive s) (s_desired s) (s_numIt s) (s_conv s) (s_stat s) (s_initialized s) (s_resF s) (s_resU s) (s_basF s) (s_basU s) (s_resKT s) (s_phi s) (s_stabVec s) (s_negatives s) (s_indicator s) (s_stab s) (s_stabPrev s) (s_log s).
Definition set_dVbar (x : S) (s : st) : st := mkSt (s_U s) (s_Uprev s) (s_DU s) (s_dU s) (s_dUbar s) (s_dUt s) (s_DUold s) (s_Vm s) (s_DV s) (s_dV s) x (s_dVt s) (s_resVec s) (s_L s) (s_Lprev s) (s_DL s) (s_dL s) (s_DLold s) (s_guess s) (s_jac s) (s_fact s) (s_len s) (s_lenPrev s) (s_lenOri s) (s_adaptive s) (s_desired s) (s_numIt s) (s_conv s) (s_stat s) (s_initialized s) (s_resF s) (s_resU s) (s_basF s) (s_basU s) (s_resKT s) (s_phi s) (s_stabVec s) (s_negatives s) (s_indicator s) (s_stab s) (s_stabPrev s) (s_log s).
Definition set_dVt (x : S) (s : st) : st := mkSt (s_U s) (s_Uprev s) (s_DU s) (s_dU s) (s_dUbar s) (s_dUt s) (s_DUold s) (s_Vm s) (s_DV s) (s_dV s) (s_dVbar s) x (s_resVec s) (s_L s) (s_Lprev s) (s_DL s) (s_dL s) (s_DLold s) (s_guess s) (s_jac s) (s_fact s) (s_len s) (s_lenPrev s) (s_lenOri s) (s_adaptive s) (s_desired s) (s_numIt s) (s_conv s) (s_stat s) (s_initialized s) (s_resF s) (s_resU s) (s_basF s) (s_basU s) (s_resKT s) (s_phi s) (s_stabVec s) (s_negatives s) (s_indicator s) (s_stab s) (s_stabPrev s) (s_log s).
Definition set_resVec (x : S) (s : st) : st := mkSt (s_U s) (s_Uprev s) (s_DU s) (s_dU s) (s_dUbar s) (s_dUt s) (s_DUold s) (s_Vm s) (s_DV s) (s_dV s) (s_dVbar s) (s_dVt s) x (s_L s) (s_Lprev s) (s_DL s) (s_dL s) (s_DLold s) (s_guess s) (s_jac s) (s_fact s) (s_len s) (s_lenPrev s) (s_lenOri s) (s_adaptive s) (s_desired s) (s_numIt s) (s_conv s) (s_stat s) (s_initialized s) (s_resF s) (s_resU s) (s_basF s) (s_basU s) (s_resKT s) (s_phi s) (s_stabVec s) (s_negatives s) (s_indicator s) (s_stab s) (s_stabPrev s) (s_log s).
Definition set_L (x : R) (s : st) : st := mkSt (s_U s) (s_Uprev s) (s_DU s) (s_dU s) (s_dUbar s) (s_dUt s) (s_DUold s) (s_Vm s) (s_DV s) (s_dV s) (s_dVbar s) (s_dVt s) (s_resVec s) x (s_Lprev s) (s_DL s) (s_dL s) (s_DLold s) (s_guess s) (s_jac s) (s_fact s) (s_len s) (s_lenPrev s) (s_lenOri s) (s_adaptive s) (s_desired s) (s_numIt s) (s_conv s) (s_stat s) (s_initialized s) (s_resF s) (s_resU s) (s_basF s) (s_basU s) (s_resKT s) (s_phi s) (s_stabVec s) (s_negatives s) (s_indicator s) (s_stab s) (s_stabPrev s) (s_log s).
Definition set_Lprev (x : R) (s : st) : st := mkSt (s_U s) (s_Uprev s) (s_DU s) (s_dU s) (s_dUbar s) (s_dUt s) (s_DUold s) (s_Vm s) (s_DV s) (s_dV s) (s_dVbar s) (s_dVt s) (s_resVec s) (s_L s) x (s_DL s) (s_dL s) (s_DLold s) (s_guess s) (s_jac s) (s_fact s) (s_len s) (s_lenPrev s) (s_lenOri s) (s_adaptive s) (s_desired s) (s_numIt s) (s_conv s) (s_stat s) (s_initialized s) (s_resF s) (s_resU s) (s_basF s) (s_basU s) (s_resKT s) (s_phi s) (s_stabVec s) (s_negatives s) (s_indicator s) (s_stab s) (s_stabPrev s) (s_log s).
Definition set_DL (x : R) (s : st) : st := mkSt (s_U s) (s_Uprev s) (s_DU s) (s_dU s) (s_dUbar s) (s_dUt s) (s_DUold s) (s_Vm s) (s_DV s) (s_dV s) (s_dVbar s) (s_dVt s) (s_resVec s) (s_L s) (s_Lprev s) x (s_dL s) (s_DLold s) (s_guess s) (s_jac s) (s_fact s) (s_len s) (s_lenPrev s) (s_lenOri s) (s_adaptive s) (s_desired s) (s_numIt s) (s_conv s) (s_stat s) (s_initialized s) (s_resF s) (s_resU s) (s_basF s) (s_basU s) (s_resKT s) (s_phi s) (s_stabVec s) (s_negatives s) (s_indicator s) (s_stab s) (s_stabPrev s) (s_log s).
Definition set_dL (x : R) (s : st) : st := mkSt (s_U s) (s_Uprev s) (s_DU s) (s_dU s) (s_dUbar s) (s_dUt s) (s_DUold s) (s_Vm s) (s_DV s) (s_dV s) (s_dVbar s) (s_dVt s) (s_resVec s) (s_L s) (s_Lprev s) (s_DL s) x (s_DLold s) (s_guess s) (s_jac s) (s_fact s) (s_len s) (s_lenPrev s) (s_lenOri s) (s_adaptive s) (s_desired s) (s_numIt s) (s_conv s) (s_stat s) (s_initialized s) (s_resF s) (s_resU s) (s_basF s) (s_basU s) (s_resKT s) (s_phi s) (s_stabVec s) (s_negatives s) (s_indicator s) (s_stab s) (s_stabPrev s) (s_log s).
Definition set_DLold (x : R) (s : st) : st := mkSt (s_U s) (s_Uprev s) (s_DU s) (s_dU s) (s_dUbar s) (s_dUt s) (s_DUold s) (s_Vm s) (s_DV s) (s_dV s) (s_dVbar s) (s_dVt s) (s_resVec s) (s_L s) (s_Lprev s) (s_DL s) (s_dL s) x (s_guess s) (s_jac s) (s_fact s) (s_len s) (s_lenPrev s) (s_lenOri s) (s_adaptive s) (s_desired s) (s_numIt s) (s_conv s) (s_stat s) (s_initialized s) (s_resF s) (s_resU s) (s_basF s) (s_basU s) (s_resKT s) (s_phi s) (s_stabVec s) (s_negatives s) (s_indicator s) (s_stab s) (s_stabPrev s) (s_log s).
Definition set_guess (x : option (S * R)) (s : st) : st := mkSt (s_U s) (s_Uprev s) (s_DU s) (s_dU s) (s_dUbar s) (s_dUt s) (s_DUold s) (s_Vm s) (s_DV s) (s_dV s) (s_dVbar s) (s_dVt s) (s_resVec s) (s_L s) (s_Lprev s) (s_DL s) (s_dL s) (s_DLold s) x (s_jac s) (s_fact s) (s_len s) (s_lenPrev s) (s_lenOri s) (s_adaptive s) (s_desired s) (s_numIt s) (s_conv s) (s_stat s) (s_initialized s) (s_resF s) (s_resU s) (s_basF s) (s_basU s) (s_resKT s) (s_phi s) (s_stabVec s) (s_negatives s) (s_indicator s) (s_stab s) (s_stabPrev s) (s_log s).
Definition set_jac (x : option Mat) (s : st) : st := mkSt (s_U s) (s_Uprev s) (s_DU s) (s_dU s) (s_dUbar s) (s_dUt s) (s_DUold s) (s_Vm s) (s_DV s) (s_dV s) (s_dVbar s) (s_dVt s) (s_resVec s) (s_L s) (s_Lprev s) (s_DL s) (s_dL s) (s_DLold s) (s_guess s) x (s_fact s) (s_len s) (s_lenPrev s) (s_lenOri s) (s_adaptive s) (s_desired s) (s_numIt s) (s_conv s) (s_stat s) (s_initialized s) (s_resF s) (s_resU s) (s_basF s) (s_basU s) (s_resKT s) (s_phi s) (s_stabVec s) (s_negatives s) (s_indicator s) (s_stab s) (s_stabPrev s) (s_log s).
Definition set_fact (x : option Mat) (s : st) : st := mkSt (s_U s) (s_Uprev s) (s_DU s) (s_dU s) (s_dUbar s) (s_dUt s) (s_DUold s) (s_Vm s) (s_DV s) (s_dV s) (s_dVbar s) (s_dVt s) (s_resVec s) (s_L s) (s_Lprev s) (s_DL s) (s_dL s) (s_DLold s) (s_guess s) (s_jac s) x (s_len s) (s_lenPrev s) (s_lenOri s) (s_adaptive s) (s_desired s) (s_numIt s) (s_conv s) (s_stat s) (s_initialized s) (s_resF s) (s_resU s) (s_basF s) (s_basU s) (s_resKT s) (s_phi s) (s_stabVec s) (s_negatives s) (s_indicator s) (s_stab s) (s_stabPrev s) (s_log s).
Definition set_len (x : R) (s : st) : st := mkSt (s_U s) (s_Uprev s) (s_DU s) (s_dU s) (s_dUbar s) (s_dUt s) (s_DUold s) (s_Vm s) (s_DV s) (s_dV s) (s_dVbar s) (s_dVt s) (s_resVec s) (s_L s) (s_Lprev s) (s_DL s) (s_dL s) (s_DLold s) (s_guess s) (s_jac s) (s_fact s) x (s_lenPrev s) (s_lenOri s) (s_adaptive s) (s_desired s) (s_numIt s) (s_conv s) (s_stat s) (s_initialized s) (s_resF s) (s_resU s) (s_basF s) (s_basU s) (s_resKT s) (s_phi s) (s_stabVec s) (s_negatives s) (s_indicator s) (s_stab s) (s_stabPrev s) (s_log s).
Definition set_lenPrev (x : R) (s : st) : st := mkSt (s_U s) (s_Uprev s) (s_DU s) (s_dU s) (s_dUbar s) (s_dUt s) (s_DUold s) (s_Vm s) (s_DV s) (s_dV s) (s_dVbar s) (s_dVt s) (s_resVec s) (s_L s) (s_Lprev s) (s_DL s) (s_dL s) (s_DLold s) (s_guess s) (s_jac s) (s_fact s) (s_len s) x (s_lenOri s) (s_adaptive s) (s_desired s) (s_numIt s) (s_conv s) (s_stat s) (s_initialized s) (s_resF s) (s_resU s) (s_basF s) (s_basU s) (s_resKT s) (s_phi s) (s_stabVec s) (s_negatives s) (s_indicator s) (s_stab s) (s_stabPrev s) (s_log s).
Definition set_lenOri (x : R) (s : st) : st := mkSt (s_U s) (s_Uprev s) (s_DU s) (s_dU s) (s_dUbar s) (s_dUt s) (s_DUold s) (s_Vm s) (s_DV s) (s_dV s) (s_dVbar s) (s_dVt s) (s_resVec s) (s_L s) (s_Lprev s) (s_DL s) (s_dL s) (s_DLold s) (s_guess s) (s_jac s) (s_fact s) (s_len s) (s_lenPrev s) x (s_adaptive s) (s_desired s) (s_numIt s) (s_conv s) (s_stat s) (s_initialized s) (s_resF s) (s_resU s) (s_basF s) (s_basU s) (s_resKT s) (s_phi s) (s_stabVec s) (s_negatives s) (s_indicator s) (s_stab s) (s_stabPrev s) (s_log s).
Definition set_adaptive (x : bool) (s : st) : st := mkSt (s_U s) (s_Uprev s) (s_DU s) (s_dU s) (s_dUbar s) (s_dUt s) (s_DUold s) (s_Vm s) (s_DV s) (s_dV s) (s_dVbar s) (s_dVt s) (s_resVec s) (s_L s) (s_Lprev s) (s_DL s) (s_dL s) (s_DLold s) (s_guess s) (s_jac s) (s_fact s) (s_len s) (s_lenPrev s) (s_lenOri s) x (s_desired s) (s_numIt s) (s_conv s) (s_stat s) (s_initialized s) (s_resF s) (s_resU s) (s_basF s) (s_basU s) (s_resKT s) (s_phi s) (s_stabVec s) (s_negatives s) (s_indicator s) (s_stab s) (s_stabPrev s) (s_log s).
Definition set_desired (x : Z) (s : st) : st := mkSt (s_U s) (s_Uprev s) (s_DU s) (s_dU s) (s_dUbar s) (s_dUt s) (s_DUold s) (s_Vm s) (s_DV s) (s_dV s) (s_dVbar s) (s_dVt s) (s_resVec s) (s_L s) (s_Lprev s) (s_DL s) (s_dL s) (s_DLold s) (s_guess s) (s_jac s) (s_fact s) (s_len s) (s_lenPrev s) (s_lenOri s) (s_adaptive s) x (s_numIt s) (s_conv s) (s_stat s) (s_initialized s) (s_resF s) (s_resU s) (s_basF s) (s_basU s) (s_resKT s) (s_phi s) (s_stabVec s) (s_negatives s) (s_indicator s) (s_stab s) (s_stabPrev s) (s_log s).
Definition set_numIt (x : nat) (s : st) : st := mkSt (s_U s) (s_Uprev s) (s_DU s) (s_dU s) (s_dUbar s) (s_dUt s) (s_DUold s) (s_Vm s) (s_DV s) (s_dV s) (s_dVbar s) (s_dVt s) (s_resVec s) (s_L s) (s_Lprev s) (s_DL s) (s_dL s) (s_DLold s) (s_guess s) (s_jac s) (s_fact s) (s_len s) (s_lenPrev s) (s_lenOri s) (s_adaptive s) (s_desired s) x (s_conv s) (s_stat s) (s_initialized s) (s_resF s) (s_resU s) (s_basF s) (s_basU s) (s_resKT s) (s_phi s) (s_stabVec s) (s_negatives s) (s_indicator s) (s_stab s) (s_stabPrev s) (s_log s).
Definition set_conv (x : bool) (s : st) : st := mkSt (s_U s) (s_Uprev s) (s_DU s) (s_dU s) (s_dUbar s) (s_dUt s) (s_DUold s) (s_Vm s) (s_DV s) (s_dV s) (s_dVbar s) (s_dVt s) (s_resVec s) (s_L s) (s_Lprev s) (s_DL s) (s_dL s) (s_DLold s) (s_guess s) (s_jac s) (s_fact s) (s_len s) (s_lenPrev s) (s_lenOri s) (s_adaptive s) (s_desired s) (s_numIt s) x (s_stat s) (s_initialized s) (s_resF s) (s_resU s) (s_basF s) (s_basU s) (s_resKT s) (s_phi s) (s_stabVec s) (s_negatives s) (s_indicator s) (s_stab s) (s_stabPrev s) (s_log s).
Definition set_stat (x : status) (s : st) : st := mkSt (s_U s) (s_Uprev s) (s_DU s) (s_dU s) (s_dUbar s) (s_dUt s) (s_DUold s) (s_Vm s) (s_DV s) (s_dV s) (s_dVbar s) (s_dVt s) (s_resVec s) (s_L s) (s_Lprev s) (s_DL s) (s_dL s) (s_DLold s) (s_guess s) (s_jac s) (s_fact s) (s_len s) (s_lenPrev s) (s_lenOri s) (s_adaptive s) (s_desired s) (s_numIt s) (s_conv s) x (s_initialized s) (s_resF s) (s_resU s) (s_basF s) (s_basU s) (s_resKT s) (s_phi s) (s_stabVec s) (s_negatives s) (s_indicator s) (s_stab s) (s_stabPrev s) (s_log s).
Definition set_initialized (x : bool) (s : st) : st := mkSt (s_U s) (s_Uprev s) (s_DU s) (s_dU s) (s_dUbar s) (s_dUt s) (s_DUold s) (s_Vm s) (s_DV s) (s_dV s) (s_dVbar s) (s_dVt s) (s_resVec s) (s_L s) (s_Lprev s) (s_DL s) (s_dL s) (s_DLold s) (s_guess s) (s_jac s) (s_fact s) (s_len s) (s_lenPrev s) (s_lenOri s) (s_adaptive s) (s_desired s) (s_numIt s) (s_conv s) (s_stat s) x (s_resF s) (s_resU s) (s_basF s) (s_basU s) (s_resKT s) (s_phi s) (s_stabVec s) (s_negatives s) (s_indicator s) (s_stab s) (s_stabPrev s) (s_log s).
Definition set_resF (x : option R) (s : st) : st := mkSt (s_U s) (s_Uprev s) (s_DU s) (s_dU s) (s_dUbar s) (s_dUt s) (s_DUold s) (s_Vm s) (s_DV s) (s_dV s) (s_dVbar s) (s_dVt s) (s_resVec s) (s_L s) (s_Lprev s) (s_DL s) (s_dL s) (s_DLold s) (s_guess s) (s_jac s) (s_fact s) (s_len s) (s_lenPrev s) (s_lenOri s) (s_adaptive s) (s_desired s) (s_numIt s) (s_conv s) (s_stat s) (s_initialized s) x (s_resU s) (s_basF s) (s_basU s) (s_resKT s) (s_phi s) (s_stabVec s) (s_negatives s) (s_indicator s) (s_stab s) (s_stabPrev s) (s_log s).
Definition set_resU (x : option R) (s : st) : st := mkSt (s_U s) (s_Uprev s) (s_DU s) (s_dU s) (s_dUbar s) (s_dUt s) (s_DUold s) (s_Vm s) (s_DV s) (s_dV s) (s_dVbar s) (s_dVt s) (s_resVec s) (s_L s) (s_Lprev s) (s_DL s) (s_dL s) (s_DLold s) (s_guess s) (s_jac s) (s_fact s) (s_len s) (s_lenPrev s) (s_lenOri s) (s_adaptive s) (s_desired s) (s_numIt s) (s_conv s) (s_stat s) (s_initialized s) (s_resF s) x (s_basF s) (s_basU s) (s_resKT s) (s_phi s) (s_stabVec s) (s_negatives s) (s_indicator s) (s_stab s) (s_stabPrev s) (s_log s).
Definition set_basF (x : R) (s : st) : st := mkSt (s_U s) (s_Uprev s) (s_DU s) (s_dU s) (s_dUbar s) (s_dUt s) (s_DUold s) (s_Vm s) (s_DV s) (s_dV s) (s_dVbar s) (s_dVt s) (s_resVec s) (s_L s) (s_Lprev s) (s_DL s) (s_dL s) (s_DLold s) (s_guess s) (s_jac s) (s_fact s) (s_len s) (s_lenPrev s) (s_lenOri s) (s_adaptive s) (s_desired s) (s_numIt s) (s_conv s) (s_stat s) (s_initialized s) (s_resF s) (s_resU s) x (s_basU s) (s_resKT s) (s_phi s) (s_stabVec s) (s_negatives s) (s_indicator s) (s_stab s) (s_stabPrev s) (s_log s).
Definition set_basU (x : R) (s : st) : st := mkSt (s_U s) (s_Uprev s) (s_DU s) (s_dU s) (s_dUbar s) (s_dUt s) (s_DUold s) (s_Vm s) (s_DV s) (s_dV s) (s_dVbar s) (s_dVt s) (s_resVec s) (s_L s) (s_Lprev s) (s_DL s) (s_dL s) (s_DLold s) (s_guess s) (s_jac s) (s_fact s) (s_len s) (s_lenPrev s) (s_lenOri s) (s_adaptive s) (s_desired s) (s_numIt s) (s_conv s) (s_stat s) (s_initialized s) (s_resF s) (s_resU s) (s_basF s) x (s_resKT s) (s_phi s) (s_stabVec s) (s_negatives s) (s_indicator s) (s_stab s) (s_stabPrev s) (s_log s).
Definition set_resKT (x : R) (s : st) : st := mkSt (s_U s) (s_Uprev s) (s_DU s) (s_dU s) (s_dUbar s) (s_dUt s) (s_DUold s) (s_Vm s) (s_DV s) (s_dV s) (s_dVbar s) (s_dVt s) (s_resVec s) (s_L s) (s_Lprev s) (s_DL s) (s_dL s) (s_DLold s) (s_guess s) (s_jac s) (s_fact s) (s_len s) (s_lenPrev s) (s_lenOri s) (s_adaptive s) (s_desired s) (s_numIt s) (s_conv s) (s_stat s) (s_initialized s) (s_resF s) (s_resU s) (s_basF s) (s_basU s) x (s_phi s) (s_stabVec s) (s_negatives s) (s_indicator s) (s_stab s) (s_stabPrev s) (s_log s).
Definition set_phi (x : R) (s : st) : st := mkSt (s_U s) (s_Uprev s) (s_DU s) (s_dU s) (s_dUbar s) (s_dUt s) (s_DUold s) (s_Vm s) (s_DV s) (s_dV s) (s_dVbar s) (s_dVt s) (s_resVec s) (s_L s) (s_Lprev s) (s_DL s) (s_dL s) (s_DLold s) (s_guess s) (s_jac s) (s_fact s) (s_len s) (s_lenPrev s) (s_lenOri s) (s_adaptive s) (s_desired s) (s_numIt s) (s_conv s) (s_stat s) (s_initialized s) (s_resF s) (s_resU s) (s_basF s) (s_basU s) (s_resKT s) x (s_stabVec s) (s_negatives s) (s_indicator s) (s_stab s) (s_stabPrev s) (s_log s).
Definition set_stabVec (x : list R) (s : st) : st := mkSt (s_U s) (s_Uprev s) (s_DU s) (s_dU s) (s_dUbar s) (s_dUt s) (s_DUold s) (s_Vm s) (s_DV s) (s_dV s) (s_dVbar s) (s_dVt s) (s_resVec s) (s_L s) (s_Lprev s) (s_DL s) (s_dL s) (s_DLold s) (s_guess s) (s_jac s) (s_fact s) (s_len s) (s_lenPrev s) (s_lenOri s) (s_adaptive s) (s_desired s) (s_numIt s) (s_conv s) (s_stat s) (s_initialized s) (s_resF s) (s_resU s) (s_basF s) (s_basU s) (s_resKT s) (s_phi s) x (s_negatives s) (s_indicator s) (s_stab s) (s_stabPrev s) (s_log s).
Definition set_negatives (x : nat) (s : st) : st := mkSt (s_U s) (s_Uprev s) (s_DU s) (s_dU s) (s_dUbar s) (s_dUt s) (s_DUold s) (s_Vm s) (s_DV s) (s_dV s) (s_dVbar s) (s_dVt s) (s_resVec s) (s_L s) (s_Lprev s) (s_DL s) (s_dL s) (s_DLold s) (s_guess s) (s_jac s) (s_fact s) (s_len s) (s_lenPrev s) (s_lenOri s) (s_adaptive s) (s_desired s) (s_numIt s) (s_conv s) (s_stat s) (s_initialized s) (s_resF s) (s_resU s) (s_basF s) (s_basU s) (s_resKT s) (s_phi s) (s_stabVec s) x (s_indicator s) (s_stab s) (s_stabPrev s) (s_log s).
Definition set_indicator (x : R) (s : st) : st := mkSt (s_U s) (s_Uprev s) (s_DU s) (s_dU s) (s_dUbar s) (s_dUt s) (s_DUold s) (s_Vm s) (s_DV s) (s_dV s) (s_dVbar s) (s_dVt s) (s_resVec s) (s_L s) (s_Lprev s) (s_DL s) (s_dL s) (s_DLold s) (s_guess s) (s_jac s) (s_fact s) (s_len s) (s_lenPrev s) (s_lenOri s) (s_adaptive s) (s_desired s) (s_numIt s) (s_conv s) (s_stat s) (s_initialized s) (s_resF s) (s_resU s) (s_basF s) (s_basU s) (s_resKT s) (s_phi s) (s_stabVec s) (s_negatives s) x (s_stab s) (s_stabPrev s) (s_log s).
Definition set_stab (x : Z) (s : st) : st := mkSt (s_U s) (s_Uprev s) (s_DU s) (s_dU s) (s_dUbar s) (s_dUt s) (s_DUold s) (s_Vm s) (s_DV s) (s_dV s) (s_dVbar s) (s_dVt s) (s_resVec s) (s_L s) (s_Lprev s) (s_DL s) (s_dL s) (s_DLold s) (s_guess s) (s_jac s) (s_fact s) (s_len s) (s_lenPrev s) (s_lenOri s) (s_adaptive s) (s_desired s) (s_numIt s) (s_conv s) (s_stat s) (s_initialized s) (s_resF s) (s_resU s) (s_basF s) (s_basU s) (s_resKT s) (s_phi s) (s_stabVec s) (s_negatives s) (s_indicator s) x (s_stabPrev s) (s_log s).
Definition set_stabPrev (x : Z) (s : st) : st := mkSt (s_U s) (s_Uprev s) (s_DU s) (s_dU s) (s_dUbar s) (s_dUt s) (s_DUold s) (s_Vm s) (s_DV s) (s_dV s) (s_dVbar s) (s_dVt s) (s_resVec s) (s_L s) (s_Lprev s) (s_DL s) (s_dL s) (s_DLold s) (s_guess s) (s_jac s) (s_fact s) (s_len s) (s_lenPrev s) (s_lenOri s) (s_adaptive s) (s_desired s) (s_numIt s) (s_conv s) (s_stat s) (s_initialized s) (s_resF s) (s_resU s) (s_basF s) (s_basU s) (s_resKT s) (s_phi s) (s_stabVec s) (s_negatives s) (s_indicator s) (s_stab s) x (s_log s).
Definition set_log (x : list event) (s : st) : st := mkSt (s_U s) (s_Uprev s) (s_DU s) (s_dU s) (s_dUbar s) (s_dUt s) (s_DUold s) (s_Vm s) (s_DV s) (s_dV s) (s_dVbar s) (s_dVt s) (s_resVec s) (s_L s) (s_Lprev s) (s_DL s) (s_dL s) (s_DLold s) (s_guess s) (s_jac s) (s_fact s) (s_len s) (s_lenPrev s) (s_lenOri s) (s_adaptive s) (s_desired s) (s_numIt s) (s_conv s) (s_stat s) (s_initialized s) (s_resF s) (s_resU s) (s_basF s) (s_basU s) (s_resKT s) (s_phi s) (s_stabVec s) (s_negatives s) (s_indicator s) (s_stab s) (s_stabPrev s) x.
Definition logEv (e : event) (s : st) : st := set_log (s_log s ++ [e]) s.

(** Outcome of a function: the state after it, with a value or with the exception that
    leaves it. *)
Inductive out (A : Type) := Ret (a : A) (s : st) | Exc (e : err) (s : st).
Arguments Ret {A} _ _.
Arguments Exc {A} _ _.
Definition obind {A B} (x : out A) (f : A -> st -> out B) : out B :=
  match x with Ret a s => f a s | Exc e s => Exc e s end.
Definition outSt {A} (x : out A) : st := match x with Ret _ s => s | Exc _ s => s end.
Notation done s := (Ret tt s).
Notation "'let!' s := a 'in' b" := (obind a (fun _ s => b)) (at level 200, s name, a at level 100, b at level 200).
Notation "'let!' ( x , s ) := a 'in' b" := (obind a (fun x s => b)) (at level 200, x name, s name, a at level 100, b at level 200).

Variable p : problem.
Variable o : opts.
Implicit Types s : st.

(** computeLength l.105-117: integer division; by zero it is undefined *)
Definition computeLength s : out unit :=
  if Nat.eqb (s_numIt s) 0 then Exc EUndef s
  else
    let fac := IZR (Z.quot (s_desired s) (Z.of_nat (s_numIt s))) in
    let fac := if Rltb fac (1/2) then 1/2 else if Rltb 2 fac then 2 else fac in
    let s := set_lenPrev (s_len s) s in
    done (set_len (s_len s * fac) s).
(** reduceLength l.119-124 *)
Definition reduceLength (fac : R) s : st := set_len (s_len s * fac) s.
(** resetLength l.126-133 *)
Definition resetLength s : out unit :=
  let s := set_lenPrev (s_lenOri s) (set_len (s_lenOri s) s) in
  if s_adaptive s then computeLength s else done s.
(** setLength(length), gsALMBase.h l.114-118 *)
Definition setLength (l : R) s : st := set_lenOri l (set_lenPrev l (set_len l s)).
(** setLength(length,adaptive,iterations), gsALMBase.h l.120-141 *)
Definition setLengthAdaptive (l : R) (a : bool) (it : Z) s : st := set_desired it (set_adaptive a (setLength l s)).
(** setSolution, setSolutionStep, setPrevious, setInitialGuess, resetStep:
    gsALMBase.h l.181-198 *)
Definition setSolution (u : S) (l : R) s : st := set_U u (set_L l s).
Definition setSolutionStep (du : S) (dl : R) s : st := set_DLold dl (set_DUold du s).
Definition setPrevious (u : S) (l : R) s : st :=
  let s := set_Lprev l (set_Uprev u s) in
  set_DLold (s_L s - s_Lprev s) (set_DUold (s_U s -v s_Uprev s) s).
Definition setInitialGuess (u : S) (l : R) s : st := set_guess (Some (u, l)) s.
Definition resetStep s : st := set_DLold 0 (set_DUold v0 s).

(** computeResidual(U,L) l.135-142 and computeResidual() l.144-148 *)
Definition computeResidualAt (u : S) (l : R) s : out S :=
  let s := logEv (EvResidual u l (isSome (p_residual p u l))) s in
  match p_residual p u l with Some r => Ret r s | None => Exc (EThrow 2) s end.
Definition computeResidual s : out unit :=
  let! (r, s) := computeResidualAt (s_U s +v s_DU s) (s_L s + s_DL s) s in
  done (set_resVec r s).

(** computeResidualNorms l.150-183 (without m_residueL) *)
Definition computeResidualNorms s : st :=
  if Nat.eqb (s_numIt s) 0 then
    let s := set_basF (norm ((s_L s + s_DL s) *v p_F p)) s in
    let s := set_basU (norm (s_DU s)) s in
    let s := set_resF (rdiv (norm (s_resVec s)) (norm ((s_L s + s_DL s) *v p_F p))) s in
    set_resU (rdiv (norm (s_dU s)) (norm (s_DU s))) s
  else
    let s := set_resF (rdiv (norm (s_resVec s)) (s_basF s)) s in
    set_resU (rdiv (norm (s_dU s)) (s_basU s)) s.

(** factorizeMatrix l.185-198 *)
Definition factorizeMatrix (m : Mat) s : out unit :=
  let s := logEv (EvFactor m (p_factor p m)) s in
  if p_factor p m then done (set_fact (Some m) s) else Exc (EThrow 3) (set_fact None s).
(** solveSystem l.200-211; without a factorised matrix the result is undefined *)
Definition solveSystem (f : S) s : out S :=
  match s_fact s with
  | None => Exc EUndef s
  | Some m =>
    let s := logEv (EvSolve m f (isSome (p_solve p m f))) s in
    match p_solve p m f with Some x => Ret x s | None => Exc (EThrow 3) s end
  end.
(** _computeJacobian l.213-224 and computeJacobian(U,deltaU) l.226-230 *)
Definition computeJacobianAt (u du : S) s : out Mat :=
  let s := logEv (EvJacobian u du (isSome (p_jacobian p u du))) s in
  match p_jacobian p u du with
  | None => Exc (EThrow 2) s
  | Some m => let! s := factorizeMatrix m s in Ret m s
  end.
(** m_jacMat = computeJacobian(); factorizeMatrix(m_jacMat), with computeJacobian() l.240-247
    (an empty m_deltaU is the zero vector here) *)
Definition refreshJacobian (u du : S) s : out unit :=
  let! (m, s) := computeJacobianAt u du s in
  let s := set_jac (Some m) s in
  factorizeMatrix m s.
Definition stepJacobian s : out unit := refreshJacobian (s_U s +v s_DU s) (s_dU s) s.
(** computeUbar, computeUt l.249-259 *)
Definition computeUbar s : out unit :=
  let! (x, s) := solveSystem (vopp (s_resVec s)) s in done (set_dUbar x s).
Definition computeUt s : out unit :=
  let! (x, s) := solveSystem (p_F p) s in done (set_dUt x s).

(** ** Stability, l.520-627 *)
Definition countNegatives (l : list R) : nat := length (filter (fun x => Rltb x 0) l).
Fixpoint minCoeff (l : list R) : option R :=
  match l with
  | [] => None
  | x :: l => match minCoeff l with None => Some x | Some y => Some (Rmin x y) end
  end.
(** m_stabilityVec, l.556-607 *)
Definition stabilityVec s : out (list R) :=
  match o_bif o with
  | BifDeterminant =>
    if o_ldlt o then
      match s_jac s with
      | None => Exc EUndef s
      | Some m => let! s := factorizeMatrix m s in Ret (p_diag p m) s
      end
    else Exc (EThrow 3) s
  | BifEigenvalue =>
    match s_jac s with
    | None => Exc EUndef s
    | Some m =>
      let s := logEv (EvEigen m (isSome (p_eig p m))) s in
      match p_eig p m with Some l => Ret l s | None => Exc (EThrow 3) s end
    end
  | BifNothing => Ret (repeat 0 (p_numDof p)) s
  | BifUnknown => Ret (s_stabVec s) s
  end.
(** _computeStability l.546-615 (the shift is part of p_eig) *)
Definition computeStability_ (x : S) (jacobian : bool) s : out unit :=
  let! s := (if jacobian then refreshJacobian x v0 s else done s) in
  let! (v, s) := stabilityVec s in
  let s := set_negatives (countNegatives v) (set_stabVec v s) in
  match minCoeff v with
  | None => Exc EUndef s
  | Some m => done (set_stab (if Rltb m 0 then 1%Z else (-1)%Z) (set_indicator m s))
  end.
(** the catch clauses of step, computeStability, computeSingularPoint; what is not a C++
    exception is not caught *)
Definition statusOf (e : err) : option status :=
  match e with
  | EThrow 1 => Some NotConverged
  | EThrow 2 => Some AssemblyError
  | EThrow 3 => Some SolverError
  | EThrow _ | EAssert | EEnsure | ERange => Some OtherError
  | EUndef | ENaN | EFuel => None
  end.
(** computeStability l.520-544; the returned status is m_status *)
Definition computeStability (jacobian : bool) s : out unit :=
  match computeStability_ (s_U s) jacobian s with
  | Ret _ s => done (set_stat Success s)
  | Exc e s => match statusOf e with Some t => done (set_stat t s) | None => Exc e s end
  end.
(** stability l.617-621, stabilityChange l.623-627, isStable gsALMBase.h l.170,
    setIndicator gsALMBase.h l.160 *)
Definition stability s : Z := if Rltb (s_indicator s) 0 then 1%Z else (-1)%Z.
Definition stabilityChange s : bool := (s_stab s * s_stabPrev s <? 0)%Z.
Definition isStable s : bool := negb (s_stab s =? 0)%Z.
Definition setIndicator (x : R) s : st := let s := set_indicator x s in set_stab (stability s) s.

(** ** The methods *)

(** initMethods: gsALMLoadControl.hpp l.37-42, gsALMRiks.hpp l.21-29, gsALMCrisfield.hpp
    l.42-51, gsALMConsistentCrisfield.hpp l.38-46 *)
Definition initMethods (k : kind) s : st :=
  let s := set_U v0 (set_DU v0 (set_L 0 (set_DL 0 s))) in
  match k with
  | LoadControl => s
  | Riks | ConsistentCrisfield => set_Uprev v0 (set_Lprev 0 s)
  | Crisfield => set_DUold v0 (set_DLold 0 s)
  end.
(** initialize gsALMBase.h l.106-111 and init l.97-105 *)
Definition initialize (k : kind) (stab : bool) s : out unit :=
  let s := initMethods k (set_initialized true s) in
  if stab then
    let! s := computeStability_ (s_U s) true s in
    done (set_stab (stability s) s)
  else done s.

(** initiateStep: gsALMLoadControl.hpp l.58-67, gsALMRiks.hpp l.86-95, gsALMCrisfield.hpp
    l.102-108, gsALMConsistentCrisfield.hpp l.89-99 *)
Definition initiateStep (k : kind) s : st :=
  match k with
  | Crisfield => set_dL 0 (set_DL 0 (set_dUt v0 (set_dUbar v0 (set_DU v0 s))))
  | _ => set_dL 0 (set_DL 0 (set_dU v0 (set_DU v0 s)))
  end.

(** Crisfield: A0 of computeLambdasSimple, gsALMCrisfield.hpp l.213 *)
Definition A0 s : R := s_phi s * s_phi s * dot (p_F p) (p_F p).
(** sign, gsALMHelper.h l.20-24 *)
Definition sign (x : R) : R := if Rltb 0 x then 1 else if Rltb x 0 then -1 else 0.
(** computeLambdaMU gsALMCrisfield.hpp l.383-398 *)
Definition computeLambdaMU s : st :=
  let dir := sign (dot (s_DUold s) (s_dUt s) + A0 s * s_DLold s) in
  let denum := sqrt (dot (s_dUt s) (s_dUt s) + A0 s) in
  let mu := if Reqb denum 0 then s_len s else s_len s / denum in
  let s := set_dL (dir * mu) s in
  set_dU (s_dL s *v s_dUt s) s.

(** m_phi = pow(dUt.dUt / F.F, 0.5) unless the user set it: gsALMCrisfield.hpp l.124-125,
    l.174-175, gsALMConsistentCrisfield.hpp l.119, l.127, l.159, l.167 *)
Definition defaultPhi s : out unit :=
  if o_phiUser o then done s
  else match rdiv (dot (s_dUt s) (s_dUt s)) (dot (p_F p) (p_F p)) with
       | None => Exc ENaN s
       | Some q => done (set_phi (sqrt q) s)
       end.
(** the first predictor of Riks and ConsistentCrisfield: gsALMRiks.hpp l.114-118, l.151-155,
    gsALMConsistentCrisfield.hpp l.112-116, l.152-156 *)
Definition firstPredictor s : out unit :=
  let! (x, s) := solveSystem (p_F p) s in
  let s := set_dUt x s in
  let q := dot (s_dUt s) (s_dUt s) + s_DL s * 1 in
  if Rleb q 0 then Exc ENaN s
  else done (set_dL (1 / sqrt q) (set_dU ((1 / sqrt q) *v s_dUt s) s)).
(** the other predictor: (U1,L1) - (U0,L0) over the previous length, gsALMRiks.hpp l.122-123,
    l.159-160, gsALMConsistentCrisfield.hpp l.123-124, l.163-164 *)
Definition secantPredictor (u1 : S) (l1 : R) (u0 : S) (l0 : R) s : out unit :=
  if Reqb (s_lenPrev s) 0 then Exc ENaN s
  else done (set_dU ((1 / s_lenPrev s) *v (u1 -v u0)) (set_dL (1 / s_lenPrev s * (l1 - l0)) s)).
(** the test that two points coincide, gsALMRiks.hpp l.110-112 and others *)
Definition close (u1 : S) (l1 : R) (u0 : S) (l0 : R) : bool :=
  Rltb (norm (u1 -v u0)) (1 / 10^10) && Rltb ((l1 - l0) * (l1 - l0)) (1 / 10^10).
(** m_deltaL *= m_arcLength; m_deltaU *= m_arcLength; then added to, or replacing, the
    step: gsALMRiks.hpp l.126-133, l.163-168, gsALMConsistentCrisfield.hpp l.130-137, l.170-177 *)
Definition scaleStep (replace : bool) s : st :=
  let s := set_dL (s_dL s * s_len s) s in
  let s := set_dU (s_len s *v s_dU s) s in
  if replace then set_DL (s_dL s) (set_DU (s_dU s) s)
  else set_DL (s_DL s + s_dL s) (set_DU (s_DU s +v s_dU s) s).

(** predictor: gsALMLoadControl.hpp l.69-82, gsALMRiks.hpp l.97-134, gsALMCrisfield.hpp
    l.110-164, gsALMConsistentCrisfield.hpp l.101-138 *)
Definition predictor (k : kind) s : out unit :=
  let! s := stepJacobian s in
  match k with
  | LoadControl =>
    let s := set_DL (s_len s) (set_dL (s_len s) s) in
    let! s := computeUt s in
    done (set_DU (s_dL s *v s_dUt s) s)
  | Riks =>
    if Nat.eqb (p_numDof p) 0 then Exc ENaN s
    else
      let s := set_phi (if Nat.eqb (p_numDof p) 1 then 99999999999 / 100000000000 else 1 / INR (p_numDof p)) s in
      let! s := (if close (s_U s) (s_L s) (s_Uprev s) (s_Lprev s) then firstPredictor s
                 else secantPredictor (s_U s) (s_L s) (s_Uprev s) (s_Lprev s) s) in
      done (scaleStep false s)
  | ConsistentCrisfield =>
    let! s := (if close (s_U s) (s_L s) (s_Uprev s) (s_Lprev s) then firstPredictor s
               else secantPredictor (s_U s) (s_L s) (s_Uprev s) (s_Lprev s) s) in
    let! s := defaultPhi s in
    done (scaleStep false s)
  | Crisfield =>
    let! s := computeUt s in
    let! s := (if Reqb (dot (s_DUold s) (s_DUold s)) 0 && Reqb (s_DLold s * s_DLold s) 0 then
                 match rdiv (s_len s) (sqrt (2 * dot (s_dUt s) (s_dUt s))) with
                 | None => Exc ENaN s
                 | Some l =>
                   let s := set_dL l s in
                   let s := set_dU (s_dUbar s +v s_dL s *v s_dUt s) s in
                   defaultPhi s
                 end
               else
                 let! s := (if o_phiUser o then done s
                            else match rdiv (dot (s_U s) (s_U s)) (s_L s * s_L s * dot (p_F p) (p_F p)) with
                                 | None => Exc ENaN s
                                 | Some q => done (set_phi (sqrt q) s)
                                 end) in
                 done (computeLambdaMU s)) in
    let s := set_DU (s_DU s +v s_dU s) s in
    let s := set_DL (s_DL s + s_dL s) s in
    match o_angle o with
    | AngIteration | AngPredictor => done (set_DLold (s_DL s) (set_DUold (s_DU s) s))
    | AngStep => done s
    end
  end.

(** predictorGuess: gsALMLoadControl.hpp l.84-97, gsALMRiks.hpp l.136-170,
    gsALMCrisfield.hpp l.166-191, gsALMConsistentCrisfield.hpp l.140-178 *)
Definition predictorGuess (k : kind) (ug : S) (lg : R) s : out unit :=
  let! s := stepJacobian s in
  match k with
  | LoadControl =>
    let s := set_DL (lg - s_L s) (set_dL (lg - s_L s) s) in
    let! s := computeUt s in
    done (set_DU (s_dL s *v s_dUt s) s)
  | Riks =>
    let! s := computeUt s in
    let! s := (if close ug lg (s_U s) (s_L s) then firstPredictor s
               else secantPredictor ug lg (s_U s) (s_L s) s) in
    done (set_guess None (scaleStep true s))
  | Crisfield =>
    let! s := computeUt s in
    let! s := defaultPhi s in
    let s := set_DUold (vopp (ug -v s_U s)) s in
    let s := set_DLold (- (lg - s_L s)) s in
    let s := computeLambdaMU s in
    done (set_guess None (set_DL (s_dL s) (set_DU (s_dU s) s)))
  | ConsistentCrisfield =>
    let! s := (if close ug lg (s_U s) (s_L s) then firstPredictor s
               else secantPredictor ug lg (s_U s) (s_L s) s) in
    let! s := defaultPhi s in
    done (scaleStep false s)
  end.

(** Crisfield: coefficients of the quadratic equation for the load, computeLambdasSimple
    gsALMCrisfield.hpp l.212-231: (a0, b0, b1, c0, c1, c2) *)
Record coeffs := mkCoeffs { c_a0 : R; c_b0 : R; c_b1 : R; c_c0 : R; c_c1 : R; c_c2 : R }.
Definition lambdaCoeffs s : coeffs := {|
  c_a0 := dot (s_dUt s) (s_dUt s) + A0 s;
  c_b0 := 2 * (dot (s_dUt s) (s_DU s) + s_DL s * A0 s);
  c_b1 := 2 * dot (s_dUbar s) (s_dUt s);
  c_c0 := dot (s_DU s) (s_DU s) + s_DL s * s_DL s * A0 s - s_len s * s_len s;
  c_c1 := 2 * dot (s_DU s) (s_dUbar s);
  c_c2 := dot (s_dUbar s) (s_dUbar s) |}.
Definition alpha2 (c : coeffs) (eta : R) : R := c_b0 c + eta * c_b1 c.
Definition alpha3 (c : coeffs) (eta : R) : R := c_c0 c + eta * c_c1 c + eta * eta * c_c2 c.
Definition discriminant (c : coeffs) (eta : R) : R := alpha2 c eta * alpha2 c eta - 4 * c_a0 c * alpha3 c eta.
(** computeLambdaDOT l.400-472 *)
Definition computeLambdaDOT (eta l1 l2 : R) s : st :=
  let dU1 := eta *v s_dUbar s +v l1 *v s_dUt s in
  let dU2 := eta *v s_dUbar s +v l2 *v s_dUt s in
  let DOT1 := l1 * (dot (s_DUold s) (s_dUt s) + s_phi s * s_phi s * s_DLold s) in
  let DOT2 := l2 * (dot (s_DUold s) (s_dUt s) + s_phi s * s_phi s * s_DLold s) in
  if Rltb DOT2 DOT1 then set_dU dU1 (set_dL l1 s)
  else if Rltb DOT1 DOT2 then set_dU dU2 (set_dL l2 s)
  else set_dU dU1 (set_dL l1 s).
(** computeLambdasModified l.250-306: the second discriminant and m_eta. Stops when the
    equation for eta has no quadratic term. *)
Definition etaModified (c : coeffs) : result (R * R) :=
  let a1 := c_b1 c * c_b1 c - 4 * c_a0 c * c_c2 c in
  let a2 := 2 * c_b0 c * c_b1 c - 4 * c_a0 c * c_c1 c in
  let a3 := c_b0 c * c_b0 c - 4 * c_a0 c * c_c0 c in
  let d := a2 * a2 - 4 * a1 * a3 in
  if Rltb d 0 then Ok (d, 1)
  else if Reqb a1 0 then Fail ENaN
  else
    let e0 := (- a2 + sqrt d) / (2 * a1) in
    let e1 := (- a2 - sqrt d) / (2 * a1) in
    let eta1 := Rmin e0 e1 in
    let eta2 := Rmax e0 e1 in
    let xi := 5 / 100 * Rabs (eta2 - eta1) in
    let eta := if Rltb eta2 1 then eta2 - xi
               else if Rltb 1 eta2 && Rltb (- a2 / a1) 1 then eta2 + xi
               else if Rltb eta1 1 && Rltb 1 (- a2 / a1) then eta1 - xi
               else if Rltb 1 eta1 then eta1 + xi
               else 1 in
    Ok (d, eta).
(** computeLambdasComplex l.307-325 *)
Definition computeLambdasComplex s : out unit :=
  match s_jac s with
  | None => Exc EUndef s
  | Some m =>
    let DUcr := s_DU s +v s_dUbar s in
    let Fint := p_mul p m (s_U s +v s_DU s) in
    match rdiv (dot Fint (p_F p)) (dot (p_F p) (p_F p)) with
    | None => Exc ENaN s
    | Some Lcr =>
      let DLcr := Lcr - s_L s in
      match rdiv (s_len s) (sqrt (dot DUcr DUcr + A0 s * (DLcr * DLcr))) with
      | None => Exc ENaN s
      | Some mu => done (set_dU (mu *v DUcr -v s_DU s) (set_dL (mu * DLcr - s_DL s) s))
      end
    end
  end.
(** computeLambdas l.327-363; also returns m_eta *)
Definition computeLambdas s : out R :=
  let c := lambdaCoeffs s in
  let D := discriminant c 1 in
  if Reqb (c_a0 c) 0 then Exc ENaN s
  else if Rleb 0 D then
    let l1 := (- alpha2 c 1 + sqrt D) / (2 * c_a0 c) in
    let l2 := (- alpha2 c 1 - sqrt D) / (2 * c_a0 c) in
    Ret 1 (computeLambdaDOT 1 l1 l2 s)
  else
    match etaModified c with
    | Fail e => Exc e s
    | Ok (D2, eta) =>
      if Rleb 0 D2 && Rltb (5 / 100) eta then
        (* computeLambdasEta l.233-248 *)
        let l := (- alpha2 c eta) / (2 * c_a0 c) in
        Ret eta (computeLambdaDOT eta l l s)
      else
        let! s := computeLambdasComplex s in Ret 1 s
    end.

(** iteration: gsALMLoadControl.hpp l.48-56, gsALMRiks.hpp l.68-84, gsALMCrisfield.hpp
    l.73-100, gsALMConsistentCrisfield.hpp l.74-87 *)
Definition iteration (k : kind) s : out unit :=
  let! s := computeUbar s in
  match k with
  | LoadControl =>
    let s := set_dU (s_dUbar s) s in
    done (set_DU (s_DU s +v s_dU s) s)
  | Riks =>
    let a := s_U s +v s_DU s -v s_U s in
    let r := s_phi s * dot a a + (1 - s_phi s) * ((s_L s + s_DL s - s_L s) * (s_L s + s_DL s - s_L s)) - s_len s * s_len s in
    match rdiv (- (r + 2 * s_phi s * dot (s_DU s) (s_dUbar s)))
               (2 * (1 - s_phi s) * s_DL s + 2 * s_phi s * dot (s_DU s) (s_dUt s)) with
    | None => Exc ENaN s
    | Some l =>
      let s := set_dL l s in
      let s := set_dU (s_dUbar s +v s_dL s *v s_dUt s) s in
      done (set_DL (s_DL s + s_dL s) (set_DU (s_DU s +v s_dU s) s))
    end
  | ConsistentCrisfield =>
    let cres := dot (s_DU s) (s_DU s) + s_phi s * s_phi s * s_DL s * s_DL s * dot (p_F p) (p_F p) - s_len s * s_len s in
    let num := cres + dot (2 *v s_DU s) (s_dUbar s) in
    let denum := dot (2 *v s_DU s) (s_dUt s) + s_phi s * s_phi s * 2 * s_DL s * dot (p_F p) (p_F p) in
    match rdiv (- num) denum with
    | None => Exc ENaN s
    | Some l =>
      let s := set_dL l s in
      let s := set_dU (s_dL s *v s_dUt s +v s_dUbar s) s in
      done (set_DL (s_DL s + s_dL s) (set_DU (s_DU s +v s_dU s) s))
    end
  | Crisfield =>
    let lamold := s_dL s in
    let! (eta, s) := computeLambdas s in
    let s := if Rltb (lamold * s_dL s) 0 && Rleb (Rabs (s_dL s)) (Rabs lamold) && negb (Reqb (o_relax o) 1)
             then let s := set_dU (o_relax o *v (s_dL s *v s_dUt s +v eta *v s_dUbar s)) s in
                  set_dL (o_relax o * s_dL s) s
             else s in
    let s := set_DU (s_DU s +v s_dU s) s in
    let s := set_DL (s_DL s + s_dL s) s in
    match o_angle o with
    | AngIteration => done (set_DLold (s_DL s) (set_DUold (s_DU s) s))
    | _ => done s
    end
  end.

(** iterationFinish: gsALMLoadControl.hpp l.99-107, gsALMRiks.hpp l.204-212,
    gsALMCrisfield.hpp l.193-206, gsALMConsistentCrisfield.hpp l.180-190 *)
Definition iterationFinish (k : kind) s : st :=
  let s := set_conv true s in
  let s := set_Lprev (s_L s) (set_Uprev (s_U s) s) in
  let s := set_L (s_L s + s_DL s) (set_U (s_U s +v s_DU s) s) in
  match k with
  | LoadControl | Riks => s
  | ConsistentCrisfield => set_DLold (s_DL s) (set_DUold (s_DU s) s)
  | Crisfield => match o_angle o with
                 | AngStep => set_DLold (s_DL s) (set_DUold (s_DU s) s)
                 | _ => s
                 end
  end.

(** quasiNewtonPredictor and quasiNewtonIteration: gsALMLoadControl.hpp l.21-35,
    gsALMRiks.hpp l.35-51, gsALMCrisfield.hpp l.57-71, gsALMConsistentCrisfield.hpp l.53-71 *)
Definition quasiNewtonIteration (k : kind) s : out unit :=
  let! s := stepJacobian s in
  match k with LoadControl => done s | _ => computeUt s end.
Definition quasiNewtonPredictor (k : kind) s : out unit :=
  let! s := quasiNewtonIteration k s in computeUbar s.

(** stepOutput: gsALMLoadControl.hpp l.133-152, gsALMRiks.hpp l.242, gsALMCrisfield.hpp
    l.504, gsALMConsistentCrisfield.hpp l.221: printing apart, computes the stability *)
Definition stepOutput s : out unit := computeStability false s.

(** the convergence test, gsALMBase.hpp l.397 *)
Definition convergedTest s : bool := oltb (s_resF s) (o_tolF o) && oltb (s_resU s) (o_tolU o).
(** the test of gsALMBase.hpp l.384 *)
Definition newJacobian (i : nat) : bool :=
  negb (o_quasi o) || ((0 <? o_quasiInterval o)%Z && (Z.rem (Z.of_nat i) (o_quasiInterval o) <? 1)%Z).
(** the loop of _step, gsALMBase.hpp l.382-415, from m_numIterations = i on; [n] = MaxIter - i *)
Fixpoint stepLoop (k : kind) (n i : nat) s : out unit :=
  match n with
  | O => done (set_numIt i s)
  | Datatypes.S n' =>
    let s := set_numIt i s in
    let! s := (if newJacobian i then quasiNewtonIteration k s else done s) in
    let! s := iteration k s in
    let! s := computeStability false s in
    let! s := computeResidual s in
    let s := computeResidualNorms s in
    let! s := (if o_verbose o then stepOutput s else done s) in
    if convergedTest s then
      let s := iterationFinish k s in
      if s_adaptive s then computeLength s else done (set_lenPrev (s_len s) s)
    else match n' with
         | O => Exc (EThrow 1) s
         | _ => stepLoop k n' (Datatypes.S i) s
         end
  end.
(** the choice of the predictor, l.365-368 *)
Definition predict (k : kind) s : out unit :=
  match s_guess s with
  | Some (ug, lg) =>
    if negb (Reqb (norm (ug -v s_U s)) 0) && negb (Reqb (lg - s_L s) 0) then predictorGuess k ug lg s
    else predictor k s
  | None => predictor k s
  end.
(** _step l.353-416 *)
Definition step_ (k : kind) s : out unit :=
  if negb (s_initialized s) then Exc EAssert s
  else
    let s := set_numIt 0 (set_conv false s) in
    let s := initiateStep k s in
    let! s := predict k s in
    let! s := computeResidual s in
    let s := computeResidualNorms s in
    let! s := (if o_verbose o then stepOutput s else done s) in
    let! s := (if o_quasi o then quasiNewtonPredictor k s else done s) in
    let s := set_stabPrev (s_stab s) s in
    stepLoop k (o_maxIt o - 1) 1 s.
(** step l.327-351: the status returned is m_status *)
Definition step (k : kind) s : out unit :=
  match step_ k s with
  | Ret _ s => done (set_stat Success s)
  | Exc e s => match statusOf e with Some t => done (set_stat t s) | None => Exc e s end
  end.

(** distance: gsALMRiks.h l.81-84, gsALMCrisfield.h l.79-83; the other methods do not
    implement it *)
Definition distance (k : kind) (du : S) (dl : R) s : option R :=
  match k with
  | Riks => Some (sqrt (s_phi s * (norm du * norm du) + (1 - s_phi s) * (dl * dl)))
  | Crisfield => Some (sqrt (dot du du + A0 s * (dl * dl)))
  | _ => None
  end.
End ALM.
Arguments problem : clear implicits.
Arguments st : clear implicits.
Arguments event : clear implicits.
Arguments out : clear implicits.
Arguments Ret {S Mat A} _ _.
Arguments Exc {S Mat A} _ _.
