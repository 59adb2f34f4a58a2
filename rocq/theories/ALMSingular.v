(** Model of the search for singular points and of branch switching: gsALMBase.hpp l.421-516
    and l.630-856. Simplifications: as in ALMBase.v; with testPoint = false and no bisection
    before, m_V is an empty vector in the code and arbitrary here. *)
From Verif Require Import VS Status ALMBase.
Local Open Scope R_scope.

Section Singular.
Context {S : VS} {Mat : Type}.
Notation st := (st S Mat).
Notation out := (out S Mat).
Notation done s := (Ret tt s).
Notation "'let!' s := a 'in' b" := (obind a (fun _ s => b)) (at level 200, s name, a at level 100, b at level 200).
Notation "'let!' ( x , s ) := a 'in' b" := (obind a (fun x s => b)) (at level 200, x name, s name, a at level 100, b at level 200).
Variable p : problem S Mat.
Variable o : opts.
Variable k : kind.
Implicit Types s : st.

(** normalize() of Eigen: the zero vector stays zero *)
Definition normalize (v : S) : S := if Rltb 0 (dot v v) then (1 / sqrt (dot v v)) *v v else v.

(** the power iterations l.490-494 *)
Fixpoint testLoop (n : nat) s : out unit :=
  match n with
  | O => done s
  | Datatypes.S n =>
    let! (v, s) := solveSystem p (s_Vm s) s in
    testLoop n (set_Vm (normalize v) s)
  end.
(** factorizeMatrix(m_jacMat) *)
Definition refactorize s : out unit :=
  match s_jac s with None => Exc EUndef s | Some m => factorizeMatrix p m s end.
(** _testSingularPoint l.474-511, isBifurcation l.513-518 *)
Definition testSingularPoint (jacobian : bool) s : out bool :=
  let! s := (if jacobian then refreshJacobian p (s_U s) (s_dU s) s else done s) in
  let s := set_Vm (normalize (p_ones p)) s in
  let! s := refactorize s in
  let! s := testLoop (o_spTestIt o) s in
  Ret (Rltb (Rabs (dot (s_Vm s) (p_F p))) (o_spTestTol o)) s.
Definition isBifurcation := testSingularPoint.

(** switchBranch l.842-856; tau = 0 gives inf or NaN *)
Definition switchBranch s : out unit :=
  let s := set_Vm (normalize (s_Vm s)) s in
  match rdiv (norm (s_Vm s)) (o_tau o) with
  | None => Exc ENaN s
  | Some xi =>
    let s := set_DU (xi *v s_Vm s) s in
    let s := set_U (s_U s +v s_DU s) s in
    done (set_DUold v0 (set_DLold 0 s))
  end.

(** the perturbation of _extendedSystemIteration, l.717 *)
Definition epsExt : R := 1 / 100000000.
(** _extendedSystemIteration l.705-735 *)
Definition extendedSystemIteration s : out unit :=
  let! (r, s) := computeResidualAt p (s_U s +v s_DU s) (s_L s + s_DL s) s in
  let s := set_resVec r s in
  let! s := refreshJacobian p (s_U s +v s_DU s) (s_dU s) s in
  let! s := computeUt p s in
  let! s := computeUbar p s in
  let! (jeps, s) := computeJacobianAt p ((s_U s +v s_DU s) +v epsExt *v (s_Vm s +v s_DV s)) v0 s in
  match s_jac s with
  | None => Exc EUndef s
  | Some j =>
    let h1 := (1 / epsExt) *v p_mul p jeps (s_dUt s) -v (1 / epsExt) *v p_F p in
    let h2 := p_mul p j (s_Vm s +v s_DV s) +v (1 / epsExt) *v (p_mul p jeps (s_dUbar s) +v s_resVec s) in
    let! s := factorizeMatrix p j s in
    let! (x, s) := solveSystem p (vopp h1) s in
    let s := set_dVt x s in
    let! (x, s) := solveSystem p (vopp h2) s in
    let s := set_dVbar x s in
    let v := s_Vm s +v s_DV s in
    if Reqb (norm v) 0 then Exc ENaN s
    else
      let vn := (1 / norm v) *v v in
      match rdiv (- (dot vn (s_dVbar s) + norm v - 1)) (dot vn (s_dVt s)) with
      | None => Exc ENaN s
      | Some l =>
        let s := set_dL l s in
        let s := set_dU (s_dL s *v s_dUt s +v s_dUbar s) s in
        done (set_dV (s_dL s *v s_dVt s +v s_dVbar s) s)
      end
  end.

(** the loop of _extendedSystemSolve l.650-699, from m_numIterations = i on; [n] = MaxIter - i.
    The output calls _bisectionTerminationFunction (l.907). *)
Fixpoint extendedLoop (n i : nat) (tol : R) s : out bool :=
  match n with
  | O => Ret true (set_numIt i s)
  | Datatypes.S n' =>
    let s := set_numIt i s in
    let! s := extendedSystemIteration s in
    let s := set_DU (s_DU s +v s_dU s) s in
    let s := set_DL (s_DL s + s_dL s) s in
    let s := set_DV (s_DV s +v s_dV s) s in
    let! s := refreshJacobian p (s_U s +v s_DU s) (s_dU s) s in
    match s_jac s with
    | None => Exc EUndef s
    | Some j =>
      let s := set_resKT (norm (p_mul p j (s_Vm s +v s_DV s))) s in
      let! (r, s) := computeResidualAt p (s_U s +v s_DU s) (s_L s + s_DL s) s in
      let s := computeResidualNorms p (set_resVec r s) in
      let! s := (if o_verbose o then computeStability_ p o (s_U s) false s else done s) in
      if Rltb (s_resKT s) tol then
        Ret true (set_L (s_L s + s_DL s) (set_U (s_U s +v s_DU s) s))
      else match n' with
      | O =>
        Ret false (if o_spFail o then set_L (s_L s + s_DL s) (set_U (s_U s +v s_DU s) s)
          else set_dL 0 (set_dU v0 (set_dV v0 (set_DL 0 (set_DU v0 (set_DV v0 s))))))
      | _ => extendedLoop n' (Datatypes.S i) tol s
      end
    end
  end.
(** _extendedSystemSolve l.630-702 (m_basisResidualKTPhi is not used) *)
Definition extendedSystemSolve (u : S) (l tol : R) s : out bool :=
  let s := set_L l (set_U u s) in
  let! s := refreshJacobian p (s_U s) (s_dU s) s in
  let s := set_dL 0 (set_dU v0 (set_dV v0 (set_DL 0 (set_DU v0 (set_DV v0 s))))) in
  extendedLoop (o_maxIt o) 0 tol s.

(** _bisectionObjectiveFunction l.737-743, _bisectionTerminationFunction l.745-751 *)
Definition bisectionObjective (x : S) (jacobian : bool) s : out nat :=
  let! s := computeStability_ p o x jacobian s in Ret (s_negatives s) s.
Definition bisectionTermination (x : S) (jacobian : bool) s : out R :=
  let! s := computeStability_ p o x jacobian s in Ret (s_indicator s) s.
(** the loop of _bisectionSolve l.778-817; [n] = MaxIter - k *)
Fixpoint bisectionLoop (n : nat) (tol ref : R) (uold : S) (lold : R) (fa : nat) s : out bool :=
  match n with
  | O => Ret false s
  | Datatypes.S n =>
    let s := set_L lold (set_U uold s) in
    let! s := step p o k s in
    let success := match s_stat s with Success => true | _ => false end in
    let! (fb, s) := bisectionObjective (s_U s) true s in
    let accept := Nat.eqb fa fb && success in
    let s := if accept then s else set_len (s_len s / 2) s in
    let uold := if accept then s_U s else uold in
    let lold := if accept then s_L s else lold in
    let! (term, s) := bisectionTermination (s_U s) false s in
    if oltb (option_map Rabs (rdiv term ref)) tol then Ret true s
    else bisectionLoop n tol ref uold lold fa s
  end.
(** the power iterations l.826-838 *)
Fixpoint modeLoop (n : nat) (vold : S) (converged : bool) s : out bool :=
  match n with
  | O => Ret converged s
  | Datatypes.S n =>
    let! s := refactorize s in
    let! (v, s) := solveSystem p (s_Vm s) s in
    let s := set_Vm (normalize v) s in
    if Rltb (norm (s_Vm s -v vold)) (o_tol o) then Ret true s
    else modeLoop n (s_Vm s) converged s
  end.
(** _bisectionSolve l.753-840 *)
Definition bisectionSolve (u : S) (l tol : R) s : out bool :=
  let s := set_L l (set_U u s) in
  let len := s_len s in
  let adaptive := s_adaptive s in
  let s := set_adaptive false s in
  let! (ref, s) := bisectionTermination (s_U s) true s in
  let! (fa, s) := bisectionObjective (s_U s) false s in
  let! (converged, s) := bisectionLoop (o_maxIt o - 1) tol ref (s_U s) (s_L s) fa s in
  let s := set_adaptive adaptive (set_len len s) in
  let s := set_Vm (normalize (p_ones p)) s in
  modeLoop 5 v0 converged s.

(** _computeSingularPoint l.421-446 *)
Definition computeSingularPoint_ (u : S) (l : R) (switch jacobian testPoint : bool) s : out unit :=
  let! (test, s) := (if testPoint then testSingularPoint jacobian s else Ret true s) in
  let s := set_L l (set_U u s) in
  if test then
    let! s := (if negb (Reqb (o_spTolB o) 0) then
                 let! s := bisectionSolve (s_U s) (s_L s) (o_spTolB o) s in done s
               else done s) in
    let! (converged, s) := extendedSystemSolve (s_U s) (s_L s) (o_spTolE o) s in
    let! s := (if switch && (converged || o_spFail o) then switchBranch s else done s) in
    done (set_stab (s_stabPrev s) s)
  else done s.
(** computeSingularPoint l.449-472; the status returned is m_status *)
Definition computeSingularPoint (u : S) (l : R) (switch jacobian testPoint : bool) s : out unit :=
  match computeSingularPoint_ u l switch jacobian testPoint s with
  | Ret _ s => done s
  | Exc e s => match statusOf e with Some t => done (set_stat t s) | None => Exc e s end
  end.
End Singular.
