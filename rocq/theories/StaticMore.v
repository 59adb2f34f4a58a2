(** Model of further members of the static solvers: reset of the composite solver, and the stability
    queries of the base class. *)
From Verif Require Export Static.
Local Open Scope R_scope.

(** reset, gsStaticComposite.hpp l.111-115: only the listed solvers; m_U, m_DeltaU of the composite solver itself stay *)
Definition compReset {S T} (x : list (iface S T * T) * @cst S) : list (iface S T * T) * @cst S :=
  (map (fun e => (fst e, i_reset (fst e) (snd e))) (fst x), snd x).

(** calls of a user on a Newton solver, gsStaticBase.h l.102-121, l.136-144, gsStaticNewton.h l.148-154 *)
Inductive ncall (S : VS) := NDisp (u : S) | NLoad (l : R) | NUpdate (u : S) | NReset | NSolve (o : nopts).
Arguments NDisp {S}. Arguments NLoad {S}. Arguments NUpdate {S}. Arguments NReset {S}. Arguments NSolve {S}.
(** the answer of a call: nothing, a status, or an exception; after it solution(), update() are read *)
Inductive nans := NVoid | NStatus (q : status) | NExc (e : exc).
Definition ncallDo {S Mat} (p : nprob S Mat) (c : ncall S) (s : nst S Mat) : nans * nst S Mat :=
  match c with
  | NDisp u => (NVoid, setDisplacement u s)
  | NLoad l => (NVoid, setLoad l s)
  | NUpdate u => (NVoid, setUpdate u s)
  | NReset => (NVoid, reset s)
  | NSolve o => match newtonSolve p o s with Done q s => (NStatus q, s) | Threw e s => (NExc e, s) end
  end.
(** a session: after each call its answer, solution() and update() (gsStaticBase.h l.96, l.99) *)
Fixpoint nsession {S Mat} (p : nprob S Mat) (l : list (ncall S)) (s : nst S Mat) : list (nans * vec S * vec S) :=
  match l with
  | [] => []
  | c :: l => let '(a, s) := ncallDo p c s in (a, n_U s, n_DU s) :: nsession p l s
  end.

(** ** Stability, gsStaticBase.h l.146-235 *)
(** the option BifurcationMethod, gsStaticBase.h l.73, l.84 *)
Inductive stabMethod := SDeterminant | SEigenvalue | SOther.
(** m_stabilityMethod, whether m_solver is a SimplicialLDLT, m_indicator (None: not yet written), m_stabilityVec *)
Record stab := mkStab { sb_method : stabMethod; sb_ldlt : bool; sb_ind : option R; sb_vec : list R }.
Section Stab.
Context {Mat : Type}.
(** m_solver->compute and vectorD, l.164-177 (None: info() is not Success) *)
Variable factor : Mat -> option (list R).
(** the eigenvalues, l.184-214 (None: Spectra did not converge) *)
Variable eig : Mat -> R -> option (list R).
(** colwise().minCoeff()[0], l.217, l.233; undefined without entries *)
Definition minCoeff (l : list R) : option R := match l with [] => None | x :: l => Some (fold_left Rmin l x) end.
(** _computeStabilityDet l.162-179 *)
Definition stabDet (m : Mat) (s : stab) : bool * stab :=
  match factor m with
  | None => (false, s)
  | Some d => (true, if sb_ldlt s then mkStab (sb_method s) (sb_ldlt s) (sb_ind s) d else s)
  end.
(** _computeStabilityEig l.182-219, up to its m_indicator, which the caller writes again *)
Definition stabEig (m : Mat) (shift : R) (s : stab) : bool * stab :=
  match eig m shift with
  | None => (false, s)
  | Some l => (true, mkStab (sb_method s) (sb_ldlt s) (sb_ind s) l)
  end.
(** _computeStability l.222-235 *)
Definition stabCompute (m : Mat) (shift : R) (s : stab) : result stab :=
  let '(ok, s) := match sb_method s with SDeterminant => stabDet m s | SEigenvalue => stabEig m shift s | SOther => (false, s) end in
  if ok then match minCoeff (sb_vec s) with Some x => Ok (mkStab (sb_method s) (sb_ldlt s) (Some x) (sb_vec s)) | None => Fail EUndef end
  else Ok s.
(** indicator l.147-151, stabilityVec l.154-158: the answer of _computeStability is not used *)
Definition indicator (m : Mat) (shift : R) (s : stab) : result (R * stab) :=
  do s <- stabCompute m shift s; match sb_ind s with Some x => Ok (x, s) | None => Fail EUndef end.
Definition stabilityVec (m : Mat) (shift : R) (s : stab) : result (list R * stab) :=
  do s <- stabCompute m shift s; Ok (sb_vec s, s).
End Stab.
