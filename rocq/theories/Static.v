(** Model of the static solvers: src/gsStaticSolvers (gsStaticBase, gsStaticNewton, gsStaticDR,
    gsStaticOpt, gsStaticComposite, gsControlDisplacement). Exact real arithmetic; a division by
    zero inside a comparison follows the rules for infinities and NaN ([ratioLt]). Printing
    (initOutput, stepOutput, "verbose") is not modelled, nor are the stability indicators. *)
From Verif Require Export VS Status.
Local Open Scope R_scope.

(** ** Exceptions *)
(** a thrown int, another exception, or undefined behaviour (which no handler catches) *)
Inductive exc := XInt (n : Z) | XOther | XUndef.
(** the answer of a user callback: a value with return value true, the return value false, or an
    exception thrown by the callback *)
Inductive ans (A : Type) := Yes (a : A) | No | Throws (e : exc).
Arguments Yes {A}. Arguments No {A}. Arguments Throws {A}.
Inductive run (St A : Type) := Done (a : A) (s : St) | Threw (e : exc) (s : St).
Arguments Done {St A}. Arguments Threw {St A}.
Definition rbind {St A B} (x : run St A) (f : A -> St -> run St B) : run St B :=
  match x with Done a s => f a s | Threw e s => Threw e s end.
Notation "'run!' ( a , s ) := x 'in' y" := (rbind x (fun a s => y)) (at level 200, a name, s name, x at level 100, y at level 200).
Notation "'run!' s := x 'in' y" := (rbind x (fun _ s => y)) (at level 200, s name, x at level 100, y at level 200).
Definition stateOf {St A} (x : run St A) : St := match x with Done _ s | Threw _ s => s end.
(** the handlers of solveLinear and solveNonlinear, gsStaticNewton.hpp l.82-96, l.122-136 *)
Definition catchStatus (e : exc) : option status :=
  match e with
  | XInt 1 => Some NotConverged
  | XInt 2 => Some AssemblyError
  | XInt 3 => Some SolverError
  | XInt _ => Some OtherError
  | XOther => Some OtherError
  | XUndef => None
  end.
(** a/b < tol in floating point arithmetic without rounding: b = 0 gives an infinity with the
    sign of a, or NaN *)
Definition ratioLt (a b tol : R) : bool := if Reqb b 0 then Rltb a 0 else Rltb (a / b) tol.

(** the evaluations of a solver, latest first, with the exception they led to *)
Inductive nev (S : VS) (Mat : Type) :=
| EvRes (u : S) (l : R) (e : option exc)
| EvJac (u du : S) (e : option exc)
| EvFact (m : Mat) (e : option exc)
| EvSolve (m : Mat) (f : S) (e : option exc).
Arguments EvRes {S Mat}. Arguments EvJac {S Mat}. Arguments EvFact {S Mat}. Arguments EvSolve {S Mat}.
Definition nevExc {S Mat} (e : nev S Mat) : option exc :=
  match e with EvRes _ _ e | EvJac _ _ e | EvFact _ e | EvSolve _ _ e => e end.
Definition ansExc {A} (a : ans A) : option exc :=
  match a with Yes _ => None | No => Some (XInt 2) | Throws e => Some e end.

(** ** gsStaticNewton *)
(** [np_lin], [np_force]: m_linear, m_force; [np_res l u]: m_residualFun at the load m_L = l (a
    residual without load factor ignores l); [np_jac u du]: m_dnonlinear; [np_factor m]: whether
    compute(m) succeeds; [np_solve m f]: the solver's answer (None: solve throws); [np_nl]: m_NL,
    both callbacks were given (_init l.254-257). The number of unknowns is positive. *)
Record nprob (S : VS) (Mat : Type) := mkNProb {
  np_lin : Mat; np_force : S; np_res : R -> S -> ans S; np_jac : S -> S -> ans Mat;
  np_factor : Mat -> bool; np_solve : Mat -> S -> option S; np_nl : bool }.
Arguments np_lin {S Mat}. Arguments np_force {S Mat}. Arguments np_res {S Mat}. Arguments np_jac {S Mat}.
Arguments np_factor {S Mat}. Arguments np_solve {S Mat}. Arguments np_nl {S Mat}.
(** the options tol, tolF, tolU, maxIt, Relaxation. A negative maxIt is not modelled (the loop
    would only end on convergence). *)
Record nopts := mkNOpts { no_tol : R; no_tolF : R; no_tolU : R; no_maxIt : nat; no_relax : R }.
(** Base::getOptions, gsStaticBase.h l.80-81 *)
Definition effTolF (o : nopts) : R := if Reqb (no_tolF o) (-1) then no_tol o else no_tolF o.
Definition effTolU (o : nopts) : R := if Reqb (no_tolU o) (-1) then no_tol o else no_tolU o.
(** m_U, m_DeltaU, m_deltaU, m_R, m_L, m_headstart, m_numIterations, m_residual, m_residualIni,
    m_status. m_start is never read; m_residualOld is only printed. *)
Record nst (S : VS) (Mat : Type) := mkN {
  n_U : S; n_DU : S; n_dU : S; n_R : S; n_L : R; n_head : bool; n_it : nat; n_rnorm : R; n_ini : R; n_stat : status;
  n_log : list (nev S Mat) }.
Arguments mkN {S Mat}. Arguments n_U {S Mat}. Arguments n_DU {S Mat}. Arguments n_dU {S Mat}. Arguments n_R {S Mat}.
Arguments n_L {S Mat}. Arguments n_head {S Mat}. Arguments n_it {S Mat}. Arguments n_rnorm {S Mat}. Arguments n_ini {S Mat}.
Arguments n_stat {S Mat}. Arguments n_log {S Mat}.

Section Newton.
Context {S : VS} {Mat : Type}.
Notation nst := (nst S Mat).
Notation run := (run nst).
Variable p : nprob S Mat.
Implicit Types s : nst.

Definition setU u s : nst := mkN u (n_DU s) (n_dU s) (n_R s) (n_L s) (n_head s) (n_it s) (n_rnorm s) (n_ini s) (n_stat s) (n_log s).
Definition setDU u s : nst := mkN (n_U s) u (n_dU s) (n_R s) (n_L s) (n_head s) (n_it s) (n_rnorm s) (n_ini s) (n_stat s) (n_log s).
Definition setdU u s : nst := mkN (n_U s) (n_DU s) u (n_R s) (n_L s) (n_head s) (n_it s) (n_rnorm s) (n_ini s) (n_stat s) (n_log s).
Definition setR r s : nst := mkN (n_U s) (n_DU s) (n_dU s) r (n_L s) (n_head s) (n_it s) (n_rnorm s) (n_ini s) (n_stat s) (n_log s).
Definition setL l s : nst := mkN (n_U s) (n_DU s) (n_dU s) (n_R s) l (n_head s) (n_it s) (n_rnorm s) (n_ini s) (n_stat s) (n_log s).
Definition setHead h s : nst := mkN (n_U s) (n_DU s) (n_dU s) (n_R s) (n_L s) h (n_it s) (n_rnorm s) (n_ini s) (n_stat s) (n_log s).
Definition setIt i s : nst := mkN (n_U s) (n_DU s) (n_dU s) (n_R s) (n_L s) (n_head s) i (n_rnorm s) (n_ini s) (n_stat s) (n_log s).
Definition setRnorm r s : nst := mkN (n_U s) (n_DU s) (n_dU s) (n_R s) (n_L s) (n_head s) (n_it s) r (n_ini s) (n_stat s) (n_log s).
Definition setIni r s : nst := mkN (n_U s) (n_DU s) (n_dU s) (n_R s) (n_L s) (n_head s) (n_it s) (n_rnorm s) r (n_stat s) (n_log s).
Definition setStat t s : nst := mkN (n_U s) (n_DU s) (n_dU s) (n_R s) (n_L s) (n_head s) (n_it s) (n_rnorm s) (n_ini s) t (n_log s).
Definition addLog e s : nst := mkN (n_U s) (n_DU s) (n_dU s) (n_R s) (n_L s) (n_head s) (n_it s) (n_rnorm s) (n_ini s) (n_stat s) (e :: n_log s).

(** gsStaticBase.h: setDisplacement l.102-106, setLoad l.109, setSolution l.112-116,
    setUpdate l.117-121 *)
Definition setDisplacement (u : S) s : nst := setU u s.
Definition setLoad (l : R) s : nst := setL l s.
Definition setSolution (u : S) (l : R) s : nst := setLoad l (setDisplacement u s).
Definition setUpdate (du : S) s : nst := setDU du (setHead true s).
(** reset, gsStaticBase.h l.136-144 and gsStaticNewton.hpp l.243-248 *)
Definition reset s : nst := setHead false (setL 0 (setR v0 (setdU v0 (setDU v0 (setU v0 s))))).
(** the object after the constructor: m_L = 1 for a residual with load factor (gsStaticNewton.h
    l.107, other members undefined, here zero), then _init l.251-271 with its reset *)
Definition newtonNew : nst :=
  setStat NotStarted (setIni 0 (setRnorm 0 (reset (mkN v0 v0 v0 v0 1 false 0 0 0 NotStarted [])))).

(** _computeResidual l.196-202 *)
Definition computeResidual (u : S) s : run S :=
  let s := addLog (EvRes u (n_L s) (ansExc (np_res p (n_L s) u))) s in
  match np_res p (n_L s) u with Yes r => Done r s | No => Threw (XInt 2) s | Throws e => Threw e s end.
(** _computeJacobian l.205-212 *)
Definition computeJacobian (u du : S) s : run Mat :=
  let s := addLog (EvJac u du (ansExc (np_jac p u du))) s in
  match np_jac p u du with Yes m => Done m s | No => Threw (XInt 2) s | Throws e => Threw e s end.
(** _factorizeMatrix l.215-227 *)
Definition factorize (m : Mat) s : run unit :=
  if np_factor p m then Done tt (addLog (EvFact m None) s) else Threw (XInt 3) (addLog (EvFact m (Some (XInt 3))) s).
(** _solveSystem l.230-240, with the matrix factorised just before *)
Definition solveSystem (m : Mat) (f : S) s : run S :=
  match np_solve p m f with
  | Some x => Done x (addLog (EvSolve m f None) s)
  | None => Threw (XInt 3) (addLog (EvSolve m f (Some (XInt 3))) s)
  end.
(** _solveLinear l.101-112 *)
Definition solveLinear_ s : run unit :=
  run! s := factorize (np_lin p) s in
  run! (x, s) := solveSystem (np_lin p) (np_force p) s in
  Done tt (setU x s).
Definition orOne (r : R) : R := if Reqb r 0 then 1 else r.
(** _start l.274-316 *)
Definition start_ s : run unit :=
  if n_head s then
    run! (r, s) := computeResidual (n_U s +v n_DU s) s in
    let s := setRnorm (orOne (norm r)) (setR r s) in
    run! (r0, s) := computeResidual (n_U s) s in
    Done tt (setdU v0 (setHead false (setIni (orOne (norm r0)) s)))
  else
    let s := setDU v0 s in
    run! (r, s) := computeResidual (n_U s) s in
    let s := setRnorm (orOne (norm r)) (setR r s) in
    Done tt (setdU v0 (setIni (n_rnorm s) s)).
(** the convergence test, l.181 *)
Definition newtonTest (o : nopts) s : bool :=
  ratioLt (no_relax o * norm (n_dU s)) (norm (n_DU s)) (effTolU o) && ratioLt (n_rnorm s) (n_ini s) (effTolF o).
(** one pass of the loop up to the test, l.162-179 *)
Definition newtonIteration (o : nopts) s : run unit :=
  run! (m, s) := computeJacobian (n_U s +v n_DU s) (n_dU s) s in
  run! s := factorize m s in
  run! (x, s) := solveSystem m (n_R s) s in
  let s := setDU (n_DU s +v no_relax o *v x) (setdU x s) in
  run! (r, s) := computeResidual (n_U s +v n_DU s) s in
  Done tt (setRnorm (norm r) (setR r s)).
(** the loop l.160-191 from m_numIterations = i on, n = m_maxIterations - i *)
Fixpoint newtonLoop (o : nopts) (n i : nat) s : run unit :=
  match n with
  | O => Done tt (setIt i s)
  | Datatypes.S n' =>
    run! s := newtonIteration o (setIt i s) in
    if newtonTest o s then Done tt (setU (n_U s +v n_DU s) s)
    else match n' with
    | O => Threw (XInt 1) (setU (n_U s +v n_DU s) s)
    | _ => newtonLoop o n' (Datatypes.S i) s
    end
  end.
(** _solveNonlinear l.142-193. The first branch (m_DeltaU without rows) needs a problem without
    unknowns and is left out. *)
Definition solveNonlinear_ (o : nopts) s : run unit :=
  run! s := start_ s in newtonLoop o (no_maxIt o) 0 s.
(** solveLinear l.75-98, solveNonlinear l.115-138, solve (gsStaticNewton.h l.148-154) *)
Definition guarded (x : run unit) : run status :=
  match x with
  | Done _ s => Done Success (setStat Success s)
  | Threw e s => match catchStatus e with Some t => Done t (setStat t s) | None => Threw e s end
  end.
Definition newtonSolve (o : nopts) s : run status :=
  guarded (if np_nl p then solveNonlinear_ o s else solveLinear_ s).
(** gsStaticBase.h l.127: converged *)
Definition converged s : bool := status_eqb (n_stat s) Success.
End Newton.

(** ** gsStaticDR *)
(** The lumped mass is a vector; here the products with it and with its inverse are the maps
    [gp_mass] and [gp_minv]. [gp_force] is m_forcing, [gp_res] the residual callback. *)
Record gprob (S : VS) := mkGProb { gp_mass : S -> S; gp_minv : S -> S; gp_force : S; gp_res : R -> S -> ans S }.
Arguments gp_mass {S}. Arguments gp_minv {S}. Arguments gp_force {S}. Arguments gp_res {S}.
(** the options; [go_maxIt] is positive (maxIt = 0 would loop until convergence) *)
Record gopts := mkGOpts { go_tolF : R; go_tolU : R; go_tolE : R; go_maxIt : nat; go_damping : R; go_alpha : R; go_resetIt : Z }.
(** [g_opts]: the options read by the last initialize; None: not read yet. [g_scale]: m_massInv
    divided by the inverse of the mass. [g_damp]: m_damp divided by the mass; None: m_damp is
    still empty. m_dt is always 1 (_init l.172). *)
Record gst (S : VS) := mkG {
  g_U : S; g_DU : S; g_dU : S; g_R : S; g_V : S; g_L : R; g_head : bool; g_it : nat; g_rnorm : R; g_ini : R;
  g_Ek : R; g_EkPrev : R; g_Ek0 : R; g_Eks : list R; g_scale : R; g_damp : option R; g_opts : option gopts; g_stat : status }.
Arguments mkG {S}. Arguments g_U {S}. Arguments g_DU {S}. Arguments g_dU {S}. Arguments g_R {S}. Arguments g_V {S}. Arguments g_L {S}.
Arguments g_head {S}. Arguments g_it {S}. Arguments g_rnorm {S}. Arguments g_ini {S}. Arguments g_Ek {S}. Arguments g_EkPrev {S}.
Arguments g_Ek0 {S}. Arguments g_Eks {S}. Arguments g_scale {S}. Arguments g_damp {S}. Arguments g_opts {S}. Arguments g_stat {S}.

Section DR.
Context {S : VS}.
Notation gst := (gst S).
Notation run := (run gst).
Variable p : gprob S.
Implicit Types s : gst.
Definition dt : R := 1.

(** reset l.157-166; m_massInv loses its factor 1/alpha *)
Definition drReset s : gst :=
  mkG v0 v0 v0 v0 v0 0 false (g_it s) (g_rnorm s) (g_ini s) 0 (g_EkPrev s) 0 (g_Eks s) 1 (g_damp s) (g_opts s) NotStarted.
(** initialize l.148-154 with the options [o] *)
Definition drInitialize (o : gopts) s : gst :=
  let s := drReset s in
  mkG (g_U s) (g_DU s) (g_dU s) (g_R s) (g_V s) (g_L s) (g_head s) (g_it s) (g_rnorm s) (g_ini s) (g_Ek s) (g_EkPrev s) (g_Ek0 s) (g_Eks s)
    (g_scale s * (1 / go_alpha o)) (Some (go_damping o)) (Some o) (g_stat s).
(** the object after the constructor (gsStaticDR.h l.66-83, _init l.169-174): m_L = 1, then reset *)
Definition drNew : gst := drReset (mkG v0 v0 v0 v0 v0 1 false 0 0 0 0 0 0 [] 1 None None NotStarted).
(** setters of the base class, as for Newton *)
Definition drSetDisplacement (u : S) s : gst :=
  mkG u (g_DU s) (g_dU s) (g_R s) (g_V s) (g_L s) (g_head s) (g_it s) (g_rnorm s) (g_ini s) (g_Ek s) (g_EkPrev s) (g_Ek0 s) (g_Eks s)
    (g_scale s) (g_damp s) (g_opts s) (g_stat s).
Definition drSetLoad (l : R) s : gst :=
  mkG (g_U s) (g_DU s) (g_dU s) (g_R s) (g_V s) l (g_head s) (g_it s) (g_rnorm s) (g_ini s) (g_Ek s) (g_EkPrev s) (g_Ek0 s) (g_Eks s)
    (g_scale s) (g_damp s) (g_opts s) (g_stat s).
Definition drSetUpdate (du : S) s : gst :=
  mkG (g_U s) du (g_dU s) (g_R s) (g_V s) (g_L s) true (g_it s) (g_rnorm s) (g_ini s) (g_Ek s) (g_EkPrev s) (g_Ek0 s) (g_Eks s)
    (g_scale s) (g_damp s) (g_opts s) (g_stat s).

(** _computeResidual l.177-183 *)
Definition drResidual (u : S) s : run S :=
  match gp_res p (g_L s) u with Yes r => Done r s | No => Threw (XInt 2) s | Throws e => Threw e s end.
Definition massInv s (x : S) : S := g_scale s *v gp_minv p x.
Definition kinetic (v : S) : R := dot v (gp_mass p v).
(** the end of _start l.258-266, from the residual [r] *)
Definition drLaunch (r : S) (head : bool) (res ini : R) (du : S) s : gst :=
  let d := (1/2 * dt * dt) *v massInv s r in
  let v := (1 / dt) *v d in
  mkG (g_U s) (du +v d) d r v (g_L s) head (g_it s) res ini (kinetic v) (g_EkPrev s) (g_Ek0 s) (g_Eks s) (g_scale s) (g_damp s) (g_opts s) (g_stat s).
(** _start l.217-267 *)
Definition drStart s : run unit :=
  let res := orOne (norm (gp_force p)) in
  if g_head s then
    run! (r, s) := drResidual (g_U s +v g_DU s) s in
    run! (r0, s) := drResidual (g_U s) s in
    Done tt (drLaunch r false res (orOne (norm r0)) (g_DU s) s)
  else
    run! (r, s) := drResidual (g_U s) s in
    Done tt (drLaunch r false res res v0 s).
(** m_damp.cwiseProduct(m_v); undefined before initialize (sizes differ) *)
Definition damping s : option S := match g_damp s with Some c => Some (c *v gp_mass p (g_V s)) | None => None end.
(** _iteration l.186-202 *)
Definition drIteration s : run unit :=
  run! (f, s) := drResidual (g_U s +v g_DU s) s in
  match damping s with
  | None => Threw XUndef s
  | Some d =>
    let r := f -v d in
    let v := g_V s +v dt *v massInv s r in
    let du := dt *v v in
    Done tt (mkG (g_U s) (g_DU s +v du) du r v (g_L s) (g_head s) (g_it s) (norm r) (if Reqb (g_ini s) 0 then norm r else g_ini s)
      (kinetic v) (g_Ek s) (g_Ek0 s) (g_Eks s) (g_scale s) (g_damp s) (g_opts s) (g_stat s))
  end.
(** _peak l.205-214 *)
Definition drPeak s : run unit :=
  run! (f, s) := drResidual (g_U s +v g_DU s) s in
  match damping s with
  | None => Threw XUndef s
  | Some d =>
    let r := f -v d in
    let du := (- (3/2) * dt) *v g_V s +v (dt * dt / 2) *v massInv s r in
    Done tt (mkG (g_U s) (g_DU s +v du) du r v0 (g_L s) (g_head s) (g_it s) (g_rnorm s) (g_ini s)
      0 (g_EkPrev s) (g_Ek0 s) (g_Eks s) (g_scale s) (g_damp s) (g_opts s) (g_stat s))
  end.
(** setters of the loop: m_numIterations, m_Ek0, m_Eks, m_U, m_status *)
Definition drSetIt (i : nat) s : gst :=
  mkG (g_U s) (g_DU s) (g_dU s) (g_R s) (g_V s) (g_L s) (g_head s) i (g_rnorm s) (g_ini s) (g_Ek s) (g_EkPrev s) (g_Ek0 s) (g_Eks s)
    (g_scale s) (g_damp s) (g_opts s) (g_stat s).
Definition drPush (e0 : R) (l : list R) s : gst :=
  mkG (g_U s) (g_DU s) (g_dU s) (g_R s) (g_V s) (g_L s) (g_head s) (g_it s) (g_rnorm s) (g_ini s) (g_Ek s) (g_EkPrev s) e0 l
    (g_scale s) (g_damp s) (g_opts s) (g_stat s).
Definition drSetStat (t : status) s : gst :=
  mkG (g_U s) (g_DU s) (g_dU s) (g_R s) (g_V s) (g_L s) (g_head s) (g_it s) (g_rnorm s) (g_ini s) (g_Ek s) (g_EkPrev s) (g_Ek0 s) (g_Eks s)
    (g_scale s) (g_damp s) (g_opts s) t.
(** the convergence test l.129 *)
Definition drTest (o : gopts) s : bool :=
  ratioLt (g_rnorm s) (g_ini s) (go_tolF o) && ratioLt (g_Ek s) (g_Ek0 s) (go_tolE o) && ratioLt (norm (g_dU s)) (norm (g_DU s)) (go_tolU o).
(** l.115-120: the iteration and the peak; [k] is resetIt, returned as it is after the pass *)
Definition drPass (o : gopts) (k : Z) s : run Z :=
  run! s := drIteration s in
  if (Reqb (go_damping o) 0 && Rltb (g_Ek s) (g_EkPrev s)) || (k =? go_resetIt o)%Z then
    run! s := drPeak s in Done 0%Z s
  else Done k s.
(** the loop l.113-143 from m_numIterations = i on, n = m_maxIterations - i *)
Fixpoint drLoop (o : gopts) (n i : nat) (k : Z) s : run unit :=
  match n with
  | O => Done tt (drSetIt i s)
  | Datatypes.S n' =>
    run! (k, s) := drPass o k (drSetIt i s) in
    let s := drPush (g_Ek0 s) (g_Eks s ++ [g_Ek s]) s in
    if drTest o s then Done tt (drSetDisplacement (g_U s +v g_DU s) s)
    else match n' with
    | O => Threw (XInt 1) (drSetDisplacement (g_U s +v g_DU s) s)
    | _ => drLoop o n' (Datatypes.S i) (k + 1)%Z s
    end
  end.
(** _solve l.98-145 and solve l.72-95, whose handlers are commented out. Before initialize the
    options are undefined. *)
Definition drSolve s : run status :=
  match g_opts s with
  | None => Threw XUndef s
  | Some o =>
    run! s := drStart (drPush (g_Ek0 s) [] s) in
    let s := drPush (g_Ek s) (g_Eks s ++ [g_Ek s]) s in
    run! s := drLoop o (go_maxIt o - 1) 1 0%Z s in
    Done Success (drSetStat Success s)
  end.
End DR.

(** ** gsStaticOpt *)
(** The optimiser is a function from the start to the design and the number of iterations it
    returns; it may depend on the load. *)
Record ost (S : VS) := mkO { o_U : S; o_DU : S; o_L : R; o_it : nat; o_stat : status }.
Arguments mkO {S}. Arguments o_U {S}. Arguments o_DU {S}. Arguments o_L {S}. Arguments o_it {S}. Arguments o_stat {S}.
Section Opt.
Context {S : VS}.
Variable optim : R -> S -> S * nat.
(** the constructor with a load factor and _init, gsStaticOpt.h l.180-190, gsStaticOpt.hpp l.39-52 *)
Definition optNew : ost S := mkO v0 v0 1 0 NotStarted.
Definition optSetDisplacement (u : S) (s : ost S) : ost S := mkO u (o_DU s) (o_L s) (o_it s) (o_stat s).
Definition optReset (s : ost S) : ost S := mkO v0 v0 0 (o_it s) (o_stat s).
(** solve, gsStaticOpt.hpp l.92-102 *)
Definition optSolve (s : ost S) : status * ost S :=
  let r := optim (o_L s) (o_U s +v o_DU s) in
  let du := fst r -v o_U s in
  (Success, mkO (o_U s +v du) du (o_L s) (snd r) (o_stat s)).
End Opt.

(** ** The interface used by gsStaticComposite and gsControlDisplacement *)
(** the virtual functions of gsStaticBase; solvers of different classes use one state type T (a
    sum type if needed). Distinct objects: a solver listed twice is not modelled. *)
Record iface (S : VS) (T : Type) := mkIface {
  i_solve : T -> run T status; i_solution : T -> S; i_update : T -> S; i_iter : T -> nat;
  i_setUpdate : S -> T -> T; i_setDisplacement : S -> T -> T; i_setLoad : R -> T -> T; i_reset : T -> T }.
Arguments mkIface {S T}. Arguments i_solve {S T}. Arguments i_solution {S T}. Arguments i_update {S T}. Arguments i_iter {S T}.
Arguments i_setUpdate {S T}. Arguments i_setDisplacement {S T}. Arguments i_setLoad {S T}. Arguments i_reset {S T}.
Definition newtonIface {S Mat} (p : nprob S Mat) (o : nopts) : iface S (nst S Mat) :=
  mkIface (newtonSolve p o) n_U n_DU n_it setUpdate setDisplacement setLoad reset.
Definition drIface {S} (p : gprob S) : iface S (gst S) :=
  mkIface (drSolve p) g_U g_DU g_it drSetUpdate drSetDisplacement drSetLoad drReset.

Section Composite.
Context {S : VS} {T : Type}.
Notation solver := (iface S T * T)%type.
(** m_U, m_DeltaU, m_numIterations, m_status of the composite solver *)
Record cst := mkC { c_U : S; c_DU : S; c_it : nat; c_stat : status }.
(** the loop of solve, gsStaticComposite.hpp l.21-47: [prev] the update of the solver before;
    returns the solvers with their new states *)
Fixpoint compLoop (prev : option S) (l : list solver) (c : cst) : run (list solver * cst) unit :=
  match l with
  | [] => Done tt ([], c)
  | (f, t) :: l =>
    let t := match prev with Some du => i_setUpdate f du t | None => t end in
    match i_solve f t with
    | Threw e t => Threw e ((f, t) :: l, c)
    | Done Success t =>
      let c := mkC (i_solution f t) (i_update f t) (c_it c + i_iter f t) Success in
      match compLoop (Some (i_update f t)) l c with
      | Done _ (l, c) => Done tt ((f, t) :: l, c)
      | Threw e (l, c) => Threw e ((f, t) :: l, c)
      end
    | Done q t => Done tt ((f, t) :: l, mkC (c_U c) (c_DU c) (c_it c) q)
    end
  end.
Definition compSolve (l : list solver) (c : cst) : run (list solver * cst) status :=
  match compLoop None l (mkC (c_U c) (c_DU c) 0 Success) with
  | Done _ (l, c) => Done (c_stat c) (l, c)
  | Threw e x => Threw e x
  end.
(** setDisplacement, gsStaticComposite.hpp l.76-80 *)
Definition compSetDisplacement (u : S) (l : list solver) : list solver := map (fun x => (fst x, i_setDisplacement (fst x) u (snd x))) l.

(** gsControlDisplacement.h l.32-97 *)
Record dst := mkD { d_solver : T; d_U : S; d_L : R; d_first : bool; d_stat : status }.
Variable f : iface S T.
(** the constructor, l.37-43 (m_status is undefined there, here NotStarted) *)
Definition ctlNew (t : T) : dst := mkD t v0 0 true NotStarted.
(** step l.46-60. An exception leaves step with [first] already false. *)
Definition ctlStep (dl : R) (s : dst) : run dst status :=
  let t := i_setLoad f (d_L s + dl) (d_solver s) in
  let t := if d_first s then t else i_setDisplacement f (d_U s) t in
  match i_solve f t with
  | Threw e t => Threw e (mkD t (d_U s) (d_L s) false (d_stat s))
  | Done q t =>
    if status_eqb q Success then Done q (mkD t (d_U s +v i_update f t) (d_L s + dl) false q)
    else Done q (mkD t (d_U s) (d_L s) false q)
  end.
(** reset l.75-78, setZero l.80-86 *)
Definition ctlReset (s : dst) : dst := mkD (i_reset f (d_solver s)) (d_U s) (d_L s) (d_first s) (d_stat s).
Definition ctlSetZero (s : dst) : dst := mkD (i_setLoad f 0 (i_reset f (d_solver s))) v0 0 (d_first s) (d_stat s).
End Composite.
