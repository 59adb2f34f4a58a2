(** Model of the time integrators: src/gsDynamicSolvers (gsDynamicBase, gsDynamicNewmark,
    gsDynamicBathe, gsDynamicWilson, gsDynamicExplicitEuler, gsDynamicImplicitEuler, gsDynamicRK4)
    and of the wrapper gsDynamicXBraid. Exact real arithmetic. Printing ("Verbose", gsDebugVar,
    gsInfo) is not modelled. Matrices are maps S -> S; that they are linear is a hypothesis of the
    theorems that need it. *)
From Verif Require Export VS Status Static.
Local Open Scope R_scope.

(** [dp_mass t], [dp_damp u t], [dp_jac u t], [dp_force t], [dp_res u t]: the callbacks m_Tmass,
    m_Tdamping, m_Tjacobian, m_Tforce, m_Tresidual, gsDynamicBase.h l.58-173 (the constructors wrap
    the time-independent ones; a callback that is not available throws). [dp_const]: m_mass is set,
    the mass does not depend on time. [dp_solve m b]: compute(m) and solve(b) of the sparse solver
    (None: the answer has entries that are not finite). [dp_inv m]: the inverse by LU.
    [dp_gmres m b]: the answer of GMRES (its starting vector is left out). *)
Record dprob (S : VS) := mkDP {
  dp_mass : R -> ans (S -> S); dp_damp : S -> R -> ans (S -> S); dp_jac : S -> R -> ans (S -> S);
  dp_force : R -> ans S; dp_res : S -> R -> ans S; dp_const : bool;
  dp_solve : (S -> S) -> S -> option S; dp_inv : (S -> S) -> option (S -> S);
  dp_gmres : (VS_prod S S -> VS_prod S S) -> VS_prod S S -> option (VS_prod S S) }.
Arguments mkDP {S}. Arguments dp_mass {S}. Arguments dp_damp {S}. Arguments dp_jac {S}. Arguments dp_force {S}. Arguments dp_res {S}.
Arguments dp_const {S}. Arguments dp_solve {S}. Arguments dp_inv {S}. Arguments dp_gmres {S}.
(** the options alpha, delta, gamma, TolU, TolF, MaxIter, Quasi, QuasiIterations (gsDynamicBase.hpp
    l.20-34, gsDynamicNewmark.hpp l.19-25, gsDynamicBathe.hpp l.19-26, gsDynamicWilson.hpp l.19-26).
    A MaxIter below zero acts as zero. *)
Record dopts := mkDO { do_alpha : R; do_delta : R; do_gamma : R; do_tolU : R; do_tolF : R; do_maxIt : nat; do_quasi : bool; do_quasiIt : nat }.
(** U, V, A of a step, and m_massInv (None: empty) *)
Record xst (S : VS) := mkX { x_U : S; x_V : S; x_A : S; x_inv : option (S -> S) }.
Arguments mkX {S}. Arguments x_U {S}. Arguments x_V {S}. Arguments x_A {S}. Arguments x_inv {S}.
(** the status a step returns, and whether U, V or A got entries that are not finite; then their
    values in the state have no meaning *)
Inductive sans := Fin (q : status) | NonFin (q : status).

Section Dynamic.
Context {S : VS}.
Variable p : dprob S.
Variable o : dopts.
Notation xst := (xst S).
Notation Mat := (S -> S).
Definition xU (u : S) s : xst := mkX u (x_V s) (x_A s) (x_inv s).
Definition xV (v : S) s : xst := mkX (x_U s) v (x_A s) (x_inv s).
Definition xA (a : S) s : xst := mkX (x_U s) (x_V s) a (x_inv s).
Definition xInv (m : option Mat) s : xst := mkX (x_U s) (x_V s) (x_A s) m.
(** _computeForce ... _computeJacobian, gsDynamicBase.h l.285-332: false becomes throw 2 *)
Definition ask {A} (a : ans A) (s : xst) : run xst A :=
  match a with Yes x => Done x s | No => Threw (XInt 2) s | Throws e => Threw e s end.
(** _computeMassInverse, gsDynamicBase.h l.306-318 *)
Definition massInverse (m : Mat) (s : xst) : run xst (option Mat) :=
  match dp_const p, x_inv s with
  | true, Some i => Done (Some i) s
  | _, _ => Done (dp_inv p m) (match dp_inv p m with Some i => xInv (Some i) s | None => s end)
  end.

(** ** gsDynamicNewmark *)
(** linear, gsDynamicNewmark.hpp l.28-74 *)
Definition newmark (t dt : R) (s : xst) : run xst sans :=
  let Uold := x_U s in let Vold := x_V s in let Aold := x_A s in
  let alpha := do_alpha o in let delta := do_delta o in
  run! (M, s) := ask (dp_mass p (t + dt)) s in
  run! (F, s) := ask (dp_force p (t + dt)) s in
  let U := Uold +v dt *v Vold +v ((1/2 - alpha) * dt * dt) *v Aold in
  let V := Vold +v ((1 - delta) * dt) *v Aold in
  let s := xV V (xU U s) in
  run! (C, s) := ask (dp_damp p U (t + dt)) s in
  run! (K, s) := ask (dp_jac p U (t + dt)) s in
  let lhs := fun x => M x +v (delta * dt) *v C x +v (dt * dt * alpha) *v K x in
  let rhs := F -v K U -v C V in
  match dp_solve p lhs rhs with
  | None => Done (NonFin NotConverged) s
  | Some A => Done (Fin Success) (xA A (xU (U +v (alpha * dt * dt) *v A) (xV (V +v (delta * dt) *v A) s)))
  end.
(** C and K are assembled anew in iteration i, l.115, and the same line in the other classes *)
Definition renew (i : nat) : bool := negb (do_quasi o) || (i =? 0)%nat || (i mod do_quasiIt o =? 0)%nat.
(** the modulus with QuasiIterations = 0 *)
Definition badMod (i : nat) : bool := do_quasi o && negb (i =? 0)%nat && (do_quasiIt o =? 0)%nat.
(** the loop l.113-146 from iteration i on, n = MaxIter - i *)
Fixpoint newmarkLoop (t dt : R) (M : Mat) (r0 : R) (n i : nat) (C K : Mat) (rhs : S) (s : xst) : run xst sans :=
  let alpha := do_alpha o in let delta := do_delta o in
  match n with
  | O => Done (Fin NotConverged) s
  | Datatypes.S n' =>
    if badMod i then Threw XUndef s else
    run! (C, s) := (if renew i then ask (dp_damp p (x_U s) (t + dt)) s else Done C s) in
    run! (K, s) := (if renew i then ask (dp_jac p (x_U s) (t + dt)) s else Done K s) in
    let lhs := fun x => M x +v (delta * dt) *v C x +v (dt * dt * alpha) *v K x in
    match dp_solve p lhs rhs with
    | None => Done (NonFin NotConverged) s
    | Some dA =>
      let A := x_A s +v dA in
      let V := x_V s +v (delta * dt) *v dA in
      let U := x_U s +v (alpha * dt * dt) *v dA in
      let s := xU U (xV V (xA A s)) in
      let updateNorm := if Reqb (norm A) 0 then norm dA else norm dA / norm A in
      run! (Rs, s) := ask (dp_res p U (t + dt)) s in
      let rhs := Rs -v C V -v M A in
      if Rltb updateNorm (do_tolU o) && Rltb (norm rhs / r0) (do_tolF o) then Done (Fin Success) s
      else newmarkLoop t dt M r0 n' (Datatypes.S i) C K rhs s
    end
  end.
(** nonlinear, l.77-150. After a solve whose answer is not finite all comparisons are false and
    the loop runs to its end (callbacks at non-finite arguments are not modelled). *)
Definition newmarkNL (t dt : R) (s : xst) : run xst sans :=
  let Uold := x_U s in let Vold := x_V s in let Aold := x_A s in
  let alpha := do_alpha o in let delta := do_delta o in
  let U := Uold +v dt *v Vold +v ((1/2 - alpha) * dt * dt) *v Aold +v (alpha * dt * dt) *v v0 in
  let V := Vold +v ((1 - delta) * dt) *v Aold +v (delta * dt) *v v0 in
  let s := xV V (xU U (xA v0 s)) in
  run! (M, s) := ask (dp_mass p (t + dt)) s in
  run! (C, s) := ask (dp_damp p U (t + dt)) s in
  run! (Rs, s) := ask (dp_res p U (t + dt)) s in
  let rhs := Rs -v C V -v M v0 in
  let r0 := if Reqb (norm rhs) 0 then 1 else norm rhs in
  newmarkLoop t dt M r0 (do_maxIt o) 0 C (fun x => x) rhs s.

(** ** gsDynamicBathe: c1, c2, c3, gsDynamicBathe.hpp l.58-60, l.89-91 *)
Definition bc1 (dt : R) : R := (1 - do_gamma o) / (do_gamma o * dt).
Definition bc2 (dt : R) : R := (-1) / ((1 - do_gamma o) * do_gamma o * dt).
Definition bc3 (dt : R) : R := (2 - do_gamma o) / ((1 - do_gamma o) * dt).
(** one of the three denominators is zero *)
Definition batheBad (dt : R) : bool := Reqb (do_gamma o) 0 || Reqb (do_gamma o) 1 || Reqb dt 0.
(** linear, l.29-79: the status of the Newmark step is not used. *)
Definition bathe (t dt : R) (s : xst) : run xst sans :=
  let Uold := x_U s in let Vold := x_V s in let Aold := x_A s in
  match newmark t (do_gamma o * dt) s with
  | Threw e s1 => Threw e (xInv (x_inv s1) s)
  | Done r s1 =>
    let s := xInv (x_inv s1) s in
    let Ustep := x_U s1 in let Vstep := x_V s1 in
    run! (M, s) := ask (dp_mass p (t + dt)) s in
    run! (F, s) := ask (dp_force p (t + dt)) s in
    run! (C, s) := ask (dp_damp p Uold (t + dt)) s in
    run! (K, s) := ask (dp_jac p Uold (t + dt)) s in
    let c1 := bc1 dt in let c2 := bc2 dt in let c3 := bc3 dt in
    let lhs := fun x => K x +v (c3 * c3) *v M x +v c3 *v C x in
    let rhs := F -v M (c1 *v Vold +v c2 *v Vstep +v (c1 * c3) *v Uold +v (c3 * c2) *v Ustep) -v C (c2 *v Ustep +v c1 *v Uold) in
    match r, batheBad dt, dp_solve p lhs rhs with
    | Fin _, false, Some U =>
      let V := c1 *v Uold +v c2 *v Ustep +v c3 *v U in
      let A := c1 *v Vold +v c2 *v Vstep +v c3 *v V in
      Done (Fin Success) (xU U (xV V (xA A s)))
    | _, _, _ => Done (NonFin NotConverged) s
    end
  end.
(** the loop l.131-169 from iteration i on, n = MaxIter - i. V and A are computed in both exits. *)
Fixpoint batheLoop (t dt : R) (M : Mat) (Uold Vold Ustep Vstep : S) (r0 : R) (n i : nat) (C K : Mat) (rhs : S) (s : xst) : run xst sans :=
  let c1 := bc1 dt in let c2 := bc2 dt in let c3 := bc3 dt in
  let out q s :=
    let V := c1 *v Uold +v c2 *v Ustep +v c3 *v x_U s in
    Done (Fin q) (xV V (xA (c1 *v Vold +v c2 *v Vstep +v c3 *v V) s)) in
  match n with
  | O => out NotConverged s
  | Datatypes.S n' =>
    if badMod i then Threw XUndef s else
    run! (C, s) := (if renew i then ask (dp_damp p (x_U s) (t + dt)) s else Done C s) in
    run! (K, s) := (if renew i then ask (dp_jac p (x_U s) (t + dt)) s else Done K s) in
    let lhs := fun x => K x +v (c3 * c3) *v M x +v c3 *v C x in
    match dp_solve p lhs rhs with
    | None => Done (NonFin NotConverged) s
    | Some dU =>
      let U := x_U s +v dU in
      let s := xU U s in
      run! (Rs, s) := ask (dp_res p U (t + dt)) s in
      let rhs := Rs -v M (c1 *v Vold +v c2 *v Vstep +v (c1 * c3) *v Uold +v (c3 * c2) *v Ustep +v (c3 * c3) *v U) -v C (c1 *v Uold +v c2 *v Ustep +v c3 *v U) in
      if ratioLt (norm dU) (norm U) (do_tolU o) && Rltb (norm rhs / r0) (do_tolF o) then out Success s
      else batheLoop t dt M Uold Vold Ustep Vstep r0 n' (Datatypes.S i) C K rhs s
    end
  end.
(** nonlinear, l.82-175: the residual before the loop is the one at the old displacement *)
Definition batheNL (t dt : R) (s : xst) : run xst sans :=
  let c1 := bc1 dt in let c2 := bc2 dt in let c3 := bc3 dt in
  let Uold := x_U s in let Vold := x_V s in let Aold := x_A s in
  match newmarkNL t (do_gamma o * dt) s with
  | Threw e s1 => Threw e (xInv (x_inv s1) s)
  | Done r s1 =>
    let s := xInv (x_inv s1) s in
    let Ustep := x_U s1 in let Vstep := x_V s1 in
    run! (M, s) := ask (dp_mass p (t + dt)) s in
    run! (C, s) := ask (dp_damp p Uold (t + dt)) s in
    run! (Rs, s) := ask (dp_res p Uold (t + dt)) s in
    let s := xA (x_A s1) (xV Vstep (xU Ustep s)) in
    let rhs := Rs -v M (c1 *v Vold +v c2 *v Vstep +v (c1 * c3) *v Uold +v (c3 * c2) *v Ustep +v (c3 * c3) *v Ustep) -v C (c1 *v Uold +v c2 *v Ustep +v c3 *v Ustep) in
    let r0 := if Reqb (norm rhs) 0 then 1 else norm rhs in
    match r, batheBad dt with
    | Fin _, false => batheLoop t dt M Uold Vold Ustep Vstep r0 (do_maxIt o) 0 C (fun x => x) rhs s
    | _, _ => Done (NonFin NotConverged) s
    end
  end.

(** ** gsDynamicWilson: linear gsDynamicWilson.hpp l.29-55, nonlinear l.58-84; the status of the
    Newmark step is not used. *)
Definition wilson (t dt : R) (s : xst) : run xst sans :=
  match newmark t (do_gamma o * dt) s with
  | Threw e s1 => Threw e (xInv (x_inv s1) s)
  | Done r s1 =>
    let s := xInv (x_inv s1) s in
    match r, Reqb (do_gamma o) 0 with
    | Fin _, false =>
      let A := (1 - 1 / do_gamma o) *v x_A s +v (1 / do_gamma o) *v x_A s1 in
      Done (Fin Success) (xA A (xV (x_V s +v (do_delta o * dt) *v A) (xU (x_U s +v (do_alpha o * dt * dt) *v A) s)))
    | _, _ => Done (NonFin Success) s
    end
  end.
Definition wilsonNL (t dt : R) (s : xst) : run xst sans :=
  match newmarkNL t (do_gamma o * dt) s with
  | Threw e s1 => Threw e (xInv (x_inv s1) s)
  | Done r s1 =>
    let s := xInv (x_inv s1) s in
    match r, Reqb (do_gamma o) 0 with
    | Fin _, false =>
      let Uold := x_U s in let Vold := x_V s in let Aold := x_A s in
      let A := (1 - 1 / do_gamma o) *v Aold +v (1 / do_gamma o) *v x_A s1 in
      Done (Fin Success) (xA A
        (xU (Uold +v dt *v Vold +v ((1/2 - do_alpha o) * dt * dt) *v Aold +v (do_alpha o * dt * dt) *v A)
        (xV (Vold +v ((1 - do_delta o) * dt) *v Aold +v (do_delta o * dt) *v A) s)))
    | _, _ => Done (NonFin Success) s
    end
  end.

(** ** gsDynamicExplicitEuler: linear gsDynamicExplicitEuler.hpp l.50-87, nonlinear l.90-125 *)
Definition explicitEuler (t dt : R) (s : xst) : run xst sans :=
  let Uold := x_U s in let Vold := x_V s in
  run! (M, s) := ask (dp_mass p t) s in
  run! (Mi, s) := massInverse M s in
  run! (F, s) := ask (dp_force p t) s in
  run! (C, s) := ask (dp_damp p Uold t) s in
  run! (K, s) := ask (dp_jac p Uold t) s in
  match Mi with
  | None => Done (NonFin NotConverged) s
  | Some Minv => Done (Fin Success) (xU (Uold +v dt *v Vold) (xV (Vold +v dt *v Minv (F -v K Uold -v C Vold)) s))
  end.
Definition explicitEulerNL (t dt : R) (s : xst) : run xst sans :=
  let Uold := x_U s in let Vold := x_V s in
  run! (M, s) := ask (dp_mass p t) s in
  run! (Mi, s) := massInverse M s in
  run! (C, s) := ask (dp_damp p Uold t) s in
  run! (Rs, s) := ask (dp_res p Uold t) s in
  match Mi with
  | None => Done (NonFin NotConverged) s
  | Some Minv => Done (Fin Success) (xU (Uold +v dt *v Vold) (xV (Vold +v dt *v Minv (vopp Rs -v C Vold)) s))
  end.

(** ** gsDynamicImplicitEuler: the block operator of both variants, gsDynamicImplicitEuler.hpp
    l.55-62, l.133-136 *)
Definition euMat (dt : R) (M C K : Mat) (x : VS_prod S S) : VS_prod S S :=
  (fst x -v dt *v snd x, dt *v K (fst x) +v M (snd x) +v dt *v C (snd x)).
(** linear, l.23-77: GMRES is taken to give finite answers or none; the status does not depend on
    it. *)
Definition implicitEuler (t dt : R) (s : xst) : run xst sans :=
  let U := x_U s in let V := x_V s in
  run! (M, s) := ask (dp_mass p (t + dt)) s in
  run! (F, s) := ask (dp_force p (t + dt)) s in
  run! (C, s) := ask (dp_damp p U (t + dt)) s in
  run! (K, s) := ask (dp_jac p U t) s in
  match dp_gmres p (euMat dt M C K) (U, dt *v F +v M V) with
  | None => Done (NonFin Success) s
  | Some x => Done (Fin Success) (xU (fst x) (xV (snd x) s))
  end.
(** the loop l.123-160 from iteration i on, n = MaxIter - i; [Rs] the residual vector of the last
    evaluation. rhs is computed before the update, its norm is tested after it; the residual is
    evaluated at time t. *)
Fixpoint implicitLoop (t dt : R) (M : Mat) (Uold Vold : S) (r0 : R) (n i : nat) (C K : Mat) (Rs : S) (s : xst) : run xst sans :=
  match n with
  | O => Done (Fin NotConverged) s
  | Datatypes.S n' =>
    if badMod i then Threw XUndef s else
    run! (C, s) := (if renew i then ask (dp_damp p (x_U s) (t + dt)) s else Done C s) in
    run! (K, s) := (if renew i then ask (dp_jac p (x_U s) (t + dt)) s else Done K s) in
    let rhs : VS_prod S S := (x_U s -v Uold -v dt *v x_V s, M (x_V s -v Vold) +v dt *v C (x_V s) +v dt *v vopp Rs) in
    match dp_gmres p (euMat dt M C K) (vopp rhs) with
    | None => Done (NonFin NotConverged) s
    | Some d =>
      let x := @vadd (VS_prod S S) (x_U s, x_V s) d in
      let updateNorm := if Reqb (norm x) 0 then norm d else norm d / norm x in
      let s := xU (fst x) (xV (snd x) s) in
      run! (Rs, s) := ask (dp_res p (fst x) t) s in
      if Rltb updateNorm (do_tolU o) && Rltb (norm rhs / r0) (do_tolF o) then Done (Fin Success) s
      else implicitLoop t dt M Uold Vold r0 n' (Datatypes.S i) C K Rs s
    end
  end.
(** nonlinear, l.80-164 *)
Definition implicitEulerNL (t dt : R) (s : xst) : run xst sans :=
  let U := x_U s in let V := x_V s in
  run! (M, s) := ask (dp_mass p (t + dt)) s in
  run! (C, s) := ask (dp_damp p U (t + dt)) s in
  run! (Rs, s) := ask (dp_res p U (t + dt)) s in
  let rhs : VS_prod S S := (vopp (dt *v V), dt *v C V +v dt *v vopp Rs) in
  let r0 := if Reqb (norm rhs) 0 then 1 else norm rhs in
  implicitLoop t dt M U V r0 (do_maxIt o) 0 C (fun x => x) Rs s.

(** ** gsDynamicRK4: linear gsDynamicRK4.hpp l.18-88, nonlinear l.91-157 *)
Definition rk4 (t dt : R) (s : xst) : run xst sans :=
  let Uold := x_U s in let Vold := x_V s in
  run! (M, s) := ask (dp_mass p t) s in
  run! (Mi, s) := massInverse M s in
  run! (C, s) := ask (dp_damp p Uold t) s in
  run! (K, s) := ask (dp_jac p Uold t) s in
  run! (F1, s) := ask (dp_force p t) s in
  run! (F2, s) := ask (dp_force p (t + dt / 2)) s in
  run! (F3, s) := ask (dp_force p (t + dt / 2)) s in
  run! (F4, s) := ask (dp_force p (t + dt)) s in
  match Mi with
  | None => Done (NonFin NotConverged) s
  | Some Minv =>
    let a1 := Minv ((F1 -v K Uold) -v C Vold) in
    let U2 := Uold +v (dt / 2) *v Vold in let V2 := Vold +v (dt / 2) *v a1 in
    let a2 := Minv ((F2 -v K U2) -v C V2) in
    let U3 := Uold +v (dt / 2) *v V2 in let V3 := Vold +v (dt / 2) *v a2 in
    let a3 := Minv ((F3 -v K U3) -v C V3) in
    let U4 := Uold +v dt *v V3 in let V4 := Vold +v dt *v a3 in
    let a4 := Minv ((F4 -v K U4) -v C V4) in
    Done (Fin Success) (xU (Uold +v (1/6 * dt) *v (Vold +v 2 *v V2 +v 2 *v V3 +v V4))
      (xV (Vold +v (1/6 * dt) *v (a1 +v 2 *v a2 +v 2 *v a3 +v a4)) s))
  end.
(** the residuals are evaluated one after the other; without a finite inverse they would be
    evaluated at arguments that are not finite (not modelled) *)
Definition rk4NL (t dt : R) (s : xst) : run xst sans :=
  let Uold := x_U s in let Vold := x_V s in
  run! (M, s) := ask (dp_mass p t) s in
  run! (Mi, s) := massInverse M s in
  run! (C, s) := ask (dp_damp p Uold t) s in
  run! (K, s) := ask (dp_jac p Uold t) s in
  run! (R1, s) := ask (dp_res p Uold t) s in
  match Mi with
  | None => Done (NonFin NotConverged) s
  | Some Minv =>
    let a1 := Minv (R1 -v C Vold) in
    let U2 := Uold +v (dt / 2) *v Vold in let V2 := Vold +v (dt / 2) *v a1 in
    run! (R2, s) := ask (dp_res p U2 (t + dt / 2)) s in
    let a2 := Minv (R2 -v C V2) in
    let U3 := Uold +v (dt / 2) *v V2 in let V3 := Vold +v (dt / 2) *v a2 in
    run! (R3, s) := ask (dp_res p U3 (t + dt / 2)) s in
    let a3 := Minv (R3 -v C V3) in
    let U4 := Uold +v dt *v V3 in let V4 := Vold +v dt *v a3 in
    run! (R4, s) := ask (dp_res p U4 (t + dt)) s in
    let a4 := Minv (R4 -v C V4) in
    Done (Fin Success) (xU (Uold +v (1/6 * dt) *v (Vold +v 2 *v V2 +v 2 *v V3 +v V4))
      (xV (Vold +v (1/6 * dt) *v (a1 +v 2 *v a2 +v 2 *v a3 +v a4)) s))
  end.
End Dynamic.

(** ** gsDynamicBase: the object *)
(** m_U, m_V, m_A, m_massInv, m_time, m_status; [b_bad]: m_U, m_V or m_A have entries that are not
    finite *)
Record bst (S : VS) := mkB { b_x : xst S; b_time : R; b_stat : status; b_bad : bool }.
Arguments mkB {S}. Arguments b_x {S}. Arguments b_time {S}. Arguments b_stat {S}. Arguments b_bad {S}.
Section Base.
Context {S : VS}.
(** the function _step of the class *)
Variable stepf : R -> R -> xst S -> run (xst S) sans.
(** _init, gsDynamicBase.h l.176-184, and the initial vectors set by setU, setV, setA *)
Definition dynNew (u v a : S) : bst S := mkB (mkX u v a None) 0 NotStarted false.
(** setU, setV, setA l.245-247 *)
Definition setSol (u v a : S) (s : bst S) : bst S := mkB (mkX u v a (x_inv (b_x s))) (b_time s) (b_stat s) false.
(** step l.198-210; [cb]: the answer of the callback (None: there is none). A step from a state that
    is not finite is not modelled (undefined). *)
Definition dynStep (cb : option (ans unit)) (dt : R) (s : bst S) : run (bst S) status :=
  match cb with
  | Some No => Done OtherError (mkB (b_x s) (b_time s) OtherError (b_bad s))
  | Some (Throws e) => Threw e s
  | _ =>
    if b_bad s then Threw XUndef s else
    match stepf (b_time s) dt (b_x s) with
    | Done (Fin q) x => Done q (mkB x (b_time s + dt) q false)
    | Done (NonFin q) x => Done q (mkB x (b_time s + dt) q true)
    | Threw e x => Threw e (mkB x (b_time s) (b_stat s) false)
    end
  end.
(** the const step l.217-220: returns the three vectors in an [xst]; of the object only the
    stored inverse of the mass can change *)
Definition dynConst (t dt : R) (u v a : S) (s : bst S) : run (xst S) sans * bst S :=
  let r := stepf t dt (mkX u v a (x_inv (b_x s))) in
  (r, mkB (mkX (x_U (b_x s)) (x_V (b_x s)) (x_A (b_x s)) (x_inv (stateOf r))) (b_time s) (b_stat s) (b_bad s)).
End Base.
