(** Model of the worker side of gsAPALM (src/gsALMSolvers/gsAPALM.hpp): _initiation,
    _correction, serialSolve and _finalize. *)
From Verif Require Import Prelude Status APALMData APALMDriver.
Local Open Scope R_scope.

(** ** The arc-length solver as seen from gsAPALM: an arbitrary object with the calls that
    gsAPALM makes on m_ALM (gsALMBase.h). [alm_distance x a b] is distance(b - a) (the code
    subtracts displacements and load factors first) asked of a solver in state x: the
    distances of gsALMRiks.h l.81-84 and gsALMCrisfield.h l.79-83 use the member m_phi.
    [alm_spot start] stands for computeStability, stabilityChange, isBifurcation(false) and
    computeSingularPoint (gsAPALM.hpp l.983-995): the new state and whether a bifurcation
    was found. step, spot and switchBranch can also fail (an exception or an undefined
    result); nothing in gsAPALM catches that. *)
Record ALM (sol : Type) := mkALM {
  alm_state : Type;
  alm_setLength : R -> alm_state -> alm_state;
  alm_getLength : alm_state -> R;
  alm_setSolution : sol -> alm_state -> alm_state;
  alm_setPrevious : sol -> alm_state -> alm_state;
  alm_solution : alm_state -> sol;
  alm_step : alm_state -> result (status * alm_state);
  alm_distance : alm_state -> sol -> sol -> R;
  alm_spot : sol -> alm_state -> result (alm_state * bool);
  alm_switchBranch : alm_state -> result alm_state
}.
Arguments alm_state {sol} _.
Arguments alm_setLength {sol} _ _ _.
Arguments alm_getLength {sol} _ _.
Arguments alm_setSolution {sol} _ _ _.
Arguments alm_setPrevious {sol} _ _ _.
Arguments alm_solution {sol} _ _.
Arguments alm_step {sol} _ _.
Arguments alm_distance {sol} _ _ _ _.
Arguments alm_spot {sol} _ _ _.
Arguments alm_switchBranch {sol} _ _.

(** The setters do what their names say (gsALMBase.h: setLength, setSolution, setPrevious,
    getLength, solutionU/L). *)
Record almLaws {sol} (A : ALM sol) : Prop := mkLaws {
  al_length : forall l a, alm_getLength A (alm_setLength A l a) = l;
  al_length_sol : forall s a, alm_getLength A (alm_setSolution A s a) = alm_getLength A a;
  al_length_prev : forall s a, alm_getLength A (alm_setPrevious A s a) = alm_getLength A a;
  al_solution : forall s a, alm_solution A (alm_setSolution A s a) = s;
  al_solution_length : forall l a, alm_solution A (alm_setLength A l a) = alm_solution A a;
  al_solution_prev : forall s a, alm_solution A (alm_setPrevious A s a) = alm_solution A a
}.

Section Worker.
Context {sol : Type}.
Variable A : ALM sol.

(** One call of m_ALM->step() (l.971, l.1070): the arc length in force, the solution it
    started from, its status, the solution afterwards, and the distance between the two as
    the solver measures it afterwards. The calls are logged. *)
Record stepCall := mkCall { sc_length : R; sc_from : sol; sc_status : status; sc_to : sol; sc_dist : R }.
Definition call (a : alm_state A) : result (status * alm_state A * stepCall) :=
  do (s, a') <- alm_step A a;
  Ok (s, a', mkCall (alm_getLength A a) (alm_solution A a) s (alm_solution A a')
                    (alm_distance A a' (alm_solution A a) (alm_solution A a'))).

(** the test of gsAPALM.hpp l.973 and l.1072 *)
Definition retry (s : status) : bool := status_eqb s NotConverged || status_eqb s AssemblyError.

(** the loop of _initiation, gsAPALM.hpp l.967-981; [fuel] bounds the number of steps *)
Fixpoint initLoop (fuel : nat) (dL : R) (start : sol) (a : alm_state A) (log : list stepCall)
  : result (alm_state A * list stepCall) :=
  match fuel with
  | O => Fail EFuel
  | S f =>
    do (s, a, c) <- call a;
    let log := log ++ [c] in
    let diverged := negb (status_eqb s Success) in
    let '(dL, a) := if retry s then
                      let dL := dL / 2 in (dL, alm_setSolution A start (alm_setLength A dL a))
                    else (dL, a) in
    if diverged then initLoop f dL start a log else Ok (a, log)
  end.

(** _initiation l.935-1010; [singular] is m_singularPoint. Returns distance, solutions,
    bifurcation, and the solver. The outputs and the unused return of dL are left out. *)
Definition initiation (fuel : nat) (singular : bool) (a : alm_state A) (dL : R) (start prev : sol)
  : result (R * list sol * bool * alm_state A * list stepCall) :=
  let a := alm_setPrevious A prev (alm_setSolution A start (alm_setLength A dL a)) in
  do (a, log) <- initLoop fuel dL start a [];
  do (a, bif) <- (if singular then alm_spot A start a else Ok (a, false));
  let distance := alm_distance A a start (alm_solution A a) in
  let sols := [alm_solution A a] in
  if (bif : bool) then
    do a <- alm_switchBranch A a;
    Ok (distance, sols ++ [alm_solution A a], true, a, log)
  else Ok (distance, sols, false, a, log).

(** the loop of _correction, l.1066-1118. The vectors stepSolutions and distances are
    filled at position k in increasing order; here they are appended to. *)
Fixpoint corrLoop (fuel : nat) (dL0 dL rem : R) (bisected : bool) (k N : nat) (old : sol)
         (ds : list R) (ss : list sol) (a : alm_state A) (log : list stepCall)
  : result (list R * list sol * alm_state A * list stepCall) :=
  if Nat.eqb k N then Ok (ds, ss, a, log)
  else match fuel with
  | O => Fail EFuel
  | S f =>
    do (s, a, c) <- call a;
    let log := log ++ [c] in
    if retry s then
      let dL := dL / 2 in
      let rem := rem + dL in
      let a := alm_setSolution A old (alm_setLength A dL a) in
      corrLoop f dL0 dL rem true k N old ds ss a log
    else
      let s := alm_solution A a in
      let ss := ss ++ [s] in
      let ds := ds ++ [alm_distance A a old s] in
      let old := s in
      let '(dL, N) := if negb bisected then (dL0, N) else (rem, S N) in
      let a := alm_setLength A dL a in
      corrLoop f dL0 dL 0 false (S k) N old ds ss a log
  end.

(** _correction l.1013-1165, [n] is m_subIntervals. [opposite] is the assertion of
    l.1123. stepSolutions.back() of an empty vector is undefined. The outputs are left
    out; they do not change the result. *)
Variable opposite : sol -> sol -> bool.
Definition correction_ (fuel n : nat) (a : alm_state A) (D : R) (start prev reference : sol)
  : result (list R * list sol * R * R * alm_state A * list stepCall) :=
  if Nat.eqb n 0 then Fail EUndef
  else
    let dL := D / INR n in
    let a := alm_setPrevious A prev (alm_setSolution A start (alm_setLength A dL a)) in
    do (ds, ss, a, log) <- corrLoop fuel dL dL 0 false 0 n start [] [] a [];
    if opposite reference (alm_solution A a) then Fail EAssert
    else
      let ds := ds ++ [alm_distance A a (alm_solution A a) reference] in
      let upper := alm_distance A a start reference in
      match rev ss with
      | [] => Fail EUndef
      | s :: _ => Ok (ds, ss, upper, alm_distance A a start s, a, log)
      end.

(** ** serialSolve l.122-218. [mult] = m_bifLengthMult, [bmult] = m_branchLengthMult. A
    start point: solution, length, bisected. The log has one entry per _initiation: length,
    start and previous solution, distance and solutions returned. *)
Record initCall := mkInitCall {
  ic_length : R; ic_start : sol; ic_prev : sol; ic_distance : R; ic_sols : list sol; ic_bif : bool }.
Variable singular : bool.
Variables mult bmult : R.

(** the loop over k, l.167-199; [n] = Nsteps - k steps are left *)
Fixpoint serialSteps (fuel n : nat) (a : alm_state A) (s dL dL0 : R) (old prev : sol)
         (times : list R) (ss : list sol) (log : list initCall)
  : result (list R * list sol * list (sol * R * bool) * alm_state A * list initCall) :=
  match n with
  | O => Ok (times, ss, [], a, log)
  | S n' =>
    do (dist, tmp, finished, a, _) <- initiation fuel singular a dL old prev;
    let log := log ++ [mkInitCall dL old prev dist tmp finished] in
    let s := s + dist in
    match tmp with
    | [] => Fail EUndef
    | s0 :: tmp' =>
      let ss := ss ++ [s0] in
      let times := times ++ [s] in
      if (finished : bool) then
        match tmp' with
        | [] => Fail EUndef
        | s1 :: _ => Ok (times, ss, [(s1, dL0 * bmult, true)], a, log)
        end
      else serialSteps fuel n' a s dL0 dL0 s0 old times ss log
    end
  end.

(** one start point, l.142-211: times, solutions, new start points *)
Definition serialBranch (fuel : nat) (Nsteps : Z) (a : alm_state A) (st : sol * R * bool)
  : result (list R * list sol * list (sol * R * bool) * alm_state A * list initCall) :=
  let '(u0, dL0, bisected) := st in
  let n := Z.to_nat (Nsteps - 1) in
  if (bisected : bool) then serialSteps fuel n a 0 (dL0 * mult) dL0 u0 u0 [] [] []
  else serialSteps fuel n a 0 dL0 dL0 u0 u0 [0] [u0] [].

(** what serialSolve leaves: m_data, and per branch the times and solutions (all levels
    are 0) with the log *)
Record serialOut := mkSO { so_times : list R; so_sols : list sol; so_log : list initCall; so_start : sol * R * bool }.
(** while (!m_starts.empty()), l.140-212; [fuel2] bounds the number of branches *)
Fixpoint serialSolve (fuel fuel2 : nat) (Nsteps : Z) (dataEmpty : data sol) (a : alm_state A)
         (starts : list (sol * R * bool)) (c : container sol) (out : list serialOut)
  : result (container sol * list serialOut * alm_state A) :=
  match starts with
  | [] => Ok (c, out, a)
  | st :: starts =>
    match fuel2 with
    | O => Fail EFuel
    | S f2 =>
      do (times, ss, new, a, log) <- serialBranch fuel Nsteps a st;
      do d <- initWith dataEmpty times ss;
      serialSolve fuel f2 Nsteps dataEmpty a (starts ++ new) (fst (cAdd c d)) (out ++ [mkSO times ss log st])
    end
  end.
End Worker.
Arguments stepCall : clear implicits.
Arguments initCall : clear implicits.
Arguments serialOut : clear implicits.

(** ** _finalize l.474-504. For one branch: m_times[b], m_solutions[b], m_levels[b], and
    the per-level lists (pointers into m_solutions[b] and m_times[b], here the pairs they
    point to). Note the bound of the loop over k: the number of branches. *)
Section Finalize.
Context {sol : Type}.
Fixpoint pushAt {X} (l : list (list X)) (k : nat) (x : X) : list (list X) :=
  match l, k with
  | [], _ => []
  | y :: l', O => (y ++ [x]) :: l'
  | y :: l', S k' => y :: pushAt l' k' x
  end.
Fixpoint lvlLoop (k n : nat) (times : list R) (ss : list sol) (levels : list Z) (lvl : list (list (R * sol)))
  : result (list (list (R * sol))) :=
  match n with
  | O => Ok lvl
  | S n' =>
    match nth_error levels k, nth_error times k, nth_error ss k with
    | Some l, Some t, Some s =>
      if (0 <=? l)%Z && (Z.to_nat l <? length lvl)%nat
      then lvlLoop (S k) n' times ss levels (pushAt lvl (Z.to_nat l) (t, s))
      else Fail EAssert
    | _, _, _ => Fail EUndef
    end
  end.
Definition finalizeBranch (nBranches : nat) (d : data sol)
  : result (list R * list sol * list Z * list (list (R * sol))) :=
  let '(times, ss, levels) := snd (getFlatSolution d (-1)) in
  do lvl <- lvlLoop 0 nBranches times ss levels (repeat [] (Z.to_nat (d_maxLevel d + 1)));
  Ok (times, ss, levels, lvl).
Fixpoint finalizeAll (nBranches : nat) (c : container sol) :=
  match c with
  | [] => Ok []
  | d :: c' => do x <- finalizeBranch nBranches d; do r <- finalizeAll nBranches c'; Ok (x :: r)
  end.
Definition finalize (c : container sol) := finalizeAll (length c) c.
End Finalize.
