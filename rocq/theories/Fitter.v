(** Model of the curve fitters: gsStructuralAnalysisTools/gsSolutionFitter.h and gsSpaceTimeFitter.h.
    Exact real arithmetic; debug printing is left out. Knot vectors, B-spline bases and the solvers
    for the coefficients are library code: knot vectors are lists of numbers, basis functions follow
    the recursion of Cox and de Boor, the solvers are arguments of the model. *)
From Verif Require Export VS.
Local Open Scope R_scope.

(** ** Library part (gsKnotVector, gsBSplineBasis) *)
(** entries of the knot vector of gsSolutionFitter.h l.210, gsSpaceTimeFitter.h l.120 *)
Definition knot (u : list R) (i : nat) : R := nth i u 0.
(** a quotient of the recursion below, zero for an empty interval *)
Definition frac (a b : R) : R := if Reqb b 0 then 0 else a / b.
(** the i-th basis function of degree p at x; the last interval contains its right end.
    Used through collocationMatrix (gsSolutionFitter.h l.216, gsSpaceTimeFitter.h l.142) and eval (gsSolutionFitter.h l.90) *)
Fixpoint basisFun (u : list R) (p i : nat) (x : R) : R :=
  match p with
  | O => if (Rleb (knot u i) x && Rltb x (knot u (i + 1))) ||
            (Reqb x (last u 0) && Rltb (knot u i) x && Reqb (knot u (i + 1)) x) then 1 else 0
  | S q => frac (x - knot u i) (knot u (i + p) - knot u i) * basisFun u q i x
           + frac (knot u (i + p + 1) - x) (knot u (i + p + 1) - knot u (i + 1)) * basisFun u q (i + 1) x
  end.
(** the spline with coefficients c: m_fit, gsSolutionFitter.h l.230 *)
Fixpoint splineFrom {V : VS} (u : list R) (p i : nat) (c : list V) (x : R) : V :=
  match c with [] => v0 | a :: c => basisFun u p i x *v a +v splineFrom u p (S i) c x end.
Definition spline {V : VS} (u : list R) (p : nat) (c : list V) (x : R) : V := splineFrom u p 0 c x.
(** anchors(), gsSolutionFitter.h l.213, gsSpaceTimeFitter.h l.139: the Greville abscissae *)
Definition anchor (u : list R) (p i : nat) : R :=
  match p with O => (knot u i + knot u (i + 1)) / 2 | _ => Rsum (map (knot u) (seq (i + 1) p)) / INR p end.
(** gsKnotVector(first,last,interior,mult_ends), gsSolutionFitter.h l.175, gsSpaceTimeFitter.h l.119: equidistant
    interior knots *)
Definition uniformKnots (a b : R) (interior p : nat) : list R :=
  repeat a (p + 1) ++ map (fun i => a + INR i * ((b - a) / INR (interior + 1))) (seq 1 interior) ++ repeat b (p + 1).

(** ** gsSolutionFitter *)
Section SolutionFitter.
Context {V : VS}.
(** the solver of gsSolutionFitter.h l.212-230 (gsFitting with the constraints C c = rhs): knots, degree, data -> coefficients
    (None: no finite answer) *)
Variable lib : list R -> nat -> list V -> option (list V).
(** gsSolutionFitter.h l.234, l.237: m_data, m_deg; l.73: the option "Parameterization" *)
Record sfit := mkSF { sf_data : list (R * V); sf_deg : nat; sf_param : Z }.
(** the constructor, l.26-40 *)
Definition sfNew (data : list V) (times : list R) (deg : nat) : result sfit :=
  if Nat.eqb (length data) 0 then Fail EEnsure
  else if negb (Nat.eqb (length data) (length times)) then Fail EEnsure
  else Ok (mkSF (fold_left (fun m e => rinsert (fst e) (snd e) m) (combine times data) []) deg 1).
(** setDegree l.59, addDataPoint l.61-65, options() l.67 *)
Definition sfDegree (deg : nat) (s : sfit) : sfit := mkSF (sf_data s) deg (sf_param s).
Definition sfAdd (point : V) (ptime : R) (s : sfit) : sfit := mkSF (rinsert ptime point (sf_data s)) (sf_deg s) (sf_param s).
Definition sfParam (k : Z) (s : sfit) : sfit := mkSF (sf_data s) (sf_deg s) k.
(** l.182, l.186: pow(x,1./param) for param 1, 2 *)
Definition parPow (param : Z) (x : R) : R := if (param =? 1)%Z then x else sqrt x.
(** d, l.180-182 *)
Fixpoint chordSum (param : Z) (t : R) (l : list R) : R :=
  match l with [] => 0 | t' :: l => parPow param (t' - t) + chordSum param t' l end.
(** u_bar behind the entry [acc] of the time [t], l.167-169, l.184-186; the last entry is 1 *)
Fixpoint ubarFrom (param : Z) (d acc t : R) (l : list R) : list R :=
  match l with
  | [] => []
  | [_] => [1]
  | t' :: l => let a := acc + 1 / d * parPow param (t' - t) in a :: ubarFrom param d a t' l
  end.
Definition ubar (param : Z) (ts : list R) : list R :=
  match ts with [] => [] | t :: l => 0 :: ubarFrom param (chordSum param t l) 0 t l end.
(** u, l.188-201 *)
Definition chordKnots (deg : nat) (ub : list R) : list R :=
  repeat 0 (deg + 1) ++ map (fun j => Rsum (map (fun i => nth i ub 0) (seq j deg)) / INR deg) (seq 1 (length ub - deg - 1)) ++ repeat 1 (deg + 1).
(** affineTransformTo l.204 (library), from [0,1] *)
Definition affine (a b : R) (u : list R) : list R := map (fun x => a + x * (b - a)) u.
(** the knot vector, l.171-207. Parametrisation 1 or 2: with one point the loop l.185 starts behind its
    end (undefined); deg = 0: 0/0 in l.200; too few data: u_bar.at() throws in l.198. Parametrisation 0 with
    too few data asks the library for a negative number of knots (not modelled: undefined). *)
Definition sfKnots (param : Z) (deg : nat) (ts : list R) : result (list R) :=
  let a := hd 0 ts in let b := last ts 0 in
  if (param =? 0)%Z then
    if (length ts <=? deg)%nat then Fail EUndef else Ok (uniformKnots a b (length ts - (deg + 1)) deg)
  else if (param =? 1)%Z || (param =? 2)%Z then
    if (length ts <=? 1)%nat then Fail EUndef
    else if Nat.eqb deg 0 then Fail ENaN
    else if (length ts <=? deg)%nat then Fail ERange
    else Ok (affine a b (chordKnots deg (ubar param ts)))
  else Fail EEnsure.
(** compute l.148-231: the knots and the coefficients of m_fit; m_data.at(0)
    (l.157) looks for the key 0 *)
Definition sfCompute (debug : bool) (s : sfit) : result (list R * list V) :=
  if debug && (length (sf_data s) <=? sf_deg s)%nat then Fail EAssert
  else match rfind 0 (sf_data s) with
  | None => Fail ERange
  | Some _ =>
    do kn <- sfKnots (sf_param s) (sf_deg s) (map fst (sf_data s));
    match lib kn (sf_deg s) (map snd (sf_data s)) with Some c => Ok (kn, c) | None => Fail ENaN end
  end.
(** slice l.86-91 *)
Definition sfSlice (deg : nat) (fit : list R * list V) (xi : R) : V := spline (fst fit) deg (snd fit) xi.
End SolutionFitter.
Arguments sfit : clear implicits.

(** gsSolutionFitter.h nearestParam l.93-146: [x], [x1], [x2] the curve and its derivatives, [a], [b] the support, [trials]
    the trial points (l.97, library). A second derivative of zero makes the step infinite, and l.134 clamps the
    result to an end of the support (the zero taken as positive, as a difference of equal numbers is); if the
    first derivative is zero too, the library is called with NaN (not modelled: None). No trial points: value()
    of an empty matrix (None). *)
Section Nearest.
Context {V : VS}.
Variables x x1 x2 : R -> V.
Variables a b : R.
Variable p : V.
(** l.134 *)
Definition clampR (u : R) : R := if Rltb u a then a else if Rltb b u then b else u.
(** l.114-135 *)
Fixpoint nearNewton (n : nat) (u : R) : option R :=
  match n with
  | O => Some u
  | S n =>
    let d1 := - 2 * dot (p -v x u) (x1 u) in
    let d2 := 2 * dot (x1 u) (x1 u) - 2 * dot (p -v x u) (x2 u) in
    if Reqb d2 0 then (if Reqb d1 0 then None else nearNewton n (if Rltb 0 d1 then a else b)) else
    let du := d1 / d2 in
    let u := u - du in
    if negb (Reqb u 0) && Rltb (Rabs du / Rabs u) (1 / 100000000) then Some u else nearNewton n (clampR u)
  end.
(** l.137-138 *)
Definition sqDist (u : R) : R := dot (p -v x u) (p -v x u).
(** l.105-144, the trials behind the first *)
Fixpoint nearBest (n : nat) (best : R) (trials : list R) : option R :=
  match trials with
  | [] => Some best
  | t :: trials =>
    match nearNewton n t with
    | None => None
    | Some u => nearBest n (if Rltb (sqDist u) (sqDist best) then u else best) trials
    end
  end.
(** l.93-146 *)
Definition nearestParam (nIterations : nat) (trials : list R) : option R :=
  match trials with
  | [] => None
  | t :: trials => match nearNewton nIterations t with None => None | Some u => nearBest nIterations u trials end
  end.
End Nearest.

(** ** gsSpaceTimeFitter *)
(** gsSpaceTimeFitter.h l.167: matrices of m_data, by row and column *)
Definition mat := nat -> nat -> R.
(** gsSpaceTimeFitter.h l.19, l.166-171: domainDim, m_targetDim, the number of rows of the data, m_data, m_times, m_ptimes, m_deg *)
Record stfit := mkST { st_dom : nat; st_target : nat; st_rows : nat; st_data : list mat; st_times : list R; st_ptimes : list R; st_deg : nat }.
(** the constructor l.26-42, for matrices of equal size rows x target *)
Definition stNew (dom target rows : nat) (data : list mat) (times ptimes : list R) (deg : nat) : result stfit :=
  if Nat.eqb (length data) 0 then Fail EEnsure
  else if negb (Nat.eqb (length data) (length times)) then Fail EEnsure
  else if negb (Nat.eqb (length ptimes) (length times)) then Fail EEnsure
  else Ok (mkST dom target rows data times ptimes deg).
(** std::sort, l.52 (by insertion) *)
Fixpoint sinsert (x : R) (l : list R) : list R := match l with [] => [x] | y :: l' => if Rleb x y then x :: l else y :: sinsert x l' end.
Definition ssort (l : list R) : list R := fold_right sinsert [] l.
(** addDataPoint l.46-54: the solution and the time are not used *)
Definition stAdd (solution : mat) (time ptime : R) (s : stfit) : stfit :=
  mkST (st_dom s) (st_target s) (st_rows s) (st_data s) (st_times s) (ssort (st_ptimes s ++ [ptime])) (st_deg s).
(** minCoeff, maxCoeff, l.119 (library) *)
Definition minR (l : list R) : R := match l with [] => 0 | x :: l => fold_left Rmin l x end.
Definition maxR (l : list R) : R := match l with [] => 0 | x :: l => fold_left Rmax l x end.
(** the LU solver l.138-150 with the collocation matrix at the anchors, for one column (None: no finite
    answer) *)
Section SpaceTimeFitter.
Variable lu : list R -> nat -> option (list R -> list R).
(** rhs l.129-136: reshape (library) runs through the columns *)
Definition stRhs (s : stfit) (lam j : nat) : R :=
  if (j <? st_target s * st_rows s)%nat then nth lam (st_data s) (fun _ _ => 0) (j mod st_rows s)%nat (j / st_rows s)%nat
  else nth lam (st_times s) 0.
(** compute l.111-163: the knots of the time direction and the coefficients by step, row and column
    (the rows lam*bsize + r of m_coefs). The spatial part of the basis (l.58-97) is not
    modelled. For domainDim = 1 l.68 asks a univariate basis for component 1; what the library does then is not
    known here (undefined in the model), nor is its answer for fewer than deg+1 steps. *)
Definition stCompute (debug : bool) (s : stfit) : result (list R * (nat -> mat)) :=
  let n := length (st_times s) in
  if debug && negb (Nat.eqb (length (st_data s)) n) then Fail EAssert
  else if (n <=? st_deg s)%nat then Fail EUndef
  else if Nat.eqb (st_dom s) 1 then Fail EUndef
  else
    let kn := uniformKnots (minR (st_ptimes s)) (maxR (st_ptimes s)) (n - (st_deg s + 1)) (st_deg s) in
    match lu kn (st_deg s) with
    | None => Fail ENaN
    | Some solve =>
      let sol lam j := nth lam (solve (map (fun l => stRhs s l j) (seq 0 n))) 0 in
      Ok (kn, fun lam r c => if (c <? st_target s)%nat then sol lam (c * st_rows s + r)%nat else sol lam (st_target s * st_rows s)%nat)
    end.
(** slice l.101-109: the coefficients of the slice (library function, here by evaluation in the time
    direction), the load from column domainDim+1 of its first row; the matrix has
    target+1 columns, embed keeps the first target of them *)
Definition stSlice (s : stfit) (fit : list R * (nat -> mat)) (xi : R) : result (R * mat) :=
  let co r c := spline (V := VS_R) (fst fit) (st_deg s) (map (fun lam => snd fit lam r c) (seq 0 (length (st_times s)))) xi in
  if (st_target s <? st_dom s + 1)%nat then Fail EUndef
  else Ok (co 0%nat (st_dom s + 1)%nat, co).
End SpaceTimeFitter.
