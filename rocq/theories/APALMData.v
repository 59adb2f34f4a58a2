(** Model of class gsAPALMData, the book-keeping of the adaptive parallel
    arc-length method: src/gsALMSolvers/gsAPALMData.{h,hpp}.
    Scalars are reals; solution_t is an arbitrary type [sol]. *)
From Verif Require Import Prelude.
Local Open Scope R_scope.

Section Data.
Context {sol : Type}.

(** std::tuple<T,T,index_t>: [xilow, xiupp, level] (gsAPALMData.h l.157-162) *)
Definition segment := (R * R * Z)%type.
Definition seg_lo (e : segment) : R := fst (fst e).
Definition seg_hi (e : segment) : R := snd (fst e).
Definition seg_lev (e : segment) : Z := snd e.

(** Members of gsAPALMData, gsAPALMData.h l.124-168. m_options is represented by
    its entries MaxLevel and Tolerance; m_verbose (printing only) is left out.
    shared_ptr<solution_t> is represented by the pointee (the code never changes
    a pointee and never stores a null pointer on purpose). *)
Record data := mkData {
  d_optMaxLevel : Z;               (* m_options "MaxLevel" *)
  d_optTol : R;                    (* m_options "Tolerance" *)
  d_maxLevel : Z;                  (* m_maxLevel *)
  d_tol : R;                       (* m_tolerance *)
  d_dt : R;                        (* m_dt *)
  d_init : bool;                   (* m_initialized *)
  d_xi : list R;                   (* m_xi *)
  d_t : list R;                    (* m_t *)
  d_sols : list (R * sol);         (* m_solutions *)
  d_prevs : list (R * sol);        (* m_prevs *)
  d_levels : list (R * Z);         (* m_levels *)
  d_tmap : list (R * R);           (* m_tmap *)
  d_ximap : list (R * R);          (* m_ximap *)
  d_queue : list segment;          (* m_queue *)
  d_jobs : list (nat * segment);   (* m_jobs *)
  d_ID : nat                       (* m_ID *)
}.

Definition with_opts (d : data) (ml : Z) (tol : R) : data :=
  mkData (d_optMaxLevel d) (d_optTol d) ml tol (d_dt d) (d_init d) (d_xi d) (d_t d)
         (d_sols d) (d_prevs d) (d_levels d) (d_tmap d) (d_ximap d) (d_queue d) (d_jobs d) (d_ID d).
Definition with_dt (d : data) (dt : R) : data :=
  mkData (d_optMaxLevel d) (d_optTol d) (d_maxLevel d) (d_tol d) dt (d_init d) (d_xi d) (d_t d)
         (d_sols d) (d_prevs d) (d_levels d) (d_tmap d) (d_ximap d) (d_queue d) (d_jobs d) (d_ID d).
Definition with_init (d : data) (b : bool) : data :=
  mkData (d_optMaxLevel d) (d_optTol d) (d_maxLevel d) (d_tol d) (d_dt d) b (d_xi d) (d_t d)
         (d_sols d) (d_prevs d) (d_levels d) (d_tmap d) (d_ximap d) (d_queue d) (d_jobs d) (d_ID d).
Definition with_knots (d : data) (xi t : list R) : data :=
  mkData (d_optMaxLevel d) (d_optTol d) (d_maxLevel d) (d_tol d) (d_dt d) (d_init d) xi t
         (d_sols d) (d_prevs d) (d_levels d) (d_tmap d) (d_ximap d) (d_queue d) (d_jobs d) (d_ID d).
Definition with_sols (d : data) (s p : list (R * sol)) (l : list (R * Z)) : data :=
  mkData (d_optMaxLevel d) (d_optTol d) (d_maxLevel d) (d_tol d) (d_dt d) (d_init d) (d_xi d) (d_t d)
         s p l (d_tmap d) (d_ximap d) (d_queue d) (d_jobs d) (d_ID d).
Definition with_maps (d : data) (tm xm : list (R * R)) : data :=
  mkData (d_optMaxLevel d) (d_optTol d) (d_maxLevel d) (d_tol d) (d_dt d) (d_init d) (d_xi d) (d_t d)
         (d_sols d) (d_prevs d) (d_levels d) tm xm (d_queue d) (d_jobs d) (d_ID d).
Definition with_queue (d : data) (q : list segment) : data :=
  mkData (d_optMaxLevel d) (d_optTol d) (d_maxLevel d) (d_tol d) (d_dt d) (d_init d) (d_xi d) (d_t d)
         (d_sols d) (d_prevs d) (d_levels d) (d_tmap d) (d_ximap d) q (d_jobs d) (d_ID d).
Definition with_jobs (d : data) (j : list (nat * segment)) (id : nat) : data :=
  mkData (d_optMaxLevel d) (d_optTol d) (d_maxLevel d) (d_tol d) (d_dt d) (d_init d) (d_xi d) (d_t d)
         (d_sols d) (d_prevs d) (d_levels d) (d_tmap d) (d_ximap d) (d_queue d) j id.

(** Default constructor l.47-55 and _defaultOptions l.57-66; the options can be
    changed by the user through options(), hence the two arguments. *)
Definition newData (optMaxLevel : Z) (optTol : R) : data :=
  mkData optMaxLevel optTol 5 (1/10) 1 false [] [] [] [] [] [] [] [] [] 0.

(** _applyOptions l.68-74 *)
Definition applyOptions (d : data) : data := with_opts d (d_optMaxLevel d) (d_optTol d).

(** setLength / getLength, gsAPALMData.h l.121-122 *)
Definition setLength (d : data) (dt : R) : data := with_dt d dt.
Definition getLength (d : data) : R := d_dt d.

(** _buildMap l.571-582: clears both maps and pairs knot k of m_xi with knot k of
    m_t; insert keeps the first value of a repeated key. *)
Definition buildMap (d : data) : result data :=
  if Nat.eqb (length (d_xi d)) (length (d_t d)) then
    let pairs := combine (d_xi d) (d_t d) in
    let tm := fold_left (fun m e => rinsert (fst e) (snd e) m) pairs [] in
    let xm := fold_left (fun m e => rinsert (snd e) (fst e) m) pairs [] in
    Ok (with_maps d tm xm)
  else Fail EAssert.

(** consecutive knots (low,upp), the loop of init() l.86-92 *)
Fixpoint consecutive (l : list R) : list (R * R) :=
  match l with
  | a :: ((b :: _) as l') => (a, b) :: consecutive l'
  | _ => []
  end.

(** init() l.77-97. std::prev(end) of an empty knot vector is undefined. *)
Definition init (d : data) : result data :=
  let d := applyOptions d in
  match d_xi d with
  | [] => Fail EUndef
  | _ =>
    let d := with_queue d (map (fun e => (fst e, snd e, 1%Z)) (consecutive (d_xi d))) in
    do d <- buildMap d;
    Ok (with_init d true)
  end.

(** dereferencing m_solutions[k].get(): a missing key gives a null pointer *)
Definition deref (k : R) (m : list (R * sol)) : result sol :=
  match rfind k m with Some s => Ok s | None => Fail EUndef end.

(** push_front / push_back *)
Definition push (priority : bool) (e : segment) (q : list segment) : list segment :=
  if priority then e :: q else q ++ [e].

(** addStartPoint l.99-122 (note: no _buildMap) *)
Definition addStartPoint (d : data) (time : R) (s : sol) (priority : bool) : result data :=
  if negb (Nat.eqb (length (d_t d)) (length (d_xi d))) then Fail EAssert
  else if negb (Nat.eqb (length (d_t d)) 0) then Fail EAssert
  else
    let d := applyOptions d in
    let xi := 0 in
    let d := with_knots d (kinsert xi (d_xi d)) (kinsert time (d_t d)) in
    let sols := rinsert xi s (d_sols d) in
    let levels := rinsert xi 0%Z (d_levels d) in
    do p <- deref xi sols;
    let prevs := rinsert xi p (d_prevs d) in
    let d := with_sols d sols prevs levels in
    let d := with_queue d (push priority (xi, xi, 0%Z) (d_queue d)) in
    Ok (with_init d true).

(** appendPoint l.124-133. last() of an empty knot vector is undefined. *)
Definition appendPoint (d : data) (priority : bool) : result data :=
  match d_xi d with
  | [] => Fail EUndef
  | _ => let x := last (d_xi d) 0 in
         Ok (with_init (with_queue d (push priority (x, x, 0%Z) (d_queue d))) true)
  end.

(** appendData l.135-175 *)
Definition appendData (d : data) (time : R) (s : sol) (priority : bool) : result data :=
  if negb (Nat.eqb (length (d_t d)) (length (d_xi d))) then Fail EAssert
  else if negb (Nat.eqb (length (d_t d)) 0 || Rltb (last (d_t d) 0) time) then Fail EAssert
  else
    let xlast := last (d_xi d) 0 in
    let xfirst := hd 0 (d_xi d) in
    let tlast := last (d_t d) 0 in
    let tfirst := hd 0 (d_t d) in
    do xi <- match length (d_t d) with
             | 0%nat => Ok 0
             | 1%nat => Ok 1
             | _ => if Reqb (tlast - tfirst) 0 then Fail ENaN
                    else Ok ((time - tlast) * (xlast - xfirst) / (tlast - tfirst) + xlast)
             end;
    let sols := rinsert xi s (d_sols d) in
    let levels := rinsert xi 0%Z (d_levels d) in
    do d' <- (if Nat.eqb (length (d_t d)) 0 then
                do p <- deref xi sols;
                Ok (with_sols d sols (rinsert xi p (d_prevs d)) levels)
              else
                do p <- deref xlast sols;
                let d := with_sols d sols (rinsert xi p (d_prevs d)) levels in
                let d := with_queue d (push priority (xlast, xi, 1%Z) (d_queue d)) in
                Ok (with_init d true));
    buildMap (with_knots d' (kinsert xi (d_xi d')) (kinsert time (d_t d'))).

(** the constructor of gsKnotVector requires sorted knots *)
Fixpoint sortedb (l : list R) : bool :=
  match l with
  | a :: ((b :: _) as l') => Rleb a b && sortedb l'
  | _ => true
  end.

(** gsKnotVector::transform(0,1): affine map of first knot to 0 and last to 1 *)
Definition transform01 (l : list R) : result (list R) :=
  match l with
  | [] => Fail EUndef
  | a :: _ => let b := last l 0 in
              if Reqb (b - a) 0 then Fail ENaN
              else Ok (map (fun x => (x - a) / (b - a)) l)
  end.

(** setData l.190-197: the loop over k>=1 ([xprev] is m_xi[k-1]) *)
Fixpoint setDataLoop (xprev : R) (xis : list R) (ss : list sol)
         (m : list (R * sol) * list (R * sol) * list (R * Z))
  : result (list (R * sol) * list (R * sol) * list (R * Z)) :=
  match xis with
  | [] => Ok m
  | x :: xis' =>
    match ss with
    | [] => Fail ERange
    | s :: ss' =>
      let '(sols, prevs, levels) := m in
      let sols := rinsert x s sols in
      let levels := rinsert x 0%Z levels in
      do p <- deref xprev sols;
      setDataLoop x xis' ss' (sols, rinsert x p prevs, levels)
    end
  end.

(** setData l.177-198 *)
Definition setData (d : data) (times : list R) (ss : list sol) : result data :=
  if negb (sortedb times) then Fail EAssert
  else
    do xis <- transform01 times;
    let d := with_knots d xis times in
    match xis, ss with
    | x :: xis', s :: ss' =>
      let sols := rinsert x s (d_sols d) in
      let levels := rinsert x 0%Z (d_levels d) in
      do p <- deref x sols;
      do m <- setDataLoop x xis' ss' (sols, rinsert x p (d_prevs d), levels);
      Ok (with_sols d (fst (fst m)) (snd (fst m)) (snd m))
    | _, _ => Fail ERange
    end.

(** init(times,solutions) l.207-212 *)
Definition initWith (d : data) (times : list R) (ss : list sol) : result data :=
  do d <- setData d times ss; init d.

(** pop l.214-252 *)
Definition pop (d : data) : result (data * (nat * R * sol * sol)) :=
  if negb (d_init d) then Fail EAssert
  else match d_queue d with
  | [] => Fail EAssert
  | (xilow, xiupp, level) :: q =>
    let d := with_queue d q in
    let '(tlow, tm1) := rread 0 xilow (d_tmap d) in
    let '(tupp, tm2) := rread 0 xiupp tm1 in
    let d := with_maps d tm2 (d_ximap d) in
    let dt := if Reqb xilow xiupp && (level =? 0)%Z then d_dt d else tupp - tlow in
    match rfind xilow (d_sols d), rfind xilow (d_prevs d) with
    | Some start, Some prev =>
      let d' := with_jobs d (nset (d_ID d) (xilow, xiupp, level) (d_jobs d)) (S (d_ID d)) in
      Ok (d', (d_ID d, dt, start, prev))
    | _, _ => Fail EAssert
    end
  end.

(** getReferenceByTime l.254-264: result None = returned false *)
Definition getReferenceByTime (d : data) (time : R) : data * option sol :=
  let '(x, xm) := rread 0 time (d_ximap d) in
  (with_maps d (d_tmap d) xm, rfind x (d_sols d)).

(** getReferenceByPar l.266-276 *)
Definition getReferenceByPar (d : data) (xi : R) : data * option sol :=
  (d, rfind xi (d_sols d)).

(** m_jobs[ID]: an unknown ID is inserted with the value (0,0,0) *)
Definition readJob (d : data) (id : nat) : data * segment :=
  let '(e, j) := nread (0, 0, 0%Z) id (d_jobs d) in
  (with_jobs d j (d_ID d), e).

(** m_tmap[xi] *)
Definition readTime (d : data) (xi : R) : data * R :=
  let '(t, tm) := rread 0 xi (d_tmap d) in
  (with_maps d tm (d_ximap d), t).

(** getReferenceByID l.278-288 *)
Definition getReferenceByID (d : data) (id : nat) : data * option sol :=
  let '(d, e) := readJob d id in (d, rfind (seg_hi e) (d_sols d)).

(** jobStartTime l.435-439 *)
Definition jobStartTime (d : data) (id : nat) : data * R :=
  let '(d, e) := readJob d id in readTime d (seg_lo e).
(** jobStartPar l.441-445 *)
Definition jobStartPar (d : data) (id : nat) : data * R :=
  let '(d, e) := readJob d id in (d, seg_lo e).
(** jobTimes l.447-454 *)
Definition jobTimes (d : data) (id : nat) : data * (R * R) :=
  let '(d, e) := readJob d id in
  let '(d, t1) := readTime d (seg_lo e) in
  let '(d, t2) := readTime d (seg_hi e) in (d, (t1, t2)).
(** jobPars l.456-462 *)
Definition jobPars (d : data) (id : nat) : data * (R * R) :=
  let '(d, e) := readJob d id in (d, (seg_lo e, seg_hi e)).
(** jobLevel l.464-468 *)
Definition jobLevel (d : data) (id : nat) : data * Z :=
  let '(d, e) := readJob d id in (d, seg_lev e).

(** nActive, nWaiting (gsAPALMData.h) and empty l.494-498 *)
Definition nActive (d : data) : nat := length (d_jobs d).
Definition nWaiting (d : data) : nat := length (d_queue d).
Definition isEmpty (d : data) : bool := match d_queue d with [] => true | _ => false end.

(** time points t of submit, l.330-333: t_0 = tlow, t_{k+1} = t_k + distances_k *)
Fixpoint timePoints (tlow : R) (ds : list R) : list R :=
  match ds with
  | [] => [tlow]
  | d :: ds' => tlow :: timePoints (tlow + d) ds'
  end.

(** all but first and last element: the index range k=1 .. size-2 *)
Definition interior {A} (l : list A) : list A := removelast (tl l).

(** submit l.427-432: m_prevs[xi_k] = *m_solutions[xi_{k-1}] *)
Fixpoint setPrevs (xprev : R) (xis : list R) (sols prevs : list (R * sol))
  : result (list (R * sol)) :=
  match xis with
  | [] => Ok prevs
  | x :: xis' => do p <- deref xprev sols; setPrevs x xis' sols (rset x p prevs)
  end.

(** submit l.384-402: the sub-segments that are queued. A quotient by Dt=0 is
    excluded before. *)
Definition newSegments (maxLevel : Z) (tol : R) (xis : list R) (level : Z)
           (lowerError upperError Dt : R) : list segment :=
  let n := length xis in
  let kmin := if Rltb (lowerError / Dt) tol then (n - 1)%nat else 1%nat in
  let kmax := if Rltb (upperError / Dt) tol then (n - 1)%nat else n in
  if (level <? maxLevel)%Z
  then map (fun k => (nth (k - 1) xis 0, nth k xis 0, (level + 1)%Z)) (seq kmin (kmax - kmin))
  else [].

(** submit l.290-433 *)
Definition submit (d : data) (id : nat) (ds : list R) (ss : list sol)
           (upperDistance lowerDistance : R) : result data :=
  if negb (d_init d) then Fail EAssert
  else if negb (Nat.eqb (length ds) (length ss + 1)) then Fail EAssert
  else
    let '(d, (xilow, xiupp, level)) := readJob d id in
    let '(d, tlow) := readTime d xilow in
    let '(d, tupp) := readTime d xiupp in
    let dxi := xiupp - xilow in
    let Dt := tupp - tlow in
    let t := timePoints tlow ds in
    let dt_tmp := Rsum (removelast ds) in
    if Reqb Dt 0 then Fail ENaN
    else if negb (Rltb ((Dt - dt_tmp) / Dt) (1 / 10^12)) then Fail EEnsure
    else
      let dt := last t 0 - tlow in
      let totalError := dt - upperDistance in
      let lowerError := Dt - lowerDistance in
      let upperError := totalError - lowerError in
      if Reqb dt 0 then Fail ENaN
      else
        let xmid := map (fun tk => xilow + dxi * (tk - tlow) / dt) (interior t) in
        let xi := xilow :: xmid ++ [xiupp] in
        let d := with_queue d (d_queue d ++
                   newSegments (d_maxLevel d) (d_tol d) xi level lowerError upperError Dt) in
        let d := with_knots d (fold_left (fun l x => kinsert x l) xmid (d_xi d))
                   (fold_left (fun l x => kinsert x l) (interior t)
                      (kaddConstant tupp (dt - Dt) (d_t d))) in
        do d <- buildMap d;
        let sols := fold_left (fun m e => rset (fst e) (snd e) m) (combine xmid ss) (d_sols d) in
        let levels := fold_left (fun m x => rset x level m) xmid (d_levels d) in
        do prevs <- setPrevs xilow xmid sols (d_prevs d);
        Ok (with_sols d sols prevs levels).

(** finishJob l.479-492 (with m_verbose<2; verbose 2 also reads m_jobs[ID] first,
    which the following erase undoes) *)
Definition finishJob (d : data) (id : nat) : data :=
  with_jobs d (nerase id (d_jobs d)) (d_ID d).

(** getFlatSolution l.500-520, level=-1 means all levels *)
Fixpoint flatLoop (level : Z) (ms : list (R * sol)) (d : data)
  : data * (list R * list sol * list Z) :=
  match ms with
  | [] => (d, ([], [], []))
  | (x, s) :: ms' =>
    let '(l, lm) := rread 0%Z x (d_levels d) in
    let d := with_sols d (d_sols d) (d_prevs d) lm in
    if ((l =? level) || (level =? -1))%Z then
      let '(t, tm) := rread 0 x (d_tmap d) in
      let d := with_maps d tm (d_ximap d) in
      let '(d, (ts, ss, ls)) := flatLoop level ms' d in
      (d, (t :: ts, s :: ss, l :: ls))
    else flatLoop level ms' d
  end.
Definition getFlatSolution (d : data) (level : Z) : data * (list R * list sol * list Z) :=
  flatLoop level (d_sols d) d.

End Data.
Arguments data : clear implicits.
