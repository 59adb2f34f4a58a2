(** Model of gsAPALMDataContainer (src/gsALMSolvers/gsAPALMDataContainer.h) and of the
    main process of gsAPALM::solve and gsAPALM::parallelSolve
    (src/gsALMSolvers/gsAPALM.hpp). *)
From Verif Require Import Prelude APALMData.
Local Open Scope R_scope.

Section Driver.
Context {sol : Type}.
Notation data := (data sol).

(** ** gsAPALMDataContainer: m_container *)
Definition container := list data.

(** empty() l.40-46 *)
Definition cEmpty (c : container) : bool := forallb isEmpty c.
(** nBranches() l.48-51 *)
Definition nBranches (c : container) : nat := length c.
(** add() l.55-59: new container and index of the new branch *)
Definition cAdd (c : container) (d : data) : container * nat := (c ++ [d], length c).
(** branch(k) l.61-64: std::vector::at *)
Definition branch (c : container) (k : nat) : result data :=
  match nth_error c k with Some d => Ok d | None => Fail ERange end.
(** assignment through the reference returned by branch(k) *)
Fixpoint setBranch (c : container) (k : nat) (d : data) : container :=
  match c, k with
  | [], _ => []
  | _ :: c', O => d :: c'
  | x :: c', S k' => x :: setBranch c' k' d
  end.
(** getFirstNonEmptyBranch() l.66-72. The element is read before the bound is
    tested: running past the end is undefined. *)
Fixpoint firstNonEmptyFrom (k : nat) (c : container) : result nat :=
  match c with
  | [] => Fail EUndef
  | d :: c' => if isEmpty d then firstNonEmptyFrom (S k) c' else Ok k
  end.
Definition getFirstNonEmptyBranch (c : container) : result nat := firstNonEmptyFrom 0 c.
(** nActive() l.107-113, nWaiting() l.114-120 *)
Definition cActive (c : container) : nat := fold_left (fun k d => k + nActive d)%nat c 0%nat.
Definition cWaiting (c : container) : nat := fold_left (fun k d => k + nWaiting d)%nat c 0%nat.
(** maxLevel() l.122-128, for non-negative levels (the conversion to size_t of a negative
    level is not modelled) *)
Definition cMaxLevel (c : container) : Z :=
  fold_left (fun k d => if (k <? d_maxLevel d)%Z then d_maxLevel d else k) c 0%Z.

(** ** Messages
    What main sends for one job (gsAPALM.hpp l.297-312, 583-615): branch, ID, level,
    dataEntry and, for an initiation, the start time, or, for a correction, the time
    interval and the reference solution. *)
Inductive jobInfo :=
| JInit (tstart : R)
| JCorr (interval : R * R) (reference : sol).
Record job := mkJob {
  j_branch : nat; j_ID : nat; j_level : Z;
  j_dt : R; j_start : sol; j_prev : sol;
  j_info : jobInfo
}.
(** what a worker sends back (l.410-417, 775-781, 801-808) *)
Inductive answer :=
| ACorr (distances : list R) (stepSolutions : list sol) (upperDistance lowerDistance : R)
| AInit (distance : R) (solutions : list sol) (bifurcation : bool).

(** ** Settings of gsAPALM used by main: m_maxIterations, m_bifLengthMult, Nsteps,
    m_dataEmpty, the length m_ALM->getLength()*m_branchLengthMult*m_bifLengthMult of a
    new branch, and which of the two drivers runs: solve (true) distinguishes
    initiation jobs, parallelSolve (false) does not. *)
Record settings := mkSettings {
  st_solve : bool;
  st_maxIt : nat;
  st_Nsteps : Z;
  st_bifMult : R;
  st_newLength : R;
  st_dataEmpty : data
}.

(** State of the main process, plus [mn_running]: the jobs that were sent to a worker and
    have not been received back (state of the workers and of the network), and two logs:
    [mn_sent] all jobs sent, [mn_done] all jobs received back. *)
Record main := mkMain {
  mn_data : container;
  mn_it : nat;
  mn_njobs : nat;
  mn_workers : list nat;
  mn_K : list Z;
  mn_running : list (nat * job);
  mn_sent : list (nat * job);
  mn_done : list (nat * job)
}.
Variable st : settings.

(** One round of the dispatch loop, l.294-316 and 354-375 (parallelSolve), l.580-618 and
    698-738 (solve). m_workers.front() of an empty queue is undefined. *)
Definition dispatch (m : main) : result main :=
  do b <- getFirstNonEmptyBranch (mn_data m);
  do d <- branch (mn_data m) b;
  do (d, (id, dt, start, prev)) <- pop d;
  let '(d, level) := jobLevel d id in
  do (d, info) <-
    (if st_solve st && (level =? 0)%Z then
       let '(d, t) := jobStartTime d id in Ok (d, JInit t)
     else
       let '(d, ref) := getReferenceByID d id in
       match ref with
       | None => Fail EEnsure
       | Some r => let '(d, iv) := jobTimes d id in Ok (d, JCorr iv r)
       end);
  match mn_workers m with
  | [] => Fail EUndef
  | w :: ws =>
    let j := mkJob b id level dt start prev info in
    Ok (mkMain (setBranch (mn_data m) b d) (S (mn_it m)) (S (mn_njobs m)) ws (mn_K m)
               (mn_running m ++ [(w, j)]) (mn_sent m ++ [(w, j)]) (mn_done m))
  end.

(** the condition of the dispatch loop, l.282, 351, 568, 695 *)
Definition canDispatch (m : main) : bool :=
  negb (cEmpty (mn_data m)) && (mn_it m <? st_maxIt st)%nat &&
  match mn_workers m with [] => false | _ => true end.

(** the dispatch loop; each round takes one worker, so the number of idle workers bounds
    the number of rounds *)
Fixpoint dispatchLoop (fuel : nat) (m : main) : result main :=
  if canDispatch m then
    match fuel with
    | O => Fail EFuel
    | S f => do m' <- dispatch m; dispatchLoop f m'
    end
  else Ok m.
Definition dispatchAll (m : main) : result main := dispatchLoop (length (mn_workers m)) m.

(** K[branch]: out of range is undefined *)
Definition readK (K : list Z) (b : nat) : result Z :=
  match nth_error K b with Some k => Ok k | None => Fail EUndef end.
Fixpoint setK (K : list Z) (b : nat) (v : Z) : list Z :=
  match K, b with
  | [], _ => []
  | _ :: K', O => v :: K'
  | x :: K', S b' => x :: setK K' b' v
  end.

(** Receipt of an initiation, l.631-666: the new point gets the current time of the start
    point plus the distance; then a new initiation or a new branch is queued. *)
Definition receiveInit (data0 : container) (K : list Z) (b id : nat)
           (distance : R) (solutions : list sol) (bif : bool) : result (container * list Z) :=
  do d <- branch data0 b;
  let '(d, tstart) := jobStartTime d id in
  do s0 <- match solutions with [] => Fail EUndef | s :: _ => Ok s end;
  do d <- appendData d (tstart + distance) s0 false;
  let d := finishJob d id in
  do k <- readK K b;
  let K := setK K b (k + 1)%Z in
  if (k <? st_Nsteps st - 1)%Z then
    if negb bif then
      match solutions with
      | [_] =>
        do d <- appendPoint d true;
        let d := if negb (Nat.eqb b 0) && Nat.eqb id 0
                 then setLength d (getLength d / st_bifMult st) else d in
        Ok (setBranch data0 b d, K)
      | _ => Fail EAssert
      end
    else
      match solutions with
      | [_; s1] =>
        let '(c, b') := cAdd (setBranch data0 b d) (st_dataEmpty st) in
        do d' <- addStartPoint (st_dataEmpty st) 0 s1 true;
        Ok (setBranch c b' (setLength d' (st_newLength st)), K ++ [1%Z])
      | _ => Fail EAssert
      end
  else Ok (setBranch data0 b d, K).

(** Receipt of a correction, l.333-334 and 676-677 *)
Definition receiveCorr (data0 : container) (b id : nat)
           (ds : list R) (ss : list sol) (up lo : R) : result container :=
  do d <- branch data0 b;
  do d <- submit d id ds ss up lo;
  Ok (setBranch data0 b (finishJob d id)).

(** Receipt of the answer of worker [w] (branch and ID come back with it), l.323-339 and
    l.624-683 up to m_workers.push. An answer of the other kind than the one main expects
    does not match the posted receives and is undefined. *)
Definition runningJob (w : nat) (r : list (nat * job)) : option job := nfind w r.
Fixpoint dropRunning (w : nat) (r : list (nat * job)) : list (nat * job) :=
  match r with
  | [] => []
  | (w', j) :: r' => if Nat.eqb w w' then r' else (w', j) :: dropRunning w r'
  end.
Definition receive (m : main) (w : nat) (a : answer) : result main :=
  match runningJob w (mn_running m) with
  | None => Fail EUndef
  | Some j =>
    let b := j_branch j in
    let id := j_ID j in
    do d <- branch (mn_data m) b;
    let '(d, level) := if st_solve st then jobLevel d id else (d, 1%Z) in
    let c := setBranch (mn_data m) b d in
    do (c, K) <-
      (match a with
       | AInit dist ss bif =>
           if (level =? 0)%Z then receiveInit c (mn_K m) b id dist ss bif else Fail EUndef
       | ACorr ds ss up lo =>
           if (level =? 0)%Z then Fail EUndef
           else do c <- receiveCorr c b id ds ss up lo; Ok (c, mn_K m)
       end);
    Ok (mkMain c (mn_it m) (mn_njobs m - 1) (mn_workers m ++ [w]) K
               (dropRunning w (mn_running m)) (mn_sent m) (mn_done m ++ [(w, j)]))
  end.

(** one round of the loop `while (njobs > 0)` in which worker [w] answers [a] *)
Definition round (m : main) (w : nat) (a : answer) : result main :=
  do m <- receive m w a; dispatchAll m.

(** Before the loop: the workers 1..P-1 are pushed behind the ones left in m_workers by an
    earlier call, K = {1}, and the first jobs are dispatched. *)
Definition startMain (pool : list nat) (P : nat) (c : container) : result main :=
  dispatchAll (mkMain c 0 0 (pool ++ seq 1 (P - 1)) [1%Z] [] [] []).

(** The start points of solve, l.547-562 and 835-850 *)
Fixpoint addStarts (c : container) (starts : list (sol * R)) : result container :=
  match starts with
  | [] => Ok c
  | (s, dL) :: starts' =>
    let '(c, b) := cAdd c (st_dataEmpty st) in
    do d <- addStartPoint (st_dataEmpty st) 0 s false;
    addStarts (setBranch c b (setLength d dL)) starts'
  end.

End Driver.
Arguments container : clear implicits.
Arguments job : clear implicits.
Arguments jobInfo : clear implicits.
Arguments answer : clear implicits.
Arguments settings : clear implicits.
Arguments main : clear implicits.

(** ** Serial drivers. The arc-length solver is an oracle: [work n j] is the answer to the
    n-th job, and [newLen n] the value of m_ALM->getLength()*m_branchLengthMult*
    m_bifLengthMult after it. (With several processes main reads the length of its own
    m_ALM, which computes nothing: the constant [st_newLength]. On one process m_ALM is
    the solver that has just computed the job, gsAPALM.hpp l.901.) *)
Section Serial.
Context {sol : Type}.
Variable st : settings sol.
Variable work : nat -> job sol -> answer sol.
Variable newLen : nat -> R.
(** the settings with another length for new branches, gsAPALM.hpp l.663 and l.901 *)
Definition withNewLength (l : R) : settings sol :=
  mkSettings (st_solve st) (st_maxIt st) (st_Nsteps st) (st_bifMult st) l (st_dataEmpty st).

(** One round on one process, l.446-470 (parallelSolve) and l.854-929 (solve): the same
    calls in the same order as a dispatch followed by the receipt, with the computation
    in between; it is written with a pseudo worker 0. (The serial code reads the start
    time of an initiation once, before the computation, the MPI code again at receipt;
    nothing changes it in between.) [countIt]: does an initiation count in `it`? *)
Definition serialJob (m : main sol) (countIt : bool) : result (main sol) :=
  do m1 <- dispatch st (mkMain (mn_data m) (mn_it m) (mn_njobs m) [0%nat] (mn_K m)
                            (mn_running m) (mn_sent m) (mn_done m));
  match mn_running m1 with
  | (w, j) :: _ =>
    do m2 <- receive (withNewLength (newLen (length (mn_done m)))) m1 w (work (length (mn_done m)) j);
    Ok (mkMain (mn_data m2)
               (if countIt || negb (j_level j =? 0)%Z then S (mn_it m) else mn_it m)
               (mn_njobs m2) [] (mn_K m2) (mn_running m2) (mn_sent m2) (mn_done m2))
  | [] => Fail EUndef
  end.

(** the loops `while (!m_data.empty() && it < m_maxIterations)`: parallelSolve counts every
    job (l.469), solve only corrections (l.927) *)
Fixpoint serialLoop (fuel : nat) (m : main sol) : result (main sol) :=
  if negb (cEmpty (mn_data m)) && (mn_it m <? st_maxIt st)%nat then
    match fuel with
    | O => Fail EFuel
    | S f => do m' <- serialJob m (negb (st_solve st)); serialLoop f m'
    end
  else Ok m.
End Serial.
