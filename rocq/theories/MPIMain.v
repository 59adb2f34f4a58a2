(** Model of the main process and of all its workers on the network
    (src/gsALMSolvers/gsAPALM.hpp l.243-417 parallelSolve, l.522-810 solve, messages l.1170-1675):
    the processes are programs of sends and receives, main receives from MPI_ANY_SOURCE.

    Simplified as in MPI.v; main and each worker have their own channel, so that messages of
    different workers are never mistaken except by the receive from any source. Main's variables
    are those of APALMDriver without its logs. *)
From Verif Require Import Prelude APALMData APALMDriver MPI.
Local Open Scope nat_scope.

(** ** The network *)
(** main's program: on the channel of worker [w], ending with what main does next; a blocking receive
    of one number with tag 0 from any source (None: wrong length); the end *)
Inductive mprog (A : Type) :=
| On (w : nat) (p : prog (mprog A))
| Any (k : nat -> option payload -> mprog A)
| MRet (a : A).
Arguments On {A}. Arguments Any {A}. Arguments MRet {A}.

Section NetN.
Context {A B : Type}.
Variable eager : nat -> payload -> bool.
(** main's program, main's end of every channel (its program is not used), the workers *)
Record net := mkNet { n_main : mprog A; n_half : nat -> ep unit; n_worker : nat -> ep B }.
Definition withProg {X Y} (p : prog Y) (e : ep X) : ep Y := mkEp p (e_out e) (e_posted e) (e_got e).
(** main goes on; main's receive from any source takes the first message with tag 0 of worker [w];
    worker [w] goes on; the network matches a tag, to or from worker [w] *)
Inductive nlabel := Main | Pick (w : nat) | Wrk (w : nat) | ToW (w t : nat) | ToM (w t : nat).
Definition onChannel (n : net) (w : nat) (r : option (ep unit * ep B)) : option net :=
  match r with
  | Some (a, b) => Some (mkNet (n_main n) (upd (n_half n) w a) (upd (n_worker n) w b))
  | None => None
  end.
Definition nfire (l : nlabel) (n : net) : option net :=
  match l with
  | Main =>
      match n_main n with
      | On w (Ret m) => Some (mkNet m (n_half n) (n_worker n))
      | On w p => match local eager (withProg p (n_half n w)) with
                  | Some e => Some (mkNet (On w (e_prog e)) (upd (n_half n) w (withProg (Ret tt) e)) (n_worker n))
                  | None => None
                  end
      | _ => None
      end
  | Pick w =>
      (* an earlier receive of main for this tag and worker would be matched first *)
      match n_main n, e_out (n_worker n w) 0, e_posted (n_half n w) 0 with
      | Any k, m :: l, [] =>
          let e := n_worker n w in
          Some (mkNet (k w (if length m =? 1 then Some m else None)) (n_half n)
                      (upd (n_worker n) w (mkEp (e_prog e) (upd (e_out e) 0 l) (e_posted e) (e_got e))))
      | _, _, _ => None
      end
  | Wrk w => onChannel n w (fire eager GoR (n_half n w, n_worker n w))
  | ToW w t => onChannel n w (fire eager (ToR t) (n_half n w, n_worker n w))
  | ToM w t => onChannel n w (fire eager (ToL t) (n_half n w, n_worker n w))
  end.
Inductive nruns : nat -> net -> net -> Prop :=
| NRunO s : nruns 0 s s
| NRunS n s l s1 s2 : nfire l s = Some s1 -> nruns n s1 s2 -> nruns (S n) s s2.
(** nothing can happen any more *)
Definition stuck (s : net) : Prop := forall l, nfire l s = None.
(** no message on the way, no receive posted *)
Definition quiet {X} (p : prog X) : ep X := mkEp p (fun _ => []) (fun _ => []) (fun _ => []).
Definition netOf (M : mprog A) (q : nat -> prog B) : net := mkNet M (fun _ => quiet (Ret tt)) (fun w => quiet (q w)).
End NetN.
Arguments net : clear implicits.

(** ** The programs *)
Notation njob := (job solution).
Notation nanswer := (answer solution).
(** main's variables m_data, it, njobs, m_workers, K *)
Record vars := mkVars { v_data : container solution; v_it : nat; v_njobs : nat; v_workers : list nat; v_K : list Z }.
Definition varsOf (m : main solution) : vars := mkVars (mn_data m) (mn_it m) (mn_njobs m) (mn_workers m) (mn_K m).
Definition asMain (v : vars) (running : list (nat * njob)) : main solution :=
  mkMain (v_data v) (v_it v) (v_njobs v) (v_workers v) (v_K v) running [] [].

(** the messages of one job, l.303-312, 587-615 and again 362-371, 706-735 *)
Definition entryOf (j : njob) : entry := (Z.of_nat (j_ID j), j_dt j, j_start j, j_prev j).
Definition sendJob (j : njob) : prog unit :=
  bind (sendStop false) (fun _ => bind (sendMeta (Z.of_nat (j_branch j)) (Z.of_nat (j_ID j)) (j_level j)) (fun _ =>
  match j_info j with
  | JInit t => sendInit (entryOf j) t
  | JCorr iv r => sendCorr (entryOf j) iv r
  end)).

Section Main.
Variable st : settings solution.
(** the number of processes m_proc_count *)
Variable P : nat.
(** one round of the dispatch loop (APALMDriver.dispatch) with the worker and the job it sends *)
Definition dispatchV (v : vars) : result (vars * nat * njob) :=
  do m <- dispatch st (asMain v []);
  match mn_running m with
  | [(w, j)] => Ok (varsOf m, w, j)
  | _ => Fail EUndef
  end.
(** the dispatch loop l.282-317 and 351-376, 568-619 and 695-739, then [k] *)
Fixpoint dispatchProg {A} (fuel : nat) (v : vars) (k : vars -> mprog (result A)) : mprog (result A) :=
  if canDispatch st (asMain v []) then
    match fuel with
    | O => MRet (Fail EFuel)
    | S f =>
      match dispatchV v with
      | Ok (v, w, j) => On w (bind (sendJob j) (fun _ => Ret (dispatchProg f v k)))
      | Fail e => MRet (Fail e)
      end
    end
  else k v.
(** the receipt (APALMDriver.receive) of an answer of worker [w] to the job [id] of branch [b]; both
    numbers come with the answer *)
Definition receiveV (v : vars) (w b id : nat) (a : nanswer) : result vars :=
  do m <- receive st (asMain v [(w, mkJob b id 0 0 ([], 0%R) ([], 0%R) (JInit 0))]) w a; Ok (varsOf m).
(** does main expect the answer of an initiation, l.631-632 (parallelSolve: never) *)
Definition expectsInit (v : vars) (b id : nat) : result bool :=
  do d <- branch (v_data v) b; let '(_, level) := jobLevel d id in Ok (isInit (st_solve st) level).
(** l.1436-1453 after the branch [p] has arrived from worker [w], then l.327-338 or 631-683 *)
Definition receiveProg (v : vars) (w : nat) (p : option payload) : prog (result vars) :=
  Irecv 1 1 (WaitR 1 (fun y =>
  match p, y with
  | Some [WI b], Some [WI i] =>
    match expectsInit v (Z.to_nat b) (Z.to_nat i) with
    | Ok true => bind recvAnsInit (fun a => Ret
        match a with Some (d, ss, bif) => receiveV v w (Z.to_nat b) (Z.to_nat i) (AInit d ss bif) | None => Fail EUndef end)
    | Ok false => bind recvAnsCorr (fun a => Ret
        match a with Some (ds, ss, u, l) => receiveV v w (Z.to_nat b) (Z.to_nat i) (ACorr ds ss u l) | None => Fail EUndef end)
    | Fail e => Ret (Fail e)
    end
  | _, _ => Ret (Fail EUndef)
  end)).
(** _sendMainToAll l.1293-1297 *)
Fixpoint stopProg {A} (ws : list nat) (a : A) : mprog A :=
  match ws with [] => MRet a | w :: ws => On w (bind (sendStop true) (fun _ => Ret (stopProg ws a))) end.
(** while (njobs > 0) l.319-377 and 621-740, at most [rounds] times, and the stop signal l.378-379,
    741-742. A failed assertion or an exception ends main. *)
Fixpoint loopProg (rounds : nat) (v : vars) : mprog (result vars) :=
  if v_njobs v =? 0 then stopProg (seq 1 (P - 1)) (Ok v) else
  match rounds with
  | O => MRet (Fail EFuel)
  | S n => Any (fun w p => On w (bind (receiveProg v w p) (fun r => Ret
      match r with
      | Ok v => dispatchProg (length (v_workers v)) v (loopProg n)
      | Fail e => MRet (Fail e)
      end)))
  end.
(** main from l.276 or l.540 on, m_workers being empty before (l.279-280, 565-566); MaxIt rounds *)
Definition mainProg (c : container solution) : mprog (result vars) :=
  let v := mkVars c 0 0 (seq 1 (P - 1)) [1%Z] in
  dispatchProg (length (v_workers v)) v (loopProg (st_maxIt st)).
End Main.

(** ** A worker *)
Section Worker.
(** the driver; the state of the worker's arc-length solver and what _initiation and _correction
    compute from it; the moments at which loads and sizes are read (MPI.sendAnsCorr) *)
Context {X : Type}.
Variable solve : bool.
Variable initiation : X -> njob -> X * (R * list solution * bool).
Variable correction : X -> njob -> X * (list R * list solution * R * R).
Variable fl fn : X -> njob -> nat -> nat.
(** the loop l.385-418, 748-810, at most [fuel] times (None afterwards and for a wrong message); it
    returns the jobs it was given and the state of the solver. dataEntry has its own copy of the
    ID, which nothing uses. *)
Fixpoint workerLoop (fuel : nat) (x : X) (seen : list njob) : prog (option (list njob * X)) :=
  match fuel with
  | O => Ret None
  | S fuel =>
    bind recvStop (fun s => match s with
    | None => Ret None
    | Some true => Ret (Some (seen, x))
    | Some false =>
      bind recvMeta (fun m => match m with
      | None => Ret None
      | Some (b, i, v) =>
        if isInit solve v then
          bind recvInit (fun y => match y with
          | None => Ret None
          | Some ((_, dL, start, prev), t) =>
              let j := mkJob (Z.to_nat b) (Z.to_nat i) v dL start prev (JInit t) in
              let '(x', (d, ss, bif)) := initiation x j in
              bind (sendBack b i) (fun _ => bind (sendAnsInit (fl x j) (fn x j) d ss bif) (fun _ => workerLoop fuel x' (seen ++ [j]))) end)
        else
          bind recvCorr (fun y => match y with
          | None => Ret None
          | Some ((_, dL, start, prev), iv, rf) =>
              let j := mkJob (Z.to_nat b) (Z.to_nat i) v dL start prev (JCorr iv rf) in
              let '(x', (ds, ss, u, l)) := correction x j in
              bind (sendBack b i) (fun _ => bind (sendAnsCorr (fl x j) (fn x j) ds ss u l) (fun _ => workerLoop fuel x' (seen ++ [j]))) end)
      end) end)
  end.
(** what the worker answers to a job, and its next state *)
Definition compute (x : X) (j : njob) : X * nanswer :=
  match j_info j with
  | JInit _ => let '(x', (d, ss, bif)) := initiation x j in (x', AInit d ss bif)
  | JCorr _ _ => let '(x', (ds, ss, u, l)) := correction x j in (x', ACorr ds ss u l)
  end.
End Worker.

(** All processes at the start: the workers 1..P-1 wait, other numbers have no process. *)
Definition system {X} (st : settings solution) (P : nat) (c : container solution)
    (initiation : X -> njob -> X * (R * list solution * bool)) (correction : X -> njob -> X * (list R * list solution * R * R))
    (fl fn : X -> njob -> nat -> nat) (x : nat -> X) : net (result vars) (option (list njob * X)) :=
  netOf (mainProg st P c) (fun w => if (1 <=? w) && (w <? P) then workerLoop (st_solve st) initiation correction fl fn (S (st_maxIt st)) (x w) [] else Ret None).
