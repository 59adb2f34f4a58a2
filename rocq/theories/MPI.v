(** Model of the messages between main and one worker (src/gsALMSolvers/gsAPALM.hpp l.1170-1675, called
    from _solve_impl l.545-820 and parallelSolve_impl l.255-420): non-blocking sends and receives
    with tags, and every order in which the two processes and the network can proceed.

    Simplified: a request is identified by the tag of its message (the arrays of requests in the
    code have one entry per tag); messages of one direction and tag are matched in order (the
    non-overtaking rule of MPI), everything else in any order; a wait for a send returns when the
    message was matched, or before if the library buffers it ([eager], any function of the
    message); one worker: main talks to the others through other channels and waits for a worker
    only while this has a job. A payload is fixed when the send is posted, except where the code
    changes the buffer before the wait (see [sendAnsCorr]). *)
From Coq Require Export Reals ZArith List Lia Bool Arith FunctionalExtensionality.
Export ListNotations.
Local Open Scope nat_scope.

(** ** Processes *)
Inductive word := WI (z : Z) | WR (x : R) | WB (b : bool).
Definition payload := list word.
(** isend / wait for a send / irecv of a given count / wait for a receive (None: the message does
    not have the expected length) *)
Inductive prog (A : Type) :=
| Isend (t : nat) (p : payload) (k : prog A)
| WaitS (t : nat) (k : prog A)
| Irecv (t n : nat) (k : prog A)
| WaitR (t : nat) (k : option payload -> prog A)
| Ret (a : A).
Arguments Isend {A}. Arguments WaitS {A}. Arguments Irecv {A}. Arguments WaitR {A}. Arguments Ret {A}.
Fixpoint bind {A B} (p : prog A) (f : A -> prog B) : prog B :=
  match p with
  | Isend t m k => Isend t m (bind k f)
  | WaitS t k => WaitS t (bind k f)
  | Irecv t n k => Irecv t n (bind k f)
  | WaitR t k => WaitR t (fun x => bind (k x) f)
  | Ret a => f a
  end.
(** a process: its program, its messages not yet matched, its posted receives (with their counts)
    and its completed receives, by tag *)
Record ep (A : Type) := mkEp { e_prog : prog A; e_out : nat -> list payload; e_posted : nat -> list nat; e_got : nat -> list (option payload) }.
Arguments mkEp {A}. Arguments e_prog {A}. Arguments e_out {A}. Arguments e_posted {A}. Arguments e_got {A}.
Definition upd {X} (f : nat -> X) (t : nat) (x : X) : nat -> X := fun u => if u =? t then x else f u.

Section Net.
Context {A B : Type}.
(** may the library buffer this message *)
Variable eager : nat -> payload -> bool.
Definition local {A} (e : ep A) : option (ep A) :=
  match e_prog e with
  | Isend t m k => Some (mkEp k (upd (e_out e) t (e_out e t ++ [m])) (e_posted e) (e_got e))
  | WaitS t k => if forallb (eager t) (e_out e t) then Some (mkEp k (e_out e) (e_posted e) (e_got e)) else None
  | Irecv t n k => Some (mkEp k (e_out e) (upd (e_posted e) t (e_posted e t ++ [n])) (e_got e))
  | WaitR t k => match e_got e t with x :: l => Some (mkEp (k x) (e_out e) (e_posted e) (upd (e_got e) t l)) | [] => None end
  | Ret _ => None
  end.
(** the first message with this tag meets the first receive with this tag *)
Definition deliver {A B} (t : nat) (s : ep A) (r : ep B) : option (ep A * ep B) :=
  match e_out s t, e_posted r t with
  | m :: l, n :: ns =>
      Some (mkEp (e_prog s) (upd (e_out s) t l) (e_posted s) (e_got s),
            mkEp (e_prog r) (e_out r) (upd (e_posted r) t ns) (upd (e_got r) t (e_got r t ++ [if length m =? n then Some m else None])))
  | _, _ => None
  end.
(** what can happen: a process goes on, or the network matches a tag in one direction *)
Inductive label := GoL | GoR | ToR (t : nat) | ToL (t : nat).
Definition fire (l : label) (s : ep A * ep B) : option (ep A * ep B) :=
  match l with
  | GoL => match local (fst s) with Some a => Some (a, snd s) | None => None end
  | GoR => match local (snd s) with Some b => Some (fst s, b) | None => None end
  | ToR t => deliver t (fst s) (snd s)
  | ToL t => match deliver t (snd s) (fst s) with Some (b, a) => Some (a, b) | None => None end
  end.
Inductive runs : nat -> ep A * ep B -> ep A * ep B -> Prop :=
| RunO s : runs 0 s s
| RunS n s l s1 s2 : fire l s = Some s1 -> runs n s1 s2 -> runs (S n) s s2.
Definition start (p : prog A) (q : prog B) : ep A * ep B :=
  (mkEp p (fun _ => []) (fun _ => []) (fun _ => []), mkEp q (fun _ => []) (fun _ => []) (fun _ => [])).
End Net.

(** ** The messages of the code *)
Definition vec := list R.
Definition solution : Type := vec * R.
(** entry of a job: ID, length, start, previous *)
Definition entry : Type := Z * R * solution * solution.
Fixpoint isends {A} (t : nat) (l : list payload) (k : prog A) : prog A :=
  match l with [] => k | m :: l => Isend t m (isends (S t) l k) end.
Fixpoint waitS {A} (ts : list nat) (k : prog A) : prog A := match ts with [] => k | t :: ts => WaitS t (waitS ts k) end.
Fixpoint irecvs {A} (t : nat) (ns : list nat) (k : prog A) : prog A :=
  match ns with [] => k | n :: ns => Irecv t n (irecvs (S t) ns k) end.
(** MPI_Waitall: the payloads in the order of the tags *)
Fixpoint waitR {A} (ts : list nat) (k : list (option payload) -> prog A) : prog A :=
  match ts with [] => k [] | t :: ts => WaitR t (fun x => waitR ts (fun l => k (x :: l))) end.
Definition reals (v : vec) : payload := map WR v.
Fixpoint asReals (p : payload) : option vec :=
  match p with [] => Some [] | WR x :: p => match asReals p with Some v => Some (x :: v) | None => None end | _ => None end.

(** _sendMainToWorker l.1283-1291 and _recvMainToWorker l.1412-1418: the stop signal, tag 99 *)
Definition sendStop (b : bool) : prog unit := Isend 99 [WB b] (WaitS 99 (Ret tt)).
Definition recvStop : prog (option bool) := Irecv 99 1 (WaitR 99 (fun x => Ret match x with Some [WB b] => Some b | _ => None end)).
(** l.1172-1184 and l.1299-1311 *)
Definition sendMeta (branch id level : Z) : prog unit := isends 0 [[WI branch]; [WI id]; [WI level]] (waitS (seq 0 3) (Ret tt)).
Definition recvMeta : prog (option (Z * Z * Z)) :=
  irecvs 0 [1; 1; 1] (waitR (seq 0 3) (fun l => Ret match l with [Some [WI b]; Some [WI i]; Some [WI v]] => Some (b, i, v) | _ => None end)).
(** l.1186-1236 and l.1314-1366: a correction *)
Definition sendCorr (d : entry) (interval : R * R) (ref : solution) : prog unit :=
  let '(id, dL0, (startU, startL), (prevU, prevL)) := d in
  bind (isends 0 [[WI id]; [WR dL0]; [WR (fst interval)]; [WR (snd interval)]; [WI (Z.of_nat (length startU))]; [WR startL];
    [WI (Z.of_nat (length prevU))]; [WR prevL]; [WI (Z.of_nat (length (fst ref)))]; [WR (snd ref)]] (waitS (seq 0 10) (Ret tt)))
  (fun _ => isends 10 [reals startU; reals prevU; reals (fst ref)] (waitS (seq 10 3) (Ret tt))).
Definition recvCorr : prog (option (entry * (R * R) * solution)) :=
  bind (irecvs 0 (repeat 1 10) (waitR (seq 0 10) Ret)) (fun l =>
    match l with
    | [Some [WI id]; Some [WR dL0]; Some [WR t0]; Some [WR t1]; Some [WI sn]; Some [WR sL]; Some [WI pn]; Some [WR pL]; Some [WI rn]; Some [WR rL]] =>
        irecvs 10 [Z.to_nat sn; Z.to_nat pn; Z.to_nat rn] (waitR (seq 10 3) (fun l => Ret
          match l with
          | [Some s; Some p; Some r] =>
              match asReals s, asReals p, asReals r with
              | Some s, Some p, Some r => Some ((id, dL0, (s, sL), (p, pL)), (t0, t1), (r, rL))
              | _, _, _ => None end
          | _ => None end))
    | _ => Ret None end).
(** l.1238-1280 and l.1368-1409: an initiation *)
Definition sendInit (d : entry) (tstart : R) : prog unit :=
  let '(id, dL0, (startU, startL), (prevU, prevL)) := d in
  bind (isends 0 [[WI id]; [WR dL0]; [WR tstart]; [WI (Z.of_nat (length startU))]; [WR startL];
    [WI (Z.of_nat (length prevU))]; [WR prevL]] (waitS (seq 0 7) (Ret tt)))
  (fun _ => isends 7 [reals startU; reals prevU] (waitS (seq 7 2) (Ret tt))).
Definition recvInit : prog (option (entry * R)) :=
  bind (irecvs 0 (repeat 1 7) (waitR (seq 0 7) Ret)) (fun l =>
    match l with
    | [Some [WI id]; Some [WR dL0]; Some [WR t0]; Some [WI sn]; Some [WR sL]; Some [WI pn]; Some [WR pL]] =>
        irecvs 7 [Z.to_nat sn; Z.to_nat pn] (waitR (seq 7 2) (fun l => Ret
          match l with
          | [Some s; Some p] =>
              match asReals s, asReals p with
              | Some s, Some p => Some ((id, dL0, (s, sL), (p, pL)), t0)
              | _, _ => None end
          | _ => None end))
    | _ => Ret None end).
(** l.1420-1433 and l.1436-1453: main has to wait for the first message to know the worker *)
Definition sendBack (branch id : Z) : prog unit := isends 0 [[WI branch]; [WI id]] (waitS (seq 0 2) (Ret tt)).
Definition recvBack : prog (option (Z * Z)) :=
  Irecv 0 1 (WaitR 0 (fun x => Irecv 1 1 (WaitR 1 (fun y => Ret match x, y with Some [WI b], Some [WI i] => Some (b, i) | _, _ => None end)))).
(** l.1455-1500: the answer to a correction. The variables [load] and [vectorSize] are overwritten in
    the loop while the sends that use them are pending: the message of solution k carries the load
    and the size of the solution [fl k], [fn k] whose turn it was when the library read the
    variable, any from k to the last. *)
Definition nthR (l : list R) k := nth k l 0%R.
Definition nthS (l : list solution) k := nth k l ([], 0%R).
Definition ansCorrMsgs (fl fn : nat -> nat) (distances : list R) (sols : list solution) (up lo : R) : list payload :=
  [[WR up]; [WR lo]; [WI (Z.of_nat (length sols))]] ++
  flat_map (fun k => [[WR (nthR distances k)]; [WR (snd (nthS sols (fl k)))]; [WI (Z.of_nat (length (fst (nthS sols (fn k)))))]]) (seq 0 (length sols)) ++
  [[WR (nthR distances (length sols))]] ++ map (fun s => reals (fst s)) sols.
Definition sendAnsCorr (fl fn : nat -> nat) (distances : list R) (sols : list solution) (up lo : R) : prog unit :=
  let n := length sols in
  isends 0 (ansCorrMsgs fl fn distances sols up lo)
    (waitS ([2] ++ map (fun k => 5 + 3 * k) (seq 0 n) ++ seq (4 + 3 * n) n ++ map (fun k => 4 + 3 * k) (seq 0 n) ++ map (fun k => 3 + 3 * k) (seq 0 (S n)) ++ seq 0 2) (Ret tt)).
(** the moments at which the library may read a variable of the loop *)
Definition timing (n : nat) (f : nat -> nat) : Prop := forall k, k < n -> k <= f k < n.
(** the sizes, loads and vectors that were received, or None for a wrong message *)
Fixpoint asZs (l : list (option payload)) : option (list Z) :=
  match l with [] => Some [] | Some [WI z] :: l => match asZs l with Some r => Some (z :: r) | None => None end | _ => None end.
Fixpoint asRs (l : list (option payload)) : option (list R) :=
  match l with [] => Some [] | Some [WR z] :: l => match asRs l with Some r => Some (z :: r) | None => None end | _ => None end.
Fixpoint asVs (l : list (option payload)) : option (list vec) :=
  match l with [] => Some [] | Some p :: l => match asReals p, asVs l with Some v, Some r => Some (v :: r) | _, _ => None end | None :: l => None end.
(** l.1544-1611 *)
Definition recvAnsCorr : prog (option (list R * list solution * R * R)) :=
  Irecv 0 1 (WaitR 0 (fun u => Irecv 1 1 (Irecv 2 1 (WaitR 2 (fun sz =>
  match sz with
  | Some [WI z] =>
    let n := Z.to_nat z in
    irecvs 3 (repeat 1 (3 * n + 1)) (waitR (map (fun k => 5 + 3 * k) (seq 0 n)) (fun sizes =>
    match asZs sizes with
    | Some sizes =>
      irecvs (4 + 3 * n) (map Z.to_nat sizes) (waitR (seq (4 + 3 * n) n) (fun us => waitR (map (fun k => 4 + 3 * k) (seq 0 n)) (fun ls =>
      waitR (map (fun k => 3 + 3 * k) (seq 0 (S n))) (fun ds => WaitR 1 (fun w => Ret
        match asVs us, asRs ls, asRs ds, u, w with
        | Some us, Some ls, Some ds, Some [WR u], Some [WR w] => Some (ds, combine us ls, u, w)
        | _, _, _, _, _ => None end)))))
    | None => Ret None end))
  | _ => Ret None end))))).
(** l.1502-1542 and l.1613-1673: the answer to an initiation, with the same two variables *)
Definition ansInitMsgs (fl fn : nat -> nat) (distance : R) (sols : list solution) (bif : bool) : list payload :=
  [[WR distance]; [WB bif]; [WI (Z.of_nat (length sols))]] ++
  flat_map (fun k => [[WR (snd (nthS sols (fl k)))]; [WI (Z.of_nat (length (fst (nthS sols (fn k)))))]]) (seq 0 (length sols)) ++
  map (fun s => reals (fst s)) sols.
Definition sendAnsInit (fl fn : nat -> nat) (distance : R) (sols : list solution) (bif : bool) : prog unit :=
  let n := length sols in
  isends 0 (ansInitMsgs fl fn distance sols bif)
    (waitS ([2] ++ map (fun k => 4 + 2 * k) (seq 0 n) ++ seq (3 + 2 * n) n ++ map (fun k => 3 + 2 * k) (seq 0 n) ++ seq 0 2) (Ret tt)).
Definition recvAnsInit : prog (option (R * list solution * bool)) :=
  Irecv 0 1 (WaitR 0 (fun u => Irecv 1 1 (Irecv 2 1 (WaitR 2 (fun sz =>
  match sz with
  | Some [WI z] =>
    let n := Z.to_nat z in
    irecvs 3 (repeat 1 (2 * n)) (waitR (map (fun k => 4 + 2 * k) (seq 0 n)) (fun sizes =>
    match asZs sizes with
    | Some sizes =>
      irecvs (3 + 2 * n) (map Z.to_nat sizes) (waitR (seq (3 + 2 * n) n) (fun us => waitR (map (fun k => 3 + 2 * k) (seq 0 n)) (fun ls =>
      WaitR 1 (fun w => Ret
        match asVs us, asRs ls, u, w with
        | Some us, Some ls, Some [WR u], Some [WB w] => Some (u, combine us ls, w)
        | _, _, _, _ => None end))))
    | None => Ret None end))
  | _ => Ret None end))))).

(** ** A worker's whole run: _solve_impl l.571-803 (main: l.581-739 as far as it concerns this
    worker, worker: l.748-810) and parallelSolve_impl l.296-417, which sends corrections only *)
Record work := mkW { w_branch : Z; w_id : Z; w_level : Z; w_entry : entry; w_interval : R * R; w_ref : solution; w_tstart : R }.
(** what a job or an answer is, by kind *)
Inductive task := TInit (d : entry) (tstart : R) | TCorr (d : entry) (interval : R * R) (level : Z) (ref : solution).
Inductive reply := RInit (distance : R) (sols : list solution) (bif : bool) | RCorr (distances : list R) (sols : list solution) (up lo : R).
Section Session.
(** the driver (true: solve), the level of a job according to main's data, the worker's computations
    (gsAPALM.hpp _initiation, _correction), and the moments at which loads and sizes are read *)
Variable solve : bool.
Variable level : Z -> Z -> Z.
Variable initiation : entry -> R -> R * list solution * bool.
Variable correction : entry -> R * R -> Z -> solution -> list R * list solution * R * R.
Variable fl fn : nat -> nat.
Definition isInit (v : Z) : bool := (solve && (v =? 0)%Z)%bool.
Fixpoint mainSession (jobs : list work) (got : list (Z * Z * reply)) : prog (option (list (Z * Z * reply))) :=
  match jobs with
  | [] => bind (sendStop true) (fun _ => Ret (Some got))
  | j :: jobs =>
    bind (sendStop false) (fun _ => bind (sendMeta (w_branch j) (w_id j) (w_level j)) (fun _ =>
    bind (if isInit (w_level j) then sendInit (w_entry j) (w_tstart j) else sendCorr (w_entry j) (w_interval j) (w_ref j)) (fun _ =>
    bind recvBack (fun m => match m with
    | Some (b, i) =>
      if isInit (level b i) then bind recvAnsInit (fun a => match a with Some (d, ss, bif) => mainSession jobs (got ++ [(b, i, RInit d ss bif)]) | None => Ret None end)
      else bind recvAnsCorr (fun a => match a with Some (ds, ss, u, l) => mainSession jobs (got ++ [(b, i, RCorr ds ss u l)]) | None => Ret None end)
    | None => Ret None end))))
  end.
(** the loop l.748; [fuel] rounds at most (None afterwards); it records the jobs it was given *)
Fixpoint workerSession (fuel : nat) (seen : list (Z * Z * task)) : prog (option (list (Z * Z * task))) :=
  match fuel with
  | O => Ret None
  | S fuel =>
    bind recvStop (fun st => match st with
    | None => Ret None
    | Some true => Ret (Some seen)
    | Some false =>
      bind recvMeta (fun m => match m with
      | None => Ret None
      | Some (b, i, v) =>
        if isInit v then
          bind recvInit (fun x => match x with
          | None => Ret None
          | Some (d, t) => let '(r, ss, bif) := initiation d t in
              bind (sendBack b i) (fun _ => bind (sendAnsInit fl fn r ss bif) (fun _ => workerSession fuel (seen ++ [(b, i, TInit d t)]))) end)
        else
          bind recvCorr (fun x => match x with
          | None => Ret None
          | Some (d, iv, rf) => let '(ds, ss, u, l) := correction d iv v rf in
              bind (sendBack b i) (fun _ => bind (sendAnsCorr fl fn ds ss u l) (fun _ => workerSession fuel (seen ++ [(b, i, TCorr d iv v rf)]))) end)
      end) end)
  end.
End Session.
