(** Model of the parallel-in-time wrapper gsDynamicXBraid (gsDynamicXBraid.h): the functions called
    by the XBraid library. The library itself and gsXBraid<gsMatrix<T>> (packing of a matrix into a
    buffer) are outside of the repository. The time integrator works on R^(n+1), stored as a list
    of n+1 numbers inside of the XBraid vector. *)
From Verif Require Export VS Status Static Dynamic.
Local Open Scope R_scope.

(** the entries of a vector and back (gsVector<T> as a list of numbers) *)
Fixpoint coords {n} : VS_Rn n -> list R :=
  match n with O => fun x : R => [x] | Datatypes.S n => fun x : R * VS_Rn n => fst x :: coords (snd x) end.
Fixpoint ofCoords (n : nat) (l : list R) : VS_Rn n :=
  match n with O => hd 0 l | Datatypes.S n => (hd 0 l, ofCoords n (tl l)) end.
(** Eigen's segment(i,k) as a value and as the left side of an assignment *)
Definition segment (i k : nat) (l : list R) : list R := firstn k (skipn i l).
Definition setSegment (i : nat) (v l : list R) : list R := firstn i l ++ v ++ skipn (i + length v) l.

Section XBraid.
Context {n : nat}.
Notation S := (VS_Rn n).
(** the const step of the time integrator m_solver *)
Variable stepf : R -> R -> xst S -> run (xst S) sans.
(** m_numDofs; the constructor takes it beside the solver, so the two can disagree *)
Variable nd : nat.
(** Init l.118-134; [s] is the solver object *)
Definition xbInit (s : bst S) : list R :=
  let u := repeat 0 (3 * nd) in
  let u := if (Datatypes.S n =? nd)%nat then setSegment 0 (coords (x_U (b_x s))) u else u in
  let u := if (Datatypes.S n =? nd)%nat then setSegment nd (coords (x_V (b_x s))) u else u in
  if (Datatypes.S n =? nd)%nat then setSegment (2 * nd) (coords (x_A (b_x s))) u else u.
(** what Step tells XBraid: SetRFactor, l.170-189; None: not called *)
Definition ceilR (x : R) : Z := (- Int_part (- x))%Z.
Definition xbFactor (level : nat) (q : status) (error : R) : option Z :=
  if (level =? 0)%nat then
    match q with
    | Success => if Reqb error (-1) then Some 1%Z else Some (ceilR (sqrt (error / (1/1000))))
    | _ => Some 2%Z
    end
  else None.
(** Step l.140-191: [f] the forcing (None: NULL), [t0], [t1] the interval; the state is the vector
    and the stored inverse of the mass of the solver. The answer is the factor and whether the
    entries are finite. If m_numDofs is not the dimension of the solver the step is undefined. *)
Definition xbStep (level : nat) (error : R) (f : option (list R)) (t0 t1 : R) (s : list R * option (S -> S)) :
  run (list R * option (S -> S)) (bool * option Z) :=
  let u := match f with None => fst s | Some f => map (fun x => fst x + snd x) (combine (fst s) f) end in
  let inv := snd s in
  if negb (Datatypes.S n =? nd)%nat then Threw XUndef (u, inv) else
  let U := ofCoords n (segment 0 nd u) in let V := ofCoords n (segment nd nd u) in let A := ofCoords n (segment (2 * nd) nd u) in
  let store x :=
    let u := setSegment 0 (coords (x_U x)) u in
    let u := setSegment nd (coords (x_V x)) u in
    setSegment (2 * nd) (coords (x_A x)) u in
  match stepf t0 (t1 - t0) (mkX U V A inv) with
  | Threw e x => Threw e (u, x_inv x)
  | Done (Fin q) x => Done (true, xbFactor level q error) (store x, x_inv x)
  | Done (NonFin q) x => Done (false, xbFactor level q error) (store x, x_inv x)
  end.
(** SpatialNorm l.194-201 *)
Definition xbNorm (u : list R) : R := sqrt (fold_right (fun x r => x * x + r) 0 (segment 0 nd u)).
(** BufSize l.204-208, in units of sizeof(T) *)
Definition xbBuf : nat := 3 * nd + 2.
(** Access l.213-223: the three vectors given to the callback *)
Definition xbAccess (u : list R) : list R * list R * list R := (segment 0 nd u, segment nd nd u, segment (2 * nd) nd u).
End XBraid.
