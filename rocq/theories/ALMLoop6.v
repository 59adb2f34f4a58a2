(** Model of the loops of examples/example_PinchedMembrane_DWR.cpp l.405-463, which bring the membrane
    to the full load: first the arc-length method until the load factor has passed 1, then load
    control from the last point before it. *)
From Verif Require Import VS Status ALMBase.
Local Open Scope R_scope.

Section Loop.
Context {S : VS} {Mat : Type}.
(** the variables of the loops, l.407-413: the solver of the loop, dL, dL0, solVector, L, Uold, Lold, k *)
Record wst := mkW { w_s : st S Mat; w_dL : R; w_dL0 : R; w_U : S; w_L : R; w_Uo : S; w_Lo : R; w_k : nat }.
Inductive wpass := WNext (c : wst) | WStop (e : err).
(** the condition of both loops, l.414 and l.441 *)
Definition wMore (l : R) : bool := Rltb l 1 && Rltb (/ 10 ^ 14) (Rabs (l - 1)).
(** one pass of the first loop, l.414-434. The program uses the method of Crisfield, here [k] is any. What is not
    caught leaves main(); a NaN, after which the code goes on, also stops here. *)
Definition arcPass (p : problem S Mat) (o : opts) (k : kind) (c : wst) : wpass :=
  match step p o k (setLength (w_dL c) (w_s c)) with (* l.419-420 *)
  | Exc e _ => WStop e
  | Ret _ s =>
    if negb (s_conv s) then (* l.422-429; Uold and Lold are solVector and L, l.416-417 *)
      let dL := w_dL c / 2 in
      WNext (mkW (setSolution (w_U c) (w_L c) (setLength dL s)) dL (w_dL0 c) (w_U c) (w_L c) (w_U c) (w_L c) (w_k c))
    else WNext (mkW s (w_dL0 c) (w_dL0 c) (s_U s) (s_L s) (w_U c) (w_L c) (Datatypes.S (w_k c))) (* l.430-433 *)
  end.
(** one pass of the second loop, l.441-463 *)
Definition loadPass (p : problem S Mat) (o : opts) (c : wst) : wpass :=
  match step p o LoadControl (setLength (w_dL c) (w_s c)) with (* l.444-445 *)
  | Exc e _ => WStop e
  | Ret _ s =>
    if negb (s_conv s) then (* l.447-454 *)
      let dL := w_dL c / 2 in
      WNext (mkW (setSolution (w_Uo c) (w_Lo c) (setLength dL s)) dL (w_dL0 c) (w_U c) (w_L c) (w_Uo c) (w_Lo c) (w_k c))
    else (* l.455-460, l.462 *)
      let d := Rmin (1 - s_L s) (w_dL0 c) in
      let d := if Rltb (1 - s_L s) d then 1 - s_L s else d in
      WNext (mkW s d d (s_U s) (s_L s) (s_U s) (s_L s) (Datatypes.S (w_k c)))
  end.
(** a loop with its condition; [WStop EFuel]: not finished after [fuel] passes *)
Fixpoint wRun (pass : wst -> wpass) (fuel : nat) (c : wst) : wpass :=
  if wMore (w_L c) then
    match fuel with
    | O => WStop EFuel
    | Datatypes.S fuel => match pass c with WNext c => wRun pass fuel c | WStop e => WStop e end
    end
  else WNext c.
(** l.436-440: resetStep, setSolution, setLength for the load control solver [s]; then L, dL0 and dL *)
Definition wSwitch (s : st S Mat) (c : wst) : wst :=
  let d := 1 - w_Lo c in
  mkW (setLength (w_dL c) (setSolution (w_Uo c) (w_Lo c) (resetStep s))) d d (w_U c) (w_Lo c) (w_Uo c) (w_Lo c) (w_k c).
(** both loops, from l.407: [s1] and [s2] are the two solvers after initialize(), [o1] and [o2] their options, [dL] = 1/steps.
    The solution used afterwards (l.465) is [w_U] of the result. *)
Definition wMain (p : problem S Mat) (o1 o2 : opts) (k : kind) (dL : R) (f1 f2 : nat) (s1 s2 : st S Mat) : wpass :=
  match wRun (arcPass p o1 k) f1 (mkW s1 dL dL v0 0 v0 0 0) with
  | WStop e => WStop e
  | WNext c => wRun (loadPass p o2) f2 (wSwitch s2 c)
  end.
End Loop.
Arguments wst : clear implicits.
Arguments wpass : clear implicits.
