(** Model of the load-stepping loop of the program solvers/quasistatic_shell_XML.cpp l.279-392
    (the same loop, with a call of switchBranch() at l.443: quasistatic_shell_multipatch_XML.cpp
    l.411-511). *)
From Verif Require Import VS Status ALMBase ALMSingular ALMLoop.
Local Open Scope R_scope.

Section Loop.
Context {S : VS} {Mat : Type}.
(** the variables of the loop, quasistatic_shell_XML.cpp l.281-290: the solver, dLb, dLb0, Uold, Lold,
    k (bisected is never set); and [q_out], the points constructed and written so far
    (l.319-382; the plots and files are not modelled, every accepted pass adds its point) *)
Record qst := mkQ { q_s : st S Mat; q_dLb : R; q_dLb0 : R; q_U : S; q_L : R; q_k : nat; q_out : list (S * R) }.
Inductive qpass := QNext (c : qst) | QStop (e : err).
(** l.306-313 (quasistatic_shell_multipatch_XML.cpp l.436-446 if [switch]); [sing] is the option SingularPoint *)
Definition qSingular (p : problem S Mat) (o : opts) (k : kind) (sing switch : bool) (u : S) (l : R) (s : st S Mat) : out S Mat bool :=
  obind (computeStability p o false s) (fun _ s =>
  if stabilityChange s && sing then
    obind (computeSingularPoint p o k u l false false true s) (fun _ s =>
    obind (if switch then switchBranch o s else Ret tt s) (fun _ s => Ret true s))
  else Ret false s).
(** one pass, quasistatic_shell_XML.cpp l.291-391; [len2] is the option Length2 (l.311). What is
    not caught leaves main(); a NaN, after which the code goes on, also stops here. *)
Definition qPass (p : problem S Mat) (o : opts) (k : kind) (sing switch : bool) (len2 : option R) (c : qst) : qpass :=
  match step p o k (q_s c) with
  | Exc e _ => QStop e
  | Ret _ s =>
    if negb (s_conv s) then
      (* l.295-303: dLb /= 2; setLength; setSolution; k -= 1; continue *)
      let dLb := q_dLb c / 2 in
      QNext (mkQ (setSolution (q_U c) (q_L c) (setLength dLb s)) dLb (q_dLb0 c) (q_U c) (q_L c) (q_k c) (q_out c))
    else
      match qSingular p o k sing switch (q_U c) (q_L c) s with
      | Exc e _ => QStop e
      | Ret found s =>
        let dLb0 := if found then match len2 with Some l => l | None => q_dLb0 c end else q_dLb0 c in
        (* l.317-320, l.384-389 *)
        QNext (mkQ (setLength dLb0 s) dLb0 dLb0 (s_U s) (s_L s) (Datatypes.S (q_k c)) (q_out c ++ [(s_U s, s_L s)]))
      end
  end.
(** the loop, l.291; [QStop EFuel]: not finished after [fuel] passes *)
Fixpoint qRun (p : problem S Mat) (o : opts) (k : kind) (sing switch : bool) (len2 : option R) (steps fuel : nat) (c : qst) : qpass :=
  if (q_k c <? steps)%nat then
    match fuel with
    | O => QStop EFuel
    | Datatypes.S fuel =>
      match qPass p o k sing switch len2 c with
      | QNext c => qRun p o k sing switch len2 steps fuel c
      | QStop e => QStop e
      end
    end
  else QNext c.
(** main() up to the end of the loop, l.281-391: setIndicator(0), dLb = dLb0 = getLength() *)
Definition qMain (p : problem S Mat) (o : opts) (k : kind) (sing switch : bool) (len2 : option R) (steps fuel : nat) (s : st S Mat) : qpass :=
  let s := setIndicator 0 s in
  qRun p o k sing switch len2 steps fuel (mkQ s (s_len s) (s_len s) v0 0 0 []).
End Loop.
Arguments qst : clear implicits.
Arguments qpass : clear implicits.
