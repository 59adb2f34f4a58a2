(** Model of the load-stepping loop of the programs, examples/gsThinShell_ArcLength.cpp l.1054-1241
    (the same loop: benchmarks/benchmark_TensionWrinkling.cpp l.431-560, benchmark_Roof.cpp
    l.395-512). *)
From Verif Require Import VS Status ALMBase.
Local Open Scope R_scope.

Section Loop.
Context {S : VS} {Mat : Type}.
(** the variables of the loop, gsThinShell_ArcLength.cpp l.1061-1071: the solver, dLb, Uold, Lold,
    bisected, k; and [c_out], the points constructed and written so far (l.1121-1233; the plots and
    files are not modelled, every accepted pass adds its point) *)
Record cst := mkC { c_s : st S Mat; c_dLb : R; c_U : S; c_L : R; c_bis : bool; c_k : nat; c_out : list (S * R) }.
(** what one pass leads to: the next pass, or an error that leaves main() *)
Inductive pass := Next (c : cst) | Stop (e : err).
(** gsThinShell_ArcLength.cpp l.1079: the statuses for which the step is repeated *)
Definition repeats (t : status) : bool := match t with NotConverged | AssemblyError => true | _ => false end.
(** one pass, gsThinShell_ArcLength.cpp l.1072-1241, without the search for singular points
    (option SingularPoint off, l.1107-1118) *)
Definition contPass (p : problem S Mat) (o : opts) (k : kind) (dLb0 : R) (c : cst) : pass :=
  match step p o k (c_s c) with
  | Exc e _ => Stop e
  | Ret _ s =>
    if repeats (s_stat s) then
      (* l.1079-1087: dLb /= 2; setLength; setSolution; bisected = true; k -= 1; continue *)
      let dLb := c_dLb c / 2 in
      Next (mkC (setSolution (c_U c) (c_L c) (setLength dLb s)) dLb (c_U c) (c_L c) true (c_k c) (c_out c))
    else
      (* l.1121-1123, l.1234-1239 *)
      let dLb := if c_bis c then c_dLb c else dLb0 in
      Next (mkC (if c_bis c then s else setLength dLb s) dLb (s_U s) (s_L s) false (Datatypes.S (c_k c)) (c_out c ++ [(s_U s, s_L s)]))
  end.
(** the loop, l.1071; [Stop EFuel]: not finished after [fuel] passes *)
Fixpoint contRun (p : problem S Mat) (o : opts) (k : kind) (dLb0 : R) (steps fuel : nat) (c : cst) : pass :=
  if (c_k c <? steps)%nat then
    match fuel with
    | O => Stop EFuel
    | Datatypes.S fuel =>
      match contPass p o k dLb0 c with
      | Next c => contRun p o k dLb0 steps fuel c
      | Stop e => Stop e
      end
    end
  else Next c.
(** the variables before the loop, l.1061-1070; the solver has the length dLb (l.1029, l.1051) and
    the solution zero (l.1052) *)
Definition contInit (dLb : R) (s : st S Mat) : cst := mkC s dLb v0 0 false 0 [].
(** main() up to the end of the loop: l.1054-1241 *)
Definition contMain (p : problem S Mat) (o : opts) (k : kind) (dLb : R) (steps fuel : nat) (s : st S Mat) : pass :=
  contRun p o k dLb steps fuel (contInit dLb s).
End Loop.
Arguments cst : clear implicits.
Arguments pass : clear implicits.
