(** Model of the load-stepping loops of benchmarks/benchmark_Beam.cpp l.321-360 and of the programs which stop at the first failed
    step: benchmark_Balloon.cpp l.342-352, benchmark_UniaxialTension.cpp l.332-342, benchmark_MaterialTest.cpp l.461-469,
    benchmark_Cylinder.cpp l.333-345. *)
From Verif Require Import VS Status ALMBase ALMSingular.
Local Open Scope R_scope.

Section Loop.
Context {S : VS} {Mat : Type}.
(** the variables of the loop of benchmark_Beam.cpp, l.321-328: the solver, dLb, Uold, Lold, k; and [m_out], the points
    constructed and written so far (l.358-405; the plots and files are not modelled, every accepted pass adds its point) *)
Record mst := mkM { m_s : st S Mat; m_dLb : R; m_U : S; m_L : R; m_k : nat; m_out : list (S * R) }.
Inductive mpass := MNext (c : mst) | MStop (e : err).
(** l.344-356; [sing]: the switch SingularPoint, [quasi]: quasiNewton *)
Definition mSingular (p : problem S Mat) (o : opts) (k : kind) (sing quasi : bool) (u : S) (l : R) (s : st S Mat) : out S Mat bool :=
  if sing then
    obind (computeStability p o quasi s) (fun _ s =>
    if stabilityChange s then
      obind (computeSingularPoint p o k u l false false true s) (fun _ s =>
      obind (switchBranch o s) (fun _ s => Ret true s))
    else Ret false s)
  else Ret false s.
(** one pass, l.328-360; [dL] is the length after a bifurcation (l.352). What is not caught leaves main(); a NaN, after which the
    code goes on, also stops here. *)
Definition mPass (p : problem S Mat) (o : opts) (k : kind) (sing quasi : bool) (dL : R) (c : mst) : mpass :=
  match step p o k (m_s c) with
  | Exc e _ => MStop e
  | Ret _ s =>
    if negb (s_conv s) then (* l.334-342 *)
      let dLb := m_dLb c / 2 in
      MNext (mkM (setSolution (m_U c) (m_L c) (setLength dLb s)) dLb (m_U c) (m_L c) (m_k c) (m_out c))
    else
      match mSingular p o k sing quasi (m_U c) (m_L c) s with
      | Exc e _ => MStop e
      | Ret found s =>
        (* l.352-353, l.358-360; without a bifurcation dLb and the length of the solver stay *)
        let s := if found then setLength dL s else s in
        MNext (mkM s (if found then dL else m_dLb c) (s_U s) (s_L s) (Datatypes.S (m_k c)) (m_out c ++ [(s_U s, s_L s)]))
      end
  end.
(** the loop, l.328; [MStop EFuel]: not finished after [fuel] passes *)
Fixpoint mRun (p : problem S Mat) (o : opts) (k : kind) (sing quasi : bool) (dL : R) (steps fuel : nat) (c : mst) : mpass :=
  if (m_k c <? steps)%nat then
    match fuel with
    | O => MStop EFuel
    | Datatypes.S fuel =>
      match mPass p o k sing quasi dL c with
      | MNext c => mRun p o k sing quasi dL steps fuel c
      | MStop e => MStop e
      end
    end
  else MNext c.
(** from l.321: Lold and Uold are zero, [s] is the solver after initialize() with the length dLb (l.291) *)
Definition mMain (p : problem S Mat) (o : opts) (k : kind) (sing quasi : bool) (dL : R) (steps fuel : nat) (s : st S Mat) : mpass :=
  mRun p o k sing quasi dL steps fuel (mkM (setIndicator 0 s) (s_len s) v0 0 0 []).

(** benchmark_Balloon.cpp l.342-352 and its copies: GISMO_ERROR throws (None) after the first status which is not Success; otherwise the
    points constructed, one for every k *)
Fixpoint stopRun (p : problem S Mat) (o : opts) (k : kind) (n : nat) (s : st S Mat) (out : list (S * R)) : option (st S Mat * list (S * R)) :=
  match n with
  | O => Some (s, out)
  | Datatypes.S n =>
    match step p o k s with
    | Exc _ _ => None
    | Ret _ s => if status_eqb (s_stat s) Success then stopRun p o k n s (out ++ [(s_U s, s_L s)]) else None
    end
  end.
End Loop.
Arguments mst : clear implicits.
Arguments mpass : clear implicits.
