(** Model of the load-stepping loops of the snapping programs, which end at a strain or after a number of steps: examples/snapping_example.cpp
    l.393-509, snapping_example3D.cpp l.403-519, snapping_element.cpp l.305-420, snapping_element3D.cpp l.326-441, snapping_element_shell.cpp
    l.317-427, snapping_example_shell.cpp l.437-557. The loop of benchmarks/benchmark_FrustrumALM.cpp l.366-451 is that of snapping_example_shell
    without SingularPoint and without the strain limit ([strain] and [Emax] zero); that of benchmark_Wrinkling.cpp l.921-1062 with SingularPoint is
    also without the strain limit, with the test of converged() and without bisected (which is never set; without SingularPoint it also computes the stability). *)
From Verif Require Import VS Status ALMBase ALMSingular ALMLoop ALMLoop7.
Local Open Scope R_scope.

Section Loop.
Context {S : VS} {Mat : Type}.
(** the variables of the loop, snapping_example.cpp l.393-423: the solver, dLb, dLb0, Uold, Lold, bisected, eps, k; and [v_out], the points
    constructed and written so far (every accepted pass adds its point; the plots and files are not modelled) *)
Record vst := mkV { v_s : st S Mat; v_dLb : R; v_dLb0 : R; v_U : S; v_L : R; v_bis : bool; v_eps : R; v_k : nat; v_out : list (S * R) }.
Inductive vpass := VNext (c : vst) | VStop (e : err).
(** whether the step is repeated. [conv]: !converged() (snapping_example.cpp l.430, snapping_example3D.cpp l.440, snapping_element3D.cpp l.363);
    otherwise the statuses NotConverged and AssemblyError (snapping_element.cpp l.342, snapping_element_shell.cpp l.356,
    snapping_example_shell.cpp l.483) *)
Definition vRepeats (conv : bool) (s : st S Mat) : bool := if conv then negb (s_conv s) else repeats (s_stat s).
(** one pass, snapping_example.cpp l.424-509. [keep]: the variable bisected is used (not in snapping_example_shell.cpp, l.489 and l.549-555);
    [sing], [quasi], [dL]: SingularPoint, quasiNewton and dL (l.440-452, the same lines as in benchmark_Beam, see [mSingular]); [strain]: the strain
    computed from the displacement (l.483-485). What is not caught leaves main(); a NaN, after which the code goes on, also stops here. *)
Definition vPass (p : problem S Mat) (o : opts) (k : kind) (conv keep sing quasi : bool) (dL : R) (strain : S -> R) (c : vst) : vpass :=
  match step p o k (v_s c) with
  | Exc e _ => VStop e
  | Ret _ s =>
    if vRepeats conv s then (* l.430-438 *)
      let dLb := v_dLb c / 2 in
      VNext (mkV (setSolution (v_U c) (v_L c) (setLength dLb s)) dLb (v_dLb0 c) (v_U c) (v_L c) keep (v_eps c) (v_k c) (v_out c))
    else
      match mSingular p o k sing quasi (v_U c) (v_L c) s with
      | Exc e _ => VStop e
      | Ret found s =>
        let dLb0 := if found then dL else v_dLb0 c in
        let dLb := if found then dL else v_dLb c in
        let s := if found then setLength dLb s else s in
        (* l.454-456, l.485, l.502-508 *)
        let dLb := if v_bis c then dLb else dLb0 in
        VNext (mkV (if v_bis c then s else setLength dLb s) dLb dLb0 (s_U s) (s_L s) false (strain (s_U s)) (Datatypes.S (v_k c)) (v_out c ++ [(s_U s, s_L s)]))
      end
  end.
(** the loop, l.424; [VStop EFuel]: not finished after [fuel] passes *)
Fixpoint vRun (p : problem S Mat) (o : opts) (k : kind) (conv keep sing quasi : bool) (dL : R) (strain : S -> R) (Emax : R) (steps fuel : nat) (c : vst) : vpass :=
  if Rleb (v_eps c) Emax && (v_k c <? steps)%nat then
    match fuel with
    | O => VStop EFuel
    | Datatypes.S fuel =>
      match vPass p o k conv keep sing quasi dL strain c with
      | VNext c => vRun p o k conv keep sing quasi dL strain Emax steps fuel c
      | VStop e => VStop e
      end
    end
  else VNext c.
(** from l.393: Lold and Uold are zero, setIndicator(0), bisected = false, dLb0 = dLb, k = 0, eps = 0; [s] is the solver with the length dLb *)
Definition vMain (p : problem S Mat) (o : opts) (k : kind) (conv keep sing quasi : bool) (dL : R) (strain : S -> R) (Emax : R) (steps fuel : nat) (s : st S Mat) : vpass :=
  vRun p o k conv keep sing quasi dL strain Emax steps fuel (mkV (setIndicator 0 s) (s_len s) (s_len s) v0 0 false 0 0 []).
End Loop.
Arguments vst : clear implicits.
Arguments vpass : clear implicits.
