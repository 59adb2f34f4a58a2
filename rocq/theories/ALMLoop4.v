(** Model of the load-stepping loop of the programs with the option SingularPoint on, examples/gsThinShell_ArcLength.cpp
    l.1061-1241 (the same loop: benchmarks/benchmark_TensionWrinkling.cpp l.437-560). ALMLoop is the loop without the option. *)
From Verif Require Import VS Status ALMBase ALMSingular ALMLoop.
Local Open Scope R_scope.
Section Loop.
Context {S : VS} {Mat : Type}.
(** the variables of the loop as in [cst], and dLb0, which changes (l.1115) *)
Record bst := mkB { b_c : cst S Mat; b_dLb0 : R }.
Inductive bpass := BNext (b : bst) | BStop (e : err).
(** l.1109-1117: computeStability(quasiNewton), and if the stability has changed computeSingularPoint(Uold,Lold,false) and
    switchBranch(), whatever the search has found; answers whether it has changed *)
Definition bifSearch (p : problem S Mat) (o : opts) (k : kind) (quasi : bool) (u : S) (l : R) (s : st S Mat) : out S Mat bool :=
  obind (computeStability p o quasi s) (fun _ s =>
  if stabilityChange s then
    obind (computeSingularPoint p o k u l false false true s) (fun _ s =>
    obind (switchBranch o s) (fun _ s => Ret true s))
  else Ret false s).
(** one pass, l.1072-1241; [dL] is the length after a bifurcation (l.1115). What is not caught leaves main(); a NaN, after which the
    code goes on, also stops here. *)
Definition bifPass (p : problem S Mat) (o : opts) (k : kind) (quasi : bool) (dL : R) (b : bst) : bpass :=
  let c := b_c b in
  match step p o k (c_s c) with
  | Exc e _ => BStop e
  | Ret _ s =>
    if repeats (s_stat s) then
      let dLb := c_dLb c / 2 in
      BNext (mkB (mkC (setSolution (c_U c) (c_L c) (setLength dLb s)) dLb (c_U c) (c_L c) true (c_k c) (c_out c)) (b_dLb0 b))
    else
      match bifSearch p o k quasi (c_U c) (c_L c) s with
      | Exc e _ => BStop e
      | Ret found s =>
        let dLb0 := if found then dL else b_dLb0 b in
        let dLb := if found then dL else c_dLb c in
        let s := if found then setLength dLb s else s in
        let dLb := if c_bis c then dLb else dLb0 in
        BNext (mkB (mkC (if c_bis c then s else setLength dLb s) dLb (s_U s) (s_L s) false (Datatypes.S (c_k c)) (c_out c ++ [(s_U s, s_L s)])) dLb0)
      end
  end.
(** the loop, l.1071; [BStop EFuel]: not finished after [fuel] passes *)
Fixpoint bifRun (p : problem S Mat) (o : opts) (k : kind) (quasi : bool) (dL : R) (steps fuel : nat) (b : bst) : bpass :=
  if (c_k (b_c b) <? steps)%nat then
    match fuel with
    | O => BStop EFuel
    | Datatypes.S fuel =>
      match bifPass p o k quasi dL b with
      | BNext b => bifRun p o k quasi dL steps fuel b
      | BStop e => BStop e
      end
    end
  else BNext b.
(** l.1061-1241, with setIndicator(0) (l.1068) *)
Definition bifMain (p : problem S Mat) (o : opts) (k : kind) (quasi : bool) (dL dLb : R) (steps fuel : nat) (s : st S Mat) : bpass :=
  bifRun p o k quasi dL steps fuel (mkB (contInit dLb (setIndicator 0 s)) dLb).
End Loop.
Arguments bst : clear implicits.
Arguments bpass : clear implicits.
