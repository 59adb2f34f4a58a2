(** Models of the loops of the programs with displacement control: benchmarks/benchmark_FrustrumDC.cpp
    l.340-426, examples/snapping_example_shell_DC.cpp l.423-507 and
    benchmarks/benchmark_cylinder_DC.cpp l.373-577. *)
From Verif Require Import VS Status Static.
Local Open Scope R_scope.

Section Loop.
Context {S : VS} {T : Type}.
Variable f : iface S T.
(** the variables of the loops, benchmark_FrustrumDC.cpp l.343-350, snapping_example_shell_DC.cpp
    l.423-431: control, dL, D, reset, k; and [l_out], what is written at every accepted pass
    (benchmark_FrustrumDC.cpp l.376-413, snapping_example_shell_DC.cpp l.447-496): solutionU() and
    solutionL(). The geometry, plots and files are not modelled. *)
Record lst := mkLS { l_c : @dst S T; l_dL : R; l_D : R; l_reset : bool; l_k : nat; l_out : list (S * R) }.
(** the state after a pass, or an exception that leaves main(); [LFuel]: the loop is not finished *)
Inductive lpass := LNext (l : lst) | LStop (e : exc) | LFuel.
(** benchmark_FrustrumDC.cpp l.366, snapping_example_shell_DC.cpp l.439: the statuses for which the step
    is repeated *)
Definition lrepeats (q : status) : bool := match q with NotConverged | AssemblyError => true | _ => false end.
(** one pass of benchmark_FrustrumDC.cpp, l.350-426. An exception leaves main(). *)
Definition frustPass (dL0 : R) (l : lst) : lpass :=
  match ctlStep f (- l_dL l) (l_c l) with
  | Threw e _ => LStop e
  | Done q c =>
    if lrepeats q then LNext (mkLS c (l_dL l / 2) (l_D l) true (l_k l) (l_out l)) (* l.366-375 *)
    else
      let dL := if l_reset l then l_dL l else dL0 in (* l.418-421 *)
      LNext (mkLS c dL (l_D l - dL) false (Datatypes.S (l_k l)) (l_out l ++ [(d_U c, d_L c)])) (* l.422-425 *)
  end.
(** the loop, l.350; [LFuel]: not finished after [fuel] passes *)
Fixpoint frustRun (dL0 : R) (steps fuel : nat) (l : lst) : lpass :=
  if (l_k l <? steps)%nat then
    match fuel with
    | O => LFuel
    | Datatypes.S fuel => match frustPass dL0 l with LNext l => frustRun dL0 steps fuel l | r => r end
    end
  else LNext l.
(** main() up to the end of the loop: l.289, l.340-426 *)
Definition frustMain (dL0 : R) (steps fuel : nat) (t : T) : lpass := frustRun dL0 steps fuel (mkLS (ctlNew t) dL0 0 false 0 []).

(** one pass of snapping_example_shell_DC.cpp, l.432-506; [l_reset] is not used there *)
Definition snapPass (dL0 : R) (l : lst) : lpass :=
  match ctlStep f (l_dL l) (l_c l) with
  | Threw e _ => LStop e
  | Done q c =>
    if lrepeats q then LNext (mkLS c (l_dL l / 2) (l_D l) false (l_k l) (l_out l)) (* l.439-446 *)
    else LNext (mkLS c dL0 (l_D l + dL0) false (Datatypes.S (l_k l)) (l_out l ++ [(d_U c, d_L c)])) (* l.447-504 *)
  end.
(** the loop, l.432; [strain] is the value eps computed from the displacement (l.453, l.470-471), 0 at
    the start *)
Fixpoint snapRun (strain : S -> R) (Emax dL0 : R) (steps fuel : nat) (eps : R) (l : lst) : lpass :=
  if Rleb eps Emax && (l_k l <? steps)%nat then
    match fuel with
    | O => LFuel
    | Datatypes.S fuel =>
      match snapPass dL0 l with
      | LNext l' => snapRun strain Emax dL0 steps fuel (if (l_k l <? l_k l')%nat then strain (d_U (l_c l')) else eps) l'
      | r => r
      end
    end
  else LNext l.
Definition snapMain (strain : S -> R) (Emax dL0 : R) (steps fuel : nat) (t : T) : lpass :=
  snapRun strain Emax dL0 steps fuel 0 (mkLS (ctlNew t) dL0 0 false 0 []).
End Loop.
Arguments lst : clear implicits.
Arguments lpass : clear implicits.

(** ** benchmark_cylinder_DC.cpp *)
Section Cylinder.
Context {S : VS} {T : Type}.
(** setDisplacement(U) and solve() of the solver with the boundary displacement D
    (l.385-390): the status and solution() afterwards. Arbitrary; its exceptions are not modelled. *)
Variable solve : R -> S -> T -> status * S * T.
(** gsClose of G+Smo: the absolute difference is at most the tolerance *)
Definition gsClose (a b tol : R) : bool := Rleb (Rabs (a - b)) tol.
(** the variables of the loop, l.345, l.373-381: the solver, U, the checkpoints, dL, D; and [y_out], what
    is written at every accepted pass (l.398-563): D, U and the status of the solver there *)
Record yst := mkY { y_t : T; y_U : S; y_cks : list R; y_dL : R; y_D : R; y_out : list (R * S * status) }.
Inductive ypass := YNext (y : yst) | YEnd (out : list (R * S * status)) | YFuel.
(** one pass, l.382-576; [tol] is 1e-8 in the code (l.565) *)
Definition cylPass (tol dL0 : R) (y : yst) : ypass :=
  let '(q, u, t) := solve (y_D y) (y_U y) (y_t y) in
  if negb (status_eqb q Success) && Rltb ((1/2) ^ 3) (y_dL y / dL0) then
    let dL := y_dL y / 2 in YNext (mkY t (y_U y) (y_cks y) dL (y_D y - dL) (y_out y)) (* l.392-397 *)
  else
    let out := y_out y ++ [(y_D y, u, q)] in
    match (match y_cks y with c :: cks => if gsClose (y_D y) c tol then cks else c :: cks | [] => [] end) with
    | [] => YEnd out (* l.565-570 *)
    | c :: cks => let dL := Rmin dL0 (c - y_D y) in YNext (mkY t u (c :: cks) dL (y_D y + dL) out) (* l.572-575 *)
    end.
(** while (true), l.382 *)
Fixpoint cylRun (tol dL0 : R) (fuel : nat) (y : yst) : ypass :=
  match fuel with
  | O => YFuel
  | Datatypes.S fuel => match cylPass tol dL0 y with YNext y => cylRun tol dL0 fuel y | r => r end
  end.
(** main() from l.373 to the end of the loop; the checkpoints [cks] are 0.7, 0.8, 0.9, 1.0 in the code *)
Definition cylMain (tol dL0 : R) (cks : list R) (fuel : nat) (t : T) : ypass :=
  let dL := Rmin dL0 (hd 0 cks) in cylRun tol dL0 fuel (mkY t v0 cks dL dL []).
End Cylinder.
Arguments yst : clear implicits.
Arguments ypass : clear implicits.
