(** Model of the load-stepping loop of the tutorials, tutorials/nonlinear_solid_arcLength.cpp
    l.132-157 and tutorials/nonlinear_shell_arcLength.cpp l.153-177. *)
From Verif Require Import VS Status ALMBase.
Local Open Scope R_scope.

Section Loop.
Context {S : VS} {Mat : Type}.
(** the loop, nonlinear_solid_arcLength.cpp l.137-157, nonlinear_shell_arcLength.cpp l.158-177: the
    status of step() is not looked at; the list: the vectors solutionU() from which the files
    Deformation<k> are made. The tutorials use gsALMCrisfield ([k] = Crisfield) and [n] = 50; the
    construction of the deformed geometry and the files themselves are not modelled. *)
Fixpoint fileRun (p : problem S Mat) (o : opts) (k : kind) (n : nat) (s : st S Mat) (files : list S) : out S Mat (list S) :=
  match n with
  | O => Ret files s
  | Datatypes.S n =>
    match step p o k s with
    | Exc e s => Exc e s
    | Ret _ s => fileRun p o k n s (files ++ [s_U s])
    end
  end.
End Loop.
