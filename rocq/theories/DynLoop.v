(** Models of the time loops of the programs: examples/example_DynamicShell.cpp l.268-303,
    example_DynamicShellNL.cpp l.290-328, tutorials/nonlinear_shell_dynamic.cpp l.175-198 (and
    nonlinear_solid_dynamic.cpp l.157-186), examples/example_DynamicBeamNL.cpp l.320-388. *)
From Verif Require Import VS Status Static Dynamic.
Local Open Scope R_scope.
Section Loop.
Context {S : VS}.
(** the function _step of the integrator of the program *)
Variable stepf : R -> R -> xst S -> run (xst S) sans.
Variable dt : R.
(** the integrator, and what is written in every pass: the time and the displacement (the geometry and the
    files are not modelled) *)
Notation out := (list (R * S)).
(** the loop of example_DynamicShell.cpp and example_DynamicShellNL.cpp with [n] passes left: GISMO_ERROR throws if the
    status is not Success (l.272-273, NL l.294-295); the time written is time(), l.291 and NL l.313 *)
Fixpoint shellLoop (n : nat) (s : bst S) (l : out) : run (bst S * out) unit :=
  match n with
  | O => Done tt (s, l)
  | Datatypes.S n =>
    match dynStep stepf None dt s with
    | Threw e s => Threw e (s, l)
    | Done q s => if status_eqb q Success then shellLoop n s (l ++ [(b_time s, x_U (b_x s))]) else Threw XOther (s, l)
    end
  end.
(** the loop of the tutorials: GISMO_ENSURE throws if the status is not Success (shell l.182); the time attached to the
    plot is the variable [time], which is set at the end of the pass (shell l.195-197); DT is [dt] (l.178) *)
Fixpoint tutLoop (n : nat) (time : R) (s : bst S) (l : out) : run (bst S * out) unit :=
  match n with
  | O => Done tt (s, l)
  | Datatypes.S n =>
    match dynStep stepf None dt s with
    | Threw e s => Threw e (s, l)
    | Done q s => if status_eqb q Success then tutLoop n (b_time s) s (l ++ [(time, x_U (b_x s))]) else Threw XOther (s, l)
    end
  end.
(** the loop of example_DynamicBeamNL.cpp: the const step with the variables time, U, V, A of the program (in [x]; [bad]: not
    finite), then time = timeIntegrator->time(), l.322-326. GISMO_ASSERT, l.323, only checks in debug builds ([debug]). *)
Fixpoint beamLoop (debug : bool) (n : nat) (time : R) (x : xst S) (bad : bool) (s : bst S) (l : out) : run (bst S * out) unit :=
  match n with
  | O => Done tt (s, l)
  | Datatypes.S n =>
    if bad then Threw XUndef (s, l) else
    match dynConst stepf time dt (x_U x) (x_V x) (x_A x) s with
    | (Threw e _, s) => Threw e (s, l)
    | (Done a x, s) =>
      let (q, bad) := match a with Fin q => (q, false) | NonFin q => (q, true) end in
      if debug && negb (status_eqb q Success) then Threw XOther (s, l) else
      beamLoop debug n (b_time s) x bad s (l ++ [(b_time s, x_U x)])
    end
  end.
End Loop.
