(** Model of the loop of examples/example_ShearWrinkling.cpp l.375-467. *)
From Verif Require Import VS Status Static.
Local Open Scope R_scope.

Section Loop.
Context {S : VS} {T : Type}.
(** the composite solver of l.370-375 (its members and its call solve() of l.372 are in the state) *)
Variable f : iface S T.
(** the variables of the loop, l.375-395: controlDC, dL, D, Dold, Dtarget, k; and [h_out], what is written at every accepted
    pass (l.414-438): D and the state of controlDC and its solver, from which the solution is taken. The geometry, the boundary
    condition with the displacement D, plots and files are not modelled. *)
Record hst := mkH { h_c : @dst S T; h_dL : R; h_D : R; h_Dold : R; h_tg : list R; h_k : nat; h_out : list (R * @dst S T) }.
(** the state after a pass or at the end of the loop; undefined behaviour (front() or back() of an empty vector); an exception that
    leaves main(); [HFuel]: the loop is not finished *)
Inductive hpass := HNext (h : hst) | HUndef (h : hst) | HStop (e : exc) | HFuel.
(** l.453: a division by zero gives inf or NaN, which compare false *)
Definition hNear (D t : R) : bool := if Reqb D 0 then false else Rltb (Rabs (D - t) / D) (/ 10 ^ 8).
(** one pass, l.395-461; solver.converged() (l.402) tests the status which solve() of the composite solver returned
    (gsStaticComposite.hpp l.21-47, gsStaticBase.h l.127), the one of [ctlStep]; GISMO_ASSERT (l.405) only checks in debug builds ([debug]) *)
Definition shearPass (debug : bool) (dL0 : R) (h : hst) : hpass :=
  match ctlStep f (h_dL h) (h_c h) with (* l.400 *)
  | Threw e _ => HStop e
  | Done q c =>
    if negb (status_eqb q Success) then (* l.402-412 *)
      let dL := h_dL h / 2 in
      if debug && Rleb (dL / dL0) (/ 10 ^ 6) then HStop XOther
      else HNext (mkH c dL (h_Dold h + dL) (h_Dold h) (h_tg h) (h_k h) (h_out h))
    else
      let out := h_out h ++ [(h_D h, c)] in
      match h_tg h with
      | [] => HUndef (mkH c dL0 (h_D h) (h_D h) [] (h_k h) out) (* l.453 *)
      | t :: r =>
        match (if hNear (h_D h) t then r else t :: r) with (* l.453-454 *)
        | [] => HUndef (mkH c dL0 (h_D h) (h_D h) [] (h_k h) out) (* l.455 *)
        | t :: r =>
          let dL := if Rltb (t - h_D h) dL0 then t - h_D h else dL0 in (* l.439, l.455-456 *)
          HNext (mkH c dL (h_D h + dL) (h_D h) (t :: r) (Datatypes.S (h_k h)) out) (* l.442, l.459-460 *)
        end
      end
  end.
(** the loop, l.395; back() of an empty vector is undefined *)
Fixpoint shearRun (debug : bool) (dL0 : R) (steps fuel : nat) (h : hst) : hpass :=
  match h_tg h with
  | [] => HUndef h
  | _ =>
    if Rltb (h_D h - h_dL h) (last (h_tg h) 0) && (h_k h <=? steps)%nat then
      match fuel with
      | O => HFuel
      | Datatypes.S fuel => match shearPass debug dL0 h with HNext h => shearRun debug dL0 steps fuel h | r => r end
      end
    else HNext h
  end.
(** from l.375; [tg] is Dtarget after the sort of l.390, [t] the solver *)
Definition shearMain (debug : bool) (dL0 : R) (tg : list R) (steps fuel : nat) (t : T) : hpass :=
  shearRun debug dL0 steps fuel (mkH (ctlNew t) dL0 dL0 0 tg 0 []).
End Loop.
Arguments hst : clear implicits.
Arguments hpass : clear implicits.
