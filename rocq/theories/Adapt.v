(** Model of the load steps with adaptive meshing of benchmarks/benchmark_Roof_DWR.cpp l.519-732 ([roof] = true) and
    benchmark_Wrinkling_DWR.cpp l.728-935 ([roof] = false). *)
From Verif Require Import VS.
Local Open Scope R_scope.

Section Adapt.
(** [W]: the mesh, the assembler and the solutions on it. Not modelled: what they consist of, plots and files; the other oracles are arbitrary. *)
Context {W : Type}.
(** Roof_DWR l.549-599: assembly on the current mesh, a new gsALMCrisfield at (Uold, Lold) and one step() of the given length; the estimated error of the
    new solution (a number: NaN is not modelled) if it converged *)
Variable try_ : R -> W -> W * option R.
(** mesher.refine, mesher.unrefine of the marked elements (Roof_DWR l.622, l.631-632, l.641): whether something was done; and mp = mp0 of Wrinkling_DWR l.842 *)
Variables (refine unrefine : W -> W * bool) (restore : W -> W).
(** Roof_DWR l.645-673: projection of all solutions on the new mesh; l.702-728: (Uold, Lold) := (U, L) *)
Variables (project accept : W -> W).
(** Umid (Roof_DWR l.706) or eps (Wrinkling_DWR l.911) *)
Variable mid : W -> R.
(** options and tolerances: bandwidth==1, refTol, crsTol, nocrs, maxRefIt, adaptMesh; the error before the first iteration (Roof_DWR l.540: the largest
    number; Wrinkling_DWR l.741: 1) *)
Record aopts := mkAO { a_roof : bool; a_band1 : bool; a_refTol : R; a_crsTol : R; a_nocrs : R; a_maxIt : Z; a_adapt : bool; a_err0 : R }.
Variable o : aopts.
(** Roof_DWR l.541 and l.643, Wrinkling_DWR l.742 and l.845 *)
Definition bandTest (e : R) : bool :=
  if a_band1 o then Rltb (a_refTol o) e else (Rltb e (a_crsTol o) && (a_roof o || Rltb (a_nocrs o) e)) || Rleb (a_refTol o) e.
(** the variables of the inner loop: dL, it, refined, coarsened, bandtest, error, unstable_prev, and [i_try], every step() tried with its length and
    the error if it converged (loadstep_errors are the errors in it) *)
Record ist := mkI { i_w : W; i_dL : R; i_it : Z; i_ref : bool; i_crs : bool; i_band : bool; i_err : R; i_uns : bool; i_try : list (R * option R) }.
(** marking and meshing for the error e, Roof_DWR l.616-642, Wrinkling_DWR l.814-843: world, refined, coarsened *)
Definition remesh (e : R) (w : W) (ref crs : bool) : W * bool * bool :=
  if Rltb (a_refTol o) e then let (w, b) := refine w in (w, b, crs)
  else if Rltb e (a_refTol o) && Rltb (a_crsTol o) e then let (w, b) := refine w in let (w, b') := unrefine w in (w, b, b')
  else if Rltb e (a_crsTol o) && (a_roof o || Rltb (a_nocrs o) e) then let (w, b) := unrefine w in (w, ref, b)
  else if Rltb e (a_nocrs o) && negb (a_roof o) then (restore w, ref, crs)
  else (w, ref, crs).
(** the inner loop, Roof_DWR l.543-683, Wrinkling_DWR l.744-888; None: not finished after [fuel] passes *)
Fixpoint adaptLoop (fuel : nat) (s : ist) : option ist :=
  if i_band s && (i_it s <? a_maxIt o)%Z && (i_ref s || i_crs s) then
    match fuel with
    | O => None
    | S fuel =>
      let (w, r) := try_ (i_dL s) (i_w s) in
      let t := i_try s ++ [(i_dL s, r)] in
      match r with
      | None => (* Roof_DWR l.567-575 (it -= 1), Wrinkling_DWR l.767-774 *)
        adaptLoop fuel (mkI w (i_dL s / 2) (if a_roof o then i_it s - 1 else i_it s)%Z (i_ref s) (i_crs s) (i_band s) (i_err s) (i_uns s) t)
      | Some e =>
        if a_adapt o then
          if i_uns s then Some (mkI w (i_dL s) (i_it s) (i_ref s) (i_crs s) (i_band s) e false t)
          else
            let '(w, ref, crs) := remesh e w (i_ref s) (i_crs s) in
            adaptLoop fuel (mkI (project w) (i_dL s) (i_it s + 1)%Z ref crs (bandTest e) e false t)
        else Some (mkI w (i_dL s) (i_it s) (i_ref s) (i_crs s) (i_band s) e (i_uns s) t)
      end
    end
  else Some s.
(** the variables at the beginning of a load step, Roof_DWR l.534-541 *)
Definition adaptInit (w : W) (dL : R) (uns : bool) : ist := mkI w dL 0 true true (bandTest (a_err0 o)) (a_err0 o) uns [].
(** the outer loop, Roof_DWR l.532-732, Wrinkling_DWR l.732-935: for every load step the row written (the error) and the tries *)
Record ost := mkO { o_w : W; o_dL : R; o_uns : bool; o_k : nat; o_mid : R; o_rows : list (R * list (R * option R)) }.
Fixpoint loadLoop (lo hi : R) (maxSteps fuel inner : nat) (s : ost) : option ost :=
  if Rltb (o_mid s) hi && Rltb lo (o_mid s) && (o_k s <? maxSteps)%nat then
    match fuel with
    | O => None
    | S fuel =>
      match adaptLoop inner (adaptInit (o_w s) (o_dL s) (o_uns s)) with
      | None => None
      | Some i => loadLoop lo hi maxSteps fuel inner (mkO (accept (i_w i)) (i_dL i) (i_uns i) (S (o_k s)) (mid (i_w i)) (o_rows s ++ [(i_err i, i_try i)]))
      end
    end
  else Some s.
End Adapt.
Arguments ist : clear implicits.
Arguments ost : clear implicits.
