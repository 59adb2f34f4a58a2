(** Model of the load steps before the bifurcation of benchmarks/benchmark_Wrinkling_DWR.cpp l.544-645. *)
From Verif Require Import VS.
Local Open Scope R_scope.

Section Pre.
(** [W]: the solver, the solutions and their patches. Not modelled: what they consist of, plots and files; the oracles below are arbitrary. *)
Context {W : Type}.
(** l.557-560: setLength and step(); converged() *)
Variable try_ : R -> W -> W * bool.
(** l.566-567: setLength and setSolution(Uold,Lold) after a failure *)
Variable reset : R -> W -> W.
(** l.572-573: computeStability and stabilityChange() *)
Variable stab : W -> W * bool.
(** l.578-611: the new solution is taken over and its error estimated; l.635: the strain (a number: NaN is not modelled) *)
Variable accept : W -> W.
Variable strain : W -> R.
(** the variables dLb, eps, k, unstable (l.545-550); [p_try]: every step() with its length and whether it converged; [p_rows]: the index k and the strain of
    every row and of every file written (l.617-644) *)
Record pst := mkP { p_w : W; p_dL : R; p_eps : R; p_k : nat; p_uns : bool; p_try : list (R * bool); p_rows : list (nat * R) }.
(** the loop l.551-645: k is not changed in it; None: not finished after [fuel] passes *)
Fixpoint preLoop (lo hi : R) (maxSteps fuel : nat) (s : pst) : option pst :=
  if Rltb (p_eps s) hi && Rltb lo (p_eps s) && (p_k s <? maxSteps)%nat then
    match fuel with
    | O => None
    | S fuel =>
      let (w, ok) := try_ (p_dL s) (p_w s) in
      let t := p_try s ++ [(p_dL s, ok)] in
      if ok then
        let (w, u) := stab w in
        if u then Some (mkP w (p_dL s) (p_eps s) (p_k s) true t (p_rows s)) (* l.575-576 *)
        else
          let w := accept w in
          preLoop lo hi maxSteps fuel (mkP w (p_dL s) (strain w) (p_k s) false t (p_rows s ++ [(p_k s, strain w)]))
      else (* l.562-569 *)
        preLoop lo hi maxSteps fuel (mkP (reset (p_dL s / 2) w) (p_dL s / 2) (p_eps s) (p_k s) (p_uns s) t (p_rows s))
    end
  else Some s.
(** l.545-550: unstable = false, k = 0, eps = 0 *)
Definition preMain (lo hi : R) (maxSteps fuel : nat) (w : W) (dLb : R) : option pst := preLoop lo hi maxSteps fuel (mkP w dLb 0 0 false [] []).
End Pre.
Arguments pst : clear implicits.
