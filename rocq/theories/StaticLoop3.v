(** Model of the load-stepping loop of benchmarks/benchmark_Pillow.cpp l.293-469. *)
From Verif Require Import Prelude.
Local Open Scope R_scope.

Section Pillow.
(** the solver with all it keeps (assembler, composite solver, its solution): one round of l.347-376,
    the assembly for the load factor, initialize() and solve(), gives converged() and the next state.
    What the rounds compute is not modelled. *)
Context {X : Type}.
Variable round : R -> X -> bool * X.
(** loadSteps (an option) and whether GISMO_ASSERT is active (debug builds) *)
Variables (N : nat) (dbg : bool).
(** load_fac, dload_fac, bisected (l.293-297), the solver, and the load factors and states written (l.399-452;
    plots and files are not modelled) *)
Record pst := mkP { p_load : R; p_d : R; p_bis : nat; p_x : X; p_out : list (R * X) }.
(** how the loop ends: its condition, one of its two break, the assertion, or not within the fuel *)
Inductive pend := PDone (c : pst) | PGiveUp (c : pst) | PAssert | PFuel.
Inductive ppass := PNext (c : pst) | PEnd (e : pend).
(** dload_fac0, l.294-295 *)
Definition dload0 : R := 1 / INR N.
(** one pass, l.339-469 *)
Definition pillowPass (c : pst) : ppass :=
  let (ok, x) := round (p_load c) (p_x c) in
  if negb ok then
    (* l.378-398 *)
    if (20 <? p_bis c)%nat then PEnd (PGiveUp (mkP (p_load c) (p_d c) (p_bis c) x (p_out c)))
    else if dbg && Reqb (p_load c) 0 then PEnd PAssert
    else
      let load := p_load c - p_d c in
      if Rltb (Rabs (load - 1)) (1/1000) then PEnd (PGiveUp (mkP load (p_d c) (p_bis c) x (p_out c)))
      else
        let d := p_d c / 2 in
        PNext (mkP (load + d) d (Datatypes.S (p_bis c)) x (p_out c))
  else
    (* l.463-467 *)
    let d := if Rltb (1 - p_load c) dload0 && Rltb (1 / 10^10) (1 - p_load c) then 1 - p_load c else dload0 in
    PNext (mkP (p_load c + d) d (p_bis c) x (p_out c ++ [(p_load c, x)])).
(** the loop, l.339 *)
Fixpoint pillowRun (fuel : nat) (c : pst) : pend :=
  if Rleb (p_load c) 1 then
    match fuel with
    | O => PFuel
    | Datatypes.S fuel => match pillowPass c with PNext c => pillowRun fuel c | PEnd e => e end
    end
  else PDone c.
(** l.293-297 *)
Definition pillowInit (x : X) : pst := mkP 0 dload0 0 x [].
End Pillow.
