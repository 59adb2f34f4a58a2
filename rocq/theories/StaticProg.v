(** Model of the solution phase of solvers/static_shell_XML.cpp l.272-296 (static_shell_multipatch_XML.cpp
    l.355-379 is the same). *)
From Verif Require Import VS Status Static.
Local Open Scope R_scope.
Section Prog.
Context {S : VS} {Mat : Type}.
(** the state of a solver of the list (std::vector<gsStaticBase<real_t> *>, l.281): of a Newton or of a
    dynamic relaxation solver *)
Notation T := (nst S Mat + gst S)%type.
(** the virtual functions of a Newton and of a dynamic relaxation solver on such a state; a
    state of the other class does not occur ([XUndef]) *)
Definition onN (f : iface S (nst S Mat)) : iface S T := mkIface
  (fun t => match t with inl x => match i_solve f x with Done q x => Done q (inl x) | Threw e x => Threw e (inl x) end | inr _ => Threw XUndef t end)
  (fun t => match t with inl x => i_solution f x | inr _ => v0 end) (fun t => match t with inl x => i_update f x | inr _ => v0 end)
  (fun t => match t with inl x => i_iter f x | inr _ => O end)
  (fun u t => match t with inl x => inl (i_setUpdate f u x) | inr _ => t end) (fun u t => match t with inl x => inl (i_setDisplacement f u x) | inr _ => t end)
  (fun l t => match t with inl x => inl (i_setLoad f l x) | inr _ => t end) (fun t => match t with inl x => inl (i_reset f x) | inr _ => t end).
Definition onG (f : iface S (gst S)) : iface S T := mkIface
  (fun t => match t with inr x => match i_solve f x with Done q x => Done q (inr x) | Threw e x => Threw e (inr x) end | inl _ => Threw XUndef t end)
  (fun t => match t with inr x => i_solution f x | inl _ => v0 end) (fun t => match t with inr x => i_update f x | inl _ => v0 end)
  (fun t => match t with inr x => i_iter f x | inl _ => O end)
  (fun u t => match t with inr x => inr (i_setUpdate f u x) | inl _ => t end) (fun u t => match t with inr x => inr (i_setDisplacement f u x) | inl _ => t end)
  (fun l t => match t with inr x => inr (i_setLoad f l x) | inl _ => t end) (fun t => match t with inr x => inr (i_reset f x) | inl _ => t end).
(** LIN(K,F), DRM(M,F,Residual), NRM(K,F,Jacobian,Residual) and their options, l.272-279 *)
Variable p : nprob S Mat.
Variable o : nopts.
Variable g : gprob S.
Variable go : gopts.
(** LIN uses only K and F of [p] *)
Definition linOf : nprob S Mat := mkNProb S Mat (np_lin p) (np_force p) (np_res p) (np_jac p) (np_factor p) (np_solve p) false.
(** the list of solvers, l.281-291, after solver.initialize(), l.293: initialize of gsStaticNewton
    (gsStaticBase.h l.54-58) is reset and getOptions, that of gsStaticDR is [drInitialize] *)
Definition progSolvers (dr nr : bool) : list (iface S T * T) :=
  (onN (newtonIface linOf o), inl (reset newtonNew)) ::
  (if dr then [(onG (drIface g), inr (drInitialize go drNew))] else []) ++
  (if nr then [(onN (newtonIface p o), inl (reset newtonNew))] else []).
(** l.294-296: solve(), whose status is not looked at, and the vector that is plotted and written; [c] is the
    composite solver after construction *)
Definition progMain (dr nr : bool) (c : cst) : run (list (iface S T * T) * cst) S :=
  match compSolve (progSolvers dr nr) c with
  | Done q (l, c) => Done (c_U c) (l, c)
  | Threw e x => Threw e x
  end.
End Prog.
