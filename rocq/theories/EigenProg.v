(** Model of the eigenvalue phase of the programs solvers/modal_shell_XML.cpp l.238-296,
    modal_shell_multipatch_XML.cpp l.279-353, buckling_shell_XML.cpp l.228-296,
    buckling_shell_multipatch_XML.cpp l.398-480, examples/gsThinShell_Modal.cpp l.515-594 and
    examples/gsElasticity_Modal.cpp l.199-222. Assembly, geometry and the format of the files are not modelled. *)
From Verif Require Import VS Status Static Eigen.
Local Open Scope R_scope.
(** how a program ends: normally; with the exception of GISMO_ENSURE; with another exception; with undefined behaviour *)
Inductive pend (A : Type) := PDone (a : A) | PEnsure | PThrow (e : exc) | PUndef.
Arguments PDone {A}. Arguments PEnsure {A}. Arguments PThrow {A}. Arguments PUndef {A}.
(** what a program shows: the values printed (modal_shell_XML.cpp l.255-258), the mode shapes plotted
    (l.267-287), and the values written to the file (l.291-295; buckling_shell_multipatch_XML.cpp l.473-478) *)
Record shown (S : VS) := mkShown { sh_print : list (option R); sh_plot : list S; sh_write : list (option R) }.
Arguments mkShown {S}. Arguments sh_print {S}. Arguments sh_plot {S}. Arguments sh_write {S}.
Section Prog.
Context {S : VS}.
Variable L : elib S.
(** x.at(0), ..., x.at(n-1), or the columns 0, ..., n-1: outside of the range the access is not checked (None) *)
Fixpoint firstN {A : Type} (n : nat) (l : list A) : option (list A) :=
  match n, l with
  | O, _ => Some []
  | Datatypes.S n, x :: l => match firstN n l with Some r => Some (x :: r) | None => None end
  | Datatypes.S _, [] => None
  end.
(** after the computation: modal_shell_XML.cpp l.250-296 (buckling_shell_XML.cpp l.245-296; the multipatch variants
    l.291-353, l.421-480). [plotN]: the number of mode shapes plotted, None without the option plot. The shapes are
    not normalised here. [write]: the option write (commented out in buckling_shell_XML.cpp). *)
Definition report (plotN : option nat) (write : bool) (r : run (est S) status) : pend (shown S) :=
  match r with
  | Threw e _ => PThrow e
  | Done q s =>
    match q with
    | Success =>
      match firstN 10 (e_vals s), (match plotN with Some n => firstN n (e_vecs s) | None => Some [] end) with
      | Some a, Some b => PDone (mkShown a b (if write then e_vals s else []))
      | _, _ => PUndef
      end
    | _ => PEnsure
    end
  end.
(** modal_shell_XML.cpp l.238-296, modal_shell_multipatch_XML.cpp l.279-353 *)
Definition modalProg (spectra : bool) (o : eopts) (nmodes : nat) (plot write : bool) (K M : S -> S) : pend (shown S) :=
  report (if plot then Some nmodes else None) write (eSparse L spectra o (Z.of_nat nmodes) (modalNew K M)).
(** gsThinShell_Modal.cpp l.515-594, gsElasticity_Modal.cpp l.199-222: ten modes with the sparse solver, all with the dense one;
    one or all mode shapes plotted (option first) *)
Definition modalExample (spectra : bool) (o : eopts) (sparse plot first write : bool) (K M : S -> S) : pend (shown S) :=
  let r := if sparse then eSparse L spectra o 10 (modalNew K M) else eCompute L o (modalNew K M) in
  report (if plot then Some (if first then 1%nat else length (e_vecs (stateOf r))) else None) write r.
(** buckling_shell_XML.cpp l.228-296; with [multi] buckling_shell_multipatch_XML.cpp l.398-480, where K_NL -= K_L (l.414)
    comes before the constructor, which subtracts K_L itself (gsBucklingSolver.h l.104-105). [cg]: the iterative solver. *)
Definition bucklingProg (multi spectra : bool) (o : eopts) (nmodes : nat) (plot write : bool) (cg : (S -> S) -> S -> S) (KL : S -> S) (F : S) (jac : S -> jans S) : pend (shown S) :=
  match jac (cg KL F) with
  | JThrow e => PThrow e
  | JDone false _ => PEnsure
  | JDone true None => PUndef
  | JDone true (Some KNL) =>
    let KNL := if multi then (fun x => KNL x -v KL x) else KNL in
    report (if plot then Some nmodes else None) write (eSparse L spectra o (Z.of_nat nmodes) (bucklingNew0 KL KNL))
  end.
End Prog.
