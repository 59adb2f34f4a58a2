(** Model of the eigenvalue solvers: src/gsEigenSolvers (gsEigenProblemBase, gsBucklingSolver,
    gsModalSolver). Exact real arithmetic; matrices are maps S -> S. Printing is not modelled. The
    numerical libraries (Eigen's dense solver, Spectra, the sparse LDLT, the dense inverse) are
    arguments of the model. *)
From Verif Require Export VS Status Static.
Local Open Scope R_scope.

(** CompInfo of Spectra; [COther]: any further code *)
Inductive cinfo := CSuccessful | CNotConverging | CNumericalIssue | CNotComputed | COther.
(** option "solver": the modes of Spectra, computeSparse l.59-68 *)
Inductive smode := MCholesky | MRegularInverse | MShiftInvert | MBuckling | MCayley.
(** the options "solver", "selectionRule", "sortRule", "ncvFac", "tolerance", "shift",
    gsEigenProblemBase.h l.50-89 *)
Record eopts := mkEO { eo_solver : Z; eo_select : Z; eo_sort : Z; eo_ncv : Z; eo_tol : R; eo_shift : R }.
(** m_A, m_B, m_status, and m_values, m_vectors as columns (None: not finite) *)
Record est (S : VS) := mkE { e_A : S -> S; e_B : S -> S; e_stat : status; e_vals : list (option R); e_vecs : list S }.
Arguments mkE {S}. Arguments e_A {S}. Arguments e_B {S}. Arguments e_stat {S}. Arguments e_vals {S}. Arguments e_vecs {S}.
(** the libraries: [l_dense A B] eigenvalues and eigenvectors of the dense solver (No: not used);
    [l_gen m A B number ncv select tol sort] gsSpectraGenSymSolver, [l_shift ...] with the shift
    gsSpectraGenSymShiftSolver (constructor, init and compute can throw); [l_inv A] the dense
    inverse (None: not finite); [l_solve A b] SimplicialLDLT (None: not finite) *)
Record elib (S : VS) := mkL {
  l_dense : (S -> S) -> (S -> S) -> ans (list (R * S));
  l_gen : smode -> (S -> S) -> (S -> S) -> Z -> Z -> Z -> R -> Z -> ans (cinfo * list (R * S));
  l_shift : smode -> (S -> S) -> (S -> S) -> Z -> Z -> R -> Z -> R -> Z -> ans (cinfo * list (R * S));
  l_inv : (S -> S) -> option (S -> S);
  l_solve : (S -> S) -> S -> option S }.
Arguments mkL {S}. Arguments l_dense {S}. Arguments l_gen {S}. Arguments l_shift {S}. Arguments l_inv {S}. Arguments l_solve {S}.
(** what the Jacobian callback did with its answer and its matrix argument (None: left empty) *)
Inductive jans (S : VS) := JDone (ok : bool) (m : option (S -> S)) | JThrow (e : exc).
Arguments JDone {S}. Arguments JThrow {S}.

Section Eigen.
Context {S : VS}.
Variable L : elib S.
Notation est := (est S).
Notation Mat := (S -> S).
Definition eStat q (s : est) : est := mkE (e_A s) (e_B s) q (e_vals s) (e_vecs s).
Definition eOut (l : list (R * S)) (s : est) : est := mkE (e_A s) (e_B s) (e_stat s) (map (fun x => Some (fst x)) l) (map snd l).
(** m_A - shift*m_B, only if the shift is not zero *)
Definition shifted (sh : R) (s : est) : Mat := if Reqb sh 0 then e_A s else fun x => e_A s x -v sh *v e_B s x.
(** m_values.array() += shift *)
Definition addShift (sh : R) (l : list (R * S)) : list (R * S) := map (fun x => (fst x + sh, snd x)) l.

(** ** Constructors *)
(** gsModalSolver.h l.44-49 *)
Definition modalNew (stiffness mass : Mat) : est := mkE stiffness mass NotStarted [] [].
(** gsBucklingSolver.h l.97-102, with an assembled matrix *)
Definition bucklingNew0 (linear nonlinear : Mat) : est := mkE linear (fun x => nonlinear x -v linear x) NotStarted [] [].
(** gsBucklingSolver.h l.50-68, l.78-90 and initializeMatrix l.125-149. [jac]: the Jacobian at the
    linear solution; its answer is not used, only exceptions count. An empty matrix in m_B -= m_A is
    undefined; so is a callback at a vector that is not finite (not modelled: XUndef). *)
Definition bucklingNew (linear : Mat) (rhs : S) (jac : S -> jans S) (scaling : R) : run est unit :=
  let s := mkE linear (fun _ => v0) NotStarted [] [] in
  match l_solve L linear (scaling *v rhs) with
  | None => Threw XUndef s
  | Some u =>
    match jac u with
    | JThrow _ => Done tt (eStat AssemblyError s)
    | JDone _ None => Threw XUndef s
    | JDone _ (Some m) => Done tt (mkE linear (fun x => m x -v linear x) NotStarted [] [])
    end
  end.

(** ** compute, gsEigenProblemBase.hpp l.21-51 *)
Definition eCompute (o : eopts) (s : est) : run est status :=
  match e_stat s with
  | AssemblyError => Done AssemblyError s
  | _ =>
    match l_dense L (shifted (eo_shift o) s) (e_B s) with
    | Yes l => Done Success (eStat Success (eOut (addShift (eo_shift o) l) s))
    | _ => Done SolverError (eStat SolverError s)
    end
  end.
(** the statuses l.118-146, l.185-213 *)
Definition ofInfo (i : cinfo) : status :=
  match i with CSuccessful => Success | CNotConverging => NotConverged | CNumericalIssue | CNotComputed => SolverError | COther => OtherError end.
(** computeSparse_impl l.86-148 (Cholesky, RegularInverse) and l.153-215 (the others); exceptions
    escape with the object unchanged *)
Definition eImpl (o : eopts) (m : smode) (number : Z) (s : est) : run est status :=
  let finish a adj :=
    match a with
    | Yes (CSuccessful, l) => Done Success (eStat Success (eOut (adj l) s))
    | Yes (i, _) => Done (ofInfo i) (eStat (ofInfo i) s)
    | No => Threw XOther s
    | Throws e => Threw e s
    end in
  match m with
  | MCholesky | MRegularInverse =>
    finish (l_gen L m (shifted (eo_shift o) s) (e_B s) number (eo_ncv o * number)%Z (eo_select o) (eo_tol o) (eo_sort o)) (addShift (eo_shift o))
  | _ => finish (l_shift L m (e_A s) (e_B s) number (eo_ncv o * number)%Z (eo_shift o) (eo_select o) (eo_tol o) (eo_sort o)) (fun l => l)
  end.
(** computeSparse l.54-82; [spectra]: gsSpectra_ENABLED *)
Definition eSparse (spectra : bool) (o : eopts) (number : Z) (s : est) : run est status :=
  match e_stat s with
  | AssemblyError => Done AssemblyError s
  | _ =>
    if negb spectra then Done NotStarted (eStat NotStarted s)
    else if Z.eqb (eo_solver o) 0 then eImpl o MCholesky number s
    else if Z.eqb (eo_solver o) 1 then eImpl o MRegularInverse number s
    else if Z.eqb (eo_solver o) 2 then eImpl o MShiftInvert number s
    else if Z.eqb (eo_solver o) 3 then eImpl o MBuckling number s
    else if Z.eqb (eo_solver o) 4 then eImpl o MCayley number s
    else Done NotStarted (eStat NotStarted s)
  end.

(** ** computePower l.219-258 *)
(** Eigen's normalize(): a zero vector stays *)
Definition enormalize (v : S) : S := if Rltb 0 (dot v v) then (1 / norm v) *v v else v.
(** the loop, n = kmax - k; answers the last vector and whether the test was met *)
Fixpoint powerLoop (D : Mat) (tol : R) (n : nat) (v vold : S) : S * bool :=
  match n with
  | O => (v, false)
  | Datatypes.S n' =>
    let v := enormalize (D v) in
    if Rltb (norm (v -v vold)) tol then (v, true) else powerLoop D tol n' v v
  end.
(** [ones]: the vector of ones. Without a finite inverse nothing compares true. *)
Definition ePower (o : eopts) (ones : S) (s : est) : run est status :=
  match e_stat s with
  | AssemblyError => Done AssemblyError s
  | _ =>
    match l_inv L (e_A s) with
    | None => Done NotConverged (mkE (e_A s) (e_B s) NotConverged [None] (e_vecs s))
    | Some Ai =>
      let D := fun x => Ai (e_B s x) in
      let '(v, ok) := powerLoop D (eo_tol o) 100 ones v0 in
      let q := if ok then Success else NotConverged in
      let den := dot v (D v) in
      Done q (mkE (e_A s) (e_B s) q [if Reqb den 0 then None else Some (dot v v / den)] [v])
    end
  end.
(** values().at(k), vectors().col(k) as a pair: makeMode l.261-266, value, vector, mode
    gsEigenProblemBase.h l.102-108; outside of the range undefined (None) *)
Definition eMode (k : nat) (s : est) : option (option R * S) :=
  match nth_error (e_vals s) k, nth_error (e_vecs s) k with Some x, Some v => Some (x, v) | _, _ => None end.
End Eigen.
