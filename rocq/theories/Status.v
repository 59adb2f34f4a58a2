(** gsStatus, src/gsStructuralAnalysisTools/gsStructuralAnalysisTypes.h l.22-30 *)
Inductive status := Success | NotConverged | AssemblyError | SolverError | NotStarted | OtherError.
Definition status_eqb (a b : status) : bool :=
  match a, b with
  | Success, Success | NotConverged, NotConverged | AssemblyError, AssemblyError
  | SolverError, SolverError | NotStarted, NotStarted | OtherError, OtherError => true
  | _, _ => false
  end.
Lemma status_eqb_true a b : status_eqb a b = true <-> a = b.
Proof. destruct a, b; cbn; split; auto; discriminate. Qed.
