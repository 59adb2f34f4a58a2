(** Example problem and evaluation tactic for examples with the arc-length solvers. *)
From Verif Require Import VS Status RunTac ALMBase ALMBaseProofs ALMStep ALMLog ALMPoints.
Local Open Scope R_scope.

(** ** A small problem for the examples: the spring K u = L with K = 2, one degree of freedom *)
Definition exSpring : problem VS_R R := @mkProblem VS_R R
  (fun u l => Some (2 * u - l)) (* residual *) (fun _ _ => Some 2) (* Jacobian *) (fun _ => true) (* factor *)
  (fun m f => Some (f / m)) (* solve *) (fun m x => m * x) (fun m => [m]) (fun m => Some [m]) 1 (* F *) 1 1.
Definition exOpts (maxIt : nat) : opts := {|
  o_maxIt := maxIt; o_tol := 1/100; o_tolF := 1/100; o_tolU := 1/100; o_tau := 1; o_quasi := false; o_quasiInterval := (-1)%Z;
  o_bif := BifDeterminant; o_ldlt := true; o_verbose := false; o_relax := 1; o_spFail := true; o_spTestTol := 1/100;
  o_spTestIt := 5; o_spTolE := 1/100; o_spTolB := 0; o_phiUser := true; o_angle := AngStep |}.
Definition exSt (S : VS) (Mat : Type) (len : R) : st S Mat := {|
  s_U := v0; s_Uprev := v0; s_DU := v0; s_dU := v0; s_dUbar := v0; s_dUt := v0; s_DUold := v0; s_Vm := v0; s_DV := v0; s_dV := v0;
  s_dVbar := v0; s_dVt := v0; s_resVec := v0; s_L := 0; s_Lprev := 0; s_DL := 0; s_dL := 0; s_DLold := 0; s_guess := None;
  s_jac := None; s_fact := None; s_len := len; s_lenPrev := len; s_lenOri := len; s_adaptive := false; s_desired := 10;
  s_numIt := 0; s_conv := false; s_stat := NotStarted; s_initialized := true; s_resF := None; s_resU := None; s_basF := 0;
  s_basU := 0; s_resKT := 0; s_phi := 1; s_stabVec := []; s_negatives := 0; s_indicator := 0; s_stab := (-1)%Z;
  s_stabPrev := (-1)%Z; s_log := [] |}.

(** evaluation of a program on concrete data, statement by statement *)
Lemma ob_step {S : VS} {Mat A B} (x : out S Mat A) (f : A -> st S Mat -> out S Mat B) a s r :
  x = Ret a s -> f a s = r -> obind x f = r.
Proof. intros ->. auto. Qed.
Lemma ob_exc {S : VS} {Mat A B} (x : out S Mat A) (f : A -> st S Mat -> out S Mat B) e s r :
  x = Exc e s -> Exc e s = r -> obind x f = r.
Proof. intros ->. auto. Qed.
Lemma stepLoop_S {S : VS} {Mat} (p : problem S Mat) o k n i s : stepLoop p o k (Datatypes.S n) i s =
    let s := set_numIt i s in
    obind (if newJacobian o i then quasiNewtonIteration p k s else Ret tt s) (fun _ s =>
    obind (iteration p o k s) (fun _ s =>
    obind (computeStability p o false s) (fun _ s =>
    obind (computeResidual p s) (fun _ s =>
    let s := computeResidualNorms p s in
    obind (if o_verbose o then stepOutput p o s else Ret tt s) (fun _ s =>
    if convergedTest o s then
      let s := iterationFinish o k s in
      if s_adaptive s then computeLength s else Ret tt (set_lenPrev (s_len s) s)
    else match n with
         | O => Exc (EThrow 1) s
         | _ => stepLoop p o k n (Datatypes.S i) s
         end))))).
Proof. reflexivity. Qed.
(** extended by [::=] for further recursive functions *)
Ltac evhook := fail.
Ltac ev :=
  lazymatch goal with
  | |- Ret ?a ?s = _ => reach
  | |- Exc ?a ?s = _ => reach
  | |- obind ?x ?f = _ =>
    let H := fresh "H" in
    eassert (H : x = _) by ev;
    lazymatch type of H with
    | _ = Ret _ _ => eapply (ob_step _ _ _ _ _ H); clear H; cbv beta; ev
    | _ = Exc _ _ => eapply (ob_exc _ _ _ _ _ H); clear H; reflexivity
    end
  | |- (let s := ?E in @?f s) = ?r =>
    let H := fresh "H" in
    eassert (H : E = _) by reach;
    eapply (let_step E _ f r H); clear H; cbv beta; ev
  | |- stepLoop ?p ?o ?k ?n ?i ?s = _ =>
    let n' := eval cbv in n in
    lazymatch n' with
    | O => change (stepLoop p o k n i s) with (Ret (S := _) (Mat := _) tt (set_numIt i s)); ev
    | _ => change (stepLoop p o k n i s) with (stepLoop p o k n' i s); rewrite stepLoop_S; ev
    end
  | |- (match ?x with _ => _ end) = _ =>
    let T := type of x in
    lazymatch T with out _ _ _ => scrut ltac:(idtac; ev) | _ => scrut ltac:(idtac; reach) end; ev
  | |- ?X = _ => first [progress evhook | let h := head_of X in cbv beta delta [h]]; ev
  end
with head_of X := lazymatch X with ?f _ => head_of f | _ => X end.
Example ex_spring_load : exists s, step exSpring (exOpts 5) LoadControl (exSt VS_R R 3) = Ret tt s /\ s_L s = 3 /\ s_U s = 3/2 /\ s_stat s = Success.
Proof.
  eexists. split; [ev|].
  rcbv. repeat split; lra.
Qed.
