(** C88: reset of the static solvers. C89: stability queries of the static solvers. *)
From Verif Require Import Prelude VS Status RunTac Static StaticRun StaticMore Props_Static.
From Coq Require Import Permutation.
Local Open Scope R_scope.

(** ** C88 *)
Section Same.
Context {S : VS} {Mat : Type}.
Variable p : nprob S Mat.
Implicit Types s t : nst S Mat.
(** same displacements, update, load and start flag; counters, residual norms, status and log may differ *)
Definition same s t : Prop := n_U s = n_U t /\ n_DU s = n_DU t /\ n_dU s = n_dU t /\ n_R s = n_R t /\ n_L s = n_L t /\ n_head s = n_head t.
Definition sameRun {A} (x y : run (nst S Mat) A) : Prop :=
  match x, y with Done a s, Done b t => a = b /\ same s t | Threw e s, Threw e' t => e = e' /\ same s t | _, _ => False end.
Definition same2 s t : Prop := same s t /\ n_rnorm s = n_rnorm t /\ n_ini s = n_ini t.
Definition sameRun2 {A} (x y : run (nst S Mat) A) : Prop :=
  match x, y with Done a s, Done b t => a = b /\ same2 s t | Threw e s, Threw e' t => e = e' /\ same s t | _, _ => False end.
Lemma residual_same u s t : n_L s = n_L t -> same s t -> 
  match computeResidual p u s, computeResidual p u t with
  | Done a s', Done b t' => a = b /\ same s' t' /\ n_rnorm s' = n_rnorm s /\ n_rnorm t' = n_rnorm t /\ n_ini s' = n_ini s /\ n_ini t' = n_ini t
  | Threw e s', Threw e' t' => e = e' /\ same s' t' | _, _ => False end.
Proof.
  intros L H. unfold computeResidual. cbn. rewrite L. destruct (np_res p (n_L t) u); repeat split; apply H.
Qed.
Lemma start_same s t : same s t -> sameRun2 (start_ p s) (start_ p t).
Proof.
  intros H. pose proof H as (H1 & H2 & H3 & H4 & H5 & H6). unfold start_. rewrite <- H6. destruct (n_head s).
  - rewrite <- H1, <- H2. pose proof (residual_same (n_U s +v n_DU s) s t H5 H) as Q.
    destruct (computeResidual p (n_U s +v n_DU s) s) as [r s1|e s1], (computeResidual p (n_U s +v n_DU s) t) as [r' t1|e' t1]; try contradiction; cbn [rbind].
    + destruct Q as (<- & Q & _). cbv zeta. assert (Q' : same (setRnorm (orOne (norm r)) (setR r s1)) (setRnorm (orOne (norm r)) (setR r t1))) by (repeat split; apply Q).
      set (s2 := setRnorm _ (setR r s1)) in *. set (t2 := setRnorm _ (setR r t1)) in *.
      assert (U : n_U s2 = n_U t2) by apply Q'. rewrite <- U. pose proof (residual_same (n_U s2) s2 t2 ltac:(apply Q') Q') as Q2.
      destruct (computeResidual p (n_U s2) s2) as [r0 s3|e s3], (computeResidual p (n_U s2) t2) as [r0' t3|e' t3]; try contradiction; cbn [rbind].
      * destruct Q2 as (<- & Q2 & R1 & R2 & _). split; [reflexivity|]. split; [repeat split; apply Q2|]. cbn. rewrite R1, R2. split; reflexivity.
      * exact Q2.
    + exact Q.
  - cbv zeta. assert (Q' : same (setDU v0 s) (setDU v0 t)) by (repeat split; apply H).
    change (n_U (setDU v0 s)) with (n_U s). change (n_U (setDU v0 t)) with (n_U t). rewrite <- H1.
    pose proof (residual_same (n_U s) (setDU v0 s) (setDU v0 t) H5 Q') as Q.
    destruct (computeResidual p (n_U s) (setDU v0 s)) as [r s1|e s1], (computeResidual p (n_U s) (setDU v0 t)) as [r' t1|e' t1]; try contradiction; cbn [rbind].
    + destruct Q as (<- & Q & _). split; [reflexivity|]. split; [repeat split; apply Q|]. split; reflexivity.
    + exact Q.
Qed.
Lemma iteration_same o s t : same2 s t -> sameRun2 (newtonIteration p o s) (newtonIteration p o t).
Proof.
  intros [H [Hr Hi]]. pose proof H as (H1 & H2 & H3 & H4 & H5 & H6). unfold newtonIteration, computeJacobian, factorize, solveSystem, computeResidual.
  rewrite <- H1, <- H2, <- H3. destruct (np_jac p (n_U s +v n_DU s) (n_dU s)) as [m| |]; cbn; try (split; [reflexivity|exact H]).
  destruct (np_factor p m); cbn; [|split; [reflexivity|exact H]]. rewrite <- H4. destruct (np_solve p m (n_R s)) as [x|]; cbn; [|split; [reflexivity|exact H]].
  rewrite <- H1, <- H2, <- H5. destruct (np_res p (n_L s) _); cbn; unfold same2, same; cbn; repeat split; congruence.
Qed.
Lemma loop_same o n : forall i s t, same2 s t -> sameRun (newtonLoop p o n i s) (newtonLoop p o n i t).
Proof.
  induction n as [|n IH]; intros i s t H; cbn [newtonLoop]; [split; [reflexivity|apply H]|].
  assert (H' : same2 (setIt i s) (setIt i t)) by exact H. pose proof (iteration_same o _ _ H') as Q.
  destruct (newtonIteration p o (setIt i s)) as [[] s1|e s1], (newtonIteration p o (setIt i t)) as [[] t1|e' t1]; try contradiction; cbn [rbind]; [|exact Q].
  destruct Q as (_ & Q). pose proof Q as [Q0 [Qr Qi]]. pose proof Q0 as (Q1 & Q2 & Q3 & Q4 & Q5 & Q6).
  assert (T : newtonTest o s1 = newtonTest o t1) by (unfold newtonTest; rewrite Q2, Q3, Qr, Qi; reflexivity). rewrite <- T.
  assert (B : same (setU (n_U s1 +v n_DU s1) s1) (setU (n_U t1 +v n_DU t1) t1)) by (repeat split; cbn; congruence).
  destruct (newtonTest o s1); [split; [reflexivity|exact B]|]. destruct n as [|n]; [split; [reflexivity|exact B]|]. apply IH, Q.
Qed.
Lemma solve_same o s t : same s t -> sameRun (newtonSolve p o s) (newtonSolve p o t).
Proof.
  intros H. unfold newtonSolve. assert (Q : sameRun (if np_nl p then solveNonlinear_ p o s else solveLinear_ p s) (if np_nl p then solveNonlinear_ p o t else solveLinear_ p t)).
  { destruct (np_nl p).
    - unfold solveNonlinear_. pose proof (start_same s t H) as Q. destruct (start_ p s) as [[] s1|e s1], (start_ p t) as [[] t1|e' t1]; try contradiction; cbn [rbind]; [|exact Q].
      apply loop_same, Q.
    - unfold solveLinear_, factorize, solveSystem. destruct (np_factor p (np_lin p)); cbn; [|split; [reflexivity|exact H]].
      destruct (np_solve p (np_lin p) (np_force p)); cbn; (split; [reflexivity|]); [|exact H]. repeat split; apply H. }
  destruct (if np_nl p then _ else _) as [[] s1|e s1], (if np_nl p then solveNonlinear_ p o t else _) as [[] t1|e' t1]; try contradiction; cbn [guarded].
  - split; [reflexivity|apply Q].
  - destruct Q as (<- & Q). destruct (catchStatus e); (split; [reflexivity|exact Q]).
Qed.
Lemma session_same l : forall s t, same s t -> nsession p l s = nsession p l t.
Proof.
  induction l as [|c l IH]; intros s t H; [reflexivity|]. cbn [nsession].
  assert (Q : fst (ncallDo p c s) = fst (ncallDo p c t) /\ same (snd (ncallDo p c s)) (snd (ncallDo p c t))).
  { destruct c; cbn; try (split; [reflexivity|repeat split; cbn; apply H]). pose proof (solve_same o s t H) as Q.
    destruct (newtonSolve p o s), (newtonSolve p o t); try contradiction; destruct Q as (<- & Q); (split; [reflexivity|exact Q]). }
  destruct (ncallDo p c s) as [a s1], (ncallDo p c t) as [b t1]. cbn in Q. destruct Q as (<- & Q). rewrite (IH s1 t1 Q).
  destruct Q as (-> & -> & _). reflexivity.
Qed.
End Same.
(** whatever happened before, after reset() the Newton solver holds zero displacement, update and load,
    and answers every later sequence of calls as a newly constructed one. *)
Theorem C88_newton_reset_partial {S : VS} {Mat} (p : nprob S Mat) (s : nst S Mat) :
  n_U (reset s) = v0 /\ n_DU (reset s) = v0 /\ n_L (reset s) = 0 /\ n_head (reset s) = false /\
  forall calls, nsession p calls (reset s) = nsession p calls newtonNew.
Proof. do 4 (split; [reflexivity|]). intros calls. apply session_same. repeat split. Qed.
Print Assumptions C88_newton_reset_partial.
Definition lin1 : nprob VS_R R := mkNProb VS_R R 1 (1 : VS_R) (fun _ u => Yes (1 - u : VS_R)) (fun _ _ => Yes 1) (fun _ => true) (fun _ (f : VS_R) => Some f) true.
Definition opt1 : nopts := mkNOpts (1/2) (-1) (-1) 3 1.
(** the old status survives reset(): converged() is true although nothing has been solved since *)
Theorem C88_status_refuted : exists s : nst VS_R R, newtonSolve lin1 opt1 newtonNew = Done Success s /\ n_U s = 1 /\
  n_U (reset s) = 0 /\ converged (reset s) = true /\ converged (newtonNew : nst VS_R R) = false.
Proof. eexists. split; [unfold lin1, opt1; sev|]. split; [rcbv; lra|]. split; [reflexivity|]. split; reflexivity. Qed.
Print Assumptions C88_status_refuted.
(** the composite solver keeps reporting the old solution after reset() *)
Theorem C88_composite_refuted : exists (x : list (iface VS_R (nst VS_R R) * nst VS_R R) * cst),
  compSolve [(newtonIface lin1 opt1, newtonNew)] (mkC v0 v0 0 NotStarted) = Done Success x /\ c_U (snd (compReset x)) = 1 /\
  forall f t, In (f, t) (fst (compReset x)) -> i_solution f t = 0.
Proof.
  eexists. split. { unfold compSolve, lin1, opt1. cbn [compLoop i_solve newtonIface]. match goal with |- context [newtonSolve ?a ?b ?c] => let r := fresh in evar (r : run (nst VS_R R) status); assert (E : newtonSolve a b c = r) by (subst r; sev); subst r; rewrite E end. reflexivity. }
  split; [rcbv; lra|]. intros f t [H|[]]. injection H as <- <-. reflexivity.
Qed.
Print Assumptions C88_composite_refuted.
(** gsControlDisplacement::setZero: the steps after it are those of a new object with a new solver *)
Section ControlZero.
Context {S : VS} {Mat : Type}.
Variable p : nprob S Mat.
Variable o : nopts.
Notation F := (newtonIface p o).
Fixpoint ctlSession (l : list R) (s : @dst S (nst S Mat)) : list (nans * vec S * R) :=
  match l with
  | [] => []
  | dl :: l => match ctlStep F dl s with
    | Done q s => (NStatus q, d_U s, d_L s) :: ctlSession l s
    | Threw e s => (NExc e, d_U s, d_L s) :: ctlSession l s end
  end.
Lemma ctl_same l : forall s t, same (d_solver s) (d_solver t) -> d_U s = d_U t -> d_L s = d_L t ->
  (d_first s = d_first t \/ n_U (d_solver s) = d_U s) -> ctlSession l s = ctlSession l t.
Proof.
  induction l as [|dl l IH]; intros s t H HU HL HF; [reflexivity|]. cbn [ctlSession]. unfold ctlStep. cbv zeta. cbn [i_solve i_setLoad i_setDisplacement i_update newtonIface].
  rewrite <- HL, <- HU.
  set (s0 := if d_first s then setLoad (d_L s + dl) (d_solver s) else setDisplacement (d_U s) (setLoad (d_L s + dl) (d_solver s))).
  set (t0 := if d_first t then setLoad (d_L s + dl) (d_solver t) else setDisplacement (d_U s) (setLoad (d_L s + dl) (d_solver t))).
  assert (Q0 : same s0 t0).
  { unfold s0, t0. destruct H as (H1 & H2 & H3 & H4 & H5 & H6). destruct HF as [HF|HF]; [rewrite <- HF; destruct (d_first s); repeat split; assumption|].
    destruct (d_first s), (d_first t); repeat split; cbn; congruence. }
  pose proof (solve_same p o s0 t0 Q0) as Q. destruct (newtonSolve p o s0) as [q s1|e s1], (newtonSolve p o t0) as [q' t1|e' t1]; try contradiction; destruct Q as (<- & Q).
  - assert (D : n_DU s1 = n_DU t1) by apply Q. rewrite <- D. destruct (status_eqb q Success); cbn; f_equal; apply IH; cbn; auto.
  - cbn. f_equal. apply IH; cbn; auto.
Qed.
Theorem C88_control_setZero_partial (s : @dst S (nst S Mat)) l :
  d_U (ctlSetZero F s) = v0 /\ d_L (ctlSetZero F s) = 0 /\ ctlSession l (ctlSetZero F s) = ctlSession l (ctlNew newtonNew).
Proof. split; [reflexivity|]. split; [reflexivity|]. apply ctl_same; [repeat split|reflexivity|reflexivity|right; reflexivity]. Qed.
End ControlZero.
Print Assumptions C88_control_setZero_partial.
(** gsControlDisplacement::reset, in contrast, does not go back to the start: load and displacement are those before *)
Theorem C88_control_reset_refuted : exists s, ctlStep (newtonIface lin1 opt1) 1 (ctlNew newtonNew) = Done Success s /\
  d_L (ctlReset (newtonIface lin1 opt1) s) = 1 /\ d_U (ctlReset (newtonIface lin1 opt1) s) = 1.
Proof.
  eexists. split.
  { unfold ctlStep, lin1, opt1; cbv zeta; cbn [i_solve newtonIface d_first d_L d_U d_solver d_stat ctlNew i_setLoad].
    match goal with |- context [newtonSolve ?a ?b ?c] => let r := fresh in evar (r : run (nst VS_R R) status); assert (E : newtonSolve a b c = r) by (subst r; sev); subst r; rewrite E end. reflexivity. }
  split; rcbv; lra.
Qed.
Print Assumptions C88_control_reset_refuted.

(** ** C89 *)
(** what Spectra's shift-and-invert solver selects: the eigenvalues x with the largest 1/(x - shift) *)
Definition selects (spec : list R) (shift : R) (l : list R) : Prop :=
  exists rest, Permutation spec (l ++ rest) /\ forall x y, In x l -> In y rest -> 1 / (y - shift) <= 1 / (x - shift).
Lemma fold_Rmin_spec l : forall x, In (fold_left Rmin l x) (x :: l) /\ forall y, In y (x :: l) -> fold_left Rmin l x <= y.
Proof.
  induction l as [|a l IH]; intros x; [cbn; intuition lra|]. cbn [fold_left]. destruct (IH (Rmin x a)) as [A B]. split.
  - destruct A as [A|A]; [|cbn; auto]. rewrite <- A. unfold Rmin. destruct (Rle_dec x a); cbn; auto.
  - pose proof (B (Rmin x a) (or_introl eq_refl)). pose proof (Rmin_l x a). pose proof (Rmin_r x a). intros y [<-|[<-|I]]; [lra|lra|apply B; cbn; auto].
Qed.
Lemma minCoeff_spec l x : minCoeff l = Some x -> In x l /\ forall y, In y l -> x <= y.
Proof. destruct l as [|a l]; [discriminate|]. intros H. injection H as <-. apply fold_Rmin_spec. Qed.
(** If the solver succeeds, the indicator is the smallest of the values computed for this matrix, and stabilityVec are these
    values; if moreover no eigenvalue lies below the shift, the indicator is the smallest eigenvalue of the matrix. *)
Theorem C89_indicator_partial {Mat} factor (eig : Mat -> R -> option (list R)) m shift s l :
  l <> [] -> (sb_method s = SEigenvalue /\ eig m shift = Some l \/ sb_method s = SDeterminant /\ sb_ldlt s = true /\ factor m = Some l) ->
  exists x s', indicator factor eig m shift s = Ok (x, s') /\ stabilityVec factor eig m shift s = Ok (l, s') /\ In x l /\ (forall y, In y l -> x <= y) /\
    forall spec, sb_method s = SEigenvalue -> selects spec shift l -> (forall y, In y spec -> shift < y) -> In x spec /\ forall y, In y spec -> x <= y.
Proof.
  intros N H. destruct (minCoeff l) as [x|] eqn:E; [|destruct l; [congruence|discriminate]].
  exists x, (mkStab (sb_method s) (sb_ldlt s) (Some x) l). destruct (minCoeff_spec l x E) as [A B].
  assert (C : stabCompute factor eig m shift s = Ok (mkStab (sb_method s) (sb_ldlt s) (Some x) l)).
  { unfold stabCompute, stabDet, stabEig. destruct H as [(H1 & H2)|(H1 & H2 & H3)]; rewrite H1.
    - rewrite H2. cbn. rewrite E. reflexivity.
    - rewrite H3, H2. cbn. rewrite E. reflexivity. }
  unfold indicator, stabilityVec. rewrite C. cbn [rbind sb_ind sb_vec]. do 2 (split; [reflexivity|]). split; [exact A|]. split; [exact B|].
  intros spec _ (rest & P & Q) G.
  assert (In x spec) by (apply (Permutation_in x (Permutation_sym P)), in_or_app; auto). split; [assumption|].
  intros y Hy. pose proof (G y Hy) as Gy. pose proof (G x H0) as Gx. apply (Permutation_in y P), in_app_or in Hy as [Hy|Hy]; [auto|].
  specialize (Q x y A Hy). apply Rnot_lt_le. intros Lt. assert (1 / (x - shift) < 1 / (y - shift)); [|lra].
  unfold Rdiv. rewrite !Rmult_1_l. apply Rinv_lt_contravar; [nra|lra].
Qed.
Print Assumptions C89_indicator_partial.
(** an eigenvalue below the shift is not seen: five unknowns, so one value is asked for (l.184); the matrix is unstable, the
    indicator positive, whatever eigenvalue solver follows the selection rule *)
Theorem C89_missed_refuted : exists spec, In (-1) spec /\
  forall (Mat : Type) factor (eig : Mat -> R -> option (list R)) m l s x s',
    eig m (- (1/100)) = Some l -> length l = 1%nat -> selects spec (- (1/100)) l -> sb_method s = SEigenvalue ->
    indicator factor eig m (- (1/100)) s = Ok (x, s') -> x = 1.
Proof.
  exists [-1; 1; 2; 3; 4]. split; [cbn; auto|]. intros Mat factor eig m l s x s' E L (rest & P & Q) M H.
  destruct l as [|a [|]]; try discriminate L. unfold indicator, stabCompute, stabEig in H. rewrite M, E in H. cbn in H. injection H as <- _.
  assert (Ia : In a [-1; 1; 2; 3; 4]) by (apply (Permutation_in a (Permutation_sym P)); cbn; auto).
  destruct (Req_dec a 1) as [->|Na]; [reflexivity|exfalso].
  assert (I1 : In 1 ([a] ++ rest)) by (apply (Permutation_in 1 P); cbn; auto). destruct I1 as [I1|I1]; [congruence|].
  specialize (Q a 1 ltac:(cbn; auto) I1). cbn in Ia. replace (1 / (1 - - (1 / 100))) with (100 / 101) in Q by field.
  destruct Ia as [<-|[<-|[<-|[<-|[<-|[]]]]]]; [|congruence| | |];
    match type of Q with _ <= 1 / ?d => assert (D : d <> 0) by lra; assert (K : 1 / d * d = 1) by (field; exact D); set (z := 1 / d) in *; lra end.
Qed.
Print Assumptions C89_missed_refuted.
(** a failed computation is not reported: the value of the matrix before is returned; and with the determinant method and a solver
    that is not SimplicialLDLT (the default of gsStaticNewton) there is nothing to return *)
Theorem C89_stale_refuted :
  (exists (factor : bool -> option (list R)) eig s s', indicator factor eig true 0 (mkStab SEigenvalue false None []) = Ok (5, s) /\
     eig false 0 = None /\ indicator factor eig false 0 s = Ok (5, s')) /\
  (forall Mat factor eig (m : Mat) shift d, factor m = Some d -> indicator factor eig m shift (mkStab SDeterminant false None []) = Fail EUndef).
Proof.
  split.
  - exists (fun _ => None), (fun (b : bool) (_ : R) => if b then Some [7; 5] else None). do 2 eexists. unfold indicator, stabCompute, stabEig. cbn.
    rewrite Rmin_right by lra. split; [reflexivity|]. split; reflexivity.
  - intros. unfold indicator, stabCompute, stabDet. cbn. rewrite H. reflexivity.
Qed.
Print Assumptions C89_stale_refuted.
Example C89_example : selects [2; -1; 3] (-2) [-1] /\ forall y, In y [2; -1; 3] -> -2 < y.
Proof.
  split.
  - exists [2; 3]. split; [apply perm_swap|]. intros x y [<-|[]] [<-|[<-|[]]]; lra.
  - intros y [<-|[<-|[<-|[]]]]; lra.
Qed.
