(** Properties of the time integrators: C55. *)
From Verif Require Import VS Status RunTac Static StaticRun Dynamic DynRun Props_Dynamic.
Local Open Scope R_scope.

(** ** C55: the clock *)
(** what a call of step(dt) that is over did to clock, status and vectors: refused by the
    callback, carried out, or left by an exception *)
Theorem C55_step_partial {S : VS} (stepf : R -> R -> xst S -> run (xst S) sans) cb dt s :
  match dynStep stepf cb dt s with
  | Done q s' =>
      b_stat s' = q /\
      (cb = Some No /\ q = OtherError /\ b_time s' = b_time s /\ b_x s' = b_x s \/
       cb <> Some No /\ b_time s' = b_time s + dt /\
         exists a, stepf (b_time s) dt (b_x s) = Done a (b_x s') /\ (a = Fin q \/ a = NonFin q))
  | Threw e s' => b_time s' = b_time s /\ b_stat s' = b_stat s
  end.
Proof.
  unfold dynStep. destruct cb as [[[]| |e]|]; cbn; auto 10.
  - destruct (b_bad s); [auto|]. destruct (stepf _ _ _) as [[q|q] x|e x]; cbn; [| |auto]; (split; [reflexivity|right; split; [discriminate|split; [reflexivity|eauto]]]).
  - destruct (b_bad s); [auto|]. destruct (stepf _ _ _) as [[q|q] x|e x]; cbn; [| |auto]; (split; [reflexivity|right; split; [discriminate|split; [reflexivity|eauto]]]).
Qed.
Print Assumptions C55_step_partial.
(** a history of calls; [dcCatch]: the caller goes on after exceptions *)
Inductive dcall (S : VS) := DStep (cb : option (ans unit)) (dt : R) | DConst (t dt : R) (u v a : S) | DSet (u v a : S).
Arguments DStep {S}. Arguments DConst {S}. Arguments DSet {S}.
Definition dcRun {S : VS} (stepf : R -> R -> xst S -> run (xst S) sans) (c : dcall S) (s : bst S) : bst S :=
  match c with
  | DStep cb dt => stateOf (dynStep stepf cb dt s)
  | DConst t dt u v a => snd (dynConst stepf t dt u v a s)
  | DSet u v a => setSol u v a s
  end.
Fixpoint dcRuns {S : VS} (stepf : R -> R -> xst S -> run (xst S) sans) (l : list (dcall S)) (s : bst S) : bst S :=
  match l with [] => s | c :: l => dcRuns stepf l (dcRun stepf c s) end.
(** [Clock l s x]: x is the sum of the increments of those step calls of the history l, begun in s,
    that were neither refused by the callback nor left by an exception *)
Inductive Clock {S : VS} (stepf : R -> R -> xst S -> run (xst S) sans) : list (dcall S) -> bst S -> R -> Prop :=
| CkNil s : Clock stepf [] s 0
| CkStep cb dt l s q s1 x : dynStep stepf cb dt s = Done q s1 -> cb <> Some No -> Clock stepf l s1 x -> Clock stepf (DStep cb dt :: l) s (dt + x)
| CkRefused dt l s q s1 x : dynStep stepf (Some No) dt s = Done q s1 -> Clock stepf l s1 x -> Clock stepf (DStep (Some No) dt :: l) s x
| CkThrew cb dt l s e s1 x : dynStep stepf cb dt s = Threw e s1 -> Clock stepf l s1 x -> Clock stepf (DStep cb dt :: l) s x
| CkConst t dt u v a l s x : Clock stepf l (snd (dynConst stepf t dt u v a s)) x -> Clock stepf (DConst t dt u v a :: l) s x
| CkSet u v a l s x : Clock stepf l (setSol u v a s) x -> Clock stepf (DSet u v a :: l) s x.
Theorem C55_history {S : VS} (stepf : R -> R -> xst S -> run (xst S) sans) l s x :
  Clock stepf l s x -> b_time (dcRuns stepf l s) = b_time s + x.
Proof.
  induction 1 as [s|cb dt l s q s1 x E H _ IH|dt l s q s1 x E _ IH|cb dt l s e s1 x E _ IH|t dt u v a l s x _ IH|u v a l s x _ IH]; cbn [dcRuns dcRun].
  - ring.
  - pose proof (C55_step_partial stepf cb dt s) as P. rewrite E in P |- *. cbn [stateOf]. rewrite IH.
    destruct P as (_ & [(A & _)|(_ & A & _)]); [contradiction|]. rewrite A. ring.
  - pose proof (C55_step_partial stepf (Some No) dt s) as P. rewrite E in P |- *. cbn [stateOf]. rewrite IH.
    destruct P as (_ & [(_ & _ & A & _)|(A & _)]); [|contradiction]. rewrite A. ring.
  - pose proof (C55_step_partial stepf cb dt s) as P. rewrite E in P |- *. cbn [stateOf]. rewrite IH. destruct P as [A _]. rewrite A. ring.
  - rewrite IH. cbn. ring.
  - rewrite IH. cbn. ring.
Qed.
(** every history has such a sum *)
Lemma clock_total {S : VS} (stepf : R -> R -> xst S -> run (xst S) sans) l : forall s, exists x, Clock stepf l s x.
Proof.
  induction l as [|[cb dt|t dt u v a|u v a] l IH]; intros s.
  - exists 0. constructor.
  - destruct (dynStep stepf cb dt s) as [q s1|e s1] eqn:E; destruct (IH s1) as [x H].
    + assert (D : cb = Some No \/ cb <> Some No) by (destruct cb as [[| |]|]; auto; right; discriminate).
      destruct D as [->|D]; [exists x; eapply CkRefused|exists (dt + x); eapply CkStep]; eassumption.
    + exists x. eapply CkThrew; eassumption.
  - destruct (IH (snd (dynConst stepf t dt u v a s))) as [x H]. exists x. constructor. exact H.
  - destruct (IH (setSol u v a s)) as [x H]. exists x. constructor. exact H.
Qed.
Print Assumptions C55_history.
(** The const step leaves vectors, time and status of the object alone. *)
Theorem C55_const {S : VS} (stepf : R -> R -> xst S -> run (xst S) sans) t dt u v a s :
  let s' := snd (dynConst stepf t dt u v a s) in
  x_U (b_x s') = x_U (b_x s) /\ x_V (b_x s') = x_V (b_x s) /\ x_A (b_x s') = x_A (b_x s) /\ b_time s' = b_time s /\ b_stat s' = b_stat s.
Proof. cbn. auto. Qed.

(** ** The stored inverse of the mass cannot be noticed *)
(** the ten step functions *)
Inductive Integrator {S : VS} (p : dprob S) (o : dopts) : (R -> R -> xst S -> run (xst S) sans) -> Prop :=
| INewmark : Integrator p o (newmark p o) | INewmarkNL : Integrator p o (newmarkNL p o)
| IBathe : Integrator p o (bathe p o) | IBatheNL : Integrator p o (batheNL p o)
| IWilson : Integrator p o (wilson p o) | IWilsonNL : Integrator p o (wilsonNL p o)
| IExplicit : Integrator p o (explicitEuler p) | IExplicitNL : Integrator p o (explicitEulerNL p)
| IImplicit : Integrator p o (implicitEuler p) | IImplicitNL : Integrator p o (implicitEulerNL p o)
| IRk4 : Integrator p o (rk4 p) | IRk4NL : Integrator p o (rk4NL p).
(** the same outcome with another stored inverse *)
Definition withInv {S : VS} {A} (c : option (S -> S)) (r : run (xst S) A) : run (xst S) A :=
  match r with Done a s => Done a (xInv c s) | Threw e s => Threw e (xInv c s) end.
Definition Blind {S : VS} (f : R -> R -> xst S -> run (xst S) sans) : Prop := forall t dt c s, f t dt (xInv c s) = withInv c (f t dt s).
Ltac bl := repeat (cbn [ask rbind withInv xU xV xA xInv x_U x_V x_A x_inv]; first
  [ reflexivity
  | match goal with
    | |- context [ask ?a _] => destruct a eqn:?
    | |- context [match dp_solve ?p ?m ?b with _ => _ end] => destruct (dp_solve p m b)
    | |- context [match dp_gmres ?p ?m ?b with _ => _ end] => destruct (dp_gmres p m b)
    | |- context [if ?c then _ else _] => destruct c
    end ]).
Lemma blind_newmark {S : VS} (p : dprob S) o : Blind (newmark p o).
Proof. intros t dt c s. unfold newmark. cbv zeta. bl. Qed.
Lemma blind_newmarkLoop {S : VS} (p : dprob S) o t dt M r0 n : forall i C K b c s,
  newmarkLoop p o t dt M r0 n i C K b (xInv c s) = withInv c (newmarkLoop p o t dt M r0 n i C K b s).
Proof.
  induction n as [|n IH]; intros; cbn [newmarkLoop]; [reflexivity|]. cbv zeta.
  destruct (badMod o i); [reflexivity|].
  destruct (renew o i).
  - change (x_U (xInv c s)) with (x_U s). destruct (dp_damp p _ _); cbn [ask rbind]; [|reflexivity|reflexivity].
    change (x_U (xInv c s)) with (x_U s). destruct (dp_jac p _ _); cbn [ask rbind]; [|reflexivity|reflexivity].
    destruct (dp_solve p _ _) as [dA|]; [|reflexivity].
    change (x_U (xInv c s)) with (x_U s). change (x_V (xInv c s)) with (x_V s). change (x_A (xInv c s)) with (x_A s).
    destruct (dp_res p _ _); cbn [ask rbind]; [|reflexivity|reflexivity].
    destruct (_ && _); [reflexivity|]. rewrite <- IH. reflexivity.
  - cbn [rbind].
    destruct (dp_solve p _ _) as [dA|]; [|reflexivity].
    change (x_U (xInv c s)) with (x_U s). change (x_V (xInv c s)) with (x_V s). change (x_A (xInv c s)) with (x_A s).
    destruct (dp_res p _ _); cbn [ask rbind]; [|reflexivity|reflexivity].
    destruct (_ && _); [reflexivity|]. rewrite <- IH. reflexivity.
Qed.
Lemma blind_newmarkNL {S : VS} (p : dprob S) o : Blind (newmarkNL p o).
Proof.
  intros t dt c s. unfold newmarkNL. cbv zeta. cbn [x_U x_V x_A xInv].
  repeat (match goal with |- context [ask ?a _] => destruct a end; cbn [ask rbind]; [|reflexivity|reflexivity]).
  rewrite <- blind_newmarkLoop. reflexivity.
Qed.
Lemma withInv_inv {S : VS} {A} c (r : run (xst S) A) : x_inv (stateOf (withInv c r)) = c.
Proof. destruct r; reflexivity. Qed.
Lemma blind_same {S : VS} f t dt (s : xst S) : Blind f -> x_inv (stateOf (f t dt s)) = x_inv s.
Proof. intros B. assert (E : xInv (x_inv s) s = s) by (destruct s; reflexivity). rewrite <- E at 1. rewrite B. apply withInv_inv. Qed.
Lemma blind_bathe {S : VS} (p : dprob S) o : Blind (bathe p o).
Proof.
  intros t dt c s. unfold bathe. cbv zeta. rewrite blind_newmark. pose proof (blind_same _ t (do_gamma o * dt) s (blind_newmark p o)) as I.
  destruct (newmark p o t (do_gamma o * dt) s) as [r s1|e s1]; cbn [withInv stateOf] in *; [|reflexivity].
  cbn [x_U x_V x_A x_inv xInv].
  repeat (match goal with |- context [ask ?a _] => destruct a end; cbn [ask rbind]; [|reflexivity|reflexivity]).
  destruct r, (batheBad o dt); try reflexivity; destruct (dp_solve p _ _); reflexivity.
Qed.
Lemma blind_batheLoop {S : VS} (p : dprob S) o t dt M U V U1 V1 r0 n : forall i C K b c s,
  batheLoop p o t dt M U V U1 V1 r0 n i C K b (xInv c s) = withInv c (batheLoop p o t dt M U V U1 V1 r0 n i C K b s).
Proof.
  induction n as [|n IH]; intros; cbn [batheLoop]; cbv zeta; [reflexivity|].
  destruct (badMod o i); [reflexivity|].
  destruct (renew o i).
  - change (x_U (xInv c s)) with (x_U s). destruct (dp_damp p _ _); cbn [ask rbind]; [|reflexivity|reflexivity].
    change (x_U (xInv c s)) with (x_U s). destruct (dp_jac p _ _); cbn [ask rbind]; [|reflexivity|reflexivity].
    destruct (dp_solve p _ _) as [dA|]; [|reflexivity].
    change (x_U (xInv c s)) with (x_U s).
    destruct (dp_res p _ _); cbn [ask rbind]; [|reflexivity|reflexivity].
    destruct (_ && _); [reflexivity|]. rewrite <- IH. reflexivity.
  - cbn [rbind].
    destruct (dp_solve p _ _) as [dA|]; [|reflexivity].
    change (x_U (xInv c s)) with (x_U s).
    destruct (dp_res p _ _); cbn [ask rbind]; [|reflexivity|reflexivity].
    destruct (_ && _); [reflexivity|]. rewrite <- IH. reflexivity.
Qed.
Lemma blind_batheNL {S : VS} (p : dprob S) o : Blind (batheNL p o).
Proof.
  intros t dt c s. unfold batheNL. cbv zeta. rewrite blind_newmarkNL.
  destruct (newmarkNL p o t (do_gamma o * dt) s) as [r s1|e s1]; cbn [withInv stateOf] in *; [|reflexivity].
  cbn [x_U x_V x_A x_inv xInv].
  repeat (match goal with |- context [ask ?a _] => destruct a end; cbn [ask rbind]; [|reflexivity|reflexivity]).
  destruct r, (batheBad o dt); try reflexivity. rewrite <- blind_batheLoop. reflexivity.
Qed.
Lemma blind_wilson {S : VS} (p : dprob S) o : Blind (wilson p o).
Proof.
  intros t dt c s. unfold wilson. rewrite blind_newmark.
  destruct (newmark p o t (do_gamma o * dt) s) as [r s1|e s1]; cbn [withInv]; [|reflexivity]. destruct r, (Reqb (do_gamma o) 0); reflexivity.
Qed.
Lemma blind_wilsonNL {S : VS} (p : dprob S) o : Blind (wilsonNL p o).
Proof.
  intros t dt c s. unfold wilsonNL. rewrite blind_newmarkNL.
  destruct (newmarkNL p o t (do_gamma o * dt) s) as [r s1|e s1]; cbn [withInv]; [|reflexivity]. destruct r, (Reqb (do_gamma o) 0); reflexivity.
Qed.
Lemma blind_implicit {S : VS} (p : dprob S) : Blind (implicitEuler p).
Proof.
  intros t dt c s. unfold implicitEuler. cbv zeta. cbn [x_U x_V xInv].
  repeat (match goal with |- context [ask ?a _] => destruct a end; cbn [ask rbind]; [|reflexivity|reflexivity]).
  destruct (dp_gmres p _ _); reflexivity.
Qed.
Lemma blind_implicitLoop {S : VS} (p : dprob S) o t dt M U V r0 n : forall i C K b c s,
  implicitLoop p o t dt M U V r0 n i C K b (xInv c s) = withInv c (implicitLoop p o t dt M U V r0 n i C K b s).
Proof.
  induction n as [|n IH]; intros; cbn [implicitLoop]; [reflexivity|]. cbv zeta.
  destruct (badMod o i); [reflexivity|].
  destruct (renew o i).
  - change (x_U (xInv c s)) with (x_U s). destruct (dp_damp p _ _); cbn [ask rbind]; [|reflexivity|reflexivity].
    change (x_U (xInv c s)) with (x_U s). destruct (dp_jac p _ _); cbn [ask rbind]; [|reflexivity|reflexivity].
    change (x_U (xInv c s)) with (x_U s). change (x_V (xInv c s)) with (x_V s).
    destruct (dp_gmres p _ _) as [d|]; [|reflexivity].
    destruct (dp_res p _ _); cbn [ask rbind]; [|reflexivity|reflexivity].
    destruct (_ && _); [reflexivity|]. rewrite <- IH. reflexivity.
  - cbn [rbind]. change (x_U (xInv c s)) with (x_U s). change (x_V (xInv c s)) with (x_V s).
    destruct (dp_gmres p _ _) as [d|]; [|reflexivity].
    destruct (dp_res p _ _); cbn [ask rbind]; [|reflexivity|reflexivity].
    destruct (_ && _); [reflexivity|]. rewrite <- IH. reflexivity.
Qed.
Lemma blind_implicitNL {S : VS} (p : dprob S) o : Blind (implicitEulerNL p o).
Proof.
  intros t dt c s. unfold implicitEulerNL. cbv zeta. cbn [x_U x_V xInv].
  repeat (match goal with |- context [ask ?a _] => destruct a end; cbn [ask rbind]; [|reflexivity|reflexivity]).
  rewrite <- blind_implicitLoop. reflexivity.
Qed.
(** the stored inverse is absent or the inverse of the mass *)
Definition cacheOK {S : VS} (p : dprob S) (s : xst S) : Prop :=
  dp_const p = true -> x_inv s = None \/ forall t M, dp_mass p t = Yes M -> x_inv s = dp_inv p M.
(** m_mass set: the mass callback gives the same matrix at all times (or always fails) *)
Definition massConst {S : VS} (p : dprob S) : Prop := dp_const p = true -> forall t1 t2, dp_mass p t1 = dp_mass p t2.
Lemma cache_step {S : VS} (p : dprob S) o f t dt s : Integrator p o f -> massConst p -> cacheOK p s ->
  cacheOK p (stateOf (f t dt s)) /\ withInv None (f t dt s) = withInv None (f t dt (xInv None s)).
Proof.
  intros I MC OK.
  assert (BL : Blind f -> cacheOK p (stateOf (f t dt s)) /\ withInv None (f t dt s) = withInv None (f t dt (xInv None s))).
  { intros B. split; [unfold cacheOK; rewrite (blind_same _ _ _ _ B); exact OK|]. rewrite B. destruct (f t dt s); reflexivity. }
  assert (MI : forall t M, dp_mass p t = Yes M -> exists c c', massInverse p M s = Done (dp_inv p M) (xInv c s) /\ massInverse p M (xInv None s) = Done (dp_inv p M) (xInv c' s) /\
    cacheOK p (xInv c s)).
  { intros t1 M HM. unfold massInverse. cbn [x_inv xInv].
    assert (EI : xInv (x_inv s) s = s) by (destruct s; reflexivity).
    assert (K : forall c, dp_const p = true -> c = dp_inv p M -> forall t M, dp_mass p t = Yes M -> c = dp_inv p M).
    { intros c HC -> t2 M2 E2. rewrite (MC HC t2 t1), HM in E2. injection E2 as <-. reflexivity. }
    destruct (dp_const p) eqn:EC.
    - destruct (OK EC) as [N|Y].
      + rewrite N. destruct (dp_inv p M) as [i|] eqn:EV.
        * exists (Some i), (Some i). split; [reflexivity|]. split; [reflexivity|]. intros _. right. cbn [x_inv xInv]. apply K; congruence.
        * exists None, None. split; [rewrite <- N, EI; reflexivity|]. split; [reflexivity|]. intros _. left. reflexivity.
      + specialize (Y t1 M HM). destruct (x_inv s) as [i|] eqn:EX.
        * exists (Some i), (Some i). rewrite <- Y. assert (EI2 : xInv (Some i) s = s) by exact EI. rewrite EI2. split; [reflexivity|]. split; [rewrite <- EI2; reflexivity|]. rewrite <- EI2. intros _. right. cbn [x_inv xInv]. apply K; congruence.
        * exists None, None. rewrite <- Y. assert (EI2 : xInv None s = s) by exact EI. split; [rewrite EI2; reflexivity|]. split; [reflexivity|]. intros _. left. reflexivity.
    - destruct (dp_inv p M) as [i|].
      + exists (Some i), (Some i). split; [reflexivity|]. split; [reflexivity|]. intros A. congruence.
      + exists (x_inv s), None. split; [rewrite EI; reflexivity|]. split; [reflexivity|]. intros A. congruence. }
  assert (CK : forall c u v a, cacheOK p (xInv c s) -> cacheOK p (xInv c (mkX u v a None))). { intros c u v a H HC. exact (H HC). }
  destruct I.
  - apply BL, blind_newmark. - apply BL, blind_newmarkNL. - apply BL, blind_bathe. - apply BL, blind_batheNL. - apply BL, blind_wilson. - apply BL, blind_wilsonNL.
  - unfold explicitEuler. cbv zeta. destruct (dp_mass p t) as [M| |] eqn:EM; cbn [ask rbind stateOf withInv]; [|auto|auto].
    destruct (MI t M EM) as (c & c' & E1 & E2 & OK'). rewrite E1, E2. cbn [rbind x_U x_V xInv].
    repeat (match goal with |- context [ask ?a _] => destruct a end; cbn [ask rbind stateOf withInv]; [|split; [exact OK'|reflexivity]|split; [exact OK'|reflexivity]]).
    destruct (dp_inv p M); cbn [stateOf withInv]; (split; [exact OK'|reflexivity]).
  - unfold explicitEulerNL. cbv zeta. destruct (dp_mass p t) as [M| |] eqn:EM; cbn [ask rbind stateOf withInv]; [|auto|auto].
    destruct (MI t M EM) as (c & c' & E1 & E2 & OK'). rewrite E1, E2. cbn [rbind x_U x_V xInv].
    repeat (match goal with |- context [ask ?a _] => destruct a end; cbn [ask rbind stateOf withInv]; [|split; [exact OK'|reflexivity]|split; [exact OK'|reflexivity]]).
    destruct (dp_inv p M); cbn [stateOf withInv]; (split; [exact OK'|reflexivity]).
  - apply BL, blind_implicit. - apply BL, blind_implicitNL.
  - unfold rk4. cbv zeta. destruct (dp_mass p t) as [M| |] eqn:EM; cbn [ask rbind stateOf withInv]; [|auto|auto].
    destruct (MI t M EM) as (c & c' & E1 & E2 & OK'). rewrite E1, E2. cbn [rbind x_U x_V xInv].
    repeat (match goal with |- context [ask ?a _] => destruct a end; cbn [ask rbind stateOf withInv]; [|split; [exact OK'|reflexivity]|split; [exact OK'|reflexivity]]).
    destruct (dp_inv p M); cbn [stateOf withInv]; (split; [exact OK'|reflexivity]).
  - unfold rk4NL. cbv zeta. destruct (dp_mass p t) as [M| |] eqn:EM; cbn [ask rbind stateOf withInv]; [|auto|auto].
    destruct (MI t M EM) as (c & c' & E1 & E2 & OK'). rewrite E1, E2. cbn [rbind x_U x_V xInv].
    repeat (match goal with |- context [ask ?a _] => destruct a end; cbn [ask rbind stateOf withInv]; [|split; [exact OK'|reflexivity]|split; [exact OK'|reflexivity]]).
    destruct (dp_inv p M); cbn [stateOf withInv]; [|split; [exact OK'|reflexivity]].
    repeat (match goal with |- context [ask ?a _] => destruct a end; cbn [ask rbind stateOf withInv]; [|split; [exact OK'|reflexivity]|split; [exact OK'|reflexivity]]).
    split; [exact OK'|reflexivity].
Qed.
(** what a caller can see of an object, and of the answer of a call *)
Definition seen {S : VS} (s : bst S) : S * S * S * R * status * bool := (x_U (b_x s), x_V (b_x s), x_A (b_x s), b_time s, b_stat s, b_bad s).
Inductive dans (S : VS) := AStep (r : status + exc) | AConst (r : run (S * S * S) sans) | ASet.
Arguments AStep {S}. Arguments AConst {S}. Arguments ASet {S}.
Definition visible {S : VS} (r : run (xst S) sans) : run (S * S * S) sans :=
  match r with Done a s => Done a (x_U s, x_V s, x_A s) | Threw e s => Threw e (x_U s, x_V s, x_A s) end.
Definition dcAns {S : VS} (stepf : R -> R -> xst S -> run (xst S) sans) (c : dcall S) (s : bst S) : dans S :=
  match c with
  | DStep cb dt => AStep (match dynStep stepf cb dt s with Done q _ => inl q | Threw e _ => inr e end)
  | DConst t dt u v a => AConst (visible (fst (dynConst stepf t dt u v a s)))
  | DSet u v a => ASet
  end.
(** the inverse is thrown away *)
Definition forget {S : VS} (s : bst S) : bst S := mkB (xInv None (b_x s)) (b_time s) (b_stat s) (b_bad s).
Lemma visible_with {S : VS} c (r : run (xst S) sans) : visible (withInv c r) = visible r.
Proof. destruct r; reflexivity. Qed.
(** After every history of calls on a new object the next call answers, and leaves the object, as if
    the inverse of the mass were computed anew: in particular a const step has no influence on
    later steps. *)
Theorem C55_cache {S : VS} (p : dprob S) o f u v a l c :
  Integrator p o f -> massConst p ->
  let s := dcRuns f l (dynNew u v a) in
  dcAns f c s = dcAns f c (forget s) /\ seen (dcRun f c s) = seen (dcRun f c (forget s)).
Proof.
  intros I MC.
  assert (ST : forall c s, cacheOK p (b_x s) -> cacheOK p (b_x (dcRun f c s)) /\ dcAns f c s = dcAns f c (forget s) /\ seen (dcRun f c s) = seen (dcRun f c (forget s))).
  { clear c. intros c s OK. destruct c as [cb dt|t dt u1 v1 a1|u1 v1 a1]; cbn [dcRun dcAns].
    - unfold dynStep. destruct cb as [[[]| |e]|]; cbn [stateOf]; try (split; [exact OK|split; reflexivity]);
        cbn [forget b_bad b_time b_x]; destruct (b_bad s); cbn [stateOf]; try (split; [exact OK|split; reflexivity]);
        destruct (cache_step p o f (b_time s) dt (b_x s) I MC OK) as [OK' E];
        destruct (f (b_time s) dt (b_x s)) as [[q|q] x|e x]; destruct (f (b_time s) dt (xInv None (b_x s))) as [[q'|q'] x'|e' x']; cbn [withInv stateOf b_x] in *; try discriminate;
        injection E; intros; subst; (split; [exact OK'|]); unfold seen; cbn; split; congruence.
    - unfold dynConst. cbn [fst snd]. change (x_inv (b_x (forget s))) with (@None (S -> S)).
      assert (OK1 : cacheOK p (mkX u1 v1 a1 (x_inv (b_x s)))) by (intros HC; exact (OK HC)).
      destruct (cache_step p o f t dt _ I MC OK1) as [OK' E]. split; [intros HC; exact (OK' HC)|].
      split; [|reflexivity]. f_equal. rewrite <- (visible_with None), E. cbn [xInv x_U x_V x_A]. apply visible_with.
    - split; [exact OK|]. split; reflexivity. }
  assert (RE : forall l s, cacheOK p (b_x s) -> cacheOK p (b_x (dcRuns f l s))).
  { clear -ST. induction l as [|c l IH]; intros s OK; cbn [dcRuns]; [exact OK|]. apply IH. apply ST. exact OK. }
  cbv zeta. apply ST. apply RE. intros _. left. reflexivity.
Qed.
Print Assumptions C55_cache.
Lemma osc_massConst m c k f : massConst (osc m c k f).
Proof. intros _ t1 t2. reflexivity. Qed.
(** a step, a refused one, a const step and another step; the inverse of the mass is stored *)
Example C55_example :
  let f := explicitEuler (osc 2 0 4 (fun _ => 0)) in
  let s := dcRuns f [DStep None (1/2); DStep (Some No) 1; DConst 0 1 (1 : VS_R) (0 : VS_R) (0 : VS_R); DStep (Some (Yes tt)) 1] (dynNew (S := VS_R) 1 0 0) in
  b_time s = 3/2 /\ x_U (b_x s) = 0 /\ x_V (b_x s) = -3 /\ exists i, x_inv (b_x s) = Some i /\ i 1 = 1/2.
Proof.
  assert (E : Reqb (2 * 1) 0 = false) by (apply Reqb_false; lra).
  cbn. unfold massInverse. cbn. rewrite !E. cbn. repeat split; try lra. eexists. split; [reflexivity|]. lra.
Qed.

(** ** C55: steps that fail *)
(** the integrators that write the vectors only at the end *)
Inductive LateWrite {S : VS} (p : dprob S) (o : dopts) : (R -> R -> xst S -> run (xst S) sans) -> Prop :=
| LBathe : LateWrite p o (bathe p o) | LWilson : LateWrite p o (wilson p o) | LWilsonNL : LateWrite p o (wilsonNL p o)
| LExplicit : LateWrite p o (explicitEuler p) | LExplicitNL : LateWrite p o (explicitEulerNL p)
| LImplicit : LateWrite p o (implicitEuler p) | LRk4 : LateWrite p o (rk4 p) | LRk4NL : LateWrite p o (rk4NL p).
(** For these, a step left by an exception (a failing callback) leaves displacement, velocity,
    acceleration, time and status as they were. *)
Theorem C55_exception_partial {S : VS} (p : dprob S) o f cb dt s e s' :
  LateWrite p o f -> b_bad s = false -> dynStep f cb dt s = Threw e s' -> seen s' = seen s.
Proof.
  intros L NB H. unfold dynStep in H. rewrite NB in H.
  assert (X : forall e x, f (b_time s) dt (b_x s) = Threw e x -> x_U x = x_U (b_x s) /\ x_V x = x_V (b_x s) /\ x_A x = x_A (b_x s)).
  { clear H. intros e1 x H.
    assert (MI : forall M, exists c, massInverse p M (b_x s) = Done (fst (match massInverse p M (b_x s) with Done a s => (a, s) | Threw _ s => (None, s) end)) (xInv c (b_x s))).
    { intros M. unfold massInverse. assert (EI : xInv (x_inv (b_x s)) (b_x s) = b_x s) by (destruct (b_x s); reflexivity).
      destruct (dp_const p); [destruct (x_inv (b_x s)) as [i|] eqn:EX|].
      - exists (Some i). cbn [fst]. rewrite EI. reflexivity.
      - destruct (dp_inv p M) as [i|]; [exists (Some i)|exists None; cbn [fst]; rewrite EI]; reflexivity.
      - destruct (dp_inv p M) as [i|]; [exists (Some i)|exists (x_inv (b_x s)); cbn [fst]; rewrite EI]; reflexivity. }
    destruct L.
    - unfold bathe in H. cbv zeta in H. destruct (newmark _ _ _ _ _) as [r s1|e2 s1]; [|injection H as <- <-; cbn; auto].
      repeat (match type of H with context [ask ?a _] => destruct a end; cbn [ask rbind] in H; [|injection H as <- <-; cbn; auto|injection H as <- <-; cbn; auto]).
      destruct r, (batheBad o dt); try discriminate; destruct (dp_solve p _ _); discriminate.
    - unfold wilson in H. destruct (newmark _ _ _ _ _) as [r s1|e2 s1]; [|injection H as <- <-; cbn; auto]. destruct r, (Reqb (do_gamma o) 0); discriminate.
    - unfold wilsonNL in H. destruct (newmarkNL _ _ _ _ _) as [r s1|e2 s1]; [|injection H as <- <-; cbn; auto]. destruct r, (Reqb (do_gamma o) 0); discriminate.
    - unfold explicitEuler in H. cbv zeta in H. destruct (dp_mass p _) as [M| |]; cbn [ask rbind] in H; [|injection H as <- <-; auto|injection H as <- <-; auto].
      destruct (MI M) as [c EM]. rewrite EM in H. cbn [rbind] in H.
      repeat (match type of H with context [ask ?a _] => destruct a end; cbn [ask rbind] in H; [|injection H as <- <-; cbn; auto|injection H as <- <-; cbn; auto]).
      destruct (fst _); discriminate.
    - unfold explicitEulerNL in H. cbv zeta in H. destruct (dp_mass p _) as [M| |]; cbn [ask rbind] in H; [|injection H as <- <-; auto|injection H as <- <-; auto].
      destruct (MI M) as [c EM]. rewrite EM in H. cbn [rbind] in H.
      repeat (match type of H with context [ask ?a _] => destruct a end; cbn [ask rbind] in H; [|injection H as <- <-; cbn; auto|injection H as <- <-; cbn; auto]).
      destruct (fst _); discriminate.
    - unfold implicitEuler in H. cbv zeta in H.
      repeat (match type of H with context [ask ?a _] => destruct a end; cbn [ask rbind] in H; [|injection H as <- <-; cbn; auto|injection H as <- <-; cbn; auto]).
      destruct (dp_gmres p _ _); discriminate.
    - unfold rk4 in H. cbv zeta in H. destruct (dp_mass p _) as [M| |]; cbn [ask rbind] in H; [|injection H as <- <-; auto|injection H as <- <-; auto].
      destruct (MI M) as [c EM]. rewrite EM in H. cbn [rbind] in H.
      repeat (match type of H with context [ask ?a _] => destruct a end; cbn [ask rbind] in H; [|injection H as <- <-; cbn; auto|injection H as <- <-; cbn; auto]).
      destruct (fst _); discriminate.
    - unfold rk4NL in H. cbv zeta in H. destruct (dp_mass p _) as [M| |]; cbn [ask rbind] in H; [|injection H as <- <-; auto|injection H as <- <-; auto].
      destruct (MI M) as [c EM]. rewrite EM in H. cbn [rbind] in H.
      repeat (match type of H with context [ask ?a _] => destruct a end; cbn [ask rbind] in H; [|injection H as <- <-; cbn; auto|injection H as <- <-; cbn; auto]).
      destruct (fst _); [|discriminate].
      repeat (match type of H with context [ask ?a _] => destruct a end; cbn [ask rbind] in H; [|injection H as <- <-; cbn; auto|injection H as <- <-; cbn; auto]).
      discriminate. }
  destruct cb as [[[]| |e1]|]; try discriminate; try (injection H as <- <-; reflexivity);
    destruct (f (b_time s) dt (b_x s)) as [[q|q] x|e2 x] eqn:E; try discriminate; injection H as <- <-;
    destruct (X _ _ eq_refl) as (A & B & C); unfold seen; cbn; rewrite A, B, C, NB; reflexivity.
Qed.
Print Assumptions C55_exception_partial.
(** a problem whose stiffness callback refuses *)
Definition oscNoJac : dprob VS_R := let p := osc 1 0 1 (fun _ => 0) in
  mkDP (S := VS_R) (dp_mass p) (dp_damp p) (fun _ _ => No) (dp_force p) (dp_res p) true (dp_solve p) (dp_inv p) (dp_gmres p).
Example C55_exception_example : exists s', dynStep (rk4 oscNoJac) None 1 (dynNew (S := VS_R) 1 2 0) = Threw (XInt 2) s' /\ x_U (b_x s') = 1 /\ b_time s' = 0.
Proof.
  assert (E : Reqb (1 * 1) 0 = false) by (apply Reqb_false; lra).
  eexists. unfold dynStep. cbn. unfold massInverse. cbn. rewrite E. cbn. split; [reflexivity|]. cbn. auto.
Qed.
(** Refuted: a nonlinear Newmark step that does not converge (MaxIter 0) advances the clock and
    changes the displacement; a Newmark step left by an exception has already changed displacement
    and velocity, the clock and status() say that nothing happened, and calling step again starts from the changed vectors. *)
Theorem C55_refuted :
  (exists s', dynStep (newmarkNL (osc 1 0 1 (fun _ => 0)) (mkDO (1/4) (1/2) 1 1 1 0 false 1)) None 1 (dynNew (S := VS_R) 1 2 0) = Done NotConverged s' /\
     b_time s' = 1 /\ x_U (b_x s') = 3) /\
  (exists s' s'', dynStep (newmark oscNoJac (trap 1)) None 1 (dynNew (S := VS_R) 1 2 0) = Threw (XInt 2) s' /\
     b_time s' = 0 /\ b_stat s' = NotStarted /\ x_U (b_x s') = 3 /\
     dynStep (newmark oscNoJac (trap 1)) None 1 s' = Threw (XInt 2) s'' /\ x_U (b_x s'') = 5).
Proof.
  split.
  - eexists. split; [cbn; reflexivity|]. cbn. split; lra.
  - eexists _, _. split; [cbn; reflexivity|]. cbn. split; [lra|]. split; [reflexivity|]. split; [lra|]. split; [reflexivity|]. cbn. lra.
Qed.
Print Assumptions C55_refuted.
