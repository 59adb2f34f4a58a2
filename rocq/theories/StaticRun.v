(** Evaluation of the static solvers on concrete data, statement by statement (for examples). *)
From Verif Require Import VS Status RunTac Static.
Local Open Scope R_scope.
Lemma rb_step {St A B} (x : run St A) (f : A -> St -> run St B) a s r : x = Done a s -> f a s = r -> rbind x f = r.
Proof. intros ->. auto. Qed.
Lemma rb_exc {St A B} (x : run St A) (f : A -> St -> run St B) e s r : x = Threw e s -> Threw e s = r -> rbind x f = r.
Proof. intros ->. auto. Qed.
Ltac shead X := lazymatch X with ?f _ => shead f | _ => X end.
Ltac sev :=
  lazymatch goal with
  | |- Done ?a ?s = _ => reach
  | |- Threw ?a ?s = _ => reach
  | |- rbind ?x ?f = _ =>
    let H := fresh "H" in
    eassert (H : x = _) by sev;
    lazymatch type of H with
    | _ = Done _ _ => eapply (rb_step _ _ _ _ _ H); clear H; cbv beta; sev
    | _ = Threw _ _ => eapply (rb_exc _ _ _ _ _ H); clear H; reflexivity
    end
  | |- (let s := ?E in @?f s) = ?r =>
    let H := fresh "H" in
    eassert (H : E = _) by reach;
    eapply (let_step E _ f r H); clear H; cbv beta; sev
  | |- newtonLoop ?p ?o ?n ?i ?s = _ => let n' := eval cbv in n in change (newtonLoop p o n i s) with (newtonLoop p o n' i s); cbn [newtonLoop]; sev
  | |- drLoop ?p ?o ?n ?i ?k ?s = _ => let n' := eval cbv in n in change (drLoop p o n i k s) with (drLoop p o n' i k s); cbn [drLoop]; sev
  | |- compLoop ?x ?l ?c = _ => let l' := eval hnf in l in change (compLoop x l c) with (compLoop x l' c); cbn [compLoop]; sev
  | |- i_solve ?f ?s = _ => let g := eval hnf in (i_solve f) in change (i_solve f s) with (g s); cbv beta; sev
  | |- (match ?x with _ => _ end) = _ =>
    let T := type of x in
    lazymatch T with run _ _ => scrut ltac:(idtac; sev) | _ => scrut ltac:(idtac; reach) end; sev
  | |- ?X = _ => let h := shead X in cbv beta delta [h]; sev
  end.
