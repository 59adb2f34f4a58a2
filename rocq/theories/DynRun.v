(** Evaluation of the time integrators on concrete data, statement by statement (for examples). *)
From Verif Require Import VS Status RunTac Static StaticRun Dynamic.
Local Open Scope R_scope.
Ltac dev :=
  lazymatch goal with
  | |- Done ?a ?s = _ => reach
  | |- Threw ?a ?s = _ => reach
  | |- rbind ?x ?f = _ =>
    let H := fresh "H" in
    eassert (H : x = _) by dev;
    lazymatch type of H with
    | _ = Done _ _ => eapply (rb_step _ _ _ _ _ H); clear H; cbv beta; dev
    | _ = Threw _ _ => eapply (rb_exc _ _ _ _ _ H); clear H; reflexivity
    end
  | |- (let s := ?E in @?f s) = ?r =>
    let H := fresh "H" in
    eassert (H : E = _) by reach;
    eapply (let_step E _ f r H); clear H; cbv beta; dev
  | |- newmarkLoop ?p ?o ?t ?dt ?M ?r ?n ?i ?C ?K ?b ?s = _ => let n' := eval cbv in n in change (newmarkLoop p o t dt M r n i C K b s) with (newmarkLoop p o t dt M r n' i C K b s); cbn [newmarkLoop]; dev
  | |- batheLoop ?p ?o ?t ?dt ?M ?a1 ?a2 ?a3 ?a4 ?r ?n ?i ?C ?K ?b ?s = _ => let n' := eval cbv in n in change (batheLoop p o t dt M a1 a2 a3 a4 r n i C K b s) with (batheLoop p o t dt M a1 a2 a3 a4 r n' i C K b s); cbn [batheLoop]; dev
  | |- implicitLoop ?p ?o ?t ?dt ?M ?a1 ?a2 ?r ?n ?i ?C ?K ?b ?s = _ => let n' := eval cbv in n in change (implicitLoop p o t dt M a1 a2 r n i C K b s) with (implicitLoop p o t dt M a1 a2 r n' i C K b s); cbn [implicitLoop]; dev
  | |- (match ?x with _ => _ end) = _ =>
    let T := type of x in
    lazymatch T with run _ _ => scrut ltac:(idtac; dev) | _ => scrut ltac:(idtac; reach) end; dev
  | |- ?X = _ => let h := shead X in cbv beta delta [h]; dev
  end.
