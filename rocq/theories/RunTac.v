(** Tools for the examples: exact evaluation of closed real expressions that denote rational
    numbers. *)
From Coq Require Import QArith Qreals Qreduction.
From Verif Require Import Prelude.
Local Open Scope R_scope.

Inductive rx :=
| XZ (z : Z) | XAdd (a b : rx) | XSub (a b : rx) | XMul (a b : rx) | XDiv (a b : rx) | XInv (a : rx) | XOpp (a : rx)
| XSqrt (a : rx) | XPow (a : rx) (n : nat) | XAbs (a : rx) | XMin (a b : rx) | XMax (a b : rx) | XINR (n : nat).
Fixpoint evalR (x : rx) : R :=
  match x with
  | XZ z => IZR z
  | XAdd a b => evalR a + evalR b
  | XSub a b => evalR a - evalR b
  | XMul a b => evalR a * evalR b
  | XDiv a b => evalR a / evalR b
  | XInv a => / evalR a
  | XOpp a => - evalR a
  | XSqrt a => sqrt (evalR a)
  | XPow a n => evalR a ^ n
  | XAbs a => Rabs (evalR a)
  | XMin a b => Rmin (evalR a) (evalR b)
  | XMax a b => Rmax (evalR a) (evalR b)
  | XINR n => INR n
  end.
Definition qsqrt (q : Q) : option Q :=
  let q := Qred q in
  let n := Z.sqrt (Qnum q) in
  let d := Pos.sqrt (Qden q) in
  if (0 <=? n)%Z && Qeq_bool (Qmake n d * Qmake n d) q then Some (Qmake n d) else None.
Definition q1 (f : Q -> Q) (a : option Q) : option Q := match a with Some a => Some (Qred (f a)) | None => None end.
Definition q2 (f : Q -> Q -> Q) (a b : option Q) : option Q :=
  match a, b with Some a, Some b => Some (Qred (f a b)) | _, _ => None end.
Definition qinv (a : option Q) : option Q :=
  match a with Some a => if Qeq_bool a 0 then None else Some (Qred (/ a)%Q) | None => None end.
Fixpoint evalQ (x : rx) : option Q :=
  match x with
  | XZ z => Some (inject_Z z)
  | XAdd a b => q2 Qplus (evalQ a) (evalQ b)
  | XSub a b => q2 Qminus (evalQ a) (evalQ b)
  | XMul a b => q2 Qmult (evalQ a) (evalQ b)
  | XDiv a b => q2 Qmult (evalQ a) (qinv (evalQ b))
  | XInv a => qinv (evalQ a)
  | XOpp a => q1 Qopp (evalQ a)
  | XSqrt a => match evalQ a with Some q => qsqrt q | None => None end
  | XPow a n => (fix pw n := match n with O => Some 1%Q | S n => q2 Qmult (evalQ a) (pw n) end) n
  | XAbs a => q1 (fun q => if Qle_bool 0 q then q else Qopp q) (evalQ a)
  | XMin a b => q2 (fun a b => if Qle_bool a b then a else b) (evalQ a) (evalQ b)
  | XMax a b => q2 (fun a b => if Qle_bool a b then b else a) (evalQ a) (evalQ b)
  | XINR n => Some (inject_Z (Z.of_nat n))
  end.

Lemma Q2R_red q : Q2R (Qred q) = Q2R q.
Proof. apply Qeq_eqR, Qred_correct. Qed.
Lemma q1_ok f g a x q : (forall q, Q2R (f q) = g (Q2R q)) -> (forall q, a = Some q -> x = Q2R q) ->
  q1 f a = Some q -> g x = Q2R q.
Proof. intros H H1 E. destruct a as [a|]; [|discriminate]. injection E as <-. rewrite Q2R_red, H, (H1 a); auto. Qed.
Lemma q2_ok f g a b x y q : (forall q r, Q2R (f q r) = g (Q2R q) (Q2R r)) -> (forall q, a = Some q -> x = Q2R q) ->
  (forall q, b = Some q -> y = Q2R q) -> q2 f a b = Some q -> g x y = Q2R q.
Proof.
  intros H H1 H2 E. destruct a as [a|]; [|discriminate]. destruct b as [b|]; [|discriminate].
  injection E as <-. rewrite Q2R_red, H, (H1 a), (H2 b); auto.
Qed.
Lemma qinv_ok a x q : (forall q, a = Some q -> x = Q2R q) -> qinv a = Some q -> / x = Q2R q.
Proof.
  intros H E. destruct a as [a|]; [|discriminate]. cbn in E. destruct (Qeq_bool a 0) eqn:E0; [discriminate|].
  injection E as <-. rewrite Q2R_red, Q2R_inv, (H a); auto. intros C. apply Qeq_bool_neq in E0. auto.
Qed.
Lemma Qle_Q2R a b : Qle_bool a b = true -> Q2R a <= Q2R b.
Proof. intros H. apply Qle_Rle, Qle_bool_iff. exact H. Qed.
Lemma Qlt_Q2R a b : Qle_bool a b = false -> Q2R b < Q2R a.
Proof.
  intros H. apply Qlt_Rlt. destruct (Qlt_le_dec b a) as [L|L]; auto. apply Qle_bool_iff in L. congruence.
Qed.
Lemma Q2R_0 : Q2R 0 = 0.
Proof. unfold Q2R. cbn. field. Qed.
Lemma Q2R_Z z : Q2R (inject_Z z) = IZR z.
Proof. unfold Q2R, inject_Z. cbn. field. Qed.
Lemma evalQ_ok x : forall q, evalQ x = Some q -> evalR x = Q2R q.
Proof.
  induction x; intros q E; cbn [evalQ evalR] in *.
  - injection E as <-. symmetry. apply Q2R_Z.
  - eapply q2_ok; eauto. apply Q2R_plus.
  - eapply q2_ok; eauto. apply Q2R_minus.
  - eapply q2_ok; eauto. apply Q2R_mult.
  - unfold Rdiv. eapply (q2_ok Qmult Rmult _ _ _ _ _ Q2R_mult IHx1); [|exact E]. intros r Er. eapply qinv_ok; eauto.
  - eapply qinv_ok; eauto.
  - eapply (q1_ok Qopp Ropp); eauto. apply Q2R_opp.
  - destruct (evalQ x) as [r|]; [|discriminate]. rewrite (IHx r eq_refl). unfold qsqrt in E.
    destruct (_ && _) eqn:Eb; [|discriminate]. apply andb_true_iff in Eb. destruct Eb as [E1 E2].
    injection E as <-. apply Qeq_bool_iff, Qeq_eqR in E2. rewrite Q2R_mult, Q2R_red in E2.
    rewrite <- E2. apply sqrt_square. unfold Q2R. cbn [Qnum Qden]. apply Rmult_le_pos.
    + apply IZR_le. apply Z.leb_le. exact E1.
    + left. apply Rinv_0_lt_compat, IZR_lt. reflexivity.
  - revert q E. induction n as [|n IHn]; intros q E; cbn in *.
    + injection E as <-. unfold Q2R. cbn. field.
    + eapply q2_ok; eauto. apply Q2R_mult.
  - eapply (q1_ok _ Rabs); eauto. intros r. cbv beta. destruct (Qle_bool 0 r) eqn:Er.
    + apply Qle_Q2R in Er. rewrite Q2R_0 in Er. symmetry. apply Rabs_pos_eq. auto.
    + apply Qlt_Q2R in Er. rewrite Q2R_0 in Er. rewrite Q2R_opp. symmetry. apply Rabs_left. auto.
  - eapply (q2_ok _ Rmin); eauto. intros r t. cbv beta. destruct (Qle_bool r t) eqn:Er.
    + apply Qle_Q2R in Er. symmetry. apply Rmin_left. auto.
    + apply Qlt_Q2R in Er. symmetry. apply Rmin_right. lra.
  - eapply (q2_ok _ Rmax); eauto. intros r t. cbv beta. destruct (Qle_bool r t) eqn:Er.
    + apply Qle_Q2R in Er. symmetry. apply Rmax_right. auto.
    + apply Qlt_Q2R in Er. symmetry. apply Rmax_left. lra.
  - injection E as <-. rewrite Q2R_Z, INR_IZR_INZ. reflexivity.
Qed.

(** the literal denoting a rational *)
Definition litR (q : Q) : R := match Qden q with 1%positive => IZR (Qnum q) | d => IZR (Qnum q) / IZR (Zpos d) end.
Lemma litR_ok q : litR q = Q2R q.
Proof. unfold litR, Q2R. destruct (Qden q); [reflexivity|reflexivity|]. field. Qed.
Lemma rx_lit x q : evalQ x = Some q -> evalR x = litR q.
Proof. rewrite litR_ok. apply evalQ_ok. Qed.

Definition cmpQ (a b : option Q) : option comparison :=
  match a, b with Some a, Some b => Some (Qcompare a b) | _, _ => None end.
Lemma cmp_ok x y c : cmpQ (evalQ x) (evalQ y) = Some c ->
  match c with Lt => evalR x < evalR y | Eq => evalR x = evalR y | Gt => evalR y < evalR x end.
Proof.
  pose proof (evalQ_ok x) as Hx. pose proof (evalQ_ok y) as Hy.
  destruct (evalQ x) as [a|]; [|discriminate]. destruct (evalQ y) as [b|]; [|discriminate].
  rewrite (Hx a eq_refl), (Hy b eq_refl). cbn. intros [= <-]. destruct (Qcompare_spec a b) as [E|E|E].
  - apply Qeq_eqR. auto.
  - apply Qlt_Rlt. auto.
  - apply Qlt_Rlt. auto.
Qed.
Definition isLt (c : option comparison) := match c with Some Lt => true | _ => false end.
Definition isEq (c : option comparison) := match c with Some Eq => true | _ => false end.
Lemma Rltb_ok x y c : cmpQ (evalQ x) (evalQ y) = Some c -> Rltb (evalR x) (evalR y) = match c with Lt => true | _ => false end.
Proof. intros H. apply cmp_ok in H. destruct c; [apply Rltb_false|apply Rltb_true|apply Rltb_false]; lra. Qed.
Lemma Rleb_ok x y c : cmpQ (evalQ x) (evalQ y) = Some c -> Rleb (evalR x) (evalR y) = match c with Gt => false | _ => true end.
Proof. intros H. apply cmp_ok in H. destruct c; [apply Rleb_true|apply Rleb_true|apply Rleb_false]; lra. Qed.
Lemma Reqb_ok x y c : cmpQ (evalQ x) (evalQ y) = Some c -> Reqb (evalR x) (evalR y) = match c with Eq => true | _ => false end.
Proof. intros H. apply cmp_ok in H. destruct c; [apply Reqb_true|apply Reqb_false|apply Reqb_false]; lra. Qed.

Ltac reify e :=
  lazymatch e with
  | IZR ?z => constr:(XZ z)
  | ?a + ?b => let x := reify a in let y := reify b in constr:(XAdd x y)
  | ?a - ?b => let x := reify a in let y := reify b in constr:(XSub x y)
  | ?a * ?b => let x := reify a in let y := reify b in constr:(XMul x y)
  | ?a / ?b => let x := reify a in let y := reify b in constr:(XDiv x y)
  | / ?a => let x := reify a in constr:(XInv x)
  | - ?a => let x := reify a in constr:(XOpp x)
  | sqrt ?a => let x := reify a in constr:(XSqrt x)
  | ?a ^ ?n => let x := reify a in constr:(XPow x n)
  | Rabs ?a => let x := reify a in constr:(XAbs x)
  | Rmin ?a ?b => let x := reify a in let y := reify b in constr:(XMin x y)
  | Rmax ?a ?b => let x := reify a in let y := reify b in constr:(XMax x y)
  | INR ?n => constr:(XINR n)
  end.
(** replace a closed expression by its value *)
Ltac reval e :=
  let x := reify e in
  let v := eval vm_compute in (evalQ x) in
  lazymatch v with
  | Some ?q =>
    let l := eval cbv [litR Qnum Qden] in (litR q) in
    let H := fresh "H" in
    assert (H : e = l) by (exact (rx_lit x q ltac:(vm_compute; reflexivity)));
    rewrite H; clear H
  end.
Ltac isop e :=
  lazymatch e with
  | ?a / ?b => lazymatch a with IZR _ => lazymatch b with IZR _ => fail | _ => idtac end | _ => idtac end
  | _ + _ => idtac | _ - _ => idtac | _ * _ => idtac | / _ => idtac | - _ => idtac | sqrt _ => idtac | _ ^ _ => idtac
  | Rabs _ => idtac | Rmin _ _ => idtac | Rmax _ _ => idtac | INR _ => idtac
  end.
Ltac rdec lem a b :=
  let x := reify a in let y := reify b in
  let v := eval vm_compute in (cmpQ (evalQ x) (evalQ y)) in
  lazymatch v with
  | Some ?c => let H := fresh "H" in pose proof (lem x y c ltac:(vm_compute; reflexivity)) as H;
      cbn [evalR] in H; rewrite H; clear H
  end.
Ltac rdec1 :=
  match goal with
  | |- context [Rltb ?a ?b] => rdec Rltb_ok a b
  | |- context [Rleb ?a ?b] => rdec Rleb_ok a b
  | |- context [Reqb ?a ?b] => rdec Reqb_ok a b
  end.
Ltac rnorm := repeat match goal with |- context [?e] => isop e; reval e end.
Ltac rcbv := cbv -[Reqb Rltb Rleb Rplus Rminus Rmult Rdiv Rinv Ropp IZR pow sqrt Rmin Rmax Rabs INR].
Ltac rsimp := repeat (rcbv; rdec1); rcbv; rnorm.
Example reval_test : (if Rltb (sqrt (9/4) + 1/2) (Rabs (-3)) then 1/3 - 2 ^ 2 else 0) = -11/3.
Proof. rsimp. reflexivity. Qed.
Lemma let_step {A B} (E E' : A) (f : A -> B) r : E = E' -> f E' = r -> f E = r.
Proof. intros -> H. exact H. Qed.
(** prove [t = ?x] by evaluation *)
Ltac reach := rsimp; reflexivity.
(** evaluate the scrutinee of the outermost match of the left-hand side *)
Ltac scrut tac :=
  match goal with |- (match ?x with _ => _ end) = _ =>
    let H := fresh "H" in eassert (H : x = _) by tac; rewrite H; clear H; cbv beta iota end.
