(** Facts about the worker side of gsAPALM. *)
From Verif Require Import Prelude Status APALMData APALMDriver APALMWorker.
Local Open Scope R_scope.

Section Proofs.
Context {sol : Type}.
Variable A : ALM sol.
Hypothesis L : almLaws A.
Notation state := (alm_state A).
Notation stepCall := (stepCall sol).

Definition accepted (c : stepCall) : bool := negb (retry (sc_status c)).
Definition acc (log : list stepCall) : list stepCall := filter accepted log.

(** number of accepted calls that directly follow a rejected one *)
Fixpoint halvedFrom (b : bool) (log : list stepCall) : nat :=
  match log with
  | [] => 0
  | c :: l => ((if b && accepted c then 1 else 0) + halvedFrom (negb (accepted c)) l)%nat
  end.
Definition lastRejected (b : bool) (log : list stepCall) : bool := fold_left (fun _ c => negb (accepted c)) log b.

Lemma halved_snoc b log c : halvedFrom b (log ++ [c]) =
  (halvedFrom b log + (if lastRejected b log && accepted c then 1 else 0))%nat.
Proof.
  revert b. induction log as [|x l IH]; intros b; cbn; [lia|]. rewrite IH. cbn. unfold lastRejected. cbn. lia.
Qed.
Lemma lastRejected_snoc b log c : lastRejected b (log ++ [c]) = negb (accepted c).
Proof. unfold lastRejected. rewrite fold_left_app. reflexivity. Qed.
Lemma acc_snoc log c : acc (log ++ [c]) = acc log ++ (if accepted c then [c] else []).
Proof. unfold acc. rewrite filter_app. cbn. destruct (accepted c); reflexivity. Qed.
Lemma Rsum_snoc l x : Rsum (l ++ [x]) = Rsum l + x.
Proof. induction l as [|y l IH]; cbn [app]; rewrite ?Rsum_cons, ?Rsum_nil; lra. Qed.

(** every call starts from the solution of the last accepted call before it *)
Inductive chained (start : sol) : list stepCall -> Prop :=
| ch_nil : chained start []
| ch_snoc log c : chained start log -> sc_from c = last (map sc_to (acc log)) start -> chained start (log ++ [c]).

(** the distance of a step is measured by the solver when it stands at the new solution *)
Definition measured (c : stepCall) : Prop :=
  exists x, alm_solution A x = sc_to c /\ sc_dist c = alm_distance A x (sc_from c) (sc_to c).

Lemma corrLoop_spec dL0 start n (Hpos : 0 < dL0) : forall fuel dL rem b k N old ds ss (a : state) log ds' ss' a' log',
  corrLoop A fuel dL0 dL rem b k N old ds ss a log = Ok (ds', ss', a', log') ->
  (k <= N)%nat -> alm_getLength A a = dL -> 0 < dL -> 0 <= rem -> (b = true -> 0 < rem) -> (b = false -> rem = 0) ->
  alm_solution A a = old -> old = last ss start ->
  ss = map sc_to (acc log) -> ds = map sc_dist (acc log) -> k = length ss -> b = lastRejected false log ->
  N = (n + halvedFrom false log)%nat -> chained start log -> Forall (fun c => 0 < sc_length c /\ measured c) log ->
  (b = true -> (k < N)%nat) ->
  Rsum (map sc_length (acc log')) =
    Rsum (map sc_length (acc log)) + (if (k <? N)%nat then dL + rem + (INR N - INR k - 1) * dL0 else 0) /\
  ss' = map sc_to (acc log') /\ ds' = map sc_dist (acc log') /\ length ss' = (n + halvedFrom false log')%nat /\
  chained start log' /\ alm_solution A a' = last ss' start /\ Forall (fun c => 0 < sc_length c /\ measured c) log'.
Proof.
  induction fuel as [|f IH]; intros dL rem b k N old ds ss a log ds' ss' a' log' H Hk Hl HdL Hrem Hb1 Hb0 Hs Hold Ess Eds Ek Eb EN Hch Hfp Hbk;
    cbn [corrLoop] in H; destruct (Nat.eqb k N) eqn:EkN; try discriminate.
  1,2: apply Nat.eqb_eq in EkN; injection H as <- <- <- <-; rewrite EkN, Nat.ltb_irrefl;
    split; [lra|]; split; [auto|]; split; [auto|]; split; [lia|]; split; [auto|]; split; [congruence|auto].
  apply Nat.eqb_neq in EkN. assert (Hlt : (k < N)%nat) by lia.
  replace (k <? N)%nat with true by (symmetry; apply Nat.ltb_lt; auto).
  unfold call in H. destruct (alm_step A a) as [[s a1]|] eqn:Est; [|discriminate]. cbn [rbind] in H.
  set (c := mkCall (alm_getLength A a) (alm_solution A a) s (alm_solution A a1) (alm_distance A a1 (alm_solution A a) (alm_solution A a1))) in *.
  assert (Hch' : chained start (log ++ [c])).
  { constructor; auto. cbn. rewrite Hs, Hold, Ess. reflexivity. }
  assert (Hfp' : Forall (fun c => 0 < sc_length c /\ measured c) (log ++ [c])).
  { apply Forall_app. split; auto. constructor; [split; [cbn; lra|exists a1; cbn; auto]|constructor]. }
  destruct (retry s) eqn:Er.
  - assert (Ha : accepted c = false) by (unfold accepted; cbn; rewrite Er; auto).
    apply IH in H; auto.
    + rewrite acc_snoc, Ha, app_nil_r in H. replace (k <? N)%nat with true in H by (symmetry; apply Nat.ltb_lt; auto).
      destruct H as (H1 & H2). split; [|exact H2]. lra.
    + rewrite (al_length_sol _ L), (al_length _ L). reflexivity.
    + lra.
    + lra.
    + intros _. lra.
    + discriminate.
    + apply (al_solution _ L).
    + rewrite acc_snoc, Ha, app_nil_r. auto.
    + rewrite acc_snoc, Ha, app_nil_r. auto.
    + rewrite lastRejected_snoc, Ha. reflexivity.
    + rewrite halved_snoc, Ha, andb_false_r. lia.
  - assert (Ha : accepted c = true) by (unfold accepted; cbn; rewrite Er; auto).
    assert (Hss : ss ++ [alm_solution A a1] = map sc_to (acc (log ++ [c]))).
    { rewrite acc_snoc, Ha, map_app, <- Ess. reflexivity. }
    assert (Hds : ds ++ [alm_distance A a1 old (alm_solution A a1)] = map sc_dist (acc (log ++ [c]))).
    { rewrite acc_snoc, Ha, map_app, <- Eds. cbn. rewrite Hs. reflexivity. }
    assert (Hsum : Rsum (map sc_length (acc (log ++ [c]))) = Rsum (map sc_length (acc log)) + dL).
    { rewrite acc_snoc, Ha, map_app. cbn [map c sc_length]. rewrite Rsum_snoc, Hl. reflexivity. }
    destruct b; cbn [negb] in H.
    + specialize (Hb1 eq_refl). apply IH in H; auto.
      * destruct H as (H1 & H2). split; [|exact H2]. rewrite H1, Hsum.
        replace (S k <? S N)%nat with true by (symmetry; apply Nat.ltb_lt; lia). rewrite !S_INR. lra.
      * apply (al_length _ L).
      * lra.
      * discriminate.
      * rewrite (al_solution_length _ L). reflexivity.
      * rewrite last_last. reflexivity.
      * rewrite app_length. cbn. lia.
      * rewrite lastRejected_snoc, Ha. reflexivity.
      * rewrite halved_snoc, Ha, <- Eb. cbn. lia.
      * discriminate.
    + specialize (Hb0 eq_refl). subst rem. apply IH in H; auto.
      * destruct H as (H1 & H2). split; [|exact H2]. rewrite H1, Hsum. rewrite !S_INR.
        destruct (S k <? N)%nat eqn:E2.
        -- lra.
        -- apply Nat.ltb_ge in E2. assert (N = S k) by lia. subst N. rewrite H, S_INR. lra.
      * apply (al_length _ L).
      * rewrite (al_solution_length _ L). reflexivity.
      * rewrite last_last. reflexivity.
      * rewrite app_length. cbn. lia.
      * rewrite lastRejected_snoc, Ha. reflexivity.
      * rewrite halved_snoc, Ha, <- Eb. cbn. lia.
      * discriminate.
Qed.

Lemma last_rev {X} (l : list X) d x r : rev l = x :: r -> last l d = x /\ l <> [].
Proof.
  intros H. assert (E : l = rev r ++ [x]) by (rewrite <- (rev_involutive l), H; reflexivity).
  subst. rewrite last_last. split; auto. destruct (rev r); discriminate.
Qed.

Lemma correction_spec opposite fuel n a D start prev ref ds ss up lo a' log : 0 < D ->
  correction_ A opposite fuel n a D start prev ref = Ok (ds, ss, up, lo, a', log) ->
  Rsum (map sc_length (acc log)) = D /\ ss = map sc_to (acc log) /\
  length ss = (n + halvedFrom false log)%nat /\
  ds = map sc_dist (acc log) ++ [alm_distance A a' (last ss start) ref] /\ chained start log /\
  up = alm_distance A a' start ref /\ lo = alm_distance A a' start (last ss start) /\ ss <> [] /\
  Forall (fun c => 0 < sc_length c /\ measured c) log.
Proof.
  intros HD H. unfold correction_ in H. destruct (Nat.eqb n 0) eqn:En; [discriminate|]. apply Nat.eqb_neq in En.
  match type of H with rbind ?X _ = _ => destruct X as [[[[ds0 ss0] a0] log0]|] eqn:E; [|discriminate] end.
  cbn [rbind] in H. destruct (opposite ref (alm_solution A a0)); [discriminate|].
  destruct (rev ss0) as [|s r] eqn:Er; [discriminate|]. injection H as <- <- <- <- <- <-.
  assert (Hn : 0 < INR n) by (apply lt_0_INR; lia).
  assert (Hq : 0 < D / INR n) by (apply Rdiv_lt_0_compat; auto).
  apply (corrLoop_spec (D / INR n) start n) in E; auto; try lia; try lra.
  - destruct E as (E1 & E2 & E3 & E4 & E5 & E6 & E7).
    destruct (last_rev ss0 start s r Er) as [El Hne].
    replace (0 <? n)%nat with true in E1 by (symmetry; apply Nat.ltb_lt; lia).
    change (Rsum (map sc_length (acc []))) with 0 in E1. change (INR 0) with 0 in E1.
    split; [rewrite E1; field; lra|]. split; auto. split; auto. rewrite E6. split; [congruence|]. split; auto.
    split; auto. split; [congruence|]. split; auto.
  - rewrite (al_length_prev _ L), (al_length_sol _ L), (al_length _ L). reflexivity.
  - rewrite (al_solution_prev _ L). apply (al_solution _ L).
  - constructor.
Qed.

(** ** Invariants of a solver: [Inv] for states, [P] for calls, [Q] for what a step with a
    given status leaves *)
Lemma corrLoop_inv (Inv : state -> Prop) (P : stepCall -> Prop) (Q : status -> state -> Prop) dL0 :
  (forall l a, Inv a -> Inv (alm_setLength A l a)) -> (forall u a, Inv a -> Inv (alm_setSolution A u a)) ->
  (forall s l a, Q s a -> Q s (alm_setLength A l a)) ->
  (forall a s a1, Inv a -> 0 < alm_getLength A a -> alm_step A a = Ok (s, a1) -> Inv a1 /\ Q s a1 /\
     P (mkCall (alm_getLength A a) (alm_solution A a) s (alm_solution A a1) (alm_distance A a1 (alm_solution A a) (alm_solution A a1)))) ->
  0 < dL0 ->
  forall fuel dL rem b k N old ds ss (a : state) log ds' ss' a' log',
  corrLoop A fuel dL0 dL rem b k N old ds ss a log = Ok (ds', ss', a', log') ->
  (k <= N)%nat -> (b = true -> (k < N)%nat) ->
  alm_getLength A a = dL -> 0 < dL -> 0 <= rem -> (b = true -> 0 < rem) -> Inv a -> Forall P log ->
  Inv a' /\ Forall P log' /\ ((k < N)%nat -> exists c, In c log' /\ accepted c = true /\ Q (sc_status c) a') /\ incl log log'.
Proof.
  intros HL HS HQ Hst H0. induction fuel as [|f IH]; intros dL rem b k N old ds ss a log ds' ss' a' log' H Hk Hbk Hl HdL Hrem Hb Ha Hlog;
    cbn [corrLoop] in H; destruct (Nat.eqb k N) eqn:EkN; try discriminate.
  1,2: apply Nat.eqb_eq in EkN; injection H as <- <- <- <-; split; [auto|]; split; [auto|]; split; [lia|apply incl_refl].
  apply Nat.eqb_neq in EkN. unfold call in H. destruct (alm_step A a) as [[s a1]|] eqn:Est; [|discriminate]. cbn [rbind] in H.
  destruct (Hst a s a1 Ha) as (Ha1 & Hq1 & Hc); [lra|exact Est|].
  set (c := mkCall (alm_getLength A a) (alm_solution A a) s (alm_solution A a1) (alm_distance A a1 (alm_solution A a) (alm_solution A a1))) in *.
  assert (Hlog' : Forall P (log ++ [c])) by (apply Forall_app; auto).
  assert (Hi : incl log (log ++ [c])) by (apply incl_appl, incl_refl).
  destruct (retry s) eqn:Er.
  - apply IH in H as (G1 & G2 & G3 & G4); auto; try lra; try lia.
    + split; auto. split; auto. split; [auto|]. eapply incl_tran; eauto.
    + rewrite (al_length_sol _ L), (al_length _ L). reflexivity.
  - set (dL1 := if negb b then dL0 else rem) in *. set (N1 := if negb b then N else S N) in *.
    assert (H' : corrLoop A f dL0 dL1 0 false (S k) N1 (alm_solution A a1) (ds ++ [alm_distance A a1 old (alm_solution A a1)])
              (ss ++ [alm_solution A a1]) (alm_setLength A dL1 a1) (log ++ [c]) = Ok (ds', ss', a', log')).
    { unfold dL1, N1. destruct b; cbn [negb] in *; exact H. }
    clear H. assert (Hin : In c (log ++ [c])) by (apply in_or_app; right; left; auto).
    assert (Hac : accepted c = true) by (unfold accepted; cbn; rewrite Er; auto).
    assert (H1 : (S k <= N1)%nat) by (unfold N1; destruct b; cbn; lia).
    destruct (Nat.eq_dec (S k) N1) as [E|E].
    + destruct f; cbn [corrLoop] in H'; rewrite <- E, Nat.eqb_refl in H'; injection H' as <- <- <- <-;
        (split; [auto|]; split; [auto|]; split; [|auto]; intros _; exists c; split; [auto|]; split; [auto|]; apply HQ; exact Hq1).
    + apply IH in H' as (G1 & G2 & G3 & G4); auto; try lra; try discriminate.
      * split; auto. split; auto. split; [|eapply incl_tran; eauto]. intros _. apply G3. lia.
      * apply (al_length _ L).
      * unfold dL1. destruct b; cbn; auto.
Qed.
Lemma initLoop_inv (Inv : state -> Prop) start :
  (forall a s a1, Inv a -> alm_step A a = Ok (s, a1) -> s <> Success ->
     Inv (if retry s then alm_setSolution A start (alm_setLength A (alm_getLength A a / 2) a1) else a1) /\
     alm_getLength A a1 = alm_getLength A a) ->
  forall fuel dL (a : state) log a' log', initLoop A fuel dL start a log = Ok (a', log') ->
  Inv a -> alm_getLength A a = dL -> exists a0, Inv a0 /\ alm_step A a0 = Ok (Success, a').
Proof.
  intros Hst. induction fuel as [|f IH]; intros dL a log a' log' H Ha Hl; [discriminate|]. cbn [initLoop] in H.
  unfold call in H. destruct (alm_step A a) as [[s a1]|] eqn:Est; [|discriminate]. cbn [rbind] in H.
  destruct (status_eqb s Success) eqn:Es; cbn [negb] in H.
  - apply status_eqb_true in Es. subst s. cbn in H. injection H as <- <-. eauto.
  - assert (Hn : s <> Success) by (intros ->; discriminate).
    destruct (Hst a s a1 Ha Est Hn) as [G1 G2]. destruct (retry s).
    + apply IH in H; auto; [rewrite <- Hl; exact G1|]. rewrite (al_length_sol _ L), (al_length _ L). reflexivity.
    + apply IH in H; auto. congruence.
Qed.

(** ** Termination: if short steps are accepted, the halving stops *)
Lemma corrLoop_stops eps dL0 : 0 < eps -> 0 < dL0 ->
  (forall a : state, alm_getLength A a <= eps -> exists s a', alm_step A a = Ok (s, a') /\ retry s = false) ->
  (forall a : state, alm_step A a <> Fail EFuel) ->
  forall m1 m2 dL rem b k N old ds ss (a : state) log,
  (k <= N)%nat -> alm_getLength A a = dL -> Rmin dL0 (eps / 2) <= dL -> 0 <= rem ->
  (b = true -> Rmin dL0 (eps / 2) <= rem) -> (b = false -> rem = 0) -> (b = true -> (k < N)%nat) ->
  (if (k <? N)%nat then dL + rem + (INR N - INR k - 1) * dL0 else 0) <= INR m1 * Rmin dL0 (eps / 2) ->
  dL <= 2 ^ m2 * eps ->
  exists fuel, corrLoop A fuel dL0 dL rem b k N old ds ss a log <> Fail EFuel.
Proof.
  intros Heps HdL0 Hshort Hfin. set (del := Rmin dL0 (eps / 2)).
  assert (Hdel : 0 < del) by (apply Rmin_pos; lra).
  assert (Hdl : del <= dL0) by apply Rmin_l. assert (Hde : del <= eps / 2) by apply Rmin_r.
  assert (Harch : forall x, exists m2, x <= 2 ^ m2 * eps).
  { intros x. destruct (Pow_x_infinity 2 ltac:(rewrite Rabs_right; lra) (x / eps)) as [m2 Hm]. exists m2.
    specialize (Hm m2 (le_n _)). rewrite Rabs_right in Hm by (apply Rle_ge, pow_le; lra).
    apply Rge_le in Hm. apply (Rmult_le_compat_r eps) in Hm; [|lra]. unfold Rdiv in Hm.
    rewrite Rmult_assoc, Rinv_l, Rmult_1_r in Hm; lra. }
  induction m1 as [|m1 IH1].
  - intros m2 dL rem b k N old ds ss a log Hk Hl HdL Hrem Hb1 Hb0 Hbk Hm1 Hm2.
    exists 0%nat. cbn [corrLoop]. destruct (Nat.eqb k N) eqn:E; [discriminate|]. exfalso. apply Nat.eqb_neq in E.
    replace (k <? N)%nat with true in Hm1 by (symmetry; apply Nat.ltb_lt; lia). cbn in Hm1.
    assert (INR k + 1 <= INR N) by (rewrite <- S_INR; apply le_INR; lia).
    assert (0 <= (INR N - INR k - 1) * dL0) by (apply Rmult_le_pos; lra). lra.
  - induction m2 as [|m2 IH2]; intros dL rem b k N old ds ss a log Hk Hl HdL Hrem Hb1 Hb0 Hbk Hm1 Hm2;
      (destruct (Nat.eqb k N) eqn:EkN; [exists 0%nat; cbn [corrLoop]; rewrite EkN; discriminate|]);
      pose proof EkN as EkN'; apply Nat.eqb_neq in EkN';
      replace (k <? N)%nat with true in Hm1 by (symmetry; apply Nat.ltb_lt; lia);
      assert (HN : INR k + 1 <= INR N) by (rewrite <- S_INR; apply le_INR; lia);
      (destruct (alm_step A a) as [[s a1]|e] eqn:Est;
        [|exists 1%nat; cbn [corrLoop]; rewrite EkN; unfold call; rewrite Est; cbn [rbind]; intros Q; injection Q as Q;
          apply (Hfin a); rewrite Est, Q; reflexivity]);
      assert (Hacc : retry s = false -> exists fuel, corrLoop A fuel dL0 dL rem b k N old ds ss a log <> Fail EFuel).
    { intros Er.
      set (dL1 := if negb b then dL0 else rem). set (N1 := if negb b then N else S N).
      destruct (Harch dL1) as (m2' & Hm2').
      destruct (IH1 m2' dL1 0 false (S k) N1 (alm_solution A a1) (ds ++ [alm_distance A a1 old (alm_solution A a1)])
                    (ss ++ [alm_solution A a1]) (alm_setLength A dL1 a1)
                    (log ++ [mkCall (alm_getLength A a) (alm_solution A a) s (alm_solution A a1) (alm_distance A a1 (alm_solution A a) (alm_solution A a1))])) as (fuel & Hr); auto.
      - unfold N1. destruct b; cbn; lia.
      - apply (al_length _ L).
      - unfold dL1. destruct b; cbn [negb]; [auto|]. lra.
      - lra.
      - discriminate.
      - discriminate.
      - unfold dL1, N1. destruct b; cbn [negb].
        + replace (S k <? S N)%nat with true by (symmetry; apply Nat.ltb_lt; lia). rewrite !S_INR in *. lra.
        + specialize (Hb0 eq_refl). subst rem. destruct (S k <? N)%nat eqn:E2.
          * rewrite !S_INR in *. lra.
          * apply Nat.ltb_ge in E2. assert (N = S k) by lia. subst N. rewrite !S_INR in *. lra.
      - exists (S fuel). cbn [corrLoop]. rewrite EkN. unfold call. rewrite Est. cbn [rbind]. rewrite Er.
        unfold dL1, N1 in Hr. destruct b; cbn [negb] in *; exact Hr. }
    + cbn in Hm2. apply Hacc. destruct (Hshort a) as (s' & a' & E1 & E2); [lra|]. congruence.
    + intros Er.
      set (dL1 := if negb b then dL0 else rem). set (N1 := if negb b then N else S N).
      destruct (Harch dL1) as (m2' & Hm2').
      destruct (IH1 m2' dL1 0 false (S k) N1 (alm_solution A a1) (ds ++ [alm_distance A a1 old (alm_solution A a1)])
                    (ss ++ [alm_solution A a1]) (alm_setLength A dL1 a1)
                    (log ++ [mkCall (alm_getLength A a) (alm_solution A a) s (alm_solution A a1) (alm_distance A a1 (alm_solution A a) (alm_solution A a1))])) as (fuel & Hr); auto.
      * unfold N1. destruct b; cbn; lia.
      * apply (al_length _ L).
      * unfold dL1. destruct b; cbn [negb]; [auto|]. lra.
      * lra.
      * discriminate.
      * discriminate.
      * unfold dL1, N1. destruct b; cbn [negb].
        -- replace (S k <? S N)%nat with true by (symmetry; apply Nat.ltb_lt; lia). rewrite !S_INR in *. lra.
        -- specialize (Hb0 eq_refl). subst rem. destruct (S k <? N)%nat eqn:E2.
           ++ rewrite !S_INR in *. lra.
           ++ apply Nat.ltb_ge in E2. assert (N = S k) by lia. subst N. rewrite !S_INR in *. lra.
      * exists (S fuel). cbn [corrLoop]. rewrite EkN. unfold call. rewrite Est. cbn [rbind]. rewrite Er.
        unfold dL1, N1 in Hr. destruct b; cbn [negb] in *; exact Hr.
    + destruct (retry s) eqn:Er; [|auto].
      assert (Hbig : eps < dL).
      { destruct (Rle_or_lt dL eps); auto. destruct (Hshort a) as (s' & a' & E1 & E2); [lra|]. congruence. }
      destruct (IH2 (dL / 2) (rem + dL / 2) true k N old ds ss (alm_setSolution A old (alm_setLength A (dL / 2) a1))
                    (log ++ [mkCall (alm_getLength A a) (alm_solution A a) s (alm_solution A a1) (alm_distance A a1 (alm_solution A a) (alm_solution A a1))])) as (fuel & Hr); auto.
      * rewrite (al_length_sol _ L). apply (al_length _ L).
      * lra.
      * lra.
      * intros _. lra.
      * discriminate.
      * intros _. lia.
      * replace (k <? N)%nat with true by (symmetry; apply Nat.ltb_lt; lia). lra.
      * cbn in Hm2. lra.
      * exists (S fuel). cbn [corrLoop]. rewrite EkN. unfold call. rewrite Est. cbn [rbind]. rewrite Er. exact Hr.
Qed.

Lemma archim_nat x d : 0 < d -> exists m : nat, x <= INR m * d.
Proof.
  intros Hd. destruct (archimed (x / d)) as [H1 _]. exists (Z.to_nat (up (x / d))).
  destruct (Z_lt_le_dec (up (x / d)) 0) as [H|H].
  - assert (x / d < 0) by (apply Rlt_trans with (IZR (up (x / d))); [lra|apply IZR_lt; auto]).
    replace (Z.to_nat (up (x / d))) with 0%nat by lia. cbn.
    assert (x = x / d * d) by (field; lra). nra.
  - rewrite INR_IZR_INZ, Z2Nat.id by auto. assert (x = x / d * d) by (field; lra). nra.
Qed.

(** ** The initiation *)
Lemma initLoop_spec start : forall fuel dL (a : state) log a' log',
  initLoop A fuel dL start a log = Ok (a', log') ->
  exists l c, log' = log ++ l ++ [c] /\ sc_status c = Success /\ alm_solution A a' = sc_to c /\
    Forall (fun x => sc_status x <> Success) l.
Proof.
  induction fuel as [|f IH]; intros dL a log a' log' H; [discriminate|]. cbn [initLoop] in H.
  unfold call in H. destruct (alm_step A a) as [[s a1]|] eqn:Est; [|discriminate]. cbn [rbind] in H.
  set (c := mkCall (alm_getLength A a) (alm_solution A a) s (alm_solution A a1) (alm_distance A a1 (alm_solution A a) (alm_solution A a1))) in *.
  destruct (status_eqb s Success) eqn:Es; cbn [negb] in H.
  - apply status_eqb_true in Es. subst s. cbn in H. injection H as <- <-. exists [], c. auto 10.
  - assert (Hn : s <> Success) by (intros ->; discriminate).
    destruct (retry s); apply IH in H as (l & c' & E1 & E2 & E3 & E4); exists (c :: l), c';
      (split; [rewrite E1, <- app_assoc; reflexivity|]); split; auto; split; auto; constructor; auto.
Qed.

Lemma initLoop_stops eps start : 0 < eps ->
  (forall a : state, alm_getLength A a <= eps -> exists a', alm_step A a = Ok (Success, a')) ->
  (forall a : state, match alm_step A a with Ok (s, _) => s = Success \/ retry s = true | Fail e => e <> EFuel end) ->
  forall m (a : state) log, alm_getLength A a <= 2 ^ m * eps ->
  exists fuel, initLoop A fuel (alm_getLength A a) start a log <> Fail EFuel.
Proof.
  intros Heps Hs Hc. induction m as [|m IH]; intros a log Hm.
  - exists 1%nat. cbn [initLoop]. unfold call. cbn in Hm. destruct (Hs a) as (a1 & E); [lra|]. rewrite E. discriminate.
  - pose proof (Hc a) as Hca. destruct (alm_step A a) as [[s a1]|e] eqn:Est.
    + destruct Hca as [->|Er].
      * exists 1%nat. cbn [initLoop]. unfold call. rewrite Est. discriminate.
      * destruct (IH (alm_setSolution A start (alm_setLength A (alm_getLength A a / 2) a1))
                   (log ++ [mkCall (alm_getLength A a) (alm_solution A a) s (alm_solution A a1) (alm_distance A a1 (alm_solution A a) (alm_solution A a1))])) as (fuel & Hr).
        -- rewrite (al_length_sol _ L), (al_length _ L). cbn in Hm. lra.
        -- rewrite (al_length_sol _ L), (al_length _ L) in Hr. exists (S fuel). cbn [initLoop]. unfold call. rewrite Est. cbn [rbind].
           rewrite Er. destruct (status_eqb s Success) eqn:Es; [apply status_eqb_true in Es; subst; discriminate|]. exact Hr.
    + exists 1%nat. cbn [initLoop]. unfold call. rewrite Est. cbn [rbind]. congruence.
Qed.

Lemma initiation_spec fuel singular (a : state) dL start prev dist ss bif a' log :
  initiation A fuel singular a dL start prev = Ok (dist, ss, bif, a', log) ->
  exists s x, alm_solution A x = s /\ dist = alm_distance A x start s /\
    (if bif then exists s', ss = [s; s'] else ss = [s]) /\
    (singular = false -> bif = false /\ exists l c, log = l ++ [c] /\ sc_status c = Success /\ s = sc_to c).
Proof.
  unfold initiation. intros H.
  match type of H with rbind ?X _ = _ => destruct X as [[a0 log0]|] eqn:E; [|discriminate] end.
  cbn [rbind] in H. apply initLoop_spec in E as (l & c & E1 & E2 & E3 & _).
  destruct singular.
  - destruct (alm_spot A start a0) as [[a2 b]|] eqn:Esp; [|discriminate]. cbn [rbind] in H. destruct b.
    + destruct (alm_switchBranch A a2) as [a3|] eqn:Esw; [|discriminate]. cbn [rbind] in H. injection H as <- <- <- <- <-.
      exists (alm_solution A a2), a2. split; [reflexivity|]. split; [reflexivity|]. split; [eauto|discriminate].
    + injection H as <- <- <- <- <-. exists (alm_solution A a2), a2. split; [reflexivity|]. split; [reflexivity|]. split; [auto|discriminate].
  - cbn [rbind] in H. injection H as <- <- <- <- <-. exists (alm_solution A a0), a0. split; [reflexivity|]. split; [reflexivity|].
    split; [reflexivity|]. intros _. split; auto.
    exists l, c. cbn in E1. rewrite E1. auto.
Qed.

(** ** serialSolve *)
Fixpoint sums (s : R) (l : list R) : list R :=
  match l with [] => [] | d :: l' => (s + d) :: sums (s + d) l' end.
Definition first (c : initCall sol) (d : sol) : sol := hd d (ic_sols c).

Lemma sums_app s l x : sums s (l ++ [x]) = sums s l ++ [s + Rsum l + x].
Proof.
  revert s. induction l as [|y l IH]; intros s; cbn [sums app].
  - rewrite Rsum_nil. replace (s + 0 + x) with (s + x) by lra. reflexivity.
  - rewrite IH, Rsum_cons. cbn [app]. replace (s + y + Rsum l + x) with (s + (y + Rsum l) + x) by lra. reflexivity.
Qed.

(** how the steps of one branch follow each other: [walk dL dL0 old prev n log] *)
Fixpoint walk (u0 : sol) (dL dL0 : R) (old prev : sol) (n : nat) (log : list (initCall sol)) : Prop :=
  match log with
  | [] => n = 0%nat
  | c :: log' => (1 <= n)%nat /\ ic_length c = dL /\ ic_start c = old /\ ic_prev c = prev /\
      length (ic_sols c) = (if ic_bif c then 2 else 1)%nat /\
      (exists x, alm_solution A x = first c u0 /\ ic_distance c = alm_distance A x old (first c u0)) /\
      if ic_bif c then log' = [] else walk u0 dL0 dL0 (first c u0) old (n - 1) log'
  end.
(** start points found on the way *)
Definition children (dL0 bmult : R) (log : list (initCall sol)) : list (sol * R * bool) :=
  match rev log with
  | c :: _ => if ic_bif c then match ic_sols c with [_; s1] => [(s1, dL0 * bmult, true)] | _ => [] end else []
  | [] => []
  end.

Lemma serialSteps_spec singular bmult u0 dL0 : forall n fuel (a : state) s dL old prev times ss log times' ss' new a' log',
  serialSteps A singular bmult fuel n a s dL dL0 old prev times ss log = Ok (times', ss', new, a', log') ->
  exists l, log' = log ++ l /\ walk u0 dL dL0 old prev n l /\
    times' = times ++ sums s (map ic_distance l) /\ ss' = ss ++ map (fun c => first c u0) l /\
    new = children dL0 bmult l.
Proof.
  induction n as [|n IH]; intros fuel a s dL old prev times ss log times' ss' new a' log' H; cbn [serialSteps] in H.
  - injection H as <- <- <- <- <-. exists []. rewrite !app_nil_r. cbn. auto.
  - match type of H with rbind ?X _ = _ => destruct X as [[[[[dist tmp] fin] a1] lg]|] eqn:E; [|discriminate] end.
    cbn [rbind] in H. apply initiation_spec in E as (x & st & E0 & E1 & E2 & _).
    destruct tmp as [|s0 tmp']; [discriminate|].
    set (c := mkInitCall dL old prev dist (s0 :: tmp') fin) in *.
    destruct fin.
    + destruct E2 as (s' & E2). injection E2 as -> ->. injection H as <- <- <- <- <-.
      exists [c]. split; auto. cbn. split; [|auto]. split; [lia|]. do 4 (split; [auto|]). split; [exists st; auto|auto].
    + injection E2 as -> ->. apply IH in H as (l & H1 & H2 & H3 & H4 & H5).
      exists (c :: l). split; [rewrite H1, <- app_assoc; reflexivity|]. split.
      { cbn. split; [lia|]. do 4 (split; [auto|]). split; [exists st; auto|]. rewrite Nat.sub_0_r. exact H2. }
      split; [rewrite H3, <- app_assoc; reflexivity|]. split; [rewrite H4, <- app_assoc; reflexivity|].
      rewrite H5. unfold children. cbn [rev]. destruct (rev l) as [|y r] eqn:Er; [|reflexivity].
      cbn. reflexivity.
Qed.

Lemma walk_nth u0 dL0 : forall log dL old prev n, walk u0 dL dL0 old prev n log ->
  forall k c, nth_error log k = Some c ->
  length (ic_sols c) = (if ic_bif c then 2 else 1)%nat /\
  (exists x, alm_solution A x = first c u0 /\ ic_distance c = alm_distance A x (ic_start c) (first c u0)) /\
  (ic_bif c = true -> S k = length log) /\
  match k with
  | O => ic_length c = dL /\ ic_start c = old /\ ic_prev c = prev
  | S k' => exists c0, nth_error log k' = Some c0 /\ ic_length c = dL0 /\ ic_start c = first c0 u0 /\ ic_prev c = ic_start c0
  end.
Proof.
  induction log as [|x log IH]; intros dL old prev n H k c Hk; [destruct k; discriminate|].
  cbn [walk] in H. destruct H as (H0 & H1 & H2 & H3 & H4 & H5 & H6). destruct k as [|k].
  - cbn in Hk. injection Hk as <-. split; auto. split; [rewrite H2; exact H5|]. split; [|auto].
    intros E. rewrite E in H6. rewrite H6. reflexivity.
  - cbn in Hk. destruct (ic_bif x) eqn:E; [subst log; destruct k; discriminate|].
    destruct (IH _ _ _ _ H6 k c Hk) as (G1 & G2 & G3 & G4). split; auto. split; auto.
    split; [intros Hb; cbn; f_equal; auto|]. destruct k as [|k].
    + exists x. cbn. destruct G4 as (G4 & G5 & G6). split; auto. split; auto. split; congruence.
    + destruct G4 as (c0 & G4). exists c0. cbn. exact G4.
Qed.
Lemma walk_length u0 dL0 : forall log dL old prev n, walk u0 dL dL0 old prev n log ->
  (length log <= n)%nat /\ (Forall (fun c => ic_bif c = false) log -> length log = n).
Proof.
  induction log as [|x log IH]; intros dL old prev n H; cbn [walk] in H; [cbn; lia|].
  destruct H as (H0 & _ & _ & _ & _ & _ & H6). cbn [length]. destruct (ic_bif x) eqn:E.
  - subst log. cbn. split; [lia|]. intros F. inversion F; congruence.
  - apply IH in H6 as [G1 G2]. split; [lia|]. intros F. inversion F; subst. rewrite G2; auto. lia.
Qed.
Lemma sums_length s l : length (sums s l) = length l.
Proof. revert s. induction l; intros; cbn; auto. Qed.
Lemma sums_incr : forall l s, Forall (fun x => 0 < x) l -> incr (s :: sums s l).
Proof.
  induction l as [|x l IH]; intros s H; cbn [sums]; [apply incr_one|]. inversion H as [|? ? Hx Hl]; subst.
  specialize (IH (s + x) Hl). apply incr_cons. split; auto. apply incr_cons in IH as [_ IH].
  intros y [<-|Hy]; [lra|]. specialize (IH y Hy). lra.
Qed.

(** one entry of the output of serialSolve *)
Definition branchSpec (mult : R) (N : Z) (o : serialOut sol) : Prop :=
  let '(u0, dL0, b) := so_start o in
  walk u0 (if b : bool then dL0 * mult else dL0) dL0 u0 u0 (Z.to_nat (N - 1)) (so_log o) /\
  so_times o = (if b : bool then [] else [0]) ++ sums 0 (map ic_distance (so_log o)) /\
  so_sols o = (if b : bool then [] else [u0]) ++ map (fun c => first c u0) (so_log o).
Definition childrenOf (bmult : R) (o : serialOut sol) : list (sol * R * bool) :=
  children (snd (fst (so_start o))) bmult (so_log o).

Lemma serialSolve_spec singular mult bmult fuel N e : forall f2 (a : state) starts c out c' out' a',
  serialSolve A singular mult bmult fuel f2 N e a starts c out = Ok (c', out', a') ->
  exists ds outs, c' = c ++ ds /\ out' = out ++ outs /\
    Forall2 (fun d o => initWith e (so_times o) (so_sols o) = Ok d /\ branchSpec mult N o) ds outs /\
    map so_start outs = starts ++ concat (map (childrenOf bmult) outs).
Proof.
  induction f2 as [|f2 IH]; intros a starts c out c' out' a' H; destruct starts as [|st starts]; cbn [serialSolve] in H;
    try discriminate.
  1,2: injection H as <- <- <-; exists [], []; rewrite !app_nil_r; auto.
  match type of H with rbind ?X _ = _ => destruct X as [[[[[times ss] new] a1] log]|] eqn:E; [|discriminate] end.
  cbn [rbind] in H. destruct (initWith e times ss) as [d|] eqn:Ed; [|discriminate]. cbn [rbind] in H.
  apply IH in H as (ds & outs & H1 & H2 & H3 & H4). set (o := mkSO times ss log st) in *.
  assert (Hb : branchSpec mult N o /\ new = childrenOf bmult o).
  { unfold branchSpec, childrenOf. cbn [o so_start so_log so_times so_sols]. destruct st as [[u0 dL0] b].
    unfold serialBranch in E. destruct b;
      apply (serialSteps_spec singular bmult u0 dL0) in E as (l & -> & E2 & E3 & E4 & E5); cbn [app] in *; auto. }
  destruct Hb as [Hb ->].
  exists (d :: ds), (o :: outs). split; [rewrite H1; cbn; rewrite <- app_assoc; reflexivity|].
  split; [rewrite H2, <- app_assoc; reflexivity|]. split; [constructor; auto|].
  cbn [map concat]. rewrite H4. cbn. f_equal. rewrite <- app_assoc. reflexivity.
Qed.
End Proofs.

Lemma pushAt_length {X} (l : list (list X)) k x : length (pushAt l k x) = length l.
Proof. revert k; induction l; intros [|k]; cbn; auto. Qed.
Lemma pushAt_nth {X} (l : list (list X)) k x i : (k < length l)%nat ->
  nth i (pushAt l k x) [] = if Nat.eqb i k then nth i l [] ++ [x] else nth i l [].
Proof.
  revert k i. induction l as [|y l IH]; intros [|k] [|i] H; cbn in *; try lia; auto.
  apply IH. lia.
Qed.

Section Fin.
Context {sol : Type}.
Lemma lvlLoop_spec (times : list R) (ss : list sol) levels : forall n k lvl r,
  lvlLoop k n times ss levels lvl = Ok r ->
  length r = length lvl /\
  forall i, nth i r [] = nth i lvl [] ++
    map fst (filter (fun x => (snd x =? Z.of_nat i)%Z) (firstn n (skipn k (combine (combine times ss) levels)))).
Proof.
  induction n as [|n IH]; intros k lvl r H; cbn [lvlLoop] in H.
  - injection H as <-. split; auto. intros i. cbn. rewrite app_nil_r. reflexivity.
  - destruct (nth_error levels k) as [l|] eqn:El; [|discriminate].
    destruct (nth_error times k) as [t|] eqn:Et; [|discriminate].
    destruct (nth_error ss k) as [s|] eqn:Es; [|discriminate].
    destruct ((0 <=? l)%Z && (Z.to_nat l <? length lvl)%nat) eqn:E; [|discriminate].
    apply andb_true_iff in E as [E1 E2]. apply Z.leb_le in E1. apply Nat.ltb_lt in E2.
    apply IH in H as [H1 H2]. rewrite pushAt_length in H1. split; auto. intros i. rewrite H2, pushAt_nth by auto.
    assert (Ec : nth_error (combine (combine times ss) levels) k = Some (t, s, l)).
    { clear -El Et Es. revert times ss levels El Et Es.
      induction k as [|k IH]; intros [|t0 times] [|s0 ss] [|l0 levels] El Et Es; try discriminate; cbn in *.
      - congruence.
      - apply IH; auto. }
    assert (Esk : skipn k (combine (combine times ss) levels) = (t, s, l) :: skipn (S k) (combine (combine times ss) levels)).
    { clear -Ec. revert Ec. generalize (combine (combine times ss) levels). clear.
      induction k as [|k IH]; intros [|x ll] H; try discriminate; cbn in *; [congruence|]. apply IH. auto. }
    rewrite Esk. cbn [firstn filter snd]. destruct (Nat.eqb i (Z.to_nat l)) eqn:Ei.
    + apply Nat.eqb_eq in Ei. subst i. rewrite Z2Nat.id by auto. rewrite Z.eqb_refl. cbn [map fst].
      rewrite <- app_assoc. reflexivity.
    + apply Nat.eqb_neq in Ei. destruct (l =? Z.of_nat i)%Z eqn:E3; [apply Z.eqb_eq in E3; subst l; rewrite Nat2Z.id in Ei; congruence|].
      reflexivity.
Qed.
Lemma lvlLoop_total (times : list R) (ss : list sol) levels : length ss = length times -> length levels = length times ->
  forall n k lvl, (k + n <= length times)%nat -> Forall (fun l => (0 <= l < Z.of_nat (length lvl))%Z) levels ->
  exists r, lvlLoop k n times ss levels lvl = Ok r.
Proof.
  intros L1 L2. induction n as [|n IH]; intros k lvl Hk HF; cbn [lvlLoop]; [eauto|].
  destruct (nth_error levels k) as [l|] eqn:El; [|apply nth_error_None in El; lia].
  destruct (nth_error times k) as [t|] eqn:Et; [|apply nth_error_None in Et; lia].
  destruct (nth_error ss k) as [s|] eqn:Es; [|apply nth_error_None in Es; lia].
  rewrite Forall_forall in HF. pose proof (HF l (nth_error_In _ _ El)) as Hl.
  replace (0 <=? l)%Z with true by (symmetry; apply Z.leb_le; lia).
  replace (Z.to_nat l <? length lvl)%nat with true by (symmetry; apply Nat.ltb_lt; lia). cbn.
  apply IH; [lia|]. rewrite pushAt_length. rewrite Forall_forall. auto.
Qed.
End Fin.
