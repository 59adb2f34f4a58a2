(** C135: the loop of example_ShearWrinkling *)
From Coq Require Import Sorting.Sorted.
From Verif Require Import VS Status Static Props_Static Props_Static3 StaticRun RunTac StaticLoop4.
Local Open Scope R_scope.

Section Shear.
Context {S : VS} {T : Type}.
Variable f : iface S T.
Variables (debug : bool) (dL0 : R) (tg0 : list R) (steps : nat).
Implicit Types h : hst S T.
(** the rows written: every one is the end of a successful step of controlDC from the row before it (from zero), with the increment of D, which
    is positive and at most dL0, and its load is D *)
Inductive rows : list (R * @dst S T) -> R -> S -> Prop :=
  | rows_nil : rows [] 0 v0
  | rows_snoc l D0 U0 D c c' : rows l D0 U0 -> D0 < D <= D0 + dL0 -> d_L c = D0 -> d_U c = U0 -> ctlStep f (D - D0) c = Done Success c' -> d_L c' = D ->
      rows (l ++ [(D, c')]) D (d_U c').
(** a row was written within 1e-8 of the target *)
Definition visited (l : list (R * @dst S T)) (t : R) : Prop := exists D c, In (D, c) l /\ Rabs (D - t) < / 10 ^ 8 * D.
Record hinv h : Prop := {
  hv_D : h_D h = h_Dold h + h_dL h; hv_dL : 0 < h_dL h <= dL0; hv_old : 0 <= h_Dold h; hv_L : d_L (h_c h) = h_Dold h;
  hv_rows : rows (h_out h) (h_Dold h) (d_U (h_c h)); hv_n : length (h_out h) = h_k h; hv_k : (h_k h <= Datatypes.S steps)%nat;
  hv_sort : StronglySorted Rlt (h_tg h); hv_hd : forall t, In t (h_tg h) -> h_D h <= t; hv_ne : h_tg h <> [];
  hv_tg : exists l, tg0 = l ++ h_tg h /\ forall t, In t l -> visited (h_out h) t }.
Lemma near_spec D t : 0 < D -> hNear D t = true <-> Rabs (D - t) < / 10 ^ 8 * D.
Proof.
  intros H. unfold hNear. destruct (Reqb D 0) eqn:E; [apply Reqb_true in E; lra|]. rewrite Rltb_true. unfold Rdiv. split; intros Q.
  - apply Rmult_lt_reg_r with (/ D); [apply Rinv_0_lt_compat; exact H|]. replace (/ 10 ^ 8 * D * / D) with (/ 10 ^ 8) by (field; lra). exact Q.
  - apply Rmult_lt_reg_r with D; [exact H|]. replace (Rabs (D - t) * / D * D) with (Rabs (D - t)) by (field; lra). exact Q.
Qed.
Lemma visited_app l x t : visited l t -> visited (l ++ [x]) t.
Proof. intros (D & c & I & H). exists D, c. split; [apply in_or_app; left; exact I|exact H]. Qed.
(** what holds when the vector of targets has run empty *)
Definition emptied h : Prop := h_tg h = [] /\ length (h_out h) = Datatypes.S (h_k h) /\ (h_k h <= steps)%nat /\ rows (h_out h) (h_D h) (d_U (h_c h)) /\ forall t, In t tg0 -> visited (h_out h) t.
Lemma hpass_inv h : 0 < dL0 -> (h_k h <= steps)%nat -> hinv h ->
  match shearPass f debug dL0 h with HNext h' => hinv h' | HUndef h' => emptied h' | HStop _ | HFuel => True end.
Proof.
  intros H0 HK [I1 I2 I3 I4 I5 I6 I7 I8 I9 I10 (l & I11 & I12)]. unfold shearPass.
  pose proof (C47_failed_step f (h_dL h) (h_c h)) as NF.
  destruct (ctlStep f (h_dL h) (h_c h)) as [q c|e c] eqn:E; [|exact I]. destruct (status_eqb q Success) eqn:Q; cbn [negb].
  - apply status_eqb_true in Q. subst q.
    assert (EL : d_L c = h_D h).
    { unfold ctlStep in E. destruct (i_solve f _) as [q t|]; [|discriminate]. destruct (status_eqb q Success) eqn:EQ; injection E as -> <-; [cbn; lra|discriminate]. }
    assert (R : rows (h_out h ++ [(h_D h, c)]) (h_D h) (d_U c)).
    { apply (rows_snoc _ (h_Dold h) (d_U (h_c h)) (h_D h) (h_c h) c I5); [lra|exact I4|reflexivity| |exact EL]. replace (h_D h - h_Dold h) with (h_dL h) by lra. exact E. }
    assert (V : forall t, In t l -> visited (h_out h ++ [(h_D h, c)]) t) by (intros t Z; apply visited_app, I12, Z).
    destruct (h_tg h) as [|t r] eqn:ET; [contradiction|].
    assert (TD : h_D h <= t) by (apply I9; left; reflexivity). apply StronglySorted_inv in I8. destruct I8 as [I8 F]. rewrite Forall_forall in F.
    destruct (hNear (h_D h) t) eqn:EN.
    + apply near_spec in EN; [|lra].
      assert (VT : visited (h_out h ++ [(h_D h, c)]) t) by (exists (h_D h), c; split; [apply in_or_app; right; left; reflexivity|exact EN]).
      destruct r as [|t1 r].
      * split; [reflexivity|]. cbn. rewrite app_length, I6. cbn. split; [lia|]. split; [exact HK|]. split; [exact R|]. intros t' Z. rewrite I11 in Z.
        apply in_app_or in Z. destruct Z as [Z|[<-|[]]]; auto.
      * assert (T1 : t < t1) by (apply F; left; reflexivity).
        assert (DL : 0 < (if Rltb (t1 - h_D h) dL0 then t1 - h_D h else dL0) <= dL0 /\ h_D h + (if Rltb (t1 - h_D h) dL0 then t1 - h_D h else dL0) <= t1).
        { destruct (Rltb (t1 - h_D h) dL0) eqn:EX; [apply Rltb_true in EX|apply Rltb_false in EX]; lra. }
        constructor; cbn [h_c h_dL h_D h_Dold h_tg h_k h_out]; try lra; auto; try lia; try discriminate.
        -- rewrite app_length, I6. cbn. lia.
        -- intros t' [<-|Z]; [lra|]. apply StronglySorted_inv in I8. destruct I8 as [_ F8]. rewrite Forall_forall in F8. specialize (F8 _ Z). lra.
        -- exists (l ++ [t]). split; [rewrite <- app_assoc; exact I11|]. intros t' Z. apply in_app_or in Z. destruct Z as [Z|[<-|[]]]; auto.
    + assert (NE : h_D h <> t).
      { intros Z. rewrite (proj2 (near_spec (h_D h) t ltac:(lra))) in EN; [discriminate|]. replace (h_D h - t) with 0 by lra. rewrite Rabs_R0.
        apply Rmult_lt_0_compat; [apply Rinv_0_lt_compat, pow_lt; lra|lra]. }
      assert (DL : 0 < (if Rltb (t - h_D h) dL0 then t - h_D h else dL0) <= dL0 /\ h_D h + (if Rltb (t - h_D h) dL0 then t - h_D h else dL0) <= t).
      { destruct (Rltb (t - h_D h) dL0) eqn:EX; [apply Rltb_true in EX|apply Rltb_false in EX]; lra. }
      constructor; cbn [h_c h_dL h_D h_Dold h_tg h_k h_out]; try lra; auto; try lia; try discriminate.
      * rewrite app_length, I6. cbn. lia.
      * constructor; [exact I8|]. rewrite Forall_forall. exact F.
      * intros t' [<-|Z]; [lra|]. specialize (F _ Z). lra.
      * exists l. split; [exact I11|exact V].
  - destruct (NF c) as (NU & NL); [left; exists q; split; [intros ->; discriminate|reflexivity]|].
    cbv zeta. destruct (debug && _); [exact I|].
    constructor; cbn [h_c h_dL h_D h_Dold h_tg h_k h_out]; try lra; auto.
    + rewrite NU. exact I5.
    + intros t Z. specialize (I9 t Z). lra.
    + exists l. split; assumption.
Qed.
Lemma hrun_inv : 0 < dL0 -> forall fuel h, hinv h ->
  match shearRun f debug dL0 steps fuel h with HNext h' => hinv h' /\ h_k h' = Datatypes.S steps | HUndef h' => emptied h' | HStop _ | HFuel => True end.
Proof.
  intros H0. induction fuel as [|fuel IH]; intros h A.
  all: assert (C : forall x, In x (h_tg h) -> Rltb (h_D h - h_dL h) x = true) by (intros x Z; apply Rltb_true; pose proof (hv_hd h A x Z); pose proof (hv_dL h A); lra).
  all: assert (LST : In (last (h_tg h) 0) (h_tg h)) by (pose proof (hv_ne h A) as N; destruct (h_tg h) as [|t r] using rev_ind; [contradiction|rewrite last_last; apply in_or_app; right; left; reflexivity]).
  all: specialize (C _ LST); pose proof (hv_ne h A) as NE; pose proof (hv_k h A) as HK.
  all: cbn [shearRun]; destruct (h_tg h) as [|t r] eqn:ET; [contradiction|]; rewrite C; cbn [andb]; destruct (Nat.leb_spec (h_k h) steps) as [K|K]; try exact I; try (split; [exact A|lia]).
  pose proof (hpass_inv h H0 K A) as P. destruct (shearPass f debug dL0 h) as [h'|h'|e|]; [|exact P|exact I|exact I]. exact (IH h' P).
Qed.
End Shear.
(** The rows written are as described, and the loop ends in one of two ways: normally, only because of the number of steps, before the last
    target is reached; or, once every target was visited, with front() of the empty vector. *)
Theorem C135_rows_partial {S : VS} {T : Type} (f : iface S T) (debug : bool) (dL0 : R) (tg : list R) (steps fuel : nat) (t : T) :
  0 < dL0 -> StronglySorted Rlt tg -> tg <> [] -> (forall x, In x tg -> dL0 <= x) ->
  match shearMain f debug dL0 tg steps fuel t with
  | HNext h => length (h_out h) = Datatypes.S steps /\ rows f dL0 (h_out h) (h_Dold h) (d_U (h_c h)) /\ h_Dold h < last tg 0
  | HUndef h => (length (h_out h) <= Datatypes.S steps)%nat /\ rows f dL0 (h_out h) (h_D h) (d_U (h_c h)) /\ forall x, In x tg -> visited (h_out h) x
  | HStop _ | HFuel => True
  end.
Proof.
  intros H0 ST NE HD. unfold shearMain.
  pose proof (hrun_inv f debug dL0 tg steps H0 fuel (mkH (ctlNew t) dL0 dL0 0 tg 0 [])) as P.
  match type of P with ?A -> _ => assert (I0 : A) end.
  { constructor; cbn; auto; try lra; try lia; [constructor|]. exists []. split; [reflexivity|]. intros x []. }
  specialize (P I0). destruct (shearRun _ _ _ _ _ _) as [h|h|e|]; [| |exact I|exact I].
  - destruct P as [P K]. split; [rewrite (hv_n _ _ _ _ _ P); exact K|]. split; [exact (hv_rows _ _ _ _ _ P)|].
    destruct (hv_tg _ _ _ _ _ P) as (l & E & _). pose proof (hv_ne _ _ _ _ _ P) as N.
    assert (Z : In (last tg 0) (h_tg h)).
    { rewrite E. destruct (h_tg h) as [|x r] using rev_ind; [contradiction|]. rewrite app_assoc, last_last. apply in_or_app. right. left. reflexivity. }
    pose proof (hv_hd _ _ _ _ _ P _ Z). pose proof (hv_dL _ _ _ _ _ P). pose proof (hv_D _ _ _ _ _ P). lra.
  - destruct P as (_ & P1 & P2 & P3 & P4). split; [lia|]. split; [exact P3|exact P4].
Qed.
Print Assumptions C135_rows_partial.
(** the linear solver of l.335, which is the only one without the options --DR and --NR: here a spring; with the targets 7 and 10 and dL = 5 the rows are
    5, 7 and 10, and the loop is undefined; with one step it ends after the rows 5 and 7 *)
Definition exLin : nprob VS_R R := @mkNProb VS_R R 2 1 (fun _ _ => No) (fun _ _ => No) (fun _ => true) (fun k g => Some (g / k)) false.
Lemma exLin_success x : exists y, i_solve (newtonIface exLin (exOpt 4 (1/2) 2)) x = Done Success y.
Proof. eexists. reflexivity. Qed.
Ltac hgo := cbn [shearRun h_tg h_k h_D h_dL last Nat.leb]; rewrite (proj2 (Rltb_true _ _)) by lra; cbn [andb]; unfold shearPass at 1; cbn [h_tg h_k h_D h_dL h_c h_out h_Dold];
  unfold ctlStep at 1; match goal with |- context [i_solve ?f ?x] => let y := fresh "y" in let E := fresh "E" in destruct (exLin_success x) as (y & E); rewrite E end; cbn [status_eqb negb app].
Lemma hNear_no D t : 0 < D -> / 10 ^ 8 * D <= Rabs (D - t) -> hNear D t = false.
Proof. intros H A. destruct (hNear D t) eqn:E; [|reflexivity]. apply near_spec in E; [lra|exact H]. Qed.
Lemma hNear_yes D t : 0 < D -> D = t -> hNear D t = true.
Proof. intros H ->. apply near_spec; [exact H|]. replace (t - t) with 0 by ring. rewrite Rabs_R0. apply Rmult_lt_0_compat; [apply Rinv_0_lt_compat, pow_lt; lra|exact H]. Qed.
Example C135_example : (match shearMain (newtonIface exLin (exOpt 4 (1/2) 2)) true 5 [7; 10] 9 9 newtonNew with HUndef h => map fst (h_out h) = [5; 5 + (7 - 5); 5 + (7 - 5) + (10 - (5 + (7 - 5)))] | _ => False end) /\
  (match shearMain (newtonIface exLin (exOpt 4 (1/2) 2)) true 5 [7; 10] 1 9 newtonNew with HNext h => map fst (h_out h) = [5; 5 + (7 - 5)] | _ => False end).
Proof.
  split; unfold shearMain.
  - hgo. rewrite (hNear_no 5 7) by (try lra; rewrite Rabs_left; lra). rewrite (proj2 (Rltb_true _ _)) by lra.
    hgo. rewrite (hNear_yes _ 7) by lra. rewrite (proj2 (Rltb_true _ _)) by lra.
    hgo. rewrite (hNear_yes _ 10) by lra. reflexivity.
  - hgo. rewrite (hNear_no 5 7) by (try lra; rewrite Rabs_left; lra). rewrite (proj2 (Rltb_true _ _)) by lra.
    hgo. rewrite (hNear_yes _ 7) by lra. rewrite (proj2 (Rltb_true _ _)) by lra.
    cbn [shearRun h_tg h_k h_D h_dL last Nat.leb]. rewrite andb_false_r. reflexivity.
Qed.
(** So a run which gets to its target never ends normally. For every solver whose solve() always succeeds, every increment and a target of n increments
    with at least n steps allowed, the loop runs into front() of the empty vector. *)
Theorem C135_refuted {S : VS} {T : Type} (f : iface S T) (debug : bool) (dL0 : R) (n steps : nat) (t : T) :
  (forall x, exists y, i_solve f x = Done Success y) -> 0 < dL0 -> (1 <= n)%nat -> (n <= Datatypes.S steps)%nat ->
  exists h, shearMain f debug dL0 [INR n * dL0] steps n t = HUndef h /\ forall x, In x [INR n * dL0] -> visited (h_out h) x.
Proof.
  intros OK H0 N1 NS.
  assert (G : forall m j h, (j + m = n)%nat -> (1 <= m)%nat -> h_dL h = dL0 -> h_D h = INR (Datatypes.S j) * dL0 -> h_tg h = [INR n * dL0] -> h_k h = j ->
    exists h', shearRun f debug dL0 steps m h = HUndef h').
  { induction m as [|m IH]; intros j h E M D1 D2 TG K; [lia|]. cbn [shearRun]. rewrite TG. cbn [last].
    assert (JN : INR (Datatypes.S j) <= INR n) by (apply le_INR; lia). rewrite S_INR in JN.
    rewrite (proj2 (Rltb_true _ _)) by (rewrite D1, D2, S_INR; nra). rewrite (proj2 (Nat.leb_le _ _)) by lia. cbn [andb].
    unfold shearPass. rewrite TG. unfold ctlStep. match goal with |- context [i_solve f ?x] => destruct (OK x) as (y & EY) end. rewrite EY. cbn [status_eqb negb].
    destruct (hNear (h_D h) (INR n * dL0)) eqn:EN; [eexists; reflexivity|].
    assert (DP : 0 < h_D h) by (rewrite D2; apply Rmult_lt_0_compat; [apply lt_0_INR; lia|exact H0]).
    assert (JS : (Datatypes.S j < n)%nat).
    { destruct (Nat.eq_dec (Datatypes.S j) n) as [Z|Z]; [|lia]. exfalso. rewrite (proj2 (near_spec _ _ DP)) in EN; [discriminate|]. rewrite D2, Z.
      replace (INR n * dL0 - INR n * dL0) with 0 by ring. rewrite Rabs_R0. apply Rmult_lt_0_compat; [apply Rinv_0_lt_compat, pow_lt; lra|].
      apply Rmult_lt_0_compat; [apply lt_0_INR; lia|exact H0]. }
    assert (J2 : INR (Datatypes.S (Datatypes.S j)) <= INR n) by (apply le_INR; lia).
    rewrite (proj2 (Rltb_false _ _)) by (rewrite D2; rewrite S_INR in J2; nra).
    apply (IH (Datatypes.S j)); cbn [h_dL h_D h_tg h_k]; try lia; try reflexivity.
    rewrite D2, (S_INR (Datatypes.S j)). ring. }
  destruct (G n 0%nat (mkH (ctlNew t) dL0 dL0 0 [INR n * dL0] 0 []) ltac:(lia) N1 eq_refl ltac:(cbn; ring) eq_refl eq_refl) as (h & R).
  exists h. split; [exact R|].
  assert (1 <= INR n) by (apply (le_INR 1); exact N1).
  pose proof (C135_rows_partial f debug dL0 [INR n * dL0] steps n t H0 ltac:(repeat constructor) ltac:(discriminate)) as P.
  unfold shearMain in P. rewrite R in P. apply P. intros x [<-|[]]. nra.
Qed.
Print Assumptions C135_refuted.
(** With the assertion compiled the loop ends: at most 20 passes for every row. *)
Theorem C135_terminates {S : VS} {T : Type} (f : iface S T) (dL0 : R) (tg : list R) (steps fuel : nat) (t : T) :
  0 < dL0 -> (Datatypes.S (Datatypes.S steps) * 20 <= fuel)%nat -> shearMain f true dL0 tg steps fuel t <> HFuel.
Proof.
  intros H0 HF. unfold shearMain.
  assert (P20 : 1 <= 2 ^ 20 * / 10 ^ 6) by lra.
  assert (G : forall fuel h m, (1 <= m <= 20)%nat -> h_dL h <= 2 ^ m * / 10 ^ 6 * dL0 -> ((Datatypes.S steps - h_k h) * 20 + m <= fuel)%nat -> shearRun f true dL0 steps fuel h <> HFuel).
  { clear fuel HF. induction fuel as [|fuel IH]; intros h m M D F; [lia|]. cbn [shearRun]. destruct (h_tg h) as [|x r] eqn:ET; [discriminate|]. rewrite <- ET.
    destruct (_ && _) eqn:C; [|discriminate]. apply andb_prop in C. destruct C as [_ C]. apply Nat.leb_le in C.
    unfold shearPass. rewrite ET. destruct (ctlStep f (h_dL h) (h_c h)) as [q c|e c]; [|discriminate]. destruct (negb (status_eqb q Success)).
    - cbv zeta. cbn [andb]. destruct (Rleb (h_dL h / 2 / dL0) (/ 10 ^ 6)) eqn:L; [discriminate|]. destruct m as [|[|m]]; [lia| |].
      + exfalso. apply Rleb_false in L. apply (Rmult_lt_compat_r dL0) in L; [|exact H0]. replace (h_dL h / 2 / dL0 * dL0) with (h_dL h / 2) in L by (field; lra). lra.
      + apply (IH _ (Datatypes.S m)); cbn [h_dL h_k]; [lia| |lia]. change (2 ^ Datatypes.S (Datatypes.S m)) with (2 * 2 ^ Datatypes.S m) in D. lra.
    - destruct (if hNear (h_D h) x then r else x :: r) as [|y r']; [discriminate|]. apply (IH _ 20%nat); cbn [h_dL h_k]; [lia| |lia].
      destruct (Rltb (y - h_D h) dL0) eqn:EX; [apply Rltb_true in EX|]; nra. }
  apply (G _ _ 20%nat); cbn [h_dL h_k]; [lia|nra|lia].
Qed.
Print Assumptions C135_terminates.
(** Without it, a solver which never converges keeps the loop running for ever. *)
Theorem C135_release_refuted {S : VS} {T : Type} (f : iface S T) (dL0 : R) (tg : list R) (steps fuel : nat) (t : T) :
  (forall x, exists q y, i_solve f x = Done q y /\ q <> Success) -> tg <> [] -> 0 < last tg 0 -> shearMain f false dL0 tg steps fuel t = HFuel.
Proof.
  intros NO NE LP. unfold shearMain.
  assert (G : forall fuel h, h_D h - h_dL h = 0 -> h_Dold h = 0 -> h_tg h = tg -> h_k h = 0%nat -> shearRun f false dL0 steps fuel h = HFuel).
  { clear fuel. induction fuel as [|fuel IH]; intros h D O E K.
    all: cbn [shearRun]; rewrite E, D, K, (proj2 (Rltb_true _ _) LP); cbn [andb Nat.leb]; destruct tg as [|x r] eqn:ET; try contradiction; try reflexivity.
    unfold shearPass, ctlStep. match goal with |- context [i_solve f ?x] => destruct (NO x) as (q & y & EY & NQ) end. rewrite EY.
    destruct (status_eqb q Success) eqn:EQ; [apply status_eqb_true in EQ; contradiction|]. rewrite ?EQ. cbn [negb andb].
    apply IH; cbn [h_D h_dL h_Dold h_tg h_k]; auto. lra. }
  apply G; cbn; auto. lra.
Qed.
Print Assumptions C135_release_refuted.
(** both kinds of solvers exist: a spring, and a residual which cannot be evaluated *)
Example C135_solvers_example : (forall x, exists y, i_solve (newtonIface exLin (exOpt 4 (1/2) 2)) x = Done Success y) /\
  (forall x : nst VS_R R, exists q y, i_solve (newtonIface (@mkNProb VS_R R 1 1 (fun _ _ => No) (fun _ _ => Yes 2) (fun _ => true) (fun _ g => Some (g / 2)) true) (exOpt 4 (1/2) 2)) x = Done q y /\ q <> Success).
Proof.
  split; [exact exLin_success|]. intros x. destruct x as [u d e r l [] i n o st]; eexists _, _; (split; [reflexivity|discriminate]).
Qed.
