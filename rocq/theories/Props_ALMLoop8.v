(** C136: the loops of the snapping programs *)
From Verif Require Import VS Status RunTac ALMBase ALMBaseProofs ALMStep ALMLog ALMPoints ALMRun ALMVerbose Props_ALMStep Props_ALMPredict Props_ALMSingular ALMSingular APALMSolver ALMLoop Props_ALMLoop ALMLoop2 Props_ALMLoop3 Props_ALMLoop6 ALMLoop7 Props_ALMLoop7 ALMLoop8.
Local Open Scope R_scope.

Section Snap.
Context {S : VS} {Mat : Type}.
Variables (p : problem S Mat) (o : opts) (k : kind) (conv keep sing quasi : bool) (dL : R) (strain : S -> R) (Emax : R) (steps : nat).
Implicit Types s : st S Mat.
Notation vpass_ := (vPass p o k conv keep sing quasi dL strain).
Notation vrun := (vRun p o k conv keep sing quasi dL strain Emax steps).
(** what one pass does to the rows *)
Lemma vpass_rows c c' : vpass_ c = VNext c' ->
  (v_out c' = v_out c /\ v_eps c' = v_eps c /\ v_k c' = v_k c) \/
  (exists u l, v_out c' = v_out c ++ [(u, l)] /\ v_eps c' = strain u /\ v_k c' = Datatypes.S (v_k c)).
Proof.
  unfold vPass. destruct (step p o k (v_s c)) as [[] s|]; [|discriminate]. destruct (vRepeats conv s); [intros H; injection H as <-; left; auto|].
  destruct (mSingular p o k sing quasi (v_U c) (v_L c) s) as [b s2|]; [|discriminate]. intros H. injection H as <-. right. eexists _, _. cbn. auto.
Qed.
(** the rows so far: only the last one can be beyond Emax *)
Record vrows (c : vst S Mat) : Prop := {
  vr_n : length (v_out c) = v_k c; vr_le : (v_k c <= steps)%nat;
  vr_eps : v_eps c = match v_out c with [] => 0 | _ => strain (fst (last (v_out c) (v0, 0))) end;
  vr_mid : forall l x r, v_out c = l ++ x :: r -> r <> [] -> strain (fst x) <= Emax }.
Lemma vrows_pass c c' : (v_k c < steps)%nat -> v_eps c <= Emax -> vrows c -> vpass_ c = VNext c' -> vrows c'.
Proof.
  intros K E [I1 I2 I3 I5] H. destruct (vpass_rows c c' H) as [(A1 & A2 & A3)|(u & l & A1 & A2 & A3)].
  - constructor; rewrite ?A1, ?A2, ?A3; auto.
  - assert (M : forall q x r, v_out c' = q ++ x :: r -> r <> [] -> strain (fst x) <= Emax).
    { intros q x r Q NR. rewrite A1 in Q. destruct r as [|z r] using rev_ind; [contradiction|]. clear IHr NR.
      change (x :: r ++ [z]) with ((x :: r) ++ [z]) in Q. rewrite app_assoc in Q. apply app_inj_tail in Q. destruct Q as [Q _].
      destruct r as [|y r].
      - rewrite Q in I3. rewrite last_last in I3. destruct (q ++ [x]) eqn:EQ; [destruct q; discriminate|]. lra.
      - apply (I5 q x (y :: r) Q). discriminate. }
    constructor; rewrite ?A2, ?A3.
    + rewrite A1, app_length, I1. cbn. lia.
    + lia.
    + rewrite A1. rewrite last_last. destruct (v_out c); reflexivity.
    + exact M.
Qed.
Lemma vrows_run : forall fuel c c', vrows c -> vrun fuel c = VNext c' -> vrows c' /\ (v_k c' = steps \/ Emax < v_eps c').
Proof.
  induction fuel as [|fuel IH]; intros c c' I R; cbn [vRun] in R; destruct (Rleb (v_eps c) Emax) eqn:E; cbn [andb] in R;
    destruct (Nat.ltb_spec (v_k c) steps) as [K|K]; try discriminate R; try (injection R as <-; split; [exact I|]; pose proof (vr_le c I); first [left; lia|right; apply Rleb_false in E; exact E]).
  destruct (vpass_ c) as [c1|] eqn:EP; [|discriminate R]. apply Rleb_true in E. exact (IH _ _ (vrows_pass _ _ K E I EP) R).
Qed.
End Snap.
(** How many rows are written: at most [steps]; the strain of every row but the last is at most Emax; and the loop only ends when there are [steps] rows, or the last
    one is beyond Emax (or Emax is negative). With and without SingularPoint, for all six programs. *)
Theorem C136_strain {S : VS} {Mat : Type} (p : problem S Mat) (o : opts) (k : kind) (conv keep sing quasi : bool) (dL : R) (strain : S -> R) (Emax : R) (steps fuel : nat) (s : st S Mat) (c : vst S Mat) :
  vMain p o k conv keep sing quasi dL strain Emax steps fuel s = VNext c ->
  (length (v_out c) <= steps)%nat /\ (forall l x r, v_out c = l ++ x :: r -> r <> [] -> strain (fst x) <= Emax) /\
  (length (v_out c) = steps \/ (exists l x, v_out c = l ++ [x] /\ Emax < strain (fst x)) \/ (v_out c = [] /\ Emax < 0)).
Proof.
  intros H. unfold vMain in H.
  match type of H with vRun _ _ _ _ _ _ _ _ _ _ _ _ ?c0 = _ => destruct (vrows_run p o k conv keep sing quasi dL strain Emax steps fuel c0 c) as ([I1 I2 I3 I5] & E); [|exact H|] end.
  { constructor; cbn; [reflexivity|lia|reflexivity|intros [|? ?]; discriminate]. }
  split; [lia|]. split; [exact I5|]. destruct E as [E|E]; [left; lia|right]. destruct (v_out c) as [|x l _] eqn:EO using rev_ind; [right; split; [reflexivity|lra]|].
  left. exists l, x. split; [reflexivity|]. rewrite last_last in I3. destruct (l ++ [x]) eqn:EQ; [destruct l; discriminate|]. lra.
Qed.
Print Assumptions C136_strain.
(** benchmark_FrustrumALM and benchmark_Wrinkling have no strain limit: when their loops end, exactly [steps] points have been written *)
Theorem C136_frustrum {S : VS} {Mat : Type} (p : problem S Mat) (o : opts) (k : kind) (conv keep sing quasi : bool) (dL : R) (steps fuel : nat) (s : st S Mat) (c : vst S Mat) :
  vMain p o k conv keep sing quasi dL (fun _ => 0) 0 steps fuel s = VNext c -> length (v_out c) = steps.
Proof. intros H. destruct (C136_strain _ _ _ _ _ _ _ _ _ _ _ _ _ _ H) as (_ & _ & [Q|[(l & x & _ & Q)|[_ Q]]]); [exact Q|lra|lra]. Qed.
Print Assumptions C136_frustrum.

Section Points.
Context {S : VS} {Mat : Type}.
Variables (p : problem S Mat) (o : opts) (k : kind) (conv keep quasi : bool) (dL : R) (strain : S -> R) (Emax d : R) (steps : nat) (s0 : st S Mat).
Implicit Types s : st S Mat.
Record vinv (c : vst S Mat) : Prop := {
  vi_U : s_U (v_s c) = v_U c; vi_L : s_L (v_s c) = v_L c; vi_len : s_len (v_s c) = v_dLb c; vi_ad : s_adaptive (v_s c) = false;
  vi_g : s_guess (v_s c) = None; vi_in : s_initialized (v_s c) = true; vi_d : v_dLb0 c = d; vi_pow : exists j : nat, v_dLb c = d / 2 ^ j;
  vi_ch : exists evs, s_log (v_s c) = s_log s0 ++ evs /\ (conv = true \/ (wellPosed p o /\ ~ solveFailed evs) -> chainOk p o k d (v0, 0) (v_out c) (v_U c, v_L c)) }.
Lemma vinv_pass c c' : (2 <= o_maxIt o)%nat -> vinv c -> vPass p o k conv keep false quasi dL strain c = VNext c' -> vinv c'.
Proof.
  intros HM [I3 I4 I5 I6 I7 I9 I10 (j & I8) (evs & EL & CH)] E. unfold vPass in E. destruct (step p o k (v_s c)) as [[] s|] eqn:ES; [|discriminate].
  destruct (C26_length_factor p o k _ _ ES) as (A1 & A2 & _). specialize (A2 I6). rewrite I6 in A1.
  pose proof (step_guess p o k (v_s c) I7) as G. rewrite ES in G. cbn in G. pose proof (step_init p o k _ _ ES) as IN. rewrite I9 in IN.
  assert (LG : exists ev1, s_log s = s_log (v_s c) ++ ev1) by (destruct (step_log p o k (v_s c)) as (X1 & _); destruct (log_step p o k (v_s c) I9) as (e & LE & _); rewrite ES, LE in X1; exists e; exact X1).
  destruct LG as (ev1 & L1).
  destruct (vRepeats conv s) eqn:ER.
  - injection E as <-. constructor; cbn; auto.
    + exists (Datatypes.S j). rewrite I8. apply half_pow.
    + exists (evs ++ ev1). split; [rewrite L1, EL, app_assoc; reflexivity|]. intros [H|[WP H]]; apply CH; [left; exact H|right; split; [exact WP|apply (solveFailed_app _ _ H)]].
  - cbn [mSingular] in E. injection E as <-. constructor; cbn.
    1,2: destruct (v_bis c); reflexivity.
    + destruct (v_bis c); [congruence|reflexivity].
    + destruct (v_bis c); cbn; congruence.
    + destruct (v_bis c); cbn; exact G.
    + destruct (v_bis c); cbn; exact IN.
    + exact I10.
    + destruct (v_bis c); [exists j; exact I8|exists 0%nat; rewrite I10; cbn; field].
    + exists (evs ++ ev1). split; [destruct (v_bis c); cbn; rewrite L1, EL, app_assoc; reflexivity|]. intros H.
      assert (ST : s_stat s = Success).
      { unfold vRepeats in ER. destruct H as [->|[WP H]].
        - apply (C116_converged_is_success_partial p o k (v_s c) s I9 HM ES). destruct (s_conv s); [reflexivity|discriminate].
        - destruct conv; [apply (C116_converged_is_success_partial p o k (v_s c) s I9 HM ES); destruct (s_conv s); [reflexivity|discriminate]|].
          destruct (C25_status_kind_partial p o k (v_s c) WP I9) as (ev2 & L2 & _ & C). rewrite ES in L2, C. cbn in L2. rewrite L1 in L2. apply app_inv_head in L2. subst ev2.
          destruct C as (_ & C1 & _ & _ & _ & C2 & C3). apply solveFailed_app in H. destruct H as [_ H].
          destruct (s_stat s); try reflexivity; try discriminate; exfalso; tauto. }
      assert (CK : chainOk p o k d (v0, 0) (v_out c) (v_U c, v_L c)) by (apply CH; destruct H as [H|[WP H]]; [left; exact H|right; split; [exact WP|apply (solveFailed_app _ _ H)]]).
      destruct (C24_success_meets_tolerances_partial p o k _ s HM ES ST) as (ev2 & v & m & pts & r & Q1 & Q2 & Q3 & Q4 & Q5 & Q6 & Q7).
      eapply chainOk_snoc with (s := v_s c) (s' := s) (j := j); try eassumption; try reflexivity; [congruence|rewrite <- I3; exact Q7|].
      intros ->. destruct (C32_load_control_partial p o (v_s c) s HM I7 ES) as [Q _]. rewrite (Q ST), I4, I5, I8. reflexivity.
Qed.
Lemma vinv_run : (2 <= o_maxIt o)%nat -> forall fuel c c', vinv c -> vRun p o k conv keep false quasi dL strain Emax steps fuel c = VNext c' -> vinv c'.
Proof.
  intros HM. induction fuel as [|fuel IH]; intros c c' I R; cbn [vRun] in R; destruct (Rleb _ _ && _); try discriminate R; try (injection R as <-; exact I).
  destruct (vPass p o k conv keep false quasi dL strain c) as [c1|] eqn:E; [|discriminate R]. exact (IH _ _ (vinv_pass _ _ HM I E) R).
Qed.
End Points.
(** Without SingularPoint every row is the end of a step which succeeded within the tolerances from the row before it, of length dLb / 2^j: always in the programs which test
    converged(); in the programs which test for NotConverged and AssemblyError if no factorisation and no linear solve failed. *)
Theorem C136_points_partial {S : VS} {Mat : Type} (p : problem S Mat) (o : opts) (k : kind) (conv keep quasi : bool) (dL : R) (strain : S -> R) (Emax : R) (steps fuel : nat) (s : st S Mat) (c : vst S Mat) :
  (2 <= o_maxIt o)%nat -> s_initialized s = true -> s_U s = v0 -> s_L s = 0 -> s_adaptive s = false -> s_guess s = None ->
  vMain p o k conv keep false quasi dL strain Emax steps fuel s = VNext c ->
  exists evs, s_log (v_s c) = s_log s ++ evs /\ (conv = true \/ (wellPosed p o /\ ~ solveFailed evs) -> chainOk p o k (s_len s) (v0, 0) (v_out c) (v_U c, v_L c)).
Proof.
  intros HM HI HU HL HA HG H. unfold vMain in H. match type of H with vRun _ _ _ _ _ _ _ _ _ _ _ _ ?c0 = _ => pose proof (vinv_run p o k conv keep quasi dL strain Emax (s_len s) steps s HM fuel c0 c) as I end.
  apply (vi_ch _ _ _ _ _ _ _ (I ltac:(constructor; cbn; auto; [exists 0%nat; cbn; field|exists []; split; [symmetry; apply app_nil_r|intros _; constructor]]) H)).
Qed.
Print Assumptions C136_points_partial.

(** ** The loops end *)
Inductive vpasses {S : VS} {Mat : Type} (p : problem S Mat) (o : opts) (k : kind) (conv keep sing quasi : bool) (dL : R) (strain : S -> R) (c0 : vst S Mat) : vst S Mat -> Prop :=
  | vpasses_0 : vpasses p o k conv keep sing quasi dL strain c0 c0
  | vpasses_S c c' : vpasses p o k conv keep sing quasi dL strain c0 c -> vPass p o k conv keep sing quasi dL strain c = VNext c' -> vpasses p o k conv keep sing quasi dL strain c0 c'.
Section Ends.
Context {S : VS} {Mat : Type}.
Variables (p : problem S Mat) (o : opts) (k : kind) (conv keep sing quasi : bool) (dL : R) (strain : S -> R) (Emax eps : R) (steps m : nat) (c0 : vst S Mat).
Hypothesis HL : sing = true -> dL <= 2 ^ m * eps.
Hypothesis Hs : forall c, vpasses p o k conv keep sing quasi dL strain c0 c -> (v_k c < steps)%nat ->
  exists s', step p o k (v_s c) = Ret tt s' /\ (v_dLb c <= eps -> vRepeats conv s' = false) /\
    (vRepeats conv s' = false -> exists b t, mSingular p o k sing quasi (v_U c) (v_L c) s' = Ret b t).
Lemma found_sing u l s b t : mSingular p o k sing quasi u l s = Ret b t -> b = true -> sing = true.
Proof. clear. unfold mSingular. destruct sing; [reflexivity|]. intros H. injection H as <- _. discriminate. Qed.
Lemma v_ends : forall fuel r c, vpasses p o k conv keep sing quasi dL strain c0 c -> (r <= m)%nat -> v_dLb c <= 2 ^ r * eps -> v_dLb0 c <= 2 ^ m * eps ->
  ((steps - v_k c) * Datatypes.S m <= fuel + (m - r))%nat -> exists c', vRun p o k conv keep sing quasi dL strain Emax steps fuel c = VNext c'.
Proof.
  induction fuel as [|fuel IH]; intros r c P R L L0 F; cbn [vRun]; destruct (Rleb (v_eps c) Emax); cbn [andb]; try (eexists; reflexivity);
    destruct (Nat.ltb_spec (v_k c) steps) as [K|K]; try (eexists; reflexivity).
  - exfalso. destruct (steps - v_k c)%nat eqn:Z; [lia|]. cbn [Nat.mul] in F. lia.
  - destruct (Hs c P K) as (s' & E & T & Q).
    destruct (vPass p o k conv keep sing quasi dL strain c) as [c1|e] eqn:EP.
    + assert (P1 := vpasses_S _ _ _ _ _ _ _ _ _ _ _ _ P EP). unfold vPass in EP. rewrite E in EP. destruct (vRepeats conv s') eqn:ER.
      * destruct r as [|r]; [exfalso; cbn in L; specialize (T ltac:(lra)); discriminate|]. injection EP as <-.
        apply (IH r _ P1); cbn [v_dLb v_dLb0 v_k]; [lia|cbn [pow] in L; lra|exact L0|]. replace (m - r)%nat with (Datatypes.S (m - Datatypes.S r)) by lia. lia.
      * destruct (Q eq_refl) as (b & t & EQ). rewrite EQ in EP. pose proof (found_sing _ _ _ _ _ EQ) as FS. injection EP as <-.
        assert (N0 : (if b then dL else v_dLb0 c) <= 2 ^ m * eps) by (destruct b; [apply HL, FS; reflexivity|exact L0]).
        assert (G : exists r', (r' <= m)%nat /\ (if v_bis c then if b then dL else v_dLb c else if b then dL else v_dLb0 c) <= 2 ^ r' * eps).
        { destruct (v_bis c); [|exists m; split; [lia|exact N0]]. destruct b; [exists m; split; [lia|exact N0]|exists r; split; [exact R|exact L]]. }
        destruct G as (r' & R' & G). apply (IH r' _ P1); cbn [v_dLb v_dLb0 v_k]; [exact R'|exact G|exact N0|].
        destruct (steps - v_k c)%nat as [|n] eqn:Z; [lia|]. replace (steps - Datatypes.S (v_k c))%nat with n by lia. cbn [Nat.mul] in F. lia.
    + exfalso. unfold vPass in EP. rewrite E in EP. destruct (vRepeats conv s'); [discriminate|]. destruct (Q eq_refl) as (b & t & EQ). rewrite EQ in EP. discriminate.
Qed.
End Ends.
(** If every step and every search for a singular point ends normally, and steps are not repeated once their length is at most eps, the loop ends after at most steps * (m + 1)
    passes, where the lengths set are at most 2^m eps. *)
Theorem C136_terminates {S : VS} {Mat : Type} (p : problem S Mat) (o : opts) (k : kind) (conv keep sing quasi : bool) (dL : R) (strain : S -> R) (Emax eps : R) (steps m : nat) (s : st S Mat) :
  s_len s <= 2 ^ m * eps -> (sing = true -> dL <= 2 ^ m * eps) ->
  (forall c, vpasses p o k conv keep sing quasi dL strain (mkV (setIndicator 0 s) (s_len s) (s_len s) v0 0 false 0 0 []) c -> (v_k c < steps)%nat ->
    exists s', step p o k (v_s c) = Ret tt s' /\ (v_dLb c <= eps -> vRepeats conv s' = false) /\
      (vRepeats conv s' = false -> exists b t, mSingular p o k sing quasi (v_U c) (v_L c) s' = Ret b t)) ->
  exists c, vMain p o k conv keep sing quasi dL strain Emax steps (steps * (m + 1)) s = VNext c.
Proof.
  intros H1 H2 Hs. unfold vMain. apply (v_ends p o k conv keep sing quasi dL strain Emax eps steps m _ H2 Hs _ m _ (vpasses_0 _ _ _ _ _ _ _ _ _ _)); cbn [v_dLb v_dLb0 v_k]; [lia|exact H1|exact H1|].
  replace (m + 1)%nat with (Datatypes.S m) by lia. rewrite Nat.sub_0_r. lia.
Qed.
Print Assumptions C136_terminates.
(** evaluation of the loops *)
Lemma v_again {S : VS} {Mat} (p : problem S Mat) o k conv keep sing quasi dL strain Emax steps fuel c s r : v_eps c <= Emax -> (v_k c < steps)%nat -> step p o k (v_s c) = Ret tt s -> vRepeats conv s = true ->
  vRun p o k conv keep sing quasi dL strain Emax steps fuel (mkV (setSolution (v_U c) (v_L c) (setLength (v_dLb c / 2) s)) (v_dLb c / 2) (v_dLb0 c) (v_U c) (v_L c) keep (v_eps c) (v_k c) (v_out c)) = r ->
  vRun p o k conv keep sing quasi dL strain Emax steps (Datatypes.S fuel) c = r.
Proof. intros H0 H E T <-. cbn [vRun]. rewrite (proj2 (Rleb_true _ _) H0), (proj2 (Nat.ltb_lt _ _) H). cbn [andb]. unfold vPass. rewrite E, T. reflexivity. Qed.
Lemma v_accept {S : VS} {Mat} (p : problem S Mat) o k conv keep sing quasi dL strain Emax steps fuel c s b s2 r : v_eps c <= Emax -> (v_k c < steps)%nat -> step p o k (v_s c) = Ret tt s -> vRepeats conv s = false ->
  mSingular p o k sing quasi (v_U c) (v_L c) s = Ret b s2 ->
  (let d0 := if b then dL else v_dLb0 c in let d := if b then dL else v_dLb c in let s3 := if b then setLength d s2 else s2 in let d := if v_bis c then d else d0 in
   vRun p o k conv keep sing quasi dL strain Emax steps fuel (mkV (if v_bis c then s3 else setLength d s3) d d0 (s_U s3) (s_L s3) false (strain (s_U s3)) (Datatypes.S (v_k c)) (v_out c ++ [(s_U s3, s_L s3)]))) = r ->
  vRun p o k conv keep sing quasi dL strain Emax steps (Datatypes.S fuel) c = r.
Proof. intros H0 H E T Q <-. cbn [vRun]. rewrite (proj2 (Rleb_true _ _) H0), (proj2 (Nat.ltb_lt _ _) H). cbn [andb]. unfold vPass. rewrite E, T, Q. reflexivity. Qed.
Lemma v_done {S : VS} {Mat} (p : problem S Mat) o k conv keep sing quasi dL strain Emax steps fuel (c : vst S Mat) : Emax < v_eps c \/ (steps <= v_k c)%nat ->
  vRun p o k conv keep sing quasi dL strain Emax steps fuel c = VNext c.
Proof. intros [H|H]; destruct fuel; cbn [vRun]; first [rewrite (proj2 (Rleb_false _ _) H); reflexivity|rewrite (proj2 (Nat.ltb_ge _ _) H), andb_false_r; reflexivity]. Qed.
Ltac vagain := eapply v_again; [rcbv; lra|cbn; lia|cbn [v_s v_U v_L v_dLb v_dLb0 v_bis]; ev|reflexivity|].
Ltac vaccept := eapply v_accept; [rcbv; lra|cbn; lia|cbn [v_s v_U v_L v_dLb v_dLb0 v_bis]; ev|reflexivity|unfold mSingular; cbv beta iota; cbn [v_s v_U v_L v_dLb v_dLb0 v_bis]; first [ev|reflexivity]|cbv zeta].
(** The spring of C114 whose assembly fails beyond u = 1, with the strain u and Emax = 1/2. With the length 8/3 the step is repeated with half the length, and the loop
    ends beyond Emax although five steps are allowed; *)
Example C136_example : exists c, vMain limited (exOpts 5) LoadControl true true false false 7 (fun u : VS_R => u) (1/2) 5 3 (exSt VS_R R (8/3)) = VNext c /\
  v_out c = [(2/3, 4/3)].
Proof.
  eexists. split; [unfold vMain; vagain; vaccept; apply v_done; left; rcbv; lra|]. rcbv. reflexivity.
Qed.
(** benchmark_FrustrumALM: one step asked for, which fails once *)
Example C136_frustrum_example : exists c, vMain limited (exOpts 5) LoadControl false false false false 7 (fun _ : VS_R => 0) 0 1 3 (exSt VS_R R (8/3)) = VNext c /\
  v_out c = [(2/3, 4/3)].
Proof.
  eexists. split; [unfold vMain; vagain; vaccept; apply v_done; right; rcbv; lia|]. rcbv. reflexivity.
Qed.
(** and in the other programs with the length 2/3 the loop ends after two rows, no solve having failed *)
Example C136_example2 : exists c, vMain limited (exOpts 5) LoadControl false false false false 7 (fun u : VS_R => u) (1/2) 5 3 (exSt VS_R R (2/3)) = VNext c /\
  v_out c = [(1/3, 2/3); (2/3, 4/3)] /\ wellPosed limited (exOpts 5) /\ ~ solveFailed (s_log (v_s c)).
Proof.
  eexists. split; [unfold vMain; vaccept; vaccept; apply v_done; left; rcbv; lra|]. split; [rcbv; reflexivity|].
  split; [split; [discriminate|]; split; [intros m l H; injection H as <-; discriminate|]; split; [cbn; lia|discriminate]|].
  rcbv; intros [(m & H)|(m & f & H)]; repeat (destruct H as [H|H]; [discriminate H|]); destruct H.
Qed.
(** the hypotheses of C136_terminates, as in C134: one failed step of length 1, then one of length 1/2 which converges *)
Lemma v_fail_then_converge {S : VS} {Mat} (p : problem S Mat) o k keep quasi dL strain eps c0 c1 s1 s2 : step p o k (v_s c0) = Ret tt s1 -> eps < v_dLb c0 -> s_conv s1 = false ->
  vPass p o k true keep false quasi dL strain c0 = VNext c1 -> step p o k (v_s c1) = Ret tt s2 -> s_conv s2 = true ->
  forall c, vpasses p o k true keep false quasi dL strain c0 c -> (v_k c < 1)%nat -> exists s', step p o k (v_s c) = Ret tt s' /\ (v_dLb c <= eps -> vRepeats true s' = false) /\
    (vRepeats true s' = false -> exists b t, mSingular p o k false quasi (v_U c) (v_L c) s' = Ret b t).
Proof.
  intros E1 L T1 P1 E2 T2 c P.
  assert (Z : c = c0 \/ c = c1 \/ (1 <= v_k c)%nat).
  { induction P as [|c c' P IH Q]; [left; reflexivity|]. destruct IH as [->|[->|IH]].
    - right. left. congruence.
    - right. right. unfold vPass in Q. rewrite E2 in Q. cbn [vRepeats] in Q. rewrite T2 in Q. cbn [negb mSingular] in Q. injection Q as <-. cbn [v_k]. lia.
    - destruct (vpass_rows p o k true keep false quasi dL strain c c' Q) as [(_ & _ & A)|(u & l & _ & _ & A)]; right; right; lia. }
  intros W. destruct Z as [->|[->|Z]]; [exists s1|exists s2|lia]; (split; [assumption|split; [|intros _; eexists _, _; reflexivity]]); cbn [vRepeats].
  - intros Z. exfalso. lra.
  - intros _. rewrite T2. reflexivity.
Qed.
Lemma vPass_fail {S : VS} {Mat} (p : problem S Mat) o k keep sing quasi dL strain c s1 : step p o k (v_s c) = Ret tt s1 -> s_conv s1 = false ->
  vPass p o k true keep sing quasi dL strain c = VNext (mkV (setSolution (v_U c) (v_L c) (setLength (v_dLb c / 2) s1)) (v_dLb c / 2) (v_dLb0 c) (v_U c) (v_L c) keep (v_eps c) (v_k c) (v_out c)).
Proof. intros E T. unfold vPass. rewrite E. cbn [vRepeats]. rewrite T. reflexivity. Qed.
Example C136_terminates_example : s_len (exSt VS_R R 1) <= 2 ^ 1 * (1/2) /\
  forall c, vpasses stiffening (exOpts 5) LoadControl true true false false 1 (fun u => u) (mkV (setIndicator 0 (exSt VS_R R 1)) (s_len (exSt VS_R R 1)) (s_len (exSt VS_R R 1)) (v0 : VS_R) 0 false 0 0 []) c -> (v_k c < 1)%nat ->
    exists s', step stiffening (exOpts 5) LoadControl (v_s c) = Ret tt s' /\ (v_dLb c <= 1/2 -> vRepeats true s' = false) /\
      (vRepeats true s' = false -> exists b t, mSingular stiffening (exOpts 5) LoadControl false false (v_U c) (v_L c) s' = Ret b t).
Proof.
  split; [cbn; lra|]. destruct stiff_beam as (s1 & E1 & T1 & s2 & E2 & T2).
  pose proof (vPass_fail stiffening (exOpts 5) LoadControl true false false 1 (fun u => u) (mkV (setIndicator 0 (exSt VS_R R 1)) (s_len (exSt VS_R R 1)) (s_len (exSt VS_R R 1)) (v0 : VS_R) 0 false 0 0 []) s1 E1 T1) as P1.
  eapply v_fail_then_converge; [exact E1| |exact T1|exact P1|exact E2|exact T2]. cbn. lra.
Qed.
(** What does not hold: the programs which test for NotConverged and AssemblyError write the point of a step that ended with SolverError (the problem of C114 in which no
    factorisation succeeds: the starting point is written twice, its residual is 1); and with SingularPoint a point out of equilibrium is written (the spring of negative
    stiffness of C117: the residual is 2 or -2). *)
Theorem C136_refuted :
  (exists c, vMain stuck (exOpts 5) LoadControl false true false false 7 (fun u : VS_R => u) 1 2 2 (exSt VS_R R 3) = VNext c /\
     v_out c = [(0, 0); (0, 0)] /\ s_stat (v_s c) = SolverError /\ p_residual stuck (0 : VS_R) 0 = Some 1) /\
  (exists c u, vMain inverted (exOpts 5) LoadControl true true true false 1 (fun u : VS_R => u) 1 1 1 (exSt VS_R R 1) = VNext c /\ v_out c = [(u, 0)] /\ Rabs u = 1 /\
     p_residual inverted u 0 = Some (-2 * u - 0)).
Proof.
  split.
  - eexists. split; [unfold vMain; vaccept; vaccept; apply v_done; right; cbn; lia|]. cbn. repeat split. f_equal. lra.
  - eexists. eexists. split; [|split].
    + unfold vMain. vaccept. apply v_done. right. cbn. lia.
    + rcbv. reflexivity.
    + rcbv. split; [|reflexivity]. first [rewrite Rabs_right by lra; lra|rewrite Rabs_left by lra; lra].
Qed.
Print Assumptions C136_refuted.
