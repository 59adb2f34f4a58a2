(** Properties of the loops of the programs with displacement control: C119, C120. *)
From Verif Require Import VS Status RunTac Static StaticRun StaticLoop Props_Static Props_Static2 Props_Static3.
Local Open Scope R_scope.

(** ** C119 *)
Section C119.
Context {S : VS} {Mat : Type}.
Variable p : nprob S Mat.
Variable o : nopts.
Notation f := (newtonIface p o).
(** [balanced l u0 u]: the residual at load [l] and displacement [u] is below the tolerance times the
    residual at load [l] and displacement [u0] *)
Definition balanced (l : R) (u0 u : S) : Prop := exists r r0, np_res p l u0 = Yes r0 /\ np_res p l u = Yes r /\
  norm r < tolOr (no_tolF o) (no_tol o) * (if Reqb (norm r0) 0 then 1 else norm r0).
(** the points [out] follow the point [(u0, l0)] with increments [d], [d/2], [d/4], ...; a point may
    repeat the one before it *)
Fixpoint follows (d : R) (u0 : S) (l0 : R) (out : list (S * R)) : Prop :=
  match out with
  | [] => True
  | (u, l) :: out => ((u = u0 /\ l = l0) \/ (exists j, l = l0 + d / 2 ^ j) /\ balanced l u0 u) /\ follows d u l out
  end.
Lemma follows_snoc d out : forall u0 l0 u l, follows d u0 l0 out ->
  ((u = fst (last out (u0, l0)) /\ l = snd (last out (u0, l0))) \/
   (exists j, l = snd (last out (u0, l0)) + d / 2 ^ j) /\ balanced l (fst (last out (u0, l0))) u) ->
  follows d u0 l0 (out ++ [(u, l)]).
Proof.
  induction out as [|[u1 l1] out IH]; intros u0 l0 u l H K; [cbn in *; auto|].
  destruct H as (H & H1). cbn [app follows]. split; [exact H|]. apply IH; [exact H1|].
  destruct out as [|x out]; [exact K|]. change (last ((u1, l1) :: x :: out) (u0, l0)) with (last (x :: out) (u0, l0)) in K.
  replace (last (x :: out) (u1, l1)) with (last (x :: out) (u0, l0)); [exact K|]. clear.
  revert x. induction out as [|y out IH]; intros x; [reflexivity|]. exact (IH y).
Qed.
Lemma last_snoc {A} (l : list A) x d : last (l ++ [x]) d = x.
Proof. induction l as [|y l IH]; [reflexivity|]. cbn [app]. destruct (l ++ [x]) eqn:E; [destruct l; discriminate|exact IH]. Qed.
(** the invariant of both loops *)
Definition dcInv (d dL0 : R) (t : nst S Mat) (l : lst S (nst S Mat)) : Prop :=
  (exists h, ctlRun f h (ctlNew t) (l_c l)) /\ length (l_out l) = l_k l /\ (exists j, l_dL l = dL0 / 2 ^ j) /\
  last (l_out l) (v0, 0) = (d_U (l_c l), d_L (l_c l)) /\ follows d v0 0 (l_out l).
Hypothesis Hn : np_nl p = true.
Hypothesis Hm : (1 <= no_maxIt o)%nat.
Lemma dc_accept s dL0 t dl (l : lst S (nst S Mat)) q c : n_U t = v0 -> dcInv (s * dL0) dL0 t l ->
  ctlStep f dl (l_c l) = Done q c -> dl = s * l_dL l ->
  (exists h, ctlRun f h (ctlNew t) c) /\ (q <> Success -> d_U c = d_U (l_c l) /\ d_L c = d_L (l_c l)) /\
  follows (s * dL0) v0 0 (l_out l ++ [(d_U c, d_L c)]).
Proof.
  intros Ht ((h & Hh) & _ & (j & Hj) & HL & HF) E ->.
  assert (X : q <> Success -> d_U c = d_U (l_c l) /\ d_L c = d_L (l_c l)).
  { intros N. apply (C47_failed_step f (s * l_dL l)). left. exists q. auto. }
  split; [eexists; eapply CrStep; eauto|]. split; [exact X|].
  apply follows_snoc; [exact HF|]. rewrite HL. cbn [fst snd].
  destruct (status_eqb q Success) eqn:Q.
  - apply status_eqb_true in Q. subst q. right.
    destruct (C47_newton p o t h (l_c l) _ c Hn Hm Ht Hh E) as (_ & _ & B).
    split; [|exact B]. exists j. pose proof (ctlStep_cases f (s * l_dL l) (l_c l)) as C. rewrite E in C.
    destruct C as (_ & _ & t1 & _ & _ & C3 & _). destruct (C3 eq_refl) as (-> & _). rewrite Hj. field. apply pow_nonzero. lra.
  - left. apply X. intros ->. discriminate.
Qed.
Lemma half_pow (x dL0 : R) j : x = dL0 / 2 ^ j -> x / 2 = dL0 / 2 ^ (Datatypes.S j).
Proof. intros ->. cbn [pow]. field. apply pow_nonzero. lra. Qed.
Lemma repeats_not q : lrepeats q = true -> q <> Success.
Proof. intros H ->. discriminate. Qed.
Lemma frustPass_inv dL0 t l l' : n_U t = v0 -> dcInv (- 1 * dL0) dL0 t l -> frustPass f dL0 l = LNext l' -> dcInv (- 1 * dL0) dL0 t l'.
Proof.
  intros Ht I. unfold frustPass. destruct (ctlStep f (- l_dL l) (l_c l)) as [q c|] eqn:E; [|discriminate].
  destruct (dc_accept (- 1) dL0 t (- l_dL l) l q c Ht I E ltac:(lra)) as (Hh & X & F). destruct I as (_ & Hk & (j & Hj) & HL & HF).
  destruct (lrepeats q) eqn:Q; intros Y; injection Y as <-; unfold dcInv; cbn.
  - apply repeats_not in Q. destruct (X Q) as (-> & ->).
    split; [exact Hh|]. split; [exact Hk|]. split; [exists (Datatypes.S j); apply half_pow; exact Hj|]. auto.
  - split; [exact Hh|]. split; [rewrite app_length; cbn; lia|]. split.
    { destruct (l_reset l); [exists j; exact Hj|exists O; cbn; field]. }
    split; [apply last_snoc|exact F].
Qed.
Lemma snapPass_inv dL0 t l l' : n_U t = v0 -> dcInv (1 * dL0) dL0 t l -> snapPass f dL0 l = LNext l' -> dcInv (1 * dL0) dL0 t l'.
Proof.
  intros Ht I. unfold snapPass. destruct (ctlStep f (l_dL l) (l_c l)) as [q c|] eqn:E; [|discriminate].
  destruct (dc_accept 1 dL0 t (l_dL l) l q c Ht I E ltac:(lra)) as (Hh & X & F). destruct I as (_ & Hk & (j & Hj) & HL & HF).
  destruct (lrepeats q) eqn:Q; intros Y; injection Y as <-; unfold dcInv; cbn.
  - apply repeats_not in Q. destruct (X Q) as (-> & ->).
    split; [exact Hh|]. split; [exact Hk|]. split; [exists (Datatypes.S j); apply half_pow; exact Hj|]. auto.
  - split; [exact Hh|]. split; [rewrite app_length; cbn; lia|]. split; [exists O; cbn; field|].
    split; [apply last_snoc|exact F].
Qed.
Lemma dc_start d dL0 t : dcInv d dL0 t (mkLS (ctlNew t) dL0 0 false 0 []).
Proof. unfold dcInv. cbn. split; [exists []; apply CrNil|]. split; [reflexivity|]. split; [exists O; cbn; field|]. auto. Qed.
Lemma frustPass_k dL0 (l : lst S (nst S Mat)) l' : frustPass f dL0 l = LNext l' -> (l_k l' <= Datatypes.S (l_k l))%nat.
Proof.
  unfold frustPass. destruct (ctlStep f _ _) as [q c|]; [|discriminate]. destruct (lrepeats q); intros Y; injection Y as <-; cbn; lia.
Qed.
(** The loop of benchmark_FrustrumDC.cpp, when it ends without exception: [steps] points are written; each
    is either the point before it once more, or its load differs from that of the point before by
    -dL0/2^j and it is in equilibrium to the tolerance; control holds the last point. *)
Theorem C119_frustrum_points_partial dL0 steps fuel t l : n_U t = v0 -> frustMain f dL0 steps fuel t = LNext l ->
  length (l_out l) = steps /\ follows (- 1 * dL0) v0 0 (l_out l) /\ last (l_out l) (v0, 0) = (d_U (l_c l), d_L (l_c l)).
Proof.
  intros Ht. unfold frustMain. pose proof (dc_start (- 1 * dL0) dL0 t) as I.
  set (l0 := mkLS _ _ _ _ _ _) in *. assert (K : (l_k l0 <= steps)%nat) by (cbn; lia). clearbody l0. revert l0 I K.
  induction fuel as [|fuel IH]; intros l0 I K; cbn [frustRun]; destruct (Nat.ltb_spec (l_k l0) steps) as [L|L]; try discriminate.
  1, 3: intros Y; injection Y as <-; destruct I as (_ & ? & _ & ? & ?); split; [lia|auto].
  destruct (frustPass f dL0 l0) as [l1| |] eqn:E; try discriminate. apply IH.
  - exact (frustPass_inv dL0 t l0 l1 Ht I E).
  - apply frustPass_k in E. lia.
Qed.
Lemma snapRun_inv strain Emax dL0 steps fuel t l : n_U t = v0 -> 0 <= Emax -> forall l0 eps, dcInv (1 * dL0) dL0 t l0 ->
  (forall i x, (Datatypes.S i < length (l_out l0))%nat -> nth_error (l_out l0) i = Some x -> strain (fst x) <= Emax) -> (l_k l0 <= steps)%nat ->
  (l_out l0 = [] /\ eps = 0 \/ l_out l0 <> [] /\ eps = strain (fst (last (l_out l0) (v0, 0)))) -> snapRun f strain Emax dL0 steps fuel eps l0 = LNext l ->
  (length (l_out l) <= steps)%nat /\ follows (1 * dL0) v0 0 (l_out l) /\ last (l_out l) (v0, 0) = (d_U (l_c l), d_L (l_c l)) /\
  (forall i x, (Datatypes.S i < length (l_out l))%nat -> nth_error (l_out l) i = Some x -> strain (fst x) <= Emax) /\
  ((length (l_out l) < steps)%nat -> Emax < strain (fst (last (l_out l) (v0, 0)))).
Proof.
  intros Ht HE.
  induction fuel as [|fuel IH]; intros l0 eps I K KK Q; cbn [snapRun]; destruct (Rleb eps Emax) eqn:Le; cbn [andb].
  all: try (destruct (Nat.ltb_spec (l_k l0) steps) as [L|L]; try discriminate).
  all: lazymatch goal with |- LNext _ = _ -> _ => idtac | _ => shelve end.
  all: intros Y; injection Y as <-; destruct I as (_ & I1 & _ & I2 & I3); (split; [lia|]); (split; [exact I3|]); (split; [exact I2|]); (split; [exact K|]); intros L1;
    try lia; apply Rleb_false in Le; destruct Q as [[_ Q1]|[_ Q1]]; rewrite <- ?Q1; lra.
  Unshelve. destruct (snapPass f dL0 l0) as [l1| |] eqn:E; try discriminate.
  pose proof (snapPass_inv dL0 t l0 l1 Ht I E) as I1. apply Rleb_true in Le.
  unfold snapPass in E. destruct (ctlStep f _ _) as [q c|]; [|discriminate]. destruct (lrepeats q); injection E as <-; cbn [l_k].
  - rewrite Nat.ltb_irrefl. apply IH; cbn; auto.
  - rewrite (proj2 (Nat.ltb_lt _ _) (Nat.lt_succ_diag_r _)). apply IH; cbn [l_out l_k l_c]; [exact I1| |lia|].
    + intros i x Hi Hx. rewrite app_length in Hi. cbn in Hi. rewrite nth_error_app1 in Hx by lia.
      destruct (Nat.eq_dec (Datatypes.S i) (length (l_out l0))) as [Z|Z]; [|apply (K i x); [lia|exact Hx]].
      destruct Q as [(Z1 & _)|(Z1 & Z2)]; [rewrite Z1 in Z; cbn in Z; lia|].
      assert (W : last (l_out l0) (v0, 0) = x).
      { destruct (exists_last Z1) as (m & y & Em). rewrite Em in *. rewrite last_snoc. rewrite app_length in Z. cbn in Z.
        rewrite nth_error_app2 in Hx by lia. replace (i - length m)%nat with 0%nat in Hx by lia. cbn in Hx. congruence. }
      rewrite <- W, <- Z2. exact Le.
    + right. split; [destruct (l_out l0); discriminate|]. rewrite last_snoc. reflexivity.
Qed.
(** The loop of snapping_example_shell_DC.cpp, when it ends without exception: the same with increments
    dL0/2^j; there are at most [steps] points, every one but the last has a strain of at most Emax,
    and if there are fewer than [steps] points the last one has a larger strain. *)
Theorem C119_snapping_points_partial strain Emax dL0 steps fuel t l : n_U t = v0 -> 0 <= Emax -> snapMain f strain Emax dL0 steps fuel t = LNext l ->
  (length (l_out l) <= steps)%nat /\ follows (1 * dL0) v0 0 (l_out l) /\ last (l_out l) (v0, 0) = (d_U (l_c l), d_L (l_c l)) /\
  (forall i x, (Datatypes.S i < length (l_out l))%nat -> nth_error (l_out l) i = Some x -> strain (fst x) <= Emax) /\
  ((length (l_out l) < steps)%nat -> Emax < strain (fst (last (l_out l) (v0, 0)))).
Proof.
  intros Ht HE. apply (snapRun_inv strain Emax dL0 steps fuel t l Ht HE); cbn [l_out l_k length]; [apply dc_start|intros; lia|lia|auto].
Qed.
End C119.
Print Assumptions C119_frustrum_points_partial.
Print Assumptions C119_snapping_points_partial.
(** a spring of stiffness 2 whose assembly fails when the imbalance of the forces exceeds 3/2, and one
    whose tangent is singular *)
Definition exBrittle : nprob VS_R R := @mkNProb VS_R R 1 1
  (fun l u => if Rltb (3/2) (Rabs (l - 2 * u)) then No else Yes (l - 2 * u)) (fun u _ => Yes 2) (fun m => negb (Reqb m 0)) (fun m f => Some (f / m)) true.
Definition exLoose : nprob VS_R R := @mkNProb VS_R R 1 1
  (fun l u => Yes (l - 2 * u)) (fun u _ => Yes 0) (fun m => negb (Reqb m 0)) (fun m f => Some (f / m)) true.
Ltac cstep := unfold ctlStep; cbv zeta; cbn [i_solve newtonIface d_first d_L d_U d_solver d_stat ctlNew l_c l_dL]; nstep; cbn [status_eqb lrepeats].
Ltac fpass := cbn [frustRun l_k Nat.ltb Nat.leb l_reset l_dL l_D l_out app]; unfold frustPass at 1; cstep.
Ltac spass := cbn [snapRun l_k Nat.ltb Nat.leb l_reset l_dL l_D l_out app]; rewrite (proj2 (Rleb_true _ _)) by lra; cbn [andb]; unfold snapPass at 1; cstep.
Ltac lend := cbn [frustRun snapRun l_k Nat.ltb Nat.leb l_reset l_dL l_D l_out l_c app andb]; rewrite ?andb_false_r; reflexivity.
(** The displacement D shown by the programs is not the one reached: after two steps of
    benchmark_FrustrumDC.cpp with dL0 = 2, the first of which is halved, control.solutionL() is -2 and D is
    -3; after the first step of snapping_example_shell_DC.cpp it is 1 and D is 2. *)
Theorem C119_refuted : exists l l',
  frustMain (newtonIface exBrittle (exOpt 4 (1/2) 2)) 2 2 3 newtonNew = LNext l /\ d_L (l_c l) = -2 /\ l_D l = -3 /\ l_out l = [(- (1/2), -1); (-1, -2)] /\
  snapMain (newtonIface exBrittle (exOpt 4 (1/2) 2)) (fun _ => 0) 1 2 1 2 newtonNew = LNext l' /\ d_L (l_c l') = 1 /\ l_D l' = 2.
Proof.
  eexists _, _. split. { unfold frustMain. fpass. fpass. fpass. lend. }
  split; [rcbv; lra|]. split; [rcbv; lra|]. split; [rcbv; repeat f_equal; lra|].
  split. { unfold snapMain. spass. spass. lend. }
  split; rcbv; lra.
Qed.
Print Assumptions C119_refuted.
(** Points are written that are not in equilibrium at a load of the sequence: when the tangent is singular the step is
    not repeated and the origin is written [steps] times. *)
Theorem C119_repeated_refuted : exists l,
  frustMain (newtonIface exLoose (exOpt 4 (1/2) 2)) 2 2 2 newtonNew = LNext l /\ l_out l = [(v0, 0); (v0, 0)] /\ d_stat (l_c l) = SolverError.
Proof.
  eexists. split. { unfold frustMain. fpass. fpass. lend. }
  split; reflexivity.
Qed.
Print Assumptions C119_repeated_refuted.
(** the hypotheses of both theorems on points are met by the runs of [C119_refuted] *)
Example C119_example : n_U (newtonNew : nst VS_R R) = v0 /\ np_nl exBrittle = true /\ (1 <= no_maxIt (exOpt 4 (1/2) 2))%nat.
Proof. cbn. repeat split; lia. Qed.

(** ** C120 *)
Section C120.
Context {S : VS} {T : Type}.
Variable solve : R -> S -> T -> status * S * T.
Variables tol dL0 : R.
Hypothesis Htol : 0 <= tol.
Hypothesis HdL : 0 < dL0.
(** checkpoints in increasing order above [D0] *)
Fixpoint rising (D0 : R) (cks : list R) : Prop := match cks with [] => True | c :: cks => D0 < c /\ rising c cks end.
(** the points written after the one at [D0] with solution [U0]: D grows by at most dL0, the solver was
    started at the solution of the point before, and it returned Success unless the increment is at most
    dL0/8 *)
Fixpoint traced (D0 : R) (U0 : S) (out : list (R * S * status)) : Prop :=
  match out with
  | [] => True
  | (D, u, q) :: out => D0 < D <= D0 + dL0 /\ (q = Success \/ D - D0 <= dL0 / 8) /\ (exists t t', solve D U0 t = (q, u, t')) /\ traced D u out
  end.
Definition reached (out : list (R * S * status)) (c : R) : Prop := Exists (fun x => Rabs (fst (fst x) - c) <= tol) out.
Lemma rising_last c cks : rising c cks -> c <= last (c :: cks) 0.
Proof.
  revert c. induction cks as [|d cks IH]; intros c; [cbn; lra|]. intros (H1 & H2). specialize (IH d H2).
  change (last (c :: d :: cks) 0) with (last (d :: cks) 0). lra.
Qed.
Lemma cylRun_end n : forall y c cks Dp h, y_cks y = c :: cks -> rising c cks -> y_D y = Dp + y_dL y -> 0 < y_dL y -> y_D y <= c -> (h <= 3)%nat ->
  y_dL y <= dL0 / 2 ^ h -> (y_dL y = Rmin dL0 (c - Dp) \/ dL0 / 16 < y_dL y) ->
  4 * (16 * (last (c :: cks) 0 - Dp) / dL0 + INR (length (c :: cks))) + (3 - INR h) < INR n ->
  exists out, cylRun solve tol dL0 n y = YEnd (y_out y ++ out) /\ traced Dp (y_U y) out /\ Forall (reached out) (c :: cks) /\
    Forall (fun x => fst (fst x) <= last (c :: cks) 0) out /\ exists out' x, out = out' ++ [x] /\ Rabs (fst (fst x) - last (c :: cks) 0) <= tol.
Proof.
  assert (P3 : forall h, (h <= 3)%nat -> INR h <= 3 /\ dL0 / 2 ^ h <= dL0).
  { intros h Hh. split; [apply (le_INR h 3) in Hh; cbn in Hh; lra|]. do 4 (destruct h as [|h]; [cbn; lra|]). lia. }
  induction n as [|n IH]; intros y c cks Dp h Ec Hr HD H0 Hc Hh Hd Hm HN.
  { exfalso. destruct (P3 h Hh) as (P & _). pose proof (rising_last c cks Hr). assert (0 <= 16 * (last (c :: cks) 0 - Dp) / dL0).
    { apply Rmult_le_pos; [lra|]. left. apply Rinv_0_lt_compat. lra. }
    pose proof (pos_INR (length (c :: cks))). cbn [INR] in HN. lra. }
  cbn [cylRun]. unfold cylPass. destruct (solve (y_D y) (y_U y) (y_t y)) as [[q u] t] eqn:Es.
  destruct (P3 h Hh) as (P & P1). rewrite S_INR in HN.
  destruct (negb (status_eqb q Success) && Rltb ((1/2) ^ 3) (y_dL y / dL0)) eqn:B.
  - apply andb_prop in B. destruct B as (_ & B). apply Rltb_true in B.
    assert (B1 : dL0 / 8 < y_dL y).
    { apply (Rmult_lt_compat_r dL0) in B; [|exact HdL]. unfold Rdiv in B at 2. rewrite Rmult_assoc, Rinv_l in B by lra. cbn in B. lra. }
    assert (Hh2 : (h < 3)%nat).
    { destruct (Nat.eq_dec h 3) as [->|]; [cbn in Hd; lra|lia]. }
    set (y1 := mkY _ _ _ _ _ _). destruct (IH y1 c cks Dp (Datatypes.S h)) as (out & E & R); cbn [y1 y_D y_dL y_cks y_U y_t y_out]; try assumption; try lra; try lia.
    + apply (Rmult_le_compat_r (/ 2)) in Hd; [|lra]. replace (dL0 / 2 ^ Datatypes.S h) with (dL0 / 2 ^ h * / 2); [lra|cbn [pow]; field; apply pow_nonzero; lra].
    + rewrite (S_INR h). lra.
    + exists out. exact (conj E R).
  - assert (Q : q = Success \/ y_dL y <= dL0 / 8).
    { apply andb_false_iff in B. destruct B as [B|B].
      - left. apply status_eqb_true. destruct (status_eqb q Success); [reflexivity|discriminate].
      - right. apply Rltb_false in B. apply (Rmult_le_compat_r dL0) in B; [|lra]. unfold Rdiv in B at 1. rewrite Rmult_assoc, Rinv_l in B by lra. cbn in B. lra. }
    rewrite Ec. pose proof (rising_last c cks Hr) as Hl.
    destruct (gsClose (y_D y) c tol) eqn:G; unfold gsClose in G; [apply Rleb_true in G|apply Rleb_false in G].
    + destruct cks as [|c' cks].
      * exists [(y_D y, u, q)]. split; [reflexivity|]. split; [cbn; repeat split; try lra; [destruct Q; [auto|right; lra]|exists (y_t y), t; exact Es]|].
        split; [constructor; [apply Exists_cons_hd; exact G|constructor]|]. split; [constructor; [cbn; lra|constructor]|].
        exists [], (y_D y, u, q). split; [reflexivity|exact G].
      * destruct Hr as (Hr1 & Hr2). set (y1 := mkY _ _ _ _ _ _).
        assert (M : 0 < Rmin dL0 (c' - y_D y)) by (apply Rmin_pos; lra).
        pose proof (Rmin_l dL0 (c' - y_D y)). pose proof (Rmin_r dL0 (c' - y_D y)).
        destruct (IH y1 c' cks (y_D y) 0%nat) as (out & E & R1 & R2 & R3 & (o' & x & -> & R4)); cbn [y1 y_D y_dL y_cks y_U y_t y_out]; try assumption; try reflexivity; try lra; try lia.
        { change (last (c :: c' :: cks) 0) with (last (c' :: cks) 0) in HN. change (length (c :: c' :: cks)) with (Datatypes.S (length (c' :: cks))) in HN.
          rewrite S_INR in HN. assert (16 * (last (c' :: cks) 0 - y_D y) / dL0 <= 16 * (last (c' :: cks) 0 - Dp) / dL0).
          { apply Rmult_le_compat_r; [left; apply Rinv_0_lt_compat; lra|lra]. }
          cbn [INR]. lra. }
        exists ((y_D y, u, q) :: o' ++ [x]). split; [rewrite E; cbn [y1 y_out]; rewrite <- app_assoc; reflexivity|].
        split; [cbn [traced]; split; [lra|]; split; [destruct Q; [auto|right; lra]|]; split; [exists (y_t y), t; exact Es|exact R1]|].
        split.
        { constructor; [apply Exists_cons_hd; exact G|]. eapply Forall_impl; [|exact R2]. intros a Ha. apply Exists_cons_tl. exact Ha. }
        change (last (c :: c' :: cks) 0) with (last (c' :: cks) 0) in *.
        split; [constructor; [pose proof (rising_last c' cks Hr2); cbn [fst]; lra|exact R3]|].
        exists ((y_D y, u, q) :: o'), x. split; [reflexivity|exact R4].
    + assert (G1 : tol < c - y_D y). { rewrite Rabs_left1 in G by lra. lra. }
      set (y1 := mkY _ _ _ _ _ _).
      assert (M : 0 < Rmin dL0 (c - y_D y)) by (apply Rmin_pos; lra).
      pose proof (Rmin_l dL0 (c - y_D y)). pose proof (Rmin_r dL0 (c - y_D y)).
      assert (A : dL0 / 16 < y_dL y).
      { destruct Hm as [Hm|Hm]; [|exact Hm]. unfold Rmin in Hm. destruct (Rle_dec dL0 (c - Dp)); lra. }
      destruct (IH y1 c cks (y_D y) 0%nat) as (out & E & R1 & R2 & R3 & (o' & x & -> & R4)); cbn [y1 y_D y_dL y_cks y_U y_t y_out]; try assumption; try reflexivity; try lra; try lia.
      { assert (16 * (last (c :: cks) 0 - y_D y) / dL0 <= 16 * (last (c :: cks) 0 - Dp) / dL0 - 1).
        { apply (Rmult_le_reg_r dL0); [exact HdL|]. unfold Rdiv. rewrite Rmult_minus_distr_r, !Rmult_assoc, Rinv_l by lra. lra. }
        change (INR 0) with 0. lra. }
      exists ((y_D y, u, q) :: o' ++ [x]). split; [rewrite E; cbn [y1 y_out]; rewrite <- app_assoc; reflexivity|].
      split; [cbn [traced]; split; [lra|]; split; [destruct Q; [auto|right; lra]|]; split; [exists (y_t y), t; exact Es|exact R1]|].
      split. { eapply Forall_impl; [|exact R2]. intros a Ha. apply Exists_cons_tl. exact Ha. }
      split; [constructor; [cbn [fst]; lra|exact R3]|].
      exists ((y_D y, u, q) :: o'), x. split; [reflexivity|exact R4].
Qed.
(** The loop of benchmark_cylinder_DC.cpp ends, whatever the solver returns, within 4 (16 L / dL0 + n + 1) passes
    (L the last and n the number of the checkpoints). D grows from point to point by at most dL0 and never
    beyond L, every checkpoint is met by a written point to the tolerance, the last point is at L, every solve is
    started from the point before, and a point without Success has an increment of at most dL0/8. *)
Theorem C120_terminates c cks t n : rising 0 (c :: cks) -> 4 * (16 * last (c :: cks) 0 / dL0 + INR (length (c :: cks))) + 3 < INR n ->
  exists out, cylMain solve tol dL0 (c :: cks) n t = YEnd out /\ traced 0 v0 out /\ Forall (reached out) (c :: cks) /\
    Forall (fun x => fst (fst x) <= last (c :: cks) 0) out /\ exists out' x, out = out' ++ [x] /\ Rabs (fst (fst x) - last (c :: cks) 0) <= tol.
Proof.
  intros (Hc & Hr) HN. unfold cylMain. cbn [hd]. pose proof (Rmin_l dL0 c). pose proof (Rmin_r dL0 c). assert (0 < Rmin dL0 c) by (apply Rmin_pos; lra).
  set (y := mkY _ _ _ _ _ _). apply (cylRun_end n y c cks 0 0%nat); cbn [y y_D y_dL y_cks]; try assumption; try reflexivity; try lra; try lia.
  - left. f_equal. lra.
  - rewrite Rminus_0_r. change (INR 0) with 0. lra.
Qed.
(** [Sol D u]: u is a solution at D. If the solver only returns Success at solutions and succeeds from every solution for
    an increment of at most dL0/8, then every point written is a solution. *)
Theorem C120_solutions_partial (Sol : R -> S -> Prop) c cks t n : rising 0 (c :: cks) -> 4 * (16 * last (c :: cks) 0 / dL0 + INR (length (c :: cks))) + 3 < INR n ->
  Sol 0 v0 -> (forall D U s u s', solve D U s = (Success, u, s') -> Sol D u) ->
  (forall D0 D U s, Sol D0 U -> D0 < D <= D0 + dL0 / 8 -> fst (fst (solve D U s)) = Success) ->
  exists out, cylMain solve tol dL0 (c :: cks) n t = YEnd out /\ Forall (fun x => snd x = Success /\ Sol (fst (fst x)) (snd (fst x))) out.
Proof.
  intros Hr HN H0 HS HL. destruct (C120_terminates c cks t n Hr HN) as (out & E & Ht & _). exists out. split; [exact E|]. clear E.
  revert H0 Ht. generalize 0 as D0, (v0 : S) as U0. induction out as [|[[D u] q] out IH]; intros D0 U0 H0; [constructor|].
  intros (H1 & H2 & (s & s' & H3) & H4).
  assert (Q : q = Success). { destruct H2 as [H2|H2]; [exact H2|]. specialize (HL D0 D U0 s H0 ltac:(lra)). rewrite H3 in HL. exact HL. }
  subst q. pose proof (HS _ _ _ _ _ H3) as H5. constructor; [cbn; auto|]. exact (IH _ _ H5 H4).
Qed.
End C120.
Print Assumptions C120_terminates.
Print Assumptions C120_solutions_partial.
Lemma archimed_nat x : exists n, x < INR n.
Proof.
  exists (Z.to_nat (up (Rabs x))). destruct (archimed (Rabs x)) as (H & _). pose proof (Rle_abs x). pose proof (Rabs_pos x).
  rewrite INR_IZR_INZ, Z2Nat.id; [lra|]. apply le_IZR. lra.
Qed.
(** With a solver that never converges and the checkpoints of the program, unconverged results are written up to D = 1 and the
    program ends as usual. *)
Definition exNever : R -> VS_R -> unit -> status * VS_R * unit := fun D U t => (NotConverged, 7, t).
Theorem C120_refuted dL0 : 0 < dL0 -> exists n out, cylMain exNever (/ 10 ^ 8) dL0 [7/10; 8/10; 9/10; 1] n tt = YEnd out /\
  Forall (fun x => snd x = NotConverged) out /\ (exists x, In x out /\ Rabs (fst (fst x) - 1) <= / 10 ^ 8).
Proof.
  intros H. destruct (archimed_nat (4 * (16 * 1 / dL0 + 4) + 3)) as (n & Hn). exists n.
  destruct (C120_terminates exNever (/ 10 ^ 8) dL0) with (c := 7/10) (cks := [8/10; 9/10; 1]) (t := tt) (n := n) as (out & E & Ht & Hr & _); try assumption.
  - left. apply Rinv_0_lt_compat. apply pow_lt. lra.
  - cbn. lra.
  - cbn [last length INR]. lra.
  - exists out. split; [exact E|]. split.
    + clear - Ht. revert Ht. generalize 0 as D0, (v0 : VS_R) as U0. induction out as [|[[D u] q] out IH]; intros D0 U0; [constructor|].
      intros (_ & _ & (s & s' & H3) & H4). constructor; [|exact (IH _ _ H4)]. unfold exNever in H3. cbn. congruence.
    + rewrite Forall_forall in Hr. specialize (Hr 1 ltac:(cbn; auto)). apply Exists_exists in Hr. exact Hr.
Qed.
Print Assumptions C120_refuted.
(** a solver that succeeds for increments of at most 1/4 *)
Definition exShort : R -> VS_R -> unit -> status * VS_R * unit := fun D U t => if Rltb (1/4) (D - U) then (NotConverged, 0, t) else (Success, D, t).
Example C120_example :
  cylMain exShort (1/100000000) 1 [1/2; 1] 6 tt = @YEnd VS_R unit [(1/4, 1/4, Success); (1/2, 1/2, Success); (3/4, 3/4, Success); (1, 1, Success)].
Proof. rsimp. reflexivity. Qed.
(** the hypotheses of [C120_solutions_partial], met by this solver *)
Example C120_example2 : rising 0 [1/2; 1] /\ 4 * (16 * last [1/2; 1] 0 / 1 + INR (length [1/2; 1])) + 3 < INR 80 /\
  (forall D U s u s', exShort D U s = (Success, u, s') -> D = u) /\
  (forall D0 D U s, D0 = U -> D0 < D <= D0 + 1 / 8 -> fst (fst (exShort D U s)) = Success).
Proof.
  split; [cbn; lra|]. split; [cbn; lra|]. unfold exShort. split.
  - intros D U s u s'. destruct (Rltb (1/4) (D - U)); intros E; [discriminate|congruence].
  - intros D0 D U s <- H. replace (Rltb (1/4) (D - D0)) with false; [reflexivity|]. symmetry. apply Rltb_false. lra.
Qed.
