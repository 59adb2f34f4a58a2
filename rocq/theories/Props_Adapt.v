(** C137: load steps with adaptive meshing of benchmark_Roof_DWR and benchmark_Wrinkling_DWR *)
From Verif Require Import VS RunTac Adapt.
Local Open Scope R_scope.

(** how many of the tries failed, how many converged; the error of the last which converged *)
Fixpoint fails (t : list (R * option R)) : nat := match t with [] => O | (_, None) :: t => S (fails t) | _ :: t => fails t end.
Fixpoint conv (t : list (R * option R)) : nat := match t with [] => O | (_, Some _) :: t => S (conv t) | _ :: t => conv t end.
Fixpoint lastErr (e : R) (t : list (R * option R)) : R := match t with [] => e | (_, Some e) :: t => lastErr e t | (_, None) :: t => lastErr e t end.
Lemma fails_app a b : fails (a ++ b) = (fails a + fails b)%nat.
Proof. induction a as [|[d [e|]] a IH]; cbn; lia. Qed.
Lemma conv_app a b : conv (a ++ b) = (conv a + conv b)%nat.
Proof. induction a as [|[d [e|]] a IH]; cbn; lia. Qed.
Lemma lastErr_app a b e : lastErr e (a ++ b) = lastErr (lastErr e a) b.
Proof. revert e. induction a as [|[d [x|]] a IH]; intros e; cbn; auto. Qed.
(** every try has the initial length halved once for every failure before it *)
Definition halved (dL0 : R) (t : list (R * option R)) : Prop := forall l1 d r l2, t = l1 ++ (d, r) :: l2 -> d = dL0 / 2 ^ fails l1.
Lemma halved_snoc dL0 t d r : halved dL0 t -> d = dL0 / 2 ^ fails t -> halved dL0 (t ++ [(d, r)]).
Proof.
  intros H E l1 d1 r1 l2 Q. destruct l2 as [|y l2] using rev_ind.
  - apply app_inj_tail in Q. destruct Q as [-> Q]. injection Q as <- _. exact E.
  - clear IHl2. rewrite app_comm_cons, app_assoc in Q. apply app_inj_tail in Q. destruct Q as [-> _]. eapply H. reflexivity.
Qed.
Lemma half_step x n : x / 2 ^ n / 2 = x / 2 ^ (n + 1).
Proof. rewrite pow_add. field. apply pow_nonzero. lra. Qed.

Section Adapt.
Context {W : Type}.
Variable try_ : R -> W -> W * option R.
Variables (refine unrefine : W -> W * bool) (restore project accept : W -> W) (mid : W -> R).
Variable o : aopts.
Let loop := adaptLoop try_ refine unrefine restore project o.
(** the error is in the band: no further iteration is asked for *)
Definition inBand (e : R) : Prop :=
  if a_band1 o then e <= a_refTol o else e < a_refTol o /\ (a_crsTol o <= e \/ a_roof o = false /\ e <= a_nocrs o).
Lemma bandTest_spec e : bandTest o e = false <-> inBand e.
Proof.
  unfold bandTest, inBand. destruct (a_band1 o); [rewrite Rltb_false; lra|]. rewrite orb_false_iff, andb_false_iff, orb_false_iff, !Rltb_false, Rleb_false.
  split; intros [H1 H2]; split; try lra; destruct H2 as [H2|H2] || destruct H1 as [H1|H1]; tauto || (right; split; tauto || lra) || (left; lra) || idtac.
Qed.
Definition roofFails (t : list (R * option R)) : Z := if a_roof o then Z.of_nat (fails t) else 0%Z.
(** what one load step does, from the length dL0 and unstable_prev = u0 *)
Record stepSpec (dL0 : R) (u0 : bool) (s : ist W) : Prop := {
  sp_dL : i_dL s = dL0 / 2 ^ fails (i_try s); sp_half : halved dL0 (i_try s);
  sp_last : i_try s = [] \/ exists t d e, i_try s = t ++ [(d, Some e)];
  sp_err : i_err s = lastErr (a_err0 o) (i_try s);
  sp_conv : (Z.of_nat (conv (i_try s)) <= Z.max 0 (a_maxIt o) + roofFails (i_try s))%Z;
  sp_none : i_try s = [] <-> inBand (a_err0 o) \/ (a_maxIt o <= 0)%Z;
  sp_once : a_adapt o = false \/ u0 = true -> (conv (i_try s) <= 1)%nat;
  sp_uns : i_uns s = u0 && (negb (a_adapt o) || (conv (i_try s) =? 0)%nat);
  sp_exit : a_adapt o = true -> u0 = false -> inBand (i_err s) \/ (a_maxIt o <= Z.of_nat (conv (i_try s)) - roofFails (i_try s))%Z \/ i_ref s = false /\ i_crs s = false }.
(** before every pass *)
Definition guard (s : ist W) : bool := i_band s && (i_it s <? a_maxIt o)%Z && (i_ref s || i_crs s).
Record ainv (dL0 : R) (u0 : bool) (s : ist W) : Prop := {
  ai_dL : i_dL s = dL0 / 2 ^ fails (i_try s); ai_half : halved dL0 (i_try s);
  ai_last : guard s = true \/ i_try s = [] \/ exists t d e, i_try s = t ++ [(d, Some e)];
  ai_err : i_err s = lastErr (a_err0 o) (i_try s);
  ai_it : i_it s = (Z.of_nat (conv (i_try s)) - roofFails (i_try s))%Z;
  ai_conv : (Z.of_nat (conv (i_try s)) <= Z.max 0 (a_maxIt o) + roofFails (i_try s))%Z;
  ai_none : i_try s = [] -> i_ref s = true; ai_some : i_try s <> [] -> ~ inBand (a_err0 o) /\ (0 < a_maxIt o)%Z;
  ai_once : a_adapt o = false \/ u0 = true -> conv (i_try s) = O;
  ai_uns : i_uns s = u0; ai_band : i_band s = bandTest o (i_err s) }.
Lemma snoc_ne (t : list (R * option R)) x : t ++ [x] <> [].
Proof. destruct t; discriminate. Qed.
Lemma loop_spec dL0 u0 fuel s s' : ainv dL0 u0 s -> loop fuel s = Some s' -> stepSpec dL0 u0 s'.
Proof.
  revert s. induction fuel as [|fuel IH]; intros s I E; unfold loop in E; cbn [adaptLoop] in E; fold (guard s) in E; destruct (guard s) eqn:G; try discriminate.
  1, 3: injection E as <-; destruct I; constructor; auto.
  1, 6: destruct ai_last0 as [X|X]; [congruence|exact X].
  1, 5: split; [intros Q; unfold guard in G; rewrite (ai_none0 Q), andb_true_r, andb_false_iff, Z.ltb_ge in G; rewrite ai_band0, ai_err0, ai_it0, Q in G; cbn in G;
      unfold roofFails in G; cbn in G; rewrite bandTest_spec in G; destruct G as [G|G]; [left; exact G|right; destruct (a_roof o); lia]
    |intros Q; destruct (i_try s) eqn:ET; [reflexivity|]; destruct ai_some0 as [A B]; [discriminate|]; destruct Q; [contradiction|lia]].
  1, 4: intros Q; rewrite (ai_once0 Q); lia.
  1, 3: rewrite ai_uns0; destruct u0; [|reflexivity]; rewrite (ai_once0 (or_intror eq_refl)); cbn; rewrite orb_true_r; reflexivity.
  1, 2: intros _ _; unfold guard in G; rewrite !andb_false_iff, orb_false_iff, Z.ltb_ge in G; rewrite ai_band0, bandTest_spec, ai_it0 in G; tauto.
  fold loop in E. assert (GG := G). unfold guard in G. apply andb_prop in G. destruct G as [G G3]. apply andb_prop in G. destruct G as [G1 G2]. apply Z.ltb_lt in G2.
  destruct I.
  assert (NB : ~ inBand (a_err0 o) /\ (0 < a_maxIt o)%Z).
  { destruct (i_try s) eqn:ET; [|apply ai_some0; discriminate]. rewrite ai_it0 in G2. rewrite ai_band0, ai_err0 in G1. cbn in *. unfold roofFails in G2. cbn in G2.
    split; [|destruct (a_roof o); lia]. intros Q. apply bandTest_spec in Q. congruence. }
  destruct (try_ (i_dL s) (i_w s)) as [w [e|]].
  - assert (RF : roofFails (i_try s ++ [(i_dL s, Some e)]) = roofFails (i_try s)) by (unfold roofFails; rewrite fails_app; cbn; rewrite Nat.add_0_r; reflexivity).
    assert (FF : fails (i_try s ++ [(i_dL s, Some e)]) = fails (i_try s)) by (rewrite fails_app; cbn; lia).
    assert (CC : conv (i_try s ++ [(i_dL s, Some e)]) = Datatypes.S (conv (i_try s))) by (rewrite conv_app; cbn; lia).
    assert (LE : e = lastErr (a_err0 o) (i_try s ++ [(i_dL s, Some e)])) by (rewrite lastErr_app; reflexivity).
    assert (HH : halved dL0 (i_try s ++ [(i_dL s, Some e)])) by (apply halved_snoc; assumption).
    assert (BREAK : forall un, (a_adapt o = false \/ u0 = true) -> un = u0 && negb (a_adapt o) ->
      stepSpec dL0 u0 (mkI w (i_dL s) (i_it s) (i_ref s) (i_crs s) (i_band s) e un (i_try s ++ [(i_dL s, Some e)]))).
    { intros un A B. constructor; cbn [i_w i_dL i_it i_ref i_crs i_band i_err i_uns i_try]; rewrite ?FF, ?RF, ?CC; auto.
      - right. eauto.
      - lia.
      - split; [intros Q; apply snoc_ne in Q; contradiction|intros [Q|Q]; [tauto|lia]].
      - intros Q. rewrite (ai_once0 Q). lia.
      - rewrite B. cbn. rewrite orb_false_r. reflexivity.
      - intros X Y. destruct A; congruence. }
    destruct (a_adapt o) eqn:EA.
    + destruct (i_uns s) eqn:EU.
      * injection E as <-. apply BREAK; [right; congruence|rewrite andb_false_r; reflexivity].
      * destruct (remesh _ _ _ _ _ _ _ _) as [[w1 ref] crs]. apply IH in E; [exact E|].
        constructor; cbn [i_w i_dL i_it i_ref i_crs i_band i_err i_uns i_try]; rewrite ?FF, ?RF, ?CC; auto.
        -- right. right. eauto.
        -- lia.
        -- lia.
        -- intros Q. apply snoc_ne in Q. contradiction.
        -- intros [Q|Q]; congruence.
    + injection E as <-. apply BREAK; [left; reflexivity|rewrite andb_true_r; exact ai_uns0].
  - assert (FF : fails (i_try s ++ [(i_dL s, None)]) = (fails (i_try s) + 1)%nat) by (rewrite fails_app; reflexivity).
    assert (CC : conv (i_try s ++ [(i_dL s, None)]) = conv (i_try s)) by (rewrite conv_app; cbn; lia).
    assert (RF : roofFails (i_try s ++ [(i_dL s, None)]) = (roofFails (i_try s) + if a_roof o then 1 else 0)%Z) by (unfold roofFails; rewrite FF; destruct (a_roof o); lia).
    apply IH in E; [exact E|]. constructor; cbn [i_w i_dL i_it i_ref i_crs i_band i_err i_uns i_try]; rewrite ?FF, ?RF, ?CC; auto.
    + rewrite ai_dL0. apply half_step.
    + apply halved_snoc; assumption.
    + left. unfold guard. cbn. rewrite G1, G3, andb_true_r. cbn. apply Z.ltb_lt. destruct (a_roof o); lia.
    + rewrite lastErr_app. cbn. exact ai_err0.
    + destruct (a_roof o); lia.
    + destruct (a_roof o); lia.
    + intros Q. apply snoc_ne in Q. contradiction.
Qed.
Lemma init_inv w dL u : ainv dL u (adaptInit o w dL u).
Proof.
  constructor; cbn; auto; try (unfold roofFails; cbn; destruct (a_roof o); lia).
  - unfold Rdiv. rewrite Rinv_1. lra.
  - intros l1 d r l2 Q. destruct l1; discriminate.
  - intros Q. contradiction.
Qed.
(** C137: the step() calls of a load step *)
Theorem C137_tries_partial w dL u fuel s : loop fuel (adaptInit o w dL u) = Some s -> stepSpec dL u s.
Proof. apply loop_spec. apply init_inv. Qed.

(** the inner loop ends if steps of small lengths converge *)
Lemma loop_ends eps dL0 u0 : 0 < dL0 -> (forall d w, 0 < d <= eps -> snd (try_ d w) <> None) ->
  forall m fuel s, dL0 / 2 ^ m <= eps -> ainv dL0 u0 s -> (fails (i_try s) <= m)%nat ->
    (Z.max 0 (a_maxIt o - i_it s) + (if a_roof o then 2 else 1) * (Z.of_nat m - Z.of_nat (fails (i_try s))) <= Z.of_nat fuel)%Z -> exists s', loop fuel s = Some s'.
Proof.
  intros P H m fuel. induction fuel as [|fuel IH]; intros s HM I F L; unfold loop; cbn [adaptLoop]; fold (guard s).
  - destruct (guard s) eqn:G; [|eauto]. unfold guard in G. rewrite !andb_true_iff, Z.ltb_lt in G. destruct (a_roof o); lia.
  - fold loop. destruct (guard s) eqn:G; [|eauto]. assert (G' := G). unfold guard in G'. rewrite !andb_true_iff, Z.ltb_lt in G'. destruct G' as [[G1 G2] G3].
    destruct (try_ (i_dL s) (i_w s)) as [w [e|]] eqn:ET.
    + destruct (a_adapt o) eqn:EA; [|eauto]. destruct (i_uns s) eqn:EU; [eauto|]. destruct (remesh _ _ _ _ _ _ _ _) as [[w1 ref] crs].
      apply IH; [exact HM| | |].
      * destruct I. rewrite EU in ai_uns0. constructor; cbn [i_w i_dL i_it i_ref i_crs i_band i_err i_uns i_try]; rewrite ?fails_app, ?conv_app, ?lastErr_app; unfold roofFails in *; rewrite ?fails_app; cbn [fails conv lastErr]; rewrite ?Nat.add_0_r; auto.
        -- apply halved_snoc; assumption.
        -- right. right. eauto.
        -- lia.
        -- lia.
        -- intros Q. apply snoc_ne in Q. contradiction.
        -- intros _. destruct (i_try s) eqn:Q; [|apply ai_some0; discriminate]. rewrite ai_it0 in G2. rewrite ai_band0, ai_err0 in G1. cbn in *.
           split; [|destruct (a_roof o); lia]. intros Q'. apply bandTest_spec in Q'. congruence.
        -- intros [Q|Q]; congruence.
      * cbn. rewrite fails_app. cbn. lia.
      * cbn [i_it i_try]. rewrite fails_app. cbn. rewrite Nat.add_0_r. destruct (a_roof o); lia.
    + assert (FL : (fails (i_try s) < m)%nat).
      { destruct (le_lt_dec m (fails (i_try s))) as [Q|Q]; [|exact Q]. exfalso. assert (EM : fails (i_try s) = m) by lia.
        apply (H (i_dL s) (i_w s)); [|rewrite ET; reflexivity]. rewrite (ai_dL _ _ _ I), EM. split; [apply Rdiv_lt_0_compat; [exact P|apply pow_lt; lra]|exact HM]. }
      apply IH; [exact HM| | |].
      * destruct I. constructor; cbn [i_w i_dL i_it i_ref i_crs i_band i_err i_uns i_try]; rewrite ?fails_app, ?conv_app, ?lastErr_app; unfold roofFails in *; rewrite ?fails_app; cbn [fails conv lastErr]; rewrite ?Nat.add_0_r; auto.
        -- rewrite ai_dL0. apply half_step.
        -- apply halved_snoc; assumption.
        -- left. unfold guard. cbn. rewrite G1, G3, andb_true_r. cbn. apply Z.ltb_lt. destruct (a_roof o); lia.
        -- destruct (a_roof o); lia.
        -- destruct (a_roof o); lia.
        -- intros Q. apply snoc_ne in Q. contradiction.
        -- intros _. destruct (i_try s) eqn:Q; [|apply ai_some0; discriminate]. rewrite ai_it0 in G2. rewrite ai_band0, ai_err0 in G1. cbn in *.
           split; [|destruct (a_roof o); lia]. intros Q'. apply bandTest_spec in Q'. congruence.
      * cbn. rewrite fails_app. cbn. lia.
      * cbn [i_it i_try]. rewrite fails_app. cbn [fails]. destruct (a_roof o); lia.
Qed.
(** C137: termination of a load step *)
Theorem C137_terminates eps m w dL u : 0 < dL -> (forall d w, 0 < d <= eps -> snd (try_ d w) <> None) -> dL / 2 ^ m <= eps ->
  exists s, loop (Z.to_nat (a_maxIt o) + 2 * m) (adaptInit o w dL u) = Some s.
Proof.
  intros P H M. apply (loop_ends eps dL u P H m); [exact M|apply init_inv|cbn; lia|]. cbn. destruct (a_roof o); lia.
Qed.

(** the rows: every one has the specification of a load step from the length left by the one before *)
Inductive chain (dL0 : R) : list (R * list (R * option R)) -> R -> Prop :=
  | chain_nil : chain dL0 [] dL0
  | chain_snoc l dL u s : chain dL0 l dL -> stepSpec dL u s -> chain dL0 (l ++ [(i_err s, i_try s)]) (i_dL s).
Definition allTries (l : list (R * list (R * option R))) : list (R * option R) := concat (map snd l).
Lemma chain_len dL0 l dL : chain dL0 l dL -> dL = dL0 / 2 ^ fails (allTries l).
Proof.
  induction 1 as [|l dL u s H IH Q]; [cbn; field|]. unfold allTries in *. rewrite map_app, concat_app, fails_app. cbn. rewrite app_nil_r, (sp_dL _ _ _ Q), IH, pow_add.
  field. split; apply pow_nonzero; lra.
Qed.
(** C137: the load steps; the arc length is halved at every failure of the whole run and never restored *)
Theorem C137_loadsteps_partial lo hi maxSteps fuel inner w dL u k0 m0 s :
  loadLoop try_ refine unrefine restore project accept mid o lo hi maxSteps fuel inner (mkO w dL u k0 m0 []) = Some s ->
  chain dL (o_rows s) (o_dL s) /\ o_dL s = dL / 2 ^ fails (allTries (o_rows s)) /\ o_k s = (k0 + length (o_rows s))%nat /\ (o_k s <= Nat.max k0 maxSteps)%nat /\
  (hi <= o_mid s \/ o_mid s <= lo \/ (maxSteps <= o_k s)%nat).
Proof.
  intros E.
  enough (Z : chain dL (o_rows s) (o_dL s) /\ o_k s = (k0 + length (o_rows s))%nat /\ (o_k s <= Nat.max k0 maxSteps)%nat /\ (hi <= o_mid s \/ o_mid s <= lo \/ (maxSteps <= o_k s)%nat)).
  { destruct Z as (Z1 & Z2). split; [exact Z1|]. split; [apply chain_len; exact Z1|exact Z2]. }
  assert (I : forall fuel q, chain dL (o_rows q) (o_dL q) -> o_k q = (k0 + length (o_rows q))%nat -> (o_k q <= Nat.max k0 maxSteps)%nat ->
    loadLoop try_ refine unrefine restore project accept mid o lo hi maxSteps fuel inner q = Some s ->
    chain dL (o_rows s) (o_dL s) /\ o_k s = (k0 + length (o_rows s))%nat /\ (o_k s <= Nat.max k0 maxSteps)%nat /\ (hi <= o_mid s \/ o_mid s <= lo \/ (maxSteps <= o_k s)%nat)).
  { clear E fuel. intros fuel. induction fuel as [|fuel IH]; intros q C K1 K2 E; cbn [loadLoop] in E;
      destruct (Rltb (o_mid q) hi && Rltb lo (o_mid q) && (o_k q <? maxSteps)%nat) eqn:G; try discriminate.
    1, 3: injection E as <-; rewrite !andb_false_iff, !Rltb_false, Nat.ltb_ge in G; repeat split; auto; tauto.
    apply andb_prop in G. destruct G as [_ G]. apply Nat.ltb_lt in G. fold loop in E.
    destruct (loop inner (adaptInit o (o_w q) (o_dL q) (o_uns q))) as [i|] eqn:EI; [|discriminate].
    apply IH in E; [exact E| | |]; cbn [o_rows o_dL o_k].
    - apply (chain_snoc _ _ (o_dL q) (o_uns q)); [exact C|apply (C137_tries_partial _ _ _ _ _ EI)].
    - rewrite app_length. cbn. lia.
    - lia. }
  apply (I fuel (mkO w dL u k0 m0 [])); cbn; [constructor|lia|lia|exact E].
Qed.
(** C137: nothing is solved in a run whose initial error is in the band: rows are written all the same *)
Theorem C137_unsolved_refuted lo hi maxSteps inner w dL u m0 : inBand (a_err0 o) \/ (a_maxIt o <= 0)%Z -> (forall w, lo < mid w < hi) -> lo < m0 < hi ->
  exists s, loadLoop try_ refine unrefine restore project accept mid o lo hi maxSteps maxSteps inner (mkO w dL u 0 m0 []) = Some s /\ o_rows s = repeat (a_err0 o, []) maxSteps.
Proof.
  intros B M M0.
  assert (I : forall n q, (o_k q + n = maxSteps)%nat -> lo < o_mid q < hi -> exists s,
    loadLoop try_ refine unrefine restore project accept mid o lo hi maxSteps n inner q = Some s /\ o_rows s = o_rows q ++ repeat (a_err0 o, []) n).
  { induction n as [|n IH]; intros q K Q; cbn [loadLoop].
    - replace (o_k q <? maxSteps)%nat with false by (symmetry; apply Nat.ltb_ge; lia). rewrite andb_false_r. exists q. cbn. rewrite app_nil_r. auto.
    - replace (o_k q <? maxSteps)%nat with true by (symmetry; apply Nat.ltb_lt; lia).
      replace (Rltb (o_mid q) hi) with true by (symmetry; apply Rltb_true; lra). replace (Rltb lo (o_mid q)) with true by (symmetry; apply Rltb_true; lra). cbn [andb].
      assert (A : adaptLoop try_ refine unrefine restore project o inner (adaptInit o (o_w q) (o_dL q) (o_uns q)) = Some (adaptInit o (o_w q) (o_dL q) (o_uns q))).
      { assert (G : guard (adaptInit o (o_w q) (o_dL q) (o_uns q)) = false).
        { unfold guard. cbn. rewrite andb_true_r. destruct B as [B|B]; [apply bandTest_spec in B; rewrite B; reflexivity|]. apply andb_false_iff. right. apply Z.ltb_ge. exact B. }
        unfold guard in G. destruct inner; cbn [adaptLoop]; rewrite G; reflexivity. }
      rewrite A. destruct (IH (mkO (accept (o_w q)) (o_dL q) (o_uns q) (S (o_k q)) (mid (o_w q)) (o_rows q ++ [(a_err0 o, [])]))) as (s & E & R); [cbn; lia|cbn; apply M|].
      exists s. split; [exact E|]. rewrite R. cbn. rewrite <- app_assoc. reflexivity. }
  destruct (I maxSteps (mkO w dL u 0 m0 [])) as (s & E & R); [cbn; lia|exact M0|]. exists s. split; [exact E|exact R].
Qed.
(** C137: the same mesh is solved maxRefIt times if nothing can be refined: coarsened stays true *)
Theorem C137_stall_refuted e w dL : try_ dL w = (w, Some e) -> a_refTol o < e -> refine w = (w, false) -> project w = w -> a_adapt o = true ->
  ~ inBand (a_err0 o) -> (0 <= a_maxIt o)%Z ->
  exists s, loop (Z.to_nat (a_maxIt o)) (adaptInit o w dL false) = Some s /\ i_w s = w /\ i_try s = repeat (dL, Some e) (Z.to_nat (a_maxIt o)).
Proof.
  intros T E RF PR AD B M.
  assert (BE : bandTest o e = true) by (unfold bandTest; destruct (a_band1 o); [apply Rltb_true; exact E|apply orb_true_intro; right; apply Rleb_true; lra]).
  assert (B0 : bandTest o (a_err0 o) = true) by (destruct (bandTest o (a_err0 o)) eqn:Q; [reflexivity|apply bandTest_spec in Q; contradiction]).
  assert (I : forall n it r er t, (it + Z.of_nat n = a_maxIt o)%Z -> exists s,
    loop n (mkI w dL it r true true er false t) = Some s /\ i_w s = w /\ i_try s = t ++ repeat (dL, Some e) n).
  { induction n as [|n IH]; intros it r er t L; unfold loop; cbn [adaptLoop i_band i_it i_ref i_crs].
    - replace (it <? a_maxIt o)%Z with false by (symmetry; apply Z.ltb_ge; lia). cbn. rewrite app_nil_r. eauto.
    - replace (it <? a_maxIt o)%Z with true by (symmetry; apply Z.ltb_lt; lia). rewrite orb_true_r. cbn [andb i_dL i_w i_uns i_try i_err]. rewrite T, AD.
      unfold remesh. replace (Rltb (a_refTol o) e) with true by (symmetry; apply Rltb_true; exact E). rewrite RF, PR, BE. fold loop.
      destruct (IH (it + 1)%Z false e (t ++ [(dL, Some e)])) as (s & A1 & A2 & A3); [lia|]. exists s. split; [exact A1|]. split; [exact A2|]. rewrite A3, <- app_assoc. reflexivity. }
  unfold adaptInit. rewrite B0. apply (I (Z.to_nat (a_maxIt o)) 0%Z true (a_err0 o) []). lia.
Qed.
(** C137: what is done to the mesh after a step with the error e: refined above the band, refined and coarsened inside, coarsened below, but brought back to
    the initial mesh below nocrs (not in benchmark_Roof_DWR); and what refined and coarsened say afterwards *)
Theorem C137_mesh w w' dL e : try_ dL w = (w', Some e) -> a_adapt o = true -> a_maxIt o = 1%Z -> ~ inBand (a_err0 o) -> a_crsTol o <= a_refTol o ->
  exists s, loop 1 (adaptInit o w dL false) = Some s /\ i_try s = [(dL, Some e)] /\
  (a_refTol o < e -> i_w s = project (fst (refine w')) /\ i_ref s = snd (refine w') /\ i_crs s = true) /\
  (a_crsTol o < e < a_refTol o -> let r := refine w' in let u := unrefine (fst r) in i_w s = project (fst u) /\ i_ref s = snd r /\ i_crs s = snd u) /\
  (e < a_crsTol o -> a_roof o = true \/ a_nocrs o < e -> i_w s = project (fst (unrefine w')) /\ i_ref s = true /\ i_crs s = snd (unrefine w')) /\
  (e < a_crsTol o -> a_roof o = false -> e < a_nocrs o -> i_w s = project (restore w') /\ i_ref s = true /\ i_crs s = true).
Proof.
  intros T AD M B L. assert (B0 : bandTest o (a_err0 o) = true) by (destruct (bandTest o (a_err0 o)) eqn:Q; [reflexivity|apply bandTest_spec in Q; contradiction]).
  unfold loop, adaptInit. cbn [adaptLoop i_band i_it i_ref i_crs i_dL i_w i_uns i_try i_err]. rewrite B0, M, T, AD. cbn [Z.ltb Z.compare andb orb app].
  destruct (remesh refine unrefine restore o e w' true true) as [[w1 ref] crs] eqn:ER. cbn [adaptLoop i_it i_band i_ref i_crs]. change (0 + 1 <? 1)%Z with false. rewrite andb_false_r. cbn [andb].
  eexists. split; [reflexivity|]. cbn [i_w i_dL i_it i_ref i_crs i_band i_err i_uns i_try]. split; [reflexivity|]. unfold remesh in ER.
  destruct (Rltb (a_refTol o) e) eqn:E1; [apply Rltb_true in E1|apply Rltb_false in E1].
  { destruct (refine w') as [w2 b]. injection ER as <- <- <-. repeat split; auto; intros; lra. }
  destruct (Rltb e (a_refTol o) && Rltb (a_crsTol o) e) eqn:E2.
  { apply andb_prop in E2. rewrite !Rltb_true in E2. destruct (refine w') as [w2 b]. cbn [fst snd]. destruct (unrefine w2) as [w3 b'] eqn:EU. injection ER as <- <- <-.
    split; [intros; lra|]. split; [intros _; cbn; rewrite ?EU; auto|]. split; intros; lra. }
  apply andb_false_iff in E2. rewrite !Rltb_false in E2.
  destruct (Rltb e (a_crsTol o) && (a_roof o || Rltb (a_nocrs o) e)) eqn:E3.
  { apply andb_prop in E3. destruct E3 as [E3 E4]. apply Rltb_true in E3. destruct (unrefine w') as [w2 b]. injection ER as <- <- <-.
    split; [intros; lra|]. split; [intros; lra|]. split; [auto|]. intros _ R N. rewrite R in E4. cbn in E4. apply Rltb_true in E4. lra. }
  apply andb_false_iff in E3. rewrite orb_false_iff, !Rltb_false in E3.
  split; [intros; lra|]. split; [intros; lra|]. split; [intros X [Y|Y]; destruct E3 as [E3|[E3 E4]]; try lra; congruence|]. intros X Y N.
  replace (Rltb e (a_nocrs o)) with true in ER by (symmetry; apply Rltb_true; exact N). rewrite Y in ER. cbn in ER. injection ER as <- <- <-. auto.
Qed.
End Adapt.
Print Assumptions C137_mesh.
Print Assumptions C137_tries_partial.
Print Assumptions C137_terminates.
Print Assumptions C137_loadsteps_partial.
Print Assumptions C137_unsolved_refuted.
Print Assumptions C137_stall_refuted.

(** a program: the first [w] steps fail, the others have the error 2, and nothing can be refined or coarsened *)
Definition xTry (d : R) (w : nat) : nat * option R := match w with O => (O, Some 2) | S w => (w, None) end.
Definition idW {W : Type} (w : W) : W := w.
Definition xMesh (w : nat) : nat * bool := (w, false).
Definition xOpt (roof : bool) (n : Z) : aopts := mkAO roof false 1 (/ 2) (/ 4) n true 3.
Lemma xBand roof n e : 1 <= e -> bandTest (xOpt roof n) e = true.
Proof. intros H. unfold bandTest. cbn. apply orb_true_intro. right. apply Rleb_true. exact H. Qed.
Lemma xConv roof n k : forall it r er t d, 1 <= er -> (it + Z.of_nat k = n)%Z -> exists s,
  adaptLoop xTry xMesh xMesh idW idW (xOpt roof n) k (mkI O d it r true true er false t) = Some s /\ i_try s = t ++ repeat (d, Some 2) k.
Proof.
  induction k as [|k IH]; intros it r er t d HE L; cbn [adaptLoop i_band i_it i_ref i_crs a_maxIt xOpt].
  - replace (it <? n)%Z with false by (symmetry; apply Z.ltb_ge; lia). cbn. rewrite app_nil_r. eauto.
  - replace (it <? n)%Z with true by (symmetry; apply Z.ltb_lt; lia). rewrite orb_true_r. cbn [andb i_dL i_w i_uns i_try i_err xTry a_adapt xOpt].
    unfold remesh. cbn [a_refTol xOpt]. replace (Rltb 1 2) with true by (symmetry; apply Rltb_true; lra). cbn [xMesh idW]. rewrite xBand by lra.
    destruct (IH (it + 1)%Z false 2 (t ++ [(d, Some 2)]) d) as (s & A1 & A2); [lra|lia|]. exists s. split; [exact A1|]. rewrite A2, <- app_assoc. reflexivity.
Qed.
Lemma xFail roof n : (0 < n)%Z -> forall k it t d, (it < n)%Z -> exists s,
  adaptLoop xTry xMesh xMesh idW idW (xOpt roof n) (k + Z.to_nat (n - (if roof then it - Z.of_nat k else it))) (mkI k d it true true true 3 false t) = Some s /\
  conv (i_try s) = (conv t + Z.to_nat (n - (if roof then it - Z.of_nat k else it)))%nat /\ fails (i_try s) = (fails t + k)%nat.
Proof.
  intros P k. induction k as [|k IH]; intros it t d L.
  - destruct (xConv roof n (Z.to_nat (n - (if roof then it - Z.of_nat 0 else it))) it true 3 t d) as (s & A1 & A2); [lra|destruct roof; lia|]. exists s. split; [exact A1|].
    rewrite A2, conv_app, fails_app. generalize (Z.to_nat (n - (if roof then it - Z.of_nat 0 else it))). intros j.
    assert (Q : conv (repeat (d, Some 2) j) = j /\ fails (repeat (d, Some 2) j) = O) by (induction j; cbn; [auto|destruct IHj; split; lia]). destruct Q as [-> ->]. lia.
  - destruct (IH (if roof then it - 1 else it)%Z (t ++ [(d, None)]) (d / 2)) as (s & A1 & A2 & A3); [destruct roof; lia|]. exists s. cbn [Nat.add adaptLoop i_band i_it i_ref i_crs a_maxIt xOpt].
    replace (it <? n)%Z with true by (symmetry; apply Z.ltb_lt; lia). cbn [andb orb i_dL i_w i_uns i_try i_err xTry a_adapt xOpt a_roof].
    rewrite conv_app in A2. rewrite fails_app in A3. cbn in A2, A3.
    assert (N : (n - (if roof then (if roof then it - 1 else it) - Z.of_nat k else if roof then it - 1 else it) = n - (if roof then it - Z.of_nat (S k) else it))%Z) by (destruct roof; lia).
    rewrite N in A1, A2. split; [exact A1|]. split; lia.
Qed.
(** C137: in benchmark_Roof_DWR maxRefIt is exceeded by the number of failed steps; not in benchmark_Wrinkling_DWR *)
Theorem C137_refuted roof n k : (0 < n)%Z -> exists s,
  adaptLoop xTry xMesh xMesh idW idW (xOpt roof n) (k + Z.to_nat n + (if roof then k else 0)) (adaptInit (xOpt roof n) k 1 false) = Some s /\
  fails (i_try s) = k /\ conv (i_try s) = (Z.to_nat n + if roof then k else 0)%nat.
Proof.
  intros P. destruct (xFail roof n P k 0 [] 1) as (s & A1 & A2 & A3); [lia|]. exists s. unfold adaptInit. cbn [a_err0 xOpt]. rewrite xBand by lra. cbn in A2, A3.
  replace (k + Z.to_nat n + (if roof then k else 0))%nat with (k + Z.to_nat (n - (if roof then 0 - Z.of_nat k else 0)))%nat by (destruct roof; lia).
  split; [exact A1|]. split; [exact A3|]. rewrite A2. destruct roof; lia.
Qed.
Print Assumptions C137_refuted.

(** a run of benchmark_Roof_DWR: two failures, then an error above, one below and one inside the band; refinement halves the error *)
Definition yTry (d : R) (w : R * nat) : (R * nat) * option R := match snd w with O => (w, Some (fst w)) | S n => ((fst w, n), None) end.
Definition yRef (w : R * nat) : (R * nat) * bool := ((fst w / 4, snd w), true).
Definition yCrs (w : R * nat) : (R * nat) * bool := ((2 * fst w, snd w), true).
Definition yOpt : aopts := mkAO true false 1 (/ 2) 0 5 true 10.
Example C137_instance : match adaptLoop yTry yRef yCrs idW idW yOpt 9 (adaptInit yOpt (3 / 2, 2%nat) 8 false) with
  | Some s => i_dL s = 2 /\ i_err s = 3 / 4 /\ i_try s = [(8, None); (4, None); (2, Some (3 / 2)); (2, Some (3 / 8)); (2, Some (3 / 4))] | None => False end.
Proof. rsimp. replace (8 / 2) with 4 by lra. auto. Qed.
(** two load steps without adaptive meshing, of which the first has the failures: the second begins with the halved length *)
Example C137_run : match loadLoop yTry yRef yCrs idW idW idW fst (mkAO true false 1 (/ 2) 0 5 false 10) (-30) 30 2 2 4 (mkO (3 / 2, 2%nat) 8 false 0 0 []) with
  | Some s => o_rows s = [(3 / 2, [(8, None); (4, None); (2, Some (3 / 2))]); (3 / 2, [(2, Some (3 / 2))])] /\ o_dL s = 2 | None => False end.
Proof. rsimp. replace (8 / 2) with 4 by lra. auto. Qed.
(** termination: the steps of this program fail above length 1 *)
Definition zTry (d : R) (w : R) : R * option R := (w, if Rleb d 1 then Some w else None).
Example C137_terminates_case w : exists s, adaptLoop zTry (fun w => (w / 4, true)) (fun w => (2 * w, true)) idW idW yOpt (5 + 2 * 3) (adaptInit yOpt w 8 false) = Some s.
Proof.
  apply (C137_terminates zTry _ _ _ _ yOpt 1 3 w 8 false); [lra| |lra]. intros d v H. unfold zTry. cbn. replace (Rleb d 1) with true by (symmetry; apply Rleb_true; lra). discriminate.
Qed.
(** benchmark_Wrinkling_DWR with target = 1 and bandwidth = 1/2: the error 1 of l.741 is in the band *)
Example C137_unsolved_case : exists s, loadLoop zTry (fun w => (w, true)) (fun w => (w, true)) idW idW idW (fun _ => 0) (mkAO false false 2 (/ 2) 0 5 true 1) (-1) 1 3 3 9
  (mkO 0 1 false 0 0 []) = Some s /\ o_rows s = repeat (1, []) 3.
Proof. apply (C137_unsolved_refuted zTry _ _ _ _ idW (fun _ => 0) (mkAO false false 2 (/ 2) 0 5 true 1)); [left; cbn|intros _|]; unfold inBand; cbn; lra. Qed.
Example C137_stall_case : exists s, adaptLoop zTry (fun w => (w, false)) (fun w => (w, true)) idW idW yOpt 5 (adaptInit yOpt 2 1 false) = Some s /\ i_w s = 2 /\ i_try s = repeat (1, Some 2) 5.
Proof.
  apply (C137_stall_refuted zTry (fun w => (w, false)) (fun w => (w, true)) idW idW yOpt 2 2 1); auto; cbn; try lra; try lia.
  - unfold zTry. replace (Rleb 1 1) with true by (symmetry; apply Rleb_true; lra). reflexivity.
Qed.
Example C137_mesh_case : exists s, adaptLoop zTry (fun w => (w / 4, true)) (fun w => (2 * w, true)) idW idW (mkAO true false 1 (/ 2) 0 1 true 10) 1 (adaptInit (mkAO true false 1 (/ 2) 0 1 true 10) (3 / 4) 1 false) = Some s /\
  i_w s = 2 * (3 / 4 / 4).
Proof.
  destruct (C137_mesh zTry (fun w => (w / 4, true)) (fun w => (2 * w, true)) idW idW (mkAO true false 1 (/ 2) 0 1 true 10) (3 / 4) (3 / 4) 1 (3 / 4)) as (s & H1 & _ & _ & H2 & _); auto; cbn.
  - unfold zTry. replace (Rleb 1 1) with true by (symmetry; apply Rleb_true; lra). reflexivity.
  - lra.
  - lra.
  - exists s. split; [exact H1|]. apply H2. cbn. lra.
Qed.
