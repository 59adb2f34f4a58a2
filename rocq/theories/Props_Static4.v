(** C42: the whole run of the dynamic relaxation against the scheme it implements *)
From Verif Require Import Prelude VS Status Static StaticRun Props_Static2.
Local Open Scope R_scope.

(** The scheme, on pairs (displacement, velocity): forces F, mass M with inverse W, damping factor c. *)
Section Scheme.
Context {S : VS}.
Variable F : S -> ans S.
Variable M : S -> S.
Variable W : S -> S.
Variable c : R.
Definition pair := (vec S * vec S)%type.
Definition energyOf (a : pair) : R := dot (snd a) (M (snd a)).
Definition launches (x : S) (a : pair) : Prop := exists r, F x = Yes r /\ snd a = (1 / 2) *v W r /\ fst a = x +v snd a.
Definition moves (a b : pair) : Prop :=
  exists f, F (fst a) = Yes f /\ snd b = snd a +v W (f -v c *v M (snd a)) /\ fst b = fst a +v snd b.
Definition halts (a b : pair) : Prop :=
  exists f, F (fst a) = Yes f /\ snd b = v0 /\ fst b = fst a -v (3 / 2) *v snd a +v (1 / 2) *v W (f -v c *v M (snd a)).
(** one iteration; [k] counts the iterations since the last stop, [every] is the option ResetIt *)
Definition iterates (every k : Z) (a b : pair) (k' : Z) : Prop :=
  exists m, moves a m /\
    ((((c = 0 /\ energyOf m < energyOf a) \/ k = every) /\ halts m b /\ k' = 1%Z) \/
     (~ (c = 0 /\ energyOf m < energyOf a) /\ k <> every /\ b = m /\ k' = (k + 1)%Z)).
Inductive history (every : Z) : Z -> pair -> list pair -> Prop :=
| HNil k a : history every k a []
| HCons k a b k' l : iterates every k a b k' -> history every k' b l -> history every k a (b :: l).
End Scheme.

Lemma last_dflt {A} (l : list A) : forall d d', l <> [] -> last l d = last l d'.
Proof. induction l as [|a [|b l] IH]; intros d d' N; [congruence|reflexivity|]. exact (IH d d' ltac:(discriminate)). Qed.

Section Run.
Context {S : VS}.
Variable p : gprob S.
Variable o : gopts.
Variable c sc : R.
Variable F : S -> ans S.
Implicit Types s : gst S.
Let W x := sc *v gp_minv p x.
Definition pairOf s : pair (S := S) := (g_U s +v g_DU s, g_V s).
Definition fits (u : S) s : Prop := g_U s = u /\ g_damp s = Some c /\ g_scale s = sc /\ (forall x, gp_res p (g_L s) x = F x) /\
  g_Ek s = energyOf (gp_mass p) (pairOf s).
Lemma pass_scheme u k s k' s' : c = go_damping o -> fits u s -> drPass p o k s = Done k' s' ->
  fits u s' /\ iterates F (gp_mass p) W c (go_resetIt o) k (pairOf s) (pairOf s') (k' + 1) /\ g_Eks s' = g_Eks s /\ g_it s' = g_it s.
Proof.
  intros Hc (H1 & H2 & H3 & H4 & H5) H. unfold drPass, drIteration, drResidual, damping in H. rewrite H4 in H.
  destruct (F (g_U s +v g_DU s)) as [f| |] eqn:E1; cbn [rbind] in H; try discriminate. rewrite H2 in H. cbn [rbind] in H.
  set (s1 := mkG _ _ _ _ _ _ _ _ _ _ _ _ _ _ _ _ _ _) in H.
  assert (M1 : moves F (gp_mass p) W c (pairOf s) (pairOf s1)).
  { exists f. split; [exact E1|]. unfold pairOf, s1, massInv, dt, W. cbn. rewrite H3. split; vring. }
  assert (E : g_Ek s1 = energyOf (gp_mass p) (pairOf s1)) by reflexivity.
  assert (Ep : g_EkPrev s1 = energyOf (gp_mass p) (pairOf s)) by exact H5.
  assert (F1 : fits u s1) by (repeat split; first [assumption|reflexivity]).
  destruct (_ || _) eqn:B.
  - unfold drPeak, drResidual, damping in H. change (gp_res p (g_L s1)) with (gp_res p (g_L s)) in H. rewrite H4 in H.
    destruct (F (g_U s1 +v g_DU s1)) as [f2| |] eqn:E2; cbn [rbind] in H; try discriminate.
    change (g_damp s1) with (Some c) in H. cbn [rbind] in H.
    pose proof (f_equal stateOf H) as Hs. cbn [stateOf] in Hs. assert (k' = 0%Z) by congruence. subst k' s'.
    split; [|split; [|split; reflexivity]].
    + repeat split; try assumption. cbn. unfold energyOf. cbn [pairOf snd g_V]. rewrite dot_0_l. reflexivity.
    + exists (pairOf s1). split; [exact M1|]. left. split.
      * apply orb_true_iff in B as [B|B]; [left|right; apply Z.eqb_eq, B]. apply andb_true_iff in B as [B1 B2].
        apply Reqb_true in B1. apply Rltb_true in B2. rewrite E, Ep in B2. split; [congruence|exact B2].
      * split; [|reflexivity]. exists f2. split; [exact E2|]. split; [reflexivity|]. unfold pairOf, massInv, dt, W. cbn [fst snd g_U g_DU g_V g_scale].
        change (g_scale s1) with (g_scale s). rewrite H3. vfield.
  - assert (s' = s1 /\ k' = k) as [-> ->] by (split; congruence). split; [exact F1|]. split; [|split; reflexivity].
    exists (pairOf s1). split; [exact M1|]. right. apply orb_false_iff in B as [B1 B2]. split; [|split; [apply Z.eqb_neq, B2|split; reflexivity]].
    intros [C1 C2]. apply andb_false_iff in B1 as [B1|B1]; [apply Reqb_false in B1; congruence|]. apply Rltb_false in B1. rewrite E, Ep in B1. lra.
Qed.
Lemma loop_scheme u : c = go_damping o -> forall n i k s r, fits u s -> n <> O ->
  drLoop p o n i k s = r -> (exists s', r = Done tt s') \/ (exists s', r = Threw (XInt 1) s' /\ forall x, F x <> Throws (XInt 1)) ->
  exists l, history F (gp_mass p) W c (go_resetIt o) k (pairOf s) l /\ l <> [] /\
    g_Eks (stateOf r) = g_Eks s ++ map (energyOf (gp_mass p)) l /\ g_U (stateOf r) = fst (last l (pairOf s)) /\
    Datatypes.S (g_it (stateOf r)) = (i + length l)%nat /\ (length l <= n)%nat /\ (forall s', r = Threw (XInt 1) s' -> length l = n).
Proof.
  intros Hc. induction n as [|n IH]; intros i k s r Fs Hn H Hr; [contradiction|]. cbn [drLoop] in H.
  assert (Fi : fits u (drSetIt i s)) by exact Fs.
  destruct (drPass p o k (drSetIt i s)) as [k1 s1|e s1] eqn:E1; cbn [rbind] in H.
  2: { exfalso. subst r. destruct Hr as [(s' & Hr)|(s' & Hr & Nt)]; [discriminate|].
       assert (e = XInt 1) by congruence. subst e. clear Hr. unfold drPass, drIteration, drResidual, damping in E1.
       destruct Fi as (G1 & G2 & G3 & G4 & G5). rewrite G4 in E1. destruct (F _) eqn:Q1 in E1; cbn [rbind] in E1; try discriminate.
       - rewrite G2 in E1. cbn [rbind] in E1. destruct (_ || _) in E1; [|discriminate]. unfold drPeak, drResidual, damping in E1.
         match type of E1 with context [gp_res p ?L] => change L with (g_L (drSetIt i s)) in E1 end. rewrite G4 in E1.
         destruct (F _) eqn:Q2 in E1; cbn [rbind] in E1; try discriminate.
         injection E1 as -> _. exact (Nt _ Q2).
       - injection E1 as -> _. exact (Nt _ Q1). }
  destruct (pass_scheme u k _ k1 s1 Hc Fi E1) as (F1 & I1 & K1 & K2). cbn [drSetIt g_Eks g_it] in K1, K2. cbv zeta in H.
  change (pairOf (drSetIt i s)) with (pairOf s) in I1.
  set (s2 := drPush _ _ _) in H. assert (P2 : pairOf s2 = pairOf s1) by reflexivity.
  assert (Ek1 : g_Eks s2 = g_Eks s ++ [energyOf (gp_mass p) (pairOf s1)]).
  { cbn [s2 drPush g_Eks]. rewrite K1. f_equal. f_equal. apply F1. }
  destruct (drTest o s2).
  - exists [pairOf s1]. subst r. cbn [stateOf]. split; [econstructor; [exact I1|constructor]|]. split; [discriminate|].
    split; [exact Ek1|]. split; [reflexivity|]. split; [cbn; rewrite K2; lia|]. split; [cbn; lia|intros ? ?; discriminate].
  - destruct n as [|n].
    + exists [pairOf s1]. subst r. cbn [stateOf]. split; [econstructor; [exact I1|constructor]|]. split; [discriminate|].
      split; [exact Ek1|]. split; [reflexivity|]. split; [cbn; rewrite K2; lia|]. split; [cbn; lia|reflexivity].
    + assert (F2 : fits u s2) by exact F1.
      destruct (IH (Datatypes.S i) (k1 + 1)%Z s2 r F2 ltac:(lia) H Hr) as (l & A & B & C & D & E & G & K). rewrite P2 in A, D.
      exists (pairOf s1 :: l). split; [econstructor; [exact I1|exact A]|]. split; [discriminate|].
      split; [rewrite C, Ek1, <- app_assoc; reflexivity|].
      split; [rewrite D; rewrite (last_dflt l (pairOf s1) (pairOf s) B); destruct l; [congruence|reflexivity]|].
      split; [cbn [length]; lia|]. split; [cbn [length]; lia|]. intros s' Q. cbn [length]. f_equal. eauto.
Qed.
End Run.

(** Every run that ends with Success, or with the exception 1 of the last iteration, is a history of the scheme from
    the start: m_U, plus the update that was set by setUpdate. The list of energies returned by
    energies() is the list of the kinetic energies of that history, and solution() is its last point. *)
Theorem C42_history {S : VS} (p : gprob S) o c s r :
  g_opts s = Some o -> g_damp s = Some c -> c = go_damping o -> (2 <= go_maxIt o)%nat ->
  drSolve p s = r ->
  (exists s', r = Done Success s') \/ (exists s', r = Threw (XInt 1) s' /\ forall x, gp_res p (g_L s) x <> Throws (XInt 1)) ->
  exists a l, let W := fun x => g_scale s *v gp_minv p x in
    launches (gp_res p (g_L s)) W (if g_head s then g_U s +v g_DU s else g_U s) a /\
    history (gp_res p (g_L s)) (gp_mass p) W c (go_resetIt o) 0 a l /\
    g_Eks (stateOf r) = map (energyOf (gp_mass p)) (a :: l) /\ g_U (stateOf r) = fst (last l a) /\
    g_it (stateOf r) = length l /\ (0 < length l < go_maxIt o)%nat /\ (forall s', r = Threw (XInt 1) s' -> length l = (go_maxIt o - 1)%nat).
Proof.
  intros Ho Hd Hc Hm H Hr. unfold drSolve in H. rewrite Ho in H.
  set (F := gp_res p (g_L s)) in *. set (W := fun x => g_scale s *v gp_minv p x).
  destruct (drStart p (drPush (g_Ek0 s) [] s)) as [[] s1|e s1] eqn:E1; cbn [rbind] in H.
  2: { exfalso. subst r. destruct Hr as [(s' & Hr)|(s' & Hr & Nt)]; [discriminate|]. assert (e = XInt 1) by congruence. subst e.
       unfold drStart, drResidual in E1. cbn [drPush g_head g_U g_DU g_L] in E1. fold F in E1. destruct (g_head s).
       - destruct (F (g_U s +v g_DU s)) eqn:Q1; cbn [rbind] in E1; try discriminate.
         + cbn [drPush g_L g_U] in E1. fold F in E1. destruct (F (g_U s)) eqn:Q2; cbn [rbind] in E1; try discriminate. injection E1 as -> _. exact (Nt _ Q2).
         + injection E1 as -> _. exact (Nt _ Q1).
       - destruct (F (g_U s)) eqn:Q2; cbn [rbind] in E1; try discriminate. injection E1 as -> _. exact (Nt _ Q2). }
  assert (L : fits p c (g_scale s) F (g_U s) s1 /\ launches F W (if g_head s then g_U s +v g_DU s else g_U s) (pairOf s1) /\ g_Eks s1 = []).
  { unfold drStart, drResidual in E1. cbn [drPush g_head g_U g_DU g_L] in E1. fold F in E1. destruct (g_head s).
    - destruct (F (g_U s +v g_DU s)) as [f| |] eqn:Q1; cbn [rbind] in E1; try discriminate.
      cbn [drPush g_L g_U] in E1. fold F in E1. destruct (F (g_U s)) eqn:Q2; cbn [rbind] in E1; try discriminate.
      apply (f_equal stateOf) in E1. cbn [stateOf] in E1. subst s1.
      split; [repeat split; try reflexivity; exact Hd|]. split; [|reflexivity]. exists f. split; [exact Q1|]. unfold pairOf, W, drLaunch, massInv, dt. cbn. split; vfield.
    - destruct (F (g_U s)) as [f| |] eqn:Q1; cbn [rbind] in E1; try discriminate.
      apply (f_equal stateOf) in E1. cbn [stateOf] in E1. subst s1.
      split; [repeat split; try reflexivity; exact Hd|]. split; [|reflexivity]. exists f. split; [exact Q1|]. unfold pairOf, W, drLaunch, massInv, dt. cbn. split; vfield. }
  destruct L as (L1 & L2 & L3). cbv zeta in H. set (s2 := drPush _ _ _) in H.
  assert (F2 : fits p c (g_scale s) F (g_U s) s2) by exact L1. assert (P2 : pairOf s2 = pairOf s1) by reflexivity.
  assert (Ek2 : g_Eks s2 = [energyOf (gp_mass p) (pairOf s1)]) by (cbn [s2 drPush g_Eks]; rewrite L3; cbn; f_equal; apply L1).
  destruct (drLoop p o (go_maxIt o - 1) 1 0 s2) as [[] s3|e s3] eqn:E3; cbn [rbind] in H.
  - destruct (loop_scheme p o c (g_scale s) F (g_U s) Hc (go_maxIt o - 1) 1 0 s2 _ F2 ltac:(lia) E3 ltac:(left; eauto)) as (l & A & B & C & D & E & G & K).
    cbn [stateOf] in *. subst r. exists (pairOf s1), l. cbn [stateOf drSetStat g_Eks g_U g_it]. rewrite P2 in A, D. rewrite Ek2 in C.
    split; [exact L2|]. split; [exact A|]. split; [exact C|]. split; [exact D|]. split; [lia|].
    split; [destruct l; [congruence|cbn [length] in *; lia]|]. intros s' Q. discriminate.
  - subst r. destruct Hr as [(s' & Hr)|(s' & Hr & Nt)]; [discriminate|]. assert (e = XInt 1) by congruence. subst e. clear Hr.
    destruct (loop_scheme p o c (g_scale s) F (g_U s) Hc (go_maxIt o - 1) 1 0 s2 _ F2 ltac:(lia) E3 ltac:(right; eauto)) as (l & A & B & C & D & E & G & K).
    cbn [stateOf] in *. exists (pairOf s1), l. rewrite P2 in A, D. rewrite Ek2 in C.
    split; [exact L2|]. split; [exact A|]. split; [exact C|]. split; [exact D|]. split; [lia|].
    split; [destruct l; [congruence|cbn [length] in *; lia]|]. intros s'' _. exact (K s3 eq_refl).
Qed.
Print Assumptions C42_history.
(** undamped, with a start from setUpdate: the hypotheses hold, and the run stops the motion at a peak *)
Example C42_history_example : exists s, let o := mkGOpts (1/10) (1/10) (1/10) 3 0 1 (-1) in
  let s0 := drSetUpdate (1 / 2 : VS_R) (drInitialize o drNew) in
  g_opts s0 = Some o /\ g_damp s0 = Some (go_damping o) /\ g_head s0 = true /\
  drSolve (mkGProb VS_R (fun x => x) (fun x => x) 1 (fun _ u => Yes (1 - u : VS_R))) s0 = Threw (XInt 1) s.
Proof. eexists. cbv zeta. split; [reflexivity|]. split; [reflexivity|]. split; [reflexivity|]. sev. Qed.
