(** The load-stepping loop of benchmark_Pillow: C129. *)
From Verif Require Import Prelude RunTac StaticLoop3.
Local Open Scope R_scope.

Section Pillow.
Context {X : Type}.
Variable round : R -> X -> bool * X.
Variables (N : nat) (dbg : bool).
Hypothesis HN : (1 <= N)%nat.
Implicit Types c : pst (X := X).
Notation d0 := (dload0 N).
Lemma N_pos : 0 < INR N.
Proof. apply lt_0_INR. lia. Qed.
Lemma d0_pos : 0 < d0.
Proof. unfold dload0. pose proof N_pos. apply Rdiv_lt_0_compat; lra. Qed.
Lemma d0_N : INR N * d0 = 1.
Proof. unfold dload0. pose proof N_pos. field. lra. Qed.
Lemma d0_le : d0 <= 1.
Proof. pose proof d0_N. pose proof d0_pos. assert (1 <= INR N) by (apply (le_INR 1); exact HN). nra. Qed.

(** *** It ends *)
Record bounds c : Prop := { bd_bis : (p_bis c <= 21)%nat; bd_d : 0 < p_d c; bd_lo : - d0 < p_load c; bd_prev : - d0 <= p_load c - p_d c }.
Lemma bounds_pass c c' : bounds c -> p_load c <= 1 -> pillowPass round N dbg c = PNext c' -> bounds c'.
Proof.
  pose proof d0_pos as D. intros [B1 B2 B3 B4] L. unfold pillowPass. destruct (round (p_load c) (p_x c)) as [[] x]; cbn [negb].
  - set (d := if _ && _ then _ else _). assert (0 < d).
    { unfold d. destruct (Rltb (1 - p_load c) d0 && Rltb (1 / 10^10) (1 - p_load c)) eqn:E; [|exact D]. apply andb_prop in E. destruct E as [_ E]. apply Rltb_true in E. assert (0 < 1 / 10^10) by (apply Rdiv_lt_0_compat; [lra|apply pow_lt; lra]). lra. }
    intros H0. injection H0 as <-. constructor; cbn [p_bis p_d p_load]; lra || auto.
  - destruct (Nat.ltb_spec 20 (p_bis c)); [discriminate|]. destruct (dbg && _); [discriminate|]. destruct (Rltb _ _); [discriminate|].
    intros H0. injection H0 as <-. constructor; cbn [p_bis p_d p_load]; [lia|lra..].
Qed.
(** [mu] passes are enough *)
Definition enough (mu : nat) c : Prop := exists m : nat, 1 - p_load c < INR m * d0 /\ (m <= N + 2)%nat /\
  ((22 - p_bis c) * (N + 4) + (if Reqb (p_load c) 1 then 1 else m + 1) <= mu + (N + 4))%nat.
Lemma enough_pass mu c c' : bounds c -> p_load c <= 1 -> enough (Datatypes.S mu) c -> pillowPass round N dbg c = PNext c' -> 1 < p_load c' \/ enough mu c'.
Proof.
  pose proof d0_pos as D. intros [B1 B2 B3 B4] L (m & M1 & M2 & M3). unfold pillowPass. destruct (round (p_load c) (p_x c)) as [[] x]; cbn [negb].
  - destruct (Reqb (p_load c) 1) eqn:E1; [apply Reqb_true in E1|apply Reqb_false in E1].
    + assert (Q : Rltb (1 / 10^10) (1 - p_load c) = false).
      { apply Rltb_false. rewrite E1. replace (1 - 1) with 0 by ring. apply Rlt_le, Rdiv_lt_0_compat; [lra|apply pow_lt; lra]. }
      intros H. rewrite Q, andb_false_r in H. injection H as <-. left. cbn [p_load]. lra.
    + assert (1 <= m)%nat. { destruct m; [cbn in M1; lra|lia]. }
      destruct (Rltb (1 - p_load c) d0 && Rltb (1 / 10^10) (1 - p_load c)) eqn:E; intros H0; injection H0 as <-.
      * right. exists 1%nat. cbn [p_load p_bis]. replace (p_load c + (1 - p_load c)) with 1 by ring. rewrite (proj2 (Reqb_true 1 1) eq_refl). split; [cbn; lra|]. split; [lia|]. lia.
      * destruct (Rle_lt_dec (p_load c + d0) 1) as [G|G]; [right|left; exact G].
        exists (m - 1)%nat. cbn [p_load p_bis]. split; [rewrite minus_INR by assumption; cbn [INR]; lra|]. split; [lia|]. destruct (Reqb _ _); lia.
  - destruct (Nat.ltb_spec 20 (p_bis c)); [discriminate|]. destruct (dbg && _); [discriminate|]. destruct (Rltb _ _); [discriminate|].
    intros H0. injection H0 as <-. right. exists (N + 2)%nat. cbn [p_load p_bis]. pose proof d0_N as NN. split; [rewrite plus_INR; cbn [INR]; lra|]. split; [lia|].
    assert (22 - p_bis c = Datatypes.S (22 - Datatypes.S (p_bis c)))%nat as E by lia. rewrite E in M3. destruct (Reqb (p_load c) 1), (Reqb _ 1); lia.
Qed.
Lemma enough_run : forall mu c, bounds c -> enough mu c -> pillowRun round N dbg mu c <> PFuel.
Proof.
  induction mu as [|mu IH]; intros c B E; cbn [pillowRun]; destruct (Rleb (p_load c) 1) eqn:L; try discriminate; apply Rleb_true in L.
  - exfalso. destruct E as (m & M1 & _ & M). destruct B as [B1 _ _ _]. assert (22 - p_bis c >= 1)%nat by lia. assert (E2 : ((22 - p_bis c) * (N + 4) >= N + 4)%nat) by nia. destruct (Reqb _ _); lia.
  - destruct (pillowPass round N dbg c) as [c'|e] eqn:P.
    + destruct (enough_pass mu c c' B L E P) as [G|G]; [|exact (IH c' (bounds_pass c c' B L P) G)].
      destruct mu; cbn [pillowRun]; rewrite (proj2 (Rleb_false _ _) G); discriminate.
    + intros ->. unfold pillowPass in P. destruct (round (p_load c) (p_x c)) as [[] x]; cbn [negb] in P; [discriminate|].
      destruct (20 <? p_bis c)%nat; [discriminate|]. destruct (dbg && _); [discriminate|]. destruct (Rltb _ _); discriminate.
Qed.

(** *** What it writes *)
(** the states in which the rounds start, and their load factors, one after the other *)
Inductive rounds (x0 : X) : list (R * bool) -> X -> Prop :=
  | rounds_nil : rounds x0 [] x0
  | rounds_snoc l x load ok y : rounds x0 l x -> round load x = (ok, y) -> rounds x0 (l ++ [(load, ok)]) y.
(** load factors written: from 0, increasing by at most d0 *)
Inductive climbs : list R -> R -> Prop :=
  | climbs_zero : climbs [0] 0
  | climbs_up l a b : climbs l a -> a < b -> b <= a + d0 -> b <= 1 -> climbs (l ++ [b]) b.
Lemma climbs_nonneg l a : climbs l a -> 0 <= a.
Proof. induction 1; lra. Qed.
Lemma climbs_nonempty l a : climbs l a -> l <> [].
Proof. intros [|l' a' b _ _ _ _]; [discriminate|]. intros Z. symmetry in Z. exact (app_cons_not_nil _ _ _ Z). Qed.
Record winv (x0 : X) tr c : Prop := {
  wv_r : rounds x0 tr (p_x c);
  (* exactly the rounds that converged were written *)
  wv_out : map fst (p_out c) = map fst (filter snd tr);
  wv_x : Forall (fun q => exists y, round (fst q) y = (true, snd q)) (p_out c);
  wv_bis : length (filter (fun q => negb (snd q)) tr) = p_bis c;
  wv_climb : (p_out c = [] /\ p_load c = 0 /\ p_bis c = 0%nat) \/ (climbs (map fst (p_out c)) (p_load c - p_d c) /\ p_d c <= d0 /\ 0 < p_d c);
  wv_top : 1 < p_load c -> 1 - 1/10^10 <= p_load c - p_d c }.
Lemma winv_pass x0 tr c c' : (dbg = true \/ fst (round 0 x0) = true) -> (p_out c = [] -> p_x c = x0) -> winv x0 tr c -> p_load c <= 1 -> pillowPass round N dbg c = PNext c' ->
  (exists ok, winv x0 (tr ++ [(p_load c, ok)]) c') /\ p_out c' <> [].
Proof.
  pose proof d0_pos as D. intros HD HX [W1 W2 W3 W4 W5 W6] L. unfold pillowPass. destruct (round (p_load c) (p_x c)) as [ok x] eqn:ER.
  pose proof (rounds_snoc x0 tr (p_x c) (p_load c) ok x W1 ER) as RR. destruct ok; cbn [negb].
  - set (d := if _ && _ then _ else _). intros H. injection H as <-. split; [|destruct (p_out c); discriminate]. exists true.
    assert (T : 0 < 1 / 10^10) by (apply Rdiv_lt_0_compat; [lra|apply pow_lt; lra]).
    constructor; cbn [p_x p_out p_bis p_load p_d].
    + exact RR.
    + rewrite filter_app, !map_app, W2. reflexivity.
    + apply Forall_app. split; [exact W3|]. constructor; [|constructor]. exists (p_x c). exact ER.
    + rewrite filter_app, app_length, W4. cbn. lia.
    + right. replace (p_load c + d - d) with (p_load c) by ring. rewrite map_app. cbn [map fst].
      assert (DD : 0 < d <= d0). { unfold d. destruct (Rltb (1 - p_load c) d0 && Rltb (1 / 10^10) (1 - p_load c)) eqn:E; [|lra]. apply andb_prop in E. destruct E as [E1 E2]. apply Rltb_true in E1, E2. lra. }
      split; [|lra]. destruct W5 as [(Z & -> & _)|(K & K2 & K3)]; [rewrite Z; constructor|]. apply (climbs_up _ _ _ K); lra.
    + intros G. replace (p_load c + d - d) with (p_load c) by ring. revert G. unfold d. destruct (Rltb (1 - p_load c) d0) eqn:E1; cbn [andb].
      * destruct (Rltb (1 / 10^10) (1 - p_load c)) eqn:E2; [lra|]. apply Rltb_false in E2. lra.
      * apply Rltb_false in E1. lra.
  - destruct (Nat.ltb_spec 20 (p_bis c)); [discriminate|]. destruct (dbg && Reqb (p_load c) 0) eqn:EA; [discriminate|]. destruct (Rltb _ _); [discriminate|].
    intros H0. injection H0 as <-. destruct W5 as [(Z & Z2 & _)|(K & K2 & K3)].
    + exfalso. rewrite Z2 in *. destruct HD as [->|HD]; [rewrite (proj2 (Reqb_true 0 0) eq_refl) in EA; discriminate|]. rewrite (HX Z), Z2 in ER || rewrite (HX Z) in ER. rewrite ER in HD. discriminate.
    + split; [|cbn [p_out]; exact (fun Z => climbs_nonempty _ _ K (f_equal (map fst) Z))].
      exists false. constructor; cbn [p_x p_out p_bis p_load p_d].
      * exact RR.
      * rewrite filter_app. cbn. rewrite app_nil_r. exact W2.
      * exact W3.
      * rewrite filter_app, app_length, W4. cbn. lia.
      * right. replace (p_load c - p_d c + p_d c / 2 - p_d c / 2) with (p_load c - p_d c) by ring. split; [exact K|lra].
      * intros G. lra.
Qed.
(** what is known at the end: [more]: a last round that failed, after which the loop was left *)
Definition summary (x0 : X) c (failures : nat) (last : R) : Prop := exists tr, rounds x0 tr (p_x c) /\ map fst (p_out c) = map fst (filter snd tr) /\
  Forall (fun q => exists y, round (fst q) y = (true, snd q)) (p_out c) /\ length (filter (fun q => negb (snd q)) tr) = failures /\ climbs (map fst (p_out c)) last.
Lemma winv_run x0 : (dbg = true \/ fst (round 0 x0) = true) -> forall fuel tr c, (p_out c = [] -> p_x c = x0) -> winv x0 tr c -> bounds c ->
  match pillowRun round N dbg fuel c with
  | PDone c => exists n last, summary x0 c n last /\ (n <= 21)%nat /\ 1 - 1/10^10 <= last
  | PGiveUp c => exists n last, summary x0 c n last /\ (n = 22%nat \/ 1 - 1/1000 < last)
  | PAssert => dbg = true /\ fst (round 0 x0) = false
  | PFuel => True
  end.
Proof.
  intros HD. induction fuel as [|fuel IH]; intros tr c HX W B; cbn [pillowRun]; destruct (Rleb (p_load c) 1) eqn:L; try exact I;
    try (apply Rleb_false in L; destruct W as [W1 W2 W3 W4 W5 W6], B as [B1 _ _ _]; destruct W5 as [(_ & Z & _)|(K & _)]; [lra|];
         exists (p_bis c), (p_load c - p_d c); split; [exists tr; repeat split; assumption|split; [exact B1|exact (W6 L)]]).
  apply Rleb_true in L. destruct (pillowPass round N dbg c) as [c'|e] eqn:P.
  - destruct (winv_pass x0 tr c c' HD HX W L P) as ((ok & W') & NE). exact (IH _ c' ltac:(intros Z; contradiction) W' (bounds_pass c c' B L P)).
  - destruct W as [W1 W2 W3 W4 W5 W6], B as [B1 _ _ _]. unfold pillowPass in P. destruct (round (p_load c) (p_x c)) as [ok x] eqn:ER.
    pose proof (rounds_snoc x0 tr (p_x c) (p_load c) ok x W1 ER) as RR. destruct ok; cbn [negb] in P; [discriminate|].
    assert (F : p_out c = [] -> p_load c = 0 /\ fst (round 0 x0) = false).
    { intros Z. destruct W5 as [(_ & Z2 & _)|(K & _)]; [|rewrite Z in K; destruct (climbs_nonempty _ _ K eq_refl)]. split; [exact Z2|]. rewrite (HX Z), Z2 in ER. rewrite ER. reflexivity. }
    assert (SM : forall q, p_x q = x -> p_out q = p_out c -> p_out c <> [] -> summary x0 q (Datatypes.S (p_bis c)) (p_load c - p_d c)).
    { intros q E1 E2 NE. exists (tr ++ [(p_load c, false)]). rewrite E1, E2. split; [exact RR|]. split; [rewrite filter_app; cbn; rewrite app_nil_r; exact W2|]. split; [exact W3|].
      split; [rewrite filter_app, app_length, W4; cbn; lia|]. destruct W5 as [(Z & _)|(K & _)]; [contradiction|exact K]. }
    destruct (Nat.ltb_spec 20 (p_bis c)) as [G|G].
    + injection P as <-. exists 22%nat, (p_load c - p_d c). split; [|left; reflexivity]. replace 22%nat with (Datatypes.S (p_bis c)) by lia. apply SM; [reflexivity..|].
      intros Z. destruct W5 as [(_ & _ & Z3)|(K & _)]; [lia|]. rewrite Z in K. exact (climbs_nonempty _ _ K eq_refl).
    + destruct (dbg && Reqb (p_load c) 0) eqn:EA.
      * injection P as <-. apply andb_prop in EA. destruct EA as [EA EB]. apply Reqb_true in EB. split; [exact EA|].
        destruct W5 as [(Z & _)|(K & _ & K3)]; [apply (F Z)|]. pose proof (climbs_nonneg _ _ K). lra.
      * destruct (Rltb (Rabs (p_load c - p_d c - 1)) (1/1000)) eqn:ET; [|discriminate]. injection P as <-. apply Rltb_true in ET.
        exists (Datatypes.S (p_bis c)), (p_load c - p_d c). split; [|right; apply Rabs_def2 in ET; lra]. apply SM; [reflexivity..|].
        intros Z. destruct (F Z) as (F1 & F2). destruct HD as [->|HD]; [|congruence]. rewrite F1, (proj2 (Reqb_true 0 0) eq_refl) in EA. discriminate.
Qed.
End Pillow.
(** Whatever the solver answers, the loop ends: 22 (loadSteps + 4) passes are enough. *)
Theorem C129_terminates {X : Type} (round : R -> X -> bool * X) (N : nat) (dbg : bool) (x : X) (fuel : nat) :
  (1 <= N)%nat -> (22 * (N + 4) <= fuel)%nat -> pillowRun round N dbg fuel (pillowInit N x) <> PFuel.
Proof.
  intros HN HF. apply (enough_run round N dbg HN).
  - pose proof (d0_pos N HN). constructor; cbn; [lia|lra..].
  - exists (N + 1)%nat. cbn [pillowInit p_load p_bis]. split; [rewrite plus_INR; cbn [INR]; pose proof (d0_N N HN); pose proof (d0_pos N HN); lra|]. split; [lia|].
    destruct (Reqb _ _); lia.
Qed.
Print Assumptions C129_terminates.
(** In a debug build, or if the unloaded problem is solved, the load factors written start with 0 and increase, by at most
    1/loadSteps; they are those of the rounds that converged, and the states written are the ends of such rounds. The last load
    factor is 1 up to 1e-10, unless the loop gave up: after 22 rounds that failed, or beyond 0.999. The assertion only fails if
    the unloaded problem is not solved. *)
Theorem C129_written_partial {X : Type} (round : R -> X -> bool * X) (N : nat) (dbg : bool) (x : X) (fuel : nat) :
  (1 <= N)%nat -> dbg = true \/ fst (round 0 x) = true ->
  match pillowRun round N dbg fuel (pillowInit N x) with
  | PDone c => exists n last, summary round N x c n last /\ (n <= 21)%nat /\ 1 - 1/10^10 <= last
  | PGiveUp c => exists n last, summary round N x c n last /\ (n = 22%nat \/ 1 - 1/1000 < last)
  | PAssert => dbg = true /\ fst (round 0 x) = false
  | PFuel => True
  end.
Proof.
  intros HN HD. pose proof (d0_pos N HN). apply (winv_run round N dbg HN x HD fuel []); [reflexivity| |constructor; cbn; [lia|lra..]].
  constructor; cbn; [constructor|reflexivity|constructor|reflexivity|left; auto|lra].
Qed.
Print Assumptions C129_written_partial.
(** evaluation of the loop *)
Lemma p_go {X : Type} (round : R -> X -> bool * X) N dbg fuel c c' r : p_load c <= 1 -> pillowPass round N dbg c = PNext c' -> pillowRun round N dbg fuel c' = r -> pillowRun round N dbg (Datatypes.S fuel) c = r.
Proof. intros L E <-. cbn [pillowRun]. rewrite (proj2 (Rleb_true _ _) L), E. reflexivity. Qed.
Lemma p_stop {X : Type} (round : R -> X -> bool * X) N dbg fuel c : 1 < p_load c -> pillowRun round N dbg fuel c = PDone c.
Proof. intros L. destruct fuel; cbn [pillowRun]; rewrite (proj2 (Rleb_false _ _) L); reflexivity. Qed.
Ltac pgo := eapply p_go; [rcbv; lra|unfold pillowPass, dload0, pillowInit; cbn [p_load p_x p_d p_bis p_out Nat.eqb negb andb INR]; reach|].
(** two load steps, the third round fails: the load factors are 0, 1/2, 3/4, 1 *)
Example C129_example : exists c, pillowRun (fun _ n => (negb (Nat.eqb n 2), Datatypes.S n)) 2 true 10 (pillowInit 2 0%nat) = PDone c /\ map fst (p_out c) = [0; 1/2; 3/4; 1].
Proof.
  eexists. split.
  - do 5 pgo. apply p_stop. rcbv. lra.
  - rcbv. reflexivity.
Qed.
(** In a release build, where the assertion is not compiled, a failure of the unloaded problem leads to a negative load: with one
    load step, the load factors written are -1/2, 1/2, 1. *)
Theorem C129_refuted : exists c, pillowRun (fun _ n => (negb (Nat.eqb n 0), Datatypes.S n)) 1 false 10 (pillowInit 1 0%nat) = PDone c /\ map fst (p_out c) = [-1/2; 1/2; 1].
Proof.
  eexists. split.
  - do 4 pgo. apply p_stop. rcbv. lra.
  - rcbv. reflexivity.
Qed.
Print Assumptions C129_refuted.
