(** The network of main and all workers (MPIMain): everything that can happen commutes, except the
    choices of main's receive from any source. *)
From Verif Require Import Prelude APALMData APALMDriver MPI MPINet MPIPhase MPIMain.
From Coq Require Import Classical.
Local Open Scope nat_scope.

Section NetN.
Context {A B : Type}.
Variable eager : nat -> payload -> bool.
Notation net := (net A B).
Notation nfire := (@nfire A B eager).
(** what the network and the workers do does not depend on main's program *)
Definition chan (l : label) : bool := match l with GoL => false | _ => true end.
Lemma fire_prog {Y Z C} l (p : prog Y) (q : prog Z) (h : ep unit) (b : ep C) : chan l = true ->
  match fire eager l (withProg p h, b), fire eager l (withProg q h, b) with
  | Some (a1, b1), Some (a2, b2) => b1 = b2 /\ a1 = withProg p a2 /\ a2 = withProg q a1
  | None, None => True
  | _, _ => False
  end.
Proof.
  intros H. destruct l as [| |t|t]; [discriminate| | |]; cbn [fire fst snd].
  - destruct (local eager b); auto.
  - unfold deliver. cbn [withProg e_out e_prog e_posted e_got]. destruct (e_out h t); auto. destruct (e_posted b t); auto.
  - unfold deliver. cbn [withProg e_out e_prog e_posted e_got]. destruct (e_out b t); auto. destruct (e_posted h t); auto.
Qed.
(** labels of the channel of worker w *)
Definition atW (w : nat) (l : label) : nlabel := match l with GoL => Main | GoR => Wrk w | ToR t => ToW w t | ToL t => ToM w t end.
Lemma nfire_at w l n : chan l = true -> nfire (atW w l) n = onChannel n w (fire eager l (n_half n w, n_worker n w)).
Proof. destruct l; [discriminate| | |]; reflexivity. Qed.
(** every label is main's, a choice, or of a channel *)
Lemma label_cases l : l = Main \/ (exists w, l = Pick w) \/ exists w c, chan c = true /\ l = atW w c.
Proof.
  destruct l as [|w|w|w t|w t]; eauto; right; right; exists w.
  - exists GoR. auto.
  - exists (ToR t). auto.
  - exists (ToL t). auto.
Qed.
Definition isPick (l : nlabel) : bool := match l with Pick _ => true | _ => false end.
(** all ends of main carry no program *)
Definition plain (n : net) : Prop := forall w, e_prog (n_half n w) = Ret tt.
Lemma plain_half n w : plain n -> withProg (Ret tt) (n_half n w) = n_half n w.
Proof. intros H. specialize (H w). destruct (n_half n w) as [p o r g]. cbn in H. subst p. reflexivity. Qed.
Lemma onChannel_some (n : net) w r n' : onChannel n w r = Some n' ->
  exists a b, r = Some (a, b) /\ n' = mkNet (n_main n) (upd (n_half n) w a) (upd (n_worker n) w b).
Proof. destruct r as [[a b]|]; cbn; [|discriminate]. intros H. injection H as <-. eauto. Qed.
Lemma fire_main_prog {Y C} l (a : ep Y) (b : ep C) a' b' : chan l = true -> fire eager l (a, b) = Some (a', b') -> e_prog a' = e_prog a.
Proof.
  intros H. destruct l as [| |t|t]; [discriminate| | |]; cbn [fire fst snd].
  - destruct (local eager b); [|discriminate]. intros E. injection E as <- _. reflexivity.
  - unfold deliver. destruct (e_out a t); [discriminate|]. destruct (e_posted b t); [discriminate|]. intros E. injection E as <- _. reflexivity.
  - unfold deliver. destruct (e_out b t); [discriminate|]. destruct (e_posted a t); [discriminate|]. intros E. injection E as <- _. reflexivity.
Qed.
Lemma nfire_plain l n n' : plain n -> nfire l n = Some n' -> plain n'.
Proof.
  intros Hp H v. destruct (label_cases l) as [->|[(w & ->)|(w & c & Hc & ->)]].
  - cbn [MPIMain.nfire] in H. destruct (n_main n) as [w p|k|a]; try discriminate.
    assert (G : forall e : ep (mprog A), e_prog (n_half (mkNet (On w (e_prog e)) (upd (n_half n) w (withProg (Ret tt) e)) (n_worker n)) v) = Ret tt).
    { intros e. cbn. unfold upd. destruct (v =? w); [reflexivity|apply Hp]. }
    destruct p as [t m k|t k|t c k|t k|m];
      try (destruct (local eager (withProg _ (n_half n w))) as [e|] eqn:E; [|discriminate]; injection H as <-; apply G).
    injection H as <-. apply Hp.
  - cbn [MPIMain.nfire] in H. destruct (n_main n); try discriminate. destruct (e_out (n_worker n w) 0); [discriminate|].
    destruct (e_posted (n_half n w) 0); [|discriminate]. injection H as <-. apply Hp.
  - rewrite nfire_at in H by auto. apply onChannel_some in H as (a & b & E & ->). cbn. unfold upd. destruct (Nat.eqb_spec v w) as [->|]; [|apply Hp].
    rewrite (fire_main_prog c _ _ _ _ Hc E). apply Hp.
Qed.

(** main on channel w: its program and the channel *)
Lemma main_at (n : net) w p n' : n_main n = On w p -> nfire Main n = Some n' ->
  (exists m, p = Ret m /\ n' = mkNet m (n_half n) (n_worker n)) \/
  (exists e, fire eager GoL (withProg p (n_half n w), n_worker n w) = Some (e, n_worker n w) /\
     n' = mkNet (On w (e_prog e)) (upd (n_half n) w (withProg (Ret tt) e)) (n_worker n)).
Proof.
  intros E H. cbn [MPIMain.nfire] in H. rewrite E in H. cbn [fire fst snd].
  destruct p as [t m k|t k|t c k|t k|m];
    try (right; destruct (local eager (withProg _ (n_half n w))) as [e|] eqn:F; [|discriminate]; injection H as <-; exists e; split; reflexivity).
  left. injection H as <-. eauto.
Qed.
Lemma main_ret (n : net) w m : n_main n = On w (Ret m) -> nfire Main n = Some (mkNet m (n_half n) (n_worker n)).
Proof. intros E. cbn [MPIMain.nfire]. rewrite E. reflexivity. Qed.
Lemma main_go (n : net) w p e b : n_main n = On w p -> fire eager GoL (withProg p (n_half n w), n_worker n w) = Some (e, b) ->
  nfire Main n = Some (mkNet (On w (e_prog e)) (upd (n_half n) w (withProg (Ret tt) e)) (n_worker n)).
Proof.
  intros E H. cbn [fire fst snd] in H. cbn [MPIMain.nfire]. rewrite E.
  destruct p as [t m k|t k|t c k|t k|m]; try (destruct (local eager (withProg _ (n_half n w))) as [e'|]; [|discriminate]; injection H as <- _; reflexivity).
  discriminate.
Qed.
(** a step of the channel under main's program *)
Lemma chan_lift (n : net) w (p : prog (mprog A)) c a b : plain n -> chan c = true -> fire eager c (withProg p (n_half n w), n_worker n w) = Some (a, b) ->
  fire eager c (n_half n w, n_worker n w) = Some (withProg (Ret tt) a, b).
Proof.
  intros Hp Hc H. pose proof (fire_prog c p (Ret tt) (n_half n w) (n_worker n w) Hc) as F. rewrite H in F.
  rewrite plain_half in F by auto. destruct (fire eager c (n_half n w, n_worker n w)) as [[a' b']|]; [|contradiction].
  destruct F as (-> & _ & ->). reflexivity.
Qed.
Lemma chan_lower {Y} (n : net) w (p : prog Y) c a b : plain n -> chan c = true -> fire eager c (n_half n w, n_worker n w) = Some (a, b) ->
  fire eager c (withProg p (n_half n w), n_worker n w) = Some (withProg p a, b).
Proof.
  intros Hp Hc H. pose proof (fire_prog c p (Ret tt) (n_half n w) (n_worker n w) Hc) as F. rewrite plain_half in F by auto. rewrite H in F.
  destruct (fire eager c (withProg p (n_half n w), n_worker n w)) as [[a' b']|]; [|contradiction]. destruct F as (-> & -> & _). reflexivity.
Qed.

Lemma ndiamond_mc n w c s1 s2 : plain n -> chan c = true -> nfire Main n = Some s1 -> nfire (atW w c) n = Some s2 ->
  exists s3, nfire (atW w c) s1 = Some s3 /\ nfire Main s2 = Some s3.
Proof.
  intros Hp Hc H1 H2. pose proof (nfire_plain _ _ _ Hp H1) as Hp1. rewrite nfire_at in H2 |- * by auto. apply onChannel_some in H2 as (a & b & E2 & ->).
  destruct (n_main n) as [v p|k|r] eqn:EM; [|cbn in H1; rewrite EM in H1; discriminate..].
  destruct (main_at n v p s1 EM H1) as [(m & -> & ->)|(e & E1 & ->)].
  - cbn [n_half n_worker]. rewrite E2. cbn [onChannel n_main n_half n_worker]. eexists. split; [reflexivity|].
    rewrite (main_ret _ v m); [reflexivity|]. cbn. reflexivity.
  - cbn [n_half n_worker n_main]. destruct (Nat.eq_dec v w) as [->|N].
    + rewrite upd_same. pose proof (chan_lower n w p c a b Hp Hc E2) as E2'.
      destruct (diamond eager _ _ _ GoL c ltac:(destruct c; discriminate) E1 E2') as ([e3 b3] & F1 & F2).
      assert (E3 : e_prog e3 = e_prog e) by (apply (fire_main_prog c _ _ _ _ Hc F1)).
      set (n1 := mkNet (On w (e_prog e)) (upd (n_half n) w (withProg (Ret tt) e)) (n_worker n)) in *.
      assert (F1' : fire eager c (withProg (Ret tt) e, n_worker n w) = Some (withProg (Ret tt) e3, b3)).
      { pose proof (chan_lift n1 w (e_prog e) c e3 b3 Hp1 Hc) as L. unfold n1 in L. cbn [n_half n_worker] in L. rewrite upd_same in L.
        apply L. rewrite <- F1. f_equal. f_equal. destruct e; reflexivity. }
      rewrite F1'. cbn [onChannel]. eexists. split; [reflexivity|].
      assert (F2' : fire eager GoL (withProg p (upd (n_half n) w a w), upd (n_worker n) w b w) = Some (e3, b)).
      { rewrite !upd_same. rewrite F2. f_equal. f_equal. cbn [fire fst snd] in F2. destruct (local eager (withProg p a)); [|discriminate]. congruence. }
      assert (b3 = b) by (rewrite !upd_same in F2'; rewrite F2 in F2'; congruence). subst b3.
      rewrite (main_go (mkNet (On w p) (upd (n_half n) w a) (upd (n_worker n) w b)) w p e3 b); [|reflexivity|exact F2'].
      unfold n1. cbn [n_main n_half n_worker]. rewrite !upd_upd, E3. reflexivity.
    + rewrite (upd_other _ v w) by auto. rewrite E2. cbn [onChannel]. eexists. split; [reflexivity|].
      rewrite (main_go _ v p e (n_worker n v)); cbn [n_main n_half n_worker].
      * rewrite (upd_swap _ v w) by auto. reflexivity.
      * reflexivity.
      * rewrite !upd_other by auto. exact E1.
Qed.
Lemma ndiamond_cc n w c v d s1 s2 : chan c = true -> chan d = true -> atW w c <> atW v d ->
  nfire (atW w c) n = Some s1 -> nfire (atW v d) n = Some s2 -> exists s3, nfire (atW v d) s1 = Some s3 /\ nfire (atW w c) s2 = Some s3.
Proof.
  intros Hc Hd N H1 H2. rewrite nfire_at in * by auto. rewrite nfire_at in * by auto.
  apply onChannel_some in H1 as (a & b & E1 & ->). apply onChannel_some in H2 as (a' & b' & E2 & ->). cbn [n_half n_worker n_main].
  destruct (Nat.eq_dec w v) as [->|Nw].
  - rewrite !upd_same. assert (Nc : c <> d) by congruence.
    destruct (diamond eager _ _ _ c d Nc E1 E2) as ([a3 b3] & F1 & F2). rewrite F1, F2. cbn. rewrite !upd_upd. eauto.
  - rewrite !(upd_other _ w v), !(upd_other _ v w) by auto. rewrite E1, E2. cbn. rewrite !(upd_swap _ w v) by auto. eauto.
Qed.
Lemma ndiamond_pc n w v d s1 s2 : chan d = true ->
  nfire (Pick w) n = Some s1 -> nfire (atW v d) n = Some s2 -> exists s3, nfire (atW v d) s1 = Some s3 /\ nfire (Pick w) s2 = Some s3.
Proof.
  intros Hd H1 H2. rewrite nfire_at in * by auto. apply onChannel_some in H2 as (a & b & E2 & ->).
  cbn [MPIMain.nfire] in *. destruct (n_main n) as [|k|] eqn:EM; try discriminate.
  destruct (e_out (n_worker n w) 0) as [|m l] eqn:EO; [discriminate|]. destruct (e_posted (n_half n w) 0) as [|] eqn:EP; [|discriminate].
  injection H1 as <-. cbn [n_half n_worker n_main]. destruct (Nat.eq_dec v w) as [->|N].
  - rewrite !upd_same.
    (* the choice is a delivery to a process that has posted the receive *)
    set (h := mkEp (Ret tt) (fun _ => []) (fun t => if t =? 0 then [1] else []) (fun _ => [])).
    assert (D : deliver 0 (n_worker n w) h = Some (mkEp (e_prog (n_worker n w)) (upd (e_out (n_worker n w)) 0 l) (e_posted (n_worker n w)) (e_got (n_worker n w)),
        mkEp (Ret tt) (fun _ => []) (upd (e_posted h) 0 []) (upd (e_got h) 0 [if length m =? 1 then Some m else None]))).
    { unfold deliver. rewrite EO. reflexivity. }
    destruct d as [| |t|t]; [discriminate| | |]; cbn [fire fst snd] in *.
    + destruct (local eager (n_worker n w)) as [b'|] eqn:EL; [|discriminate]. injection E2 as <- <-.
      destruct (local_send eager 0 _ _ h _ _ EL D) as (b3 & F1 & F2). rewrite F1. cbn [onChannel]. eexists. split; [reflexivity|].
      unfold deliver in F2. destruct (e_out b' 0) as [|m' l'] eqn:EO'; [discriminate|]. rewrite EP.
      cbn [h e_posted e_got e_prog e_out Nat.eqb] in F2. injection F2 as F2 F3. subst b3. cbn [n_main n_half n_worker]. rewrite !upd_upd.
      apply (f_equal (fun f => f 0)) in F3. unfold upd in F3. cbn in F3. injection F3 as F3. rewrite F3. reflexivity.
    + unfold deliver in E2. destruct (e_out (n_half n w) t) as [|m' l'] eqn:EO'; [discriminate|]. destruct (e_posted (n_worker n w) t) as [|c ns] eqn:EP'; [discriminate|].
      injection E2 as <- <-. unfold deliver. cbn [e_out e_posted e_prog e_got]. rewrite EO', EP', EO, EP. cbn [onChannel n_main n_half n_worker].
      eexists. split; [reflexivity|]. rewrite !upd_upd. reflexivity.
    + destruct (deliver t (n_worker n w) (n_half n w)) as [[b' a']|] eqn:ED; [|discriminate]. injection E2 as <- <-.
      unfold deliver in ED. destruct (e_out (n_worker n w) t) as [|m' l'] eqn:EO'; [discriminate|]. destruct (e_posted (n_half n w) t) as [|c ns] eqn:EP'; [discriminate|].
      assert (t <> 0) by (intros ->; congruence). injection ED as <- <-. unfold deliver. cbn [e_out e_posted e_prog e_got].
      rewrite !(upd_other _ 0 t) by auto. rewrite EO', EP'. cbn [onChannel n_main n_half n_worker]. rewrite !(upd_other _ t 0) by auto. rewrite EO, EP.
      eexists. split; [reflexivity|]. rewrite !upd_upd. rewrite (upd_swap (e_out _) t 0) by auto. reflexivity.
  - rewrite (upd_other _ w v) by auto. rewrite E2. cbn [onChannel n_main n_half n_worker]. rewrite !(upd_other _ v w) by auto. rewrite EO, EP.
    eexists. split; [reflexivity|]. rewrite (upd_swap _ v w) by auto. reflexivity.
Qed.
Lemma ndiamond n l m s1 s2 : plain n -> l <> m -> isPick l = false \/ isPick m = false -> nfire l n = Some s1 -> nfire m n = Some s2 ->
  exists s3, nfire m s1 = Some s3 /\ nfire l s2 = Some s3.
Proof.
  intros Hp N HI H1 H2.
  destruct (label_cases l) as [->|[(w & ->)|(w & c & Hc & ->)]], (label_cases m) as [->|[(v & ->)|(v & d & Hd & ->)]].
  - congruence.
  - exfalso. cbn in H1, H2. destruct (n_main n); discriminate.
  - destruct (ndiamond_mc n v d s1 s2 Hp Hd H1 H2) as (s3 & F1 & F2). eauto.
  - exfalso. cbn in H1, H2. destruct (n_main n); discriminate.
  - cbn in HI. destruct HI; discriminate.
  - apply (ndiamond_pc n w v d s1 s2 Hd H1 H2).
  - destruct (ndiamond_mc n w c s2 s1 Hp Hc H2 H1) as (s3 & F1 & F2). eauto.
  - destruct (ndiamond_pc n v w c s2 s1 Hc H2 H1) as (s3 & F1 & F2). eauto.
  - apply (ndiamond_cc n w c v d s1 s2 Hc Hd N H1 H2).
Qed.

(** ** Runs without choices *)
Inductive calm : nat -> net -> net -> Prop :=
| CalmO s : calm 0 s s
| CalmS n s l s1 s2 : nfire l s = Some s1 -> isPick l = false -> calm n s1 s2 -> calm (S n) s s2.
Definition calms s t := exists n, calm n s t.
Lemma calm_trans n k s t u : calm n s t -> calm k t u -> calm (n + k) s u.
Proof. intros R Q. induction R; cbn; [exact Q|]. econstructor; eauto. Qed.
Lemma calms_refl s : calms s s. Proof. exists 0. constructor. Qed.
Lemma calms_trans s t u : calms s t -> calms t u -> calms s u.
Proof. intros [n R] [k Q]. exists (n + k). eapply calm_trans; eauto. Qed.
Lemma calms_one s l t : isPick l = false -> nfire l s = Some t -> calms s t.
Proof. intros H E. exists 1. econstructor; eauto. constructor. Qed.
Lemma calm_plain n s t : calm n s t -> plain s -> plain t.
Proof. intros R. induction R; auto. intros Hp. apply IHR. eapply nfire_plain; eauto. Qed.
(** nothing but choices can happen *)
Definition settled (s : net) : Prop := forall l, isPick l = false -> nfire l s = None.
Lemma calm_step n s f l s1 : plain s -> settled f -> calm n s f -> isPick l = false -> nfire l s = Some s1 -> exists n', n = S n' /\ calm n' s1 f.
Proof.
  intros Hp F R. revert l s1 Hp. induction R as [s|n s m s2 f H I R IH]; intros l s1 Hp Hl E; [rewrite F in E by auto; discriminate|].
  exists n. split; [reflexivity|].
  assert (D : l = m \/ l <> m) by (destruct (classic (l = m)); auto). destruct D as [->|N]; [rewrite E in H; injection H as <-; exact R|].
  destruct (ndiamond s l m s1 s2 Hp N (or_introl Hl) E H) as (s3 & F1 & F2). destruct (IH F l s3 ltac:(eapply nfire_plain; eauto) Hl F2) as (n' & -> & R'). econstructor; eauto.
Qed.
(** a choice may be made later *)
Lemma calm_pick n s f w s1 : plain s -> calm n s f -> nfire (Pick w) s = Some s1 -> exists f1, nfire (Pick w) f = Some f1 /\ calm n s1 f1.
Proof.
  intros Hp R. revert s1 Hp. induction R as [s|n s m s2 f H I R IH]; intros s1 Hp E; [exists s1; split; [exact E|constructor]|].
  destruct (ndiamond s (Pick w) m s1 s2 Hp ltac:(intros <-; discriminate) (or_intror I) E H) as (s3 & F1 & F2).
  destruct (IH s3 ltac:(eapply nfire_plain; eauto) F2) as (f1 & G1 & G2). exists f1. split; auto. econstructor; eauto.
Qed.

(** ** All runs end, and where *)
Section Good.
Variable Out : net -> Prop.
(** every run has at most n steps and ends in Out *)
Fixpoint good (n : nat) (s : net) : Prop :=
  (stuck eager s -> Out s) /\
  match n with
  | O => stuck eager s
  | S n => forall l s1, nfire l s = Some s1 -> good n s1
  end.
Lemma good_mono n : forall k s, n <= k -> good n s -> good k s.
Proof.
  induction n as [|n IH]; intros k s L [H1 H2].
  - destruct k; cbn; split; auto. intros l s1 E. unfold stuck in H2. rewrite H2 in E. discriminate.
  - destruct k; [lia|]. cbn. split; auto. intros l s1 E. apply IH; [lia|]. eauto.
Qed.
Lemma good_step n s l s1 : good n s -> nfire l s = Some s1 -> exists k, n = S k /\ good k s1.
Proof. intros H E. destruct n as [|n]; destruct H as [H1 H2]; [unfold stuck in H2; rewrite H2 in E; discriminate|]. eauto. Qed.
Lemma good_calm n k s s1 : good n s -> calm k s s1 -> good n s1.
Proof.
  intros H R. revert n H. induction R as [s|k s l s2 s1 E I R IH]; intros n H; auto.
  destruct (good_step n s l s2 H E) as (k' & -> & G). apply IH. eapply good_mono; [|exact G]. lia.
Qed.
(** one step without choice to a state all of whose runs end *)
Lemma good_before n : forall s l s1, plain s -> isPick l = false -> nfire l s = Some s1 -> good n s1 -> good (S n) s.
Proof.
  induction n as [|n IH]; intros s l s1 Hp I E G; (split; [intros U; unfold stuck in U; rewrite U in E; discriminate|]); intros m s2 E2;
    (destruct (classic (l = m)) as [<-|N]; [rewrite E in E2; injection E2 as <-; exact G|]);
    destruct (ndiamond s l m s1 s2 Hp N (or_introl I) E E2) as (s3 & F1 & F2); destruct (good_step _ _ _ _ G F1) as (k & Ek & G3); [discriminate|].
  injection Ek as <-. apply (IH s2 l s3); auto. eapply nfire_plain; eauto.
Qed.
Lemma good_calms k n s s1 : plain s -> calm k s s1 -> good n s1 -> good (k + n) s.
Proof.
  intros Hp R G. induction R as [s|k s l s2 s1 E I R IH]; [exact G|]. cbn [Nat.add]. eapply good_before; eauto. apply IH; auto. eapply nfire_plain; eauto.
Qed.
(** what this means for runs *)
Lemma good_runs n s : good n s -> forall k s1, nruns eager k s s1 -> k <= n /\ (stuck eager s1 -> Out s1).
Proof.
  intros G k s1 R. revert n G. induction R as [s|k s l s2 s1 E R IH]; intros n G.
  - split; [lia|]. destruct n, G; auto.
  - destruct (good_step _ _ _ _ G E) as (n' & -> & G'). destruct (IH n' G') as [L H]. split; [lia|auto].
Qed.
Lemma good_ends n : forall s, good n s -> exists k s1, nruns eager k s s1 /\ stuck eager s1.
Proof.
  induction n as [|n IH]; intros s G.
  - exists 0, s. split; [constructor|]. destruct G; auto.
  - destruct (classic (stuck eager s)) as [U|U]; [exists 0, s; split; [constructor|auto]|].
    apply not_all_ex_not in U as (l & U). destruct (nfire l s) as [s1|] eqn:E; [|congruence].
    destruct (IH s1) as (k & s2 & R & U2); [destruct G as [_ G]; eauto|]. exists (S k), s2. split; auto. econstructor; eauto.
Qed.
End Good.

(** ** Runs of one channel *)
Lemma channel_run n w p q : forall M H W, (forall v, e_prog (H v) = Ret tt) -> M = On w (e_prog (fst p)) -> H w = withProg (Ret tt) (fst p) -> W w = snd p ->
  runs eager n p q -> calms (mkNet M H W) (mkNet (On w (e_prog (fst q))) (upd H w (withProg (Ret tt) (fst q))) (upd W w (snd q))).
Proof.
  intros M H W HP -> EH EW R. revert H W HP EH EW. induction R as [p|n [a b] l [a1 b1] q E R IH]; intros H W HP EH EW; cbn [fst snd] in *.
  - rewrite <- EH, <- EW, !upd_id. apply calms_refl.
  - assert (PL : plain (mkNet (On w (e_prog a)) H W)) by (intros v; apply HP).
    assert (EA : withProg (e_prog a) (H w) = a) by (rewrite EH; destruct a; reflexivity).
    set (n0 := mkNet (On w (e_prog a)) H W) in *.
    assert (S1 : nfire (atW w l) n0 = Some (mkNet (On w (e_prog a1)) (upd H w (withProg (Ret tt) a1)) (upd W w b1))).
    { destruct (chan l) eqn:Hc.
      - rewrite nfire_at by auto. rewrite (chan_lift n0 w (e_prog a) l a1 b1 PL Hc).
        + cbn [onChannel]. rewrite (fire_main_prog l _ _ _ _ Hc E). reflexivity.
        + unfold n0. cbn [n_half n_worker]. rewrite EA, EW. exact E.
      - destruct l; try discriminate. cbn [atW]. rewrite (main_go n0 w (e_prog a) a1 b1); [|reflexivity|unfold n0; cbn [n_half n_worker]; rewrite EA, EW; exact E].
        unfold n0. cbn [n_half n_worker]. f_equal. f_equal. cbn [fire fst snd] in E. destruct (local eager a); [|discriminate]. injection E as _ <-. rewrite <- EW, upd_id. reflexivity. }
    eapply calms_trans; [eapply calms_one; [|exact S1]; destruct l; reflexivity|].
    pose proof (IH (upd H w (withProg (Ret tt) a1)) (upd W w b1)) as Q. rewrite !upd_same in Q. rewrite !upd_upd in Q. apply Q; auto.
    intros v. unfold upd. destruct (v =? w); [reflexivity|apply HP].
Qed.
(** a pair of send and receive functions between main and worker w *)
Lemma quiet_upd (q : nat -> prog B) w x : upd (fun v => quiet (q v)) w (quiet x) = fun v => quiet (upd q w x v).
Proof. extensionality v. unfold upd. destruct (v =? w); reflexivity. Qed.
Lemma net_phase {Y Z} w (p : prog Y) (p' : prog Z) y z (f : Y -> prog (mprog A)) (g : Z -> prog B) q :
  phase eager p p' y z -> q w = bind p' g -> calms (netOf (On w (bind p f)) q) (netOf (On w (f y)) (upd q w (g z))).
Proof.
  intros Ph Eq. destruct (Ph _ _ f g) as [n R]. unfold netOf.
  pose proof (channel_run n w (start (bind p f) (bind p' g)) (start (f y) (g z)) (On w (bind p f)) (fun _ => quiet (Ret tt)) (fun v => quiet (q v)) ltac:(reflexivity) eq_refl eq_refl) as Q.
  cbn [start fst snd e_prog] in Q. rewrite Eq in Q. specialize (Q eq_refl R). cbn [start fst snd e_prog] in Q.
  change (mkEp (g z) (fun _ => []) (fun _ => []) (fun _ => [])) with (quiet (g z)) in Q. rewrite quiet_upd in Q.
  change (withProg (Ret tt) (mkEp (f y) (fun _ => []) (fun _ => []) (fun _ => []))) with (quiet (Ret tt)) in Q.
  replace (upd (fun _ : nat => quiet (Ret tt)) w (quiet (Ret tt))) with (fun _ : nat => quiet (Ret tt)) in Q by (symmetry; apply (upd_id (fun _ => quiet (Ret tt)))). exact Q.
Qed.
Lemma net_ret w m (q : nat -> prog B) : calms (netOf (On w (Ret m)) q) (netOf m q).
Proof. apply (calms_one _ Main); [reflexivity|]. apply (main_ret (netOf (On w (Ret m)) q) w m). reflexivity. Qed.

(** ** A worker alone *)
Fixpoint settle (p : prog B) (o : nat -> list payload) (r : nat -> list nat) (g : nat -> list (option payload)) : ep B :=
  match p with
  | Isend t m k => settle k (upd o t (o t ++ [m])) r g
  | WaitS t k => if forallb (eager t) (o t) then settle k o r g else mkEp p o r g
  | Irecv t n k => settle k o (upd r t (r t ++ [n])) g
  | WaitR t k => match g t with x :: l => settle (k x) o r (upd g t l) | [] => mkEp p o r g end
  | Ret _ => mkEp p o r g
  end.
Lemma settle_local p : forall o r g, local eager (settle p o r g) = None.
Proof.
  induction p as [t m k IH|t k IH|t n k IH|t k IH|a]; intros o r g; cbn [settle]; auto.
  - destruct (forallb (eager t) (o t)) eqn:E; auto. unfold local. cbn. rewrite E. reflexivity.
  - destruct (g t) eqn:E; auto. unfold local. cbn. rewrite E. reflexivity.
Qed.
Lemma settle_out p : forall o r g t, exists l, e_out (settle p o r g) t = o t ++ l.
Proof.
  induction p as [u m k IH|u k IH|u n k IH|u k IH|a]; intros o r g t; cbn [settle].
  - destruct (IH (upd o u (o u ++ [m])) r g t) as (l & ->). unfold upd. destruct (Nat.eqb_spec t u) as [->|]; [exists ([m] ++ l); rewrite <- app_assoc; reflexivity|eauto].
  - destruct (forallb (eager u) (o u)); auto. exists []. rewrite app_nil_r. reflexivity.
  - apply IH.
  - destruct (g u); auto. exists []. rewrite app_nil_r. reflexivity.
  - exists []. rewrite app_nil_r. reflexivity.
Qed.
Lemma settle_run M H W w p : forall o r g, W w = mkEp p o r g -> calms (mkNet M H W) (mkNet M H (upd W w (settle p o r g))).
Proof.
  assert (S1 : forall W e e', W w = e -> local eager e = Some e' -> calms (mkNet M H W) (mkNet M H (upd W w e'))).
  { intros W0 e e' E L. apply (calms_one _ (Wrk w)); [reflexivity|]. cbn [MPIMain.nfire fire fst snd n_half n_worker]. rewrite E, L. cbn [onChannel n_main n_half n_worker]. rewrite upd_id. reflexivity. }
  revert W. induction p as [t m k IH|t k IH|t n k IH|t k IH|a]; intros W o r g E; cbn [settle].
  - eapply calms_trans; [eapply S1; [exact E|reflexivity]|]. cbn [e_out e_posted e_got]. eapply calms_trans; [apply IH; apply upd_same|]. rewrite upd_upd. apply calms_refl.
  - destruct (forallb (eager t) (o t)) eqn:EF.
    + eapply calms_trans; [eapply S1; [exact E|unfold local; cbn; rewrite EF; reflexivity]|]. eapply calms_trans; [apply IH; apply upd_same|]. rewrite upd_upd. apply calms_refl.
    + rewrite <- E, upd_id. apply calms_refl.
  - eapply calms_trans; [eapply S1; [exact E|reflexivity]|]. cbn [e_out e_posted e_got]. eapply calms_trans; [apply IH; apply upd_same|]. rewrite upd_upd. apply calms_refl.
  - destruct (g t) as [|x l] eqn:EG.
    + rewrite <- E, upd_id. apply calms_refl.
    + eapply calms_trans; [eapply S1; [exact E|unfold local; cbn; rewrite EG; reflexivity]|]. cbn. eapply calms_trans; [apply IH; apply upd_same|]. rewrite upd_upd. apply calms_refl.
  - rewrite <- E, upd_id. apply calms_refl.
Qed.
Definition settleAll (q : nat -> prog B) (w : nat) : ep B := settle (q w) (fun _ => []) (fun _ => []) (fun _ => []).
Lemma settle_all M q P : (forall w, P <= w -> exists b, q w = Ret b) ->
  calms (netOf M q) (mkNet M (fun _ => quiet (Ret tt)) (settleAll q)).
Proof.
  intros HP. assert (G : forall k, calms (netOf M q) (mkNet M (fun _ => quiet (Ret tt)) (fun w => if w <? k then settleAll q w else quiet (q w)))).
  { induction k as [|k IH].
    - unfold netOf. match goal with |- calms (mkNet _ _ ?x) (mkNet _ _ ?y) => replace y with x; [apply calms_refl|] end.
      extensionality w. destruct (Nat.ltb_spec w 0); [lia|reflexivity].
    - eapply calms_trans; [exact IH|]. eapply calms_trans; [apply (settle_run _ _ _ k (q k) (fun _ => []) (fun _ => []) (fun _ => [])); rewrite Nat.ltb_irrefl; reflexivity|].
      match goal with |- calms (mkNet _ _ ?x) (mkNet _ _ ?y) => replace y with x; [apply calms_refl|] end.
      extensionality w. unfold upd. destruct (Nat.eqb_spec w k) as [->|N].
      + rewrite (proj2 (Nat.ltb_lt k (S k))) by lia. reflexivity.
      + destruct (Nat.ltb_spec w k), (Nat.ltb_spec w (S k)); try lia; reflexivity. }
  specialize (G P). match type of G with calms _ (mkNet _ _ ?x) => replace (settleAll q) with x; [exact G|] end.
  extensionality w. destruct (Nat.ltb_spec w P) as [|L]; [reflexivity|]. unfold settleAll. destruct (HP w L) as (b & ->). reflexivity.
Qed.
(** main waits for any worker *)
Lemma settle_any k q : settled (mkNet (Any k) (fun _ => quiet (Ret tt)) (settleAll q)).
Proof.
  intros l I. destruct (label_cases l) as [->|[(w & ->)|(w & c & Hc & ->)]]; [reflexivity|discriminate|].
  rewrite nfire_at by auto. cbn [n_half n_worker]. destruct c as [| |t|t]; [discriminate| | |]; cbn [fire fst snd].
  - unfold settleAll. rewrite settle_local. reflexivity.
  - reflexivity.
  - unfold deliver. cbn. destruct (e_out (settleAll q w) t); reflexivity.
Qed.
(** If after each possible choice all runs are good, all runs are. *)
Lemma good_any Out k q P (busy : nat -> Prop) (ws : list nat) :
  (forall w, P <= w -> exists b, q w = Ret b) -> (forall w, busy w -> In w ws) -> (exists w, busy w) ->
  (forall w, busy w -> exists m r, q w = Isend 0 m r) ->
  (forall w, ~ busy w -> e_out (settleAll q w) 0 = []) ->
  (forall w m r, busy w -> q w = Isend 0 m r -> exists N, good Out N (netOf (k w (if length m =? 1 then Some m else None)) (upd q w r))) ->
  exists N, good Out N (netOf (Any k) q).
Proof.
  intros HP HF (w0 & Hw0) Hb Hi Hg. set (F := mkNet (Any k) (fun _ => quiet (Ret tt)) (settleAll q)).
  destruct (settle_all (Any k) q P HP) as [n R]. fold F in R.
  assert (PL : plain (netOf (Any k) q)) by (intros v; reflexivity).
  assert (SF : settled F) by apply settle_any.
  assert (Each : forall w, busy w -> exists N, forall s, nfire (Pick w) F = Some s -> good Out N s).
  { intros w Hw. destruct (Hb w Hw) as (m & r & Eq). destruct (Hg w m r Hw Eq) as (N & G). exists N. intros s E.
    (* the worker posts its first message *)
    set (F1 := mkNet (Any k) (fun _ => quiet (Ret tt)) (upd (fun v => quiet (q v)) w (mkEp r (upd (fun _ => []) 0 [m]) (fun _ => []) (fun _ => [])))).
    assert (E1 : nfire (Wrk w) (netOf (Any k) q) = Some F1).
    { cbn [MPIMain.nfire netOf n_half n_worker fire fst snd quiet]. rewrite Eq. cbn. rewrite (upd_id (fun _ : nat => quiet (Ret tt))). reflexivity. }
    destruct (calm_step n (netOf (Any k) q) F (Wrk w) F1 PL SF R eq_refl E1) as (n' & -> & R').
    assert (E2 : nfire (Pick w) F1 = Some (netOf (k w (if length m =? 1 then Some m else None)) (upd q w r))).
    { unfold F1. cbn [MPIMain.nfire n_main n_half n_worker]. rewrite !upd_same. cbn [e_out e_posted quiet e_prog e_got]. rewrite upd_same. rewrite !upd_upd.
      unfold netOf. rewrite (upd_id (fun _ : nat => @nil payload) 0). change (mkEp r (fun _ => []) (fun _ => []) (fun _ => [])) with (quiet r). rewrite quiet_upd. reflexivity. }
    assert (P1 : plain F1) by (intros v; reflexivity).
    destruct (calm_pick n' F1 F w _ P1 R' E2) as (f1 & G1 & G2). rewrite G1 in E. injection E as <-. eapply good_calm; eauto. }
  assert (All : exists N, forall w, In w ws -> busy w -> forall s, nfire (Pick w) F = Some s -> good Out N s).
  { clear HF. induction ws as [|w l IH]; [exists 0; intros ? []|]. destruct IH as (N & IH). destruct (classic (busy w)) as [Hw|Hw].
    - destruct (Each w Hw) as (N' & E). exists (N + N'). intros v [<-|I] Hv s Es; [apply (good_mono Out N'); [lia|auto]|apply (good_mono Out N); [lia|eauto]].
    - exists N. intros v [<-|I] Hv s Es; [contradiction|eauto]. }
  destruct All as (N & All).
  assert (G : good Out (S N) F).
  { split.
    - intros U. exfalso. destruct (Hb w0 Hw0) as (m & r & Eq). pose proof (U (Pick w0)) as E. unfold F in E. cbn [MPIMain.nfire n_main n_half n_worker] in E.
      unfold settleAll in E. rewrite Eq in E. cbn [settle] in E. destruct (settle_out r (upd (fun _ => []) 0 ([] ++ [m])) (fun _ => []) (fun _ => []) 0) as (l & El).
      rewrite El, upd_same in E. cbn in E. discriminate.
    - intros l s E. destruct (isPick l) eqn:I; [|rewrite SF in E by auto; discriminate]. destruct l as [|w| | |]; try discriminate.
      destruct (classic (busy w)) as [Hw|Hw]; [apply (All w); auto|]. exfalso. unfold F in E. cbn [MPIMain.nfire n_main n_half n_worker] in E. rewrite Hi in E by auto. discriminate. }
  exists (n + S N). eapply good_calms; eauto.
Qed.
(** one step later *)
Lemma good_from Out s t : plain s -> calms s t -> (exists N, good Out N t) -> exists N, good Out N s.
Proof. intros Hp [n R] (N & G). exists (n + N). eapply good_calms; eauto. Qed.
Lemma netOf_plain M q : plain (netOf M q). Proof. intros w. reflexivity. Qed.
End NetN.
