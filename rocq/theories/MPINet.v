(** The order in which processes and network proceed does not matter: everything that can happen
    commutes, so one complete run decides the result of all. *)
From Verif Require Import MPI.
Local Open Scope nat_scope.

Lemma upd_same {X} (f : nat -> X) t x : upd f t x t = x.
Proof. unfold upd. rewrite Nat.eqb_refl. reflexivity. Qed.
Lemma upd_other {X} (f : nat -> X) t u x : u <> t -> upd f t x u = f u.
Proof. intros N. unfold upd. destruct (Nat.eqb_spec u t); [contradiction|reflexivity]. Qed.
Lemma upd_id {X} (f : nat -> X) t : upd f t (f t) = f.
Proof. extensionality u. unfold upd. destruct (Nat.eqb_spec u t); [subst|]; reflexivity. Qed.
Lemma upd_upd {X} (f : nat -> X) t x y : upd (upd f t x) t y = upd f t y.
Proof. extensionality u. unfold upd. destruct (Nat.eqb_spec u t); reflexivity. Qed.
Lemma upd_swap {X} (f : nat -> X) t u x y : t <> u -> upd (upd f t x) u y = upd (upd f u y) t x.
Proof. intros N. extensionality w. unfold upd. destruct (Nat.eqb_spec w t), (Nat.eqb_spec w u); try reflexivity. subst. contradiction. Qed.

Section Diamond.
Variable eager : nat -> payload -> bool.
Lemma local_send {A B} t (s s' : ep A) (r : ep B) s2 r2 :
  local eager s = Some s' -> deliver t s r = Some (s2, r2) -> exists s3, local eager s2 = Some s3 /\ deliver t s' r = Some (s3, r2).
Proof.
  intros H D. unfold deliver in *. destruct (e_out s t) as [|m l] eqn:EO; [discriminate|]. destruct (e_posted r t) as [|n ns] eqn:EP; [discriminate|].
  injection D as <- <-. unfold local in *. cbn [e_prog e_out e_posted e_got]. destruct (e_prog s) as [u p k|u k|u n' k|u k|a]; [| | | |discriminate].
  - injection H as <-. cbn [e_prog e_out e_posted e_got]. eexists. split; [reflexivity|]. destruct (Nat.eq_dec u t) as [->|N].
    + rewrite !upd_same, EO. cbn [app]. rewrite !upd_upd. reflexivity.
    + rewrite (upd_other _ u t) by auto. rewrite EO. rewrite (upd_other _ t u) by auto. rewrite (upd_swap _ u t) by auto. reflexivity.
  - destruct (forallb (eager u) (e_out s u)) eqn:EF; [|discriminate]. injection H as <-. cbn [e_prog e_out e_posted e_got]. rewrite EO.
    destruct (Nat.eq_dec u t) as [->|N].
    + rewrite upd_same. rewrite EO in EF. cbn in EF. apply andb_true_iff in EF. destruct EF as [_ ->]. eexists. split; reflexivity.
    + rewrite upd_other by auto. rewrite EF. eexists. split; reflexivity.
  - injection H as <-. cbn [e_prog e_out e_posted e_got]. rewrite EO. eexists. split; reflexivity.
  - destruct (e_got s u) as [|x g] eqn:EG; [discriminate|]. injection H as <-. cbn [e_prog e_out e_posted e_got]. rewrite EO. eexists. split; reflexivity.
Qed.
Lemma local_recv {A B} t (s : ep A) (r r' : ep B) s2 r2 :
  local eager r = Some r' -> deliver t s r = Some (s2, r2) -> exists r3, local eager r2 = Some r3 /\ deliver t s r' = Some (s2, r3).
Proof.
  intros H D. unfold deliver in *. destruct (e_out s t) as [|m l] eqn:EO; [discriminate|]. destruct (e_posted r t) as [|n ns] eqn:EP; [discriminate|].
  injection D as <- <-. unfold local in *. cbn [e_prog e_out e_posted e_got]. destruct (e_prog r) as [u p k|u k|u n' k|u k|a]; [| | | |discriminate].
  - injection H as <-. cbn [e_prog e_out e_posted e_got]. rewrite EP. eexists. split; reflexivity.
  - destruct (forallb (eager u) (e_out r u)) eqn:EF; [|discriminate]. injection H as <-. cbn [e_prog e_out e_posted e_got]. rewrite EP. eexists. split; reflexivity.
  - injection H as <-. cbn [e_prog e_out e_posted e_got]. eexists. split; [reflexivity|]. destruct (Nat.eq_dec u t) as [->|N].
    + rewrite !upd_same, EP. cbn [app]. rewrite !upd_upd. reflexivity.
    + rewrite (upd_other _ u t) by auto. rewrite EP. rewrite (upd_other _ t u) by auto. rewrite (upd_swap _ u t) by auto. reflexivity.
  - destruct (e_got r u) as [|x g] eqn:EG; [discriminate|]. injection H as <-. cbn [e_prog e_out e_posted e_got]. rewrite EP.
    destruct (Nat.eq_dec u t) as [->|N].
    + rewrite !upd_same, EG. cbn [app]. eexists. split; [reflexivity|]. rewrite !upd_upd. reflexivity.
    + rewrite (upd_other _ t u) by auto. rewrite (upd_other _ u t) by auto. rewrite EG. eexists. split; [reflexivity|]. rewrite (upd_swap _ u t) by auto. reflexivity.
Qed.
Lemma deliver_deliver {A B} t u (s s1 s2 : ep A) (r r1 r2 : ep B) : t <> u ->
  deliver t s r = Some (s1, r1) -> deliver u s r = Some (s2, r2) -> exists x, deliver u s1 r1 = Some x /\ deliver t s2 r2 = Some x.
Proof.
  intros N D E. unfold deliver in *. destruct (e_out s t) as [|m l] eqn:EO; [discriminate|]. destruct (e_posted r t) as [|n ns] eqn:EP; [discriminate|].
  destruct (e_out s u) as [|m' l'] eqn:EO'; [discriminate|]. destruct (e_posted r u) as [|n' ns'] eqn:EP'; [discriminate|].
  injection D as <- <-. injection E as <- <-. cbn [e_prog e_out e_posted e_got].
  rewrite !(upd_other _ t u), !(upd_other _ u t) by auto. rewrite EO, EO', EP, EP'. eexists. split; [reflexivity|].
  rewrite (upd_swap (e_out s) u t), (upd_swap (e_posted r) u t), (upd_swap (e_got r) u t) by auto. reflexivity.
Qed.
Lemma deliver_back {A B} t u (a a1 a2 : ep A) (b b1 b2 : ep B) :
  deliver t a b = Some (a1, b1) -> deliver u b a = Some (b2, a2) -> exists a3 b3, deliver u b1 a1 = Some (b3, a3) /\ deliver t a2 b2 = Some (a3, b3).
Proof.
  intros D E. unfold deliver in *. destruct (e_out a t) as [|m l] eqn:EO; [discriminate|]. destruct (e_posted b t) as [|n ns] eqn:EP; [discriminate|].
  destruct (e_out b u) as [|m' l'] eqn:EO'; [discriminate|]. destruct (e_posted a u) as [|n' ns'] eqn:EP'; [discriminate|].
  injection D as <- <-. injection E as <- <-. cbn [e_prog e_out e_posted e_got]. rewrite EO, EO', EP, EP'. do 2 eexists. split; reflexivity.
Qed.
Context {A B : Type}.
Notation state := (ep A * ep B)%type.
Lemma label_dec (l m : label) : {l = m} + {l <> m}.
Proof. decide equality; apply Nat.eq_dec. Qed.
Lemma diamond (s s1 s2 : state) l m : l <> m -> fire eager l s = Some s1 -> fire eager m s = Some s2 ->
  exists s3, fire eager m s1 = Some s3 /\ fire eager l s2 = Some s3.
Proof.
  destruct s as [a b].
  assert (W : forall l m, l <> m -> (match l, m with GoL, _ => True | GoR, (GoR | ToR _ | ToL _) => True | ToR _, (ToR _ | ToL _) => True | ToL _, ToL _ => True | _, _ => False end) ->
    forall s1 s2, fire eager l (a, b) = Some s1 -> fire eager m (a, b) = Some s2 -> exists s3, fire eager m s1 = Some s3 /\ fire eager l s2 = Some s3).
  { clear l m s1 s2. intros l m N O s1 s2 H1 H2. destruct l as [| |t|t], m as [| |u|u]; try contradiction; cbn [fire fst snd] in *.
    - destruct (local eager a) eqn:E1; [|discriminate]. destruct (local eager b) eqn:E2; [|discriminate]. injection H1 as <-. injection H2 as <-.
      cbn [fst snd]. rewrite E1, E2. eexists. split; reflexivity.
    - destruct (local eager a) eqn:E1; [|discriminate]. injection H1 as <-. destruct s2 as [a2 b2]. destruct (local_send u a e b a2 b2 E1 H2) as (s3 & F1 & F2).
      cbn [fst snd]. rewrite F1, F2. eexists. split; reflexivity.
    - destruct (local eager a) eqn:E1; [|discriminate]. injection H1 as <-. destruct (deliver u b a) as [[b2 a2]|] eqn:E2; [|discriminate]. injection H2 as <-.
      destruct (local_recv u b a e b2 a2 E1 E2) as (s3 & F1 & F2). cbn [fst snd]. rewrite F1, F2. eexists. split; reflexivity.
    - destruct (local eager b) eqn:E1; [|discriminate]. injection H1 as <-. destruct s2 as [a2 b2]. destruct (local_recv u a b e a2 b2 E1 H2) as (s3 & F1 & F2).
      cbn [fst snd]. rewrite F1, F2. eexists. split; reflexivity.
    - destruct (local eager b) eqn:E1; [|discriminate]. injection H1 as <-. destruct (deliver u b a) as [[b2 a2]|] eqn:E2; [|discriminate]. injection H2 as <-.
      destruct (local_send u b e a b2 a2 E1 E2) as (s3 & F1 & F2). cbn [fst snd]. rewrite F1, F2. eexists. split; reflexivity.
    - destruct s1 as [a1 b1], s2 as [a2 b2]. apply (deliver_deliver t u a a1 a2 b b1 b2); auto; congruence.
    - destruct s1 as [a1 b1]. destruct (deliver u b a) as [[b2 a2]|] eqn:E2; [|discriminate]. injection H2 as <-.
      destruct (deliver_back t u a a1 a2 b b1 b2 H1 E2) as (a3 & b3 & F1 & F2). cbn [fst snd]. rewrite F1, F2. eexists. split; reflexivity.
    - destruct (deliver t b a) as [[b1 a1]|] eqn:E1; [|discriminate]. injection H1 as <-. destruct (deliver u b a) as [[b2 a2]|] eqn:E2; [|discriminate]. injection H2 as <-.
      assert (N' : t <> u) by congruence. destruct (deliver_deliver t u b b1 b2 a a1 a2 N' E1 E2) as ([b3 a3] & F1 & F2). cbn [fst snd]. rewrite F1, F2. eexists. split; reflexivity. }
  intros N H1 H2. destruct l as [| |t|t], m as [| |u|u];
    try (exact (W _ _ N Logic.I _ _ H1 H2)); try congruence;
    (destruct (W _ _ (not_eq_sym N) Logic.I _ _ H2 H1) as (s3 & F1 & F2); exists s3; split; [exact F2|exact F1]).
Qed.
(** the processes have returned and nothing can happen any more *)
Definition ended (s : state) : Prop := forall l, fire eager l s = None.
Lemma runs_step n s f l s1 : ended f -> runs eager n s f -> fire eager l s = Some s1 -> exists n', n = Datatypes.S n' /\ runs eager n' s1 f.
Proof.
  intros F R. revert l s1. induction R as [s|n s m s2 f H R IH]; intros l s1 E; [rewrite F in E; discriminate|].
  exists n. split; [reflexivity|]. destruct (label_dec l m) as [->|N]; [rewrite E in H; injection H as <-; exact R|].
  destruct (diamond s s1 s2 l m N E H) as (s3 & F1 & F2). destruct (IH F l s3 F2) as (n' & -> & R'). econstructor; eassumption.
Qed.
(** One run to the end: every run can be continued to the same end, and none is longer. *)
Theorem confluent n s f : ended f -> runs eager n s f -> forall k s1, runs eager k s s1 -> k <= n /\ runs eager (n - k) s1 f.
Proof.
  intros F R k s1 Q. revert n R. induction Q as [s|k s l s2 s1 H Q IH]; intros n R; [split; [lia|]; rewrite Nat.sub_0_r; exact R|].
  destruct (runs_step n s f l s2 F R H) as (n' & -> & R'). destruct (IH n' R') as [L C]. split; [lia|exact C].
Qed.
Lemma runs_trans n k (s t u : state) : runs eager n s t -> runs eager k t u -> runs eager (n + k) s u.
Proof. intros R Q. induction R; cbn; [exact Q|]. econstructor; eauto. Qed.
End Diamond.
