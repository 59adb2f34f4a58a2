(** Complete runs of the pairs of send and receive functions of gsAPALM.hpp. *)
From Verif Require Import MPI MPINet.
Local Open Scope nat_scope.

Lemma bind_bind {A B C} (p : prog A) (f : A -> prog B) (g : B -> prog C) : bind (bind p f) g = bind p (fun a => bind (f a) g).
Proof. induction p as [t m k IH|t k IH|t n k IH|t k IH|a]; cbn; try (rewrite IH; reflexivity); [|reflexivity]. f_equal. extensionality x. apply IH. Qed.
Lemma bind_ret {A} (p : prog A) : bind p Ret = p.
Proof. induction p as [t m k IH|t k IH|t n k IH|t k IH|a]; cbn; try (rewrite IH; reflexivity); [|reflexivity]. f_equal. extensionality x. apply IH. Qed.
Lemma isends_bind {A B} l : forall t (k : prog A) (f : A -> prog B), bind (isends t l k) f = isends t l (bind k f).
Proof. induction l as [|m l IH]; intros; cbn; [reflexivity|]. rewrite IH. reflexivity. Qed.
Lemma waitS_bind {A B} l : forall (k : prog A) (f : A -> prog B), bind (waitS l k) f = waitS l (bind k f).
Proof. induction l as [|m l IH]; intros; cbn; [reflexivity|]. rewrite IH. reflexivity. Qed.
Lemma irecvs_bind {A B} l : forall t (k : prog A) (f : A -> prog B), bind (irecvs t l k) f = irecvs t l (bind k f).
Proof. induction l as [|m l IH]; intros; cbn; [reflexivity|]. rewrite IH. reflexivity. Qed.
Lemma waitR_bind {A B} l : forall (k : list (option payload) -> prog A) (f : A -> prog B), bind (waitR l k) f = waitR l (fun x => bind (k x) f).
Proof. induction l as [|m l IH]; intros; cbn; [reflexivity|]. f_equal. extensionality x. apply IH. Qed.

Section Phase.
Variable eager : nat -> payload -> bool.
Definition steps {A B} (s t : ep A * ep B) : Prop := exists n, runs eager n s t.
Lemma steps_refl {A B} (s : ep A * ep B) : steps s s. Proof. exists 0. constructor. Qed.
Lemma steps_trans {A B} (s t u : ep A * ep B) : steps s t -> steps t u -> steps s u.
Proof. intros [n R] [k Q]. exists (n + k). eapply runs_trans; eassumption. Qed.
Lemma steps_one {A B} (s t : ep A * ep B) l : fire eager l s = Some t -> steps s t.
Proof. intros H. exists 1. econstructor; [exact H|constructor]. Qed.
Definition flip (l : label) : label := match l with GoL => GoR | GoR => GoL | ToR t => ToL t | ToL t => ToR t end.
Lemma fire_flip {A B} l (a a' : ep A) (b b' : ep B) : fire eager l (a, b) = Some (a', b') -> fire eager (flip l) (b, a) = Some (b', a').
Proof.
  destruct l; cbn; intros H.
  - destruct (local eager a); [|discriminate]. injection H as <- <-. reflexivity.
  - destruct (local eager b); [|discriminate]. injection H as <- <-. reflexivity.
  - rewrite H. reflexivity.
  - destruct (deliver t b a) as [[]|]; [|discriminate]. injection H as <- <-. reflexivity.
Qed.
Lemma steps_flip {A B} (a a' : ep A) (b b' : ep B) : steps (a, b) (a', b') -> steps (b, a) (b', a').
Proof.
  intros [n R]. exists n. remember (a, b) as s eqn:E1. remember (a', b') as t eqn:E2. revert a b a' b' E1 E2.
  induction R as [s|n s l [a1 b1] t H R IH]; intros a b a' b' -> E2.
  - injection E2 as <- <-. constructor.
  - econstructor; [apply fire_flip; exact H|]. eapply IH; [reflexivity|exact E2].
Qed.
(** from idle channels the two programs can run to these results, with idle channels again *)
Definition phase {A B} (p : prog A) (q : prog B) (a : A) (b : B) : Prop :=
  forall A' B' (f : A -> prog A') (g : B -> prog B'), steps (start (bind p f) (bind q g)) (start (f a) (g b)).
Lemma phase_bind {A B C D} (p : prog A) (q : prog B) a b (f : A -> prog C) (g : B -> prog D) c d :
  phase p q a b -> phase (f a) (g b) c d -> phase (bind p f) (bind q g) c d.
Proof. intros H1 H2 A' B' f' g'. rewrite !bind_bind. eapply steps_trans; [apply H1|]. apply H2. Qed.
Lemma phase_ret {A B} (a : A) (b : B) : phase (Ret a) (Ret b) a b.
Proof. intros A' B' f g. apply steps_refl. Qed.
Lemma phase_flip {A B} (p : prog A) (q : prog B) a b : phase p q a b -> phase q p b a.
Proof. intros H B' A' g f. apply steps_flip. apply H. Qed.
Lemma phase_left {A B} (p : prog A) (q : prog B) a b : phase p q a b -> phase p (bind q Ret) a b.
Proof. rewrite bind_ret. auto. Qed.

(** ** One side sends, the other receives *)
(** messages O t of the tags from T to N pending, those of the tags in W received and not yet
    waited for *)
Definition mid {A B} (N : nat) (O : nat -> payload) (T : nat) (W : nat -> bool) (p : prog A) (q : prog B) : ep A * ep B :=
  (mkEp p (fun t => if (T <=? t) && (t <? N) then [O t] else []) (fun _ => []) (fun _ => []),
   mkEp q (fun _ => []) (fun _ => []) (fun t => if W t then [Some (O t)] else [])).
(** the receiver runs through, every receive is matched when it is posted *)
Inductive rx {B} (N : nat) (O : nat -> payload) : nat -> (nat -> bool) -> prog B -> nat -> (nat -> bool) -> prog B -> Prop :=
| RxO T W p : rx N O T W p T W p
| RxI T W n k T' W' p : T < N -> length (O T) = n -> W T = false -> rx N O (S T) (upd W T true) k T' W' p -> rx N O T W (Irecv T n k) T' W' p
| RxW T W t k T' W' p : W t = true -> rx N O T (upd W t false) (k (Some (O t))) T' W' p -> rx N O T W (WaitR t k) T' W' p.
Lemma rx_trans {B} N O T W (p : prog B) T1 W1 p1 T2 W2 p2 : rx N O T W p T1 W1 p1 -> rx N O T1 W1 p1 T2 W2 p2 -> rx N O T W p T2 W2 p2.
Proof. intros R Q. induction R; [exact Q| |]; econstructor; eauto. Qed.
Lemma rx_steps {A B} N O (p : prog A) T W (q : prog B) T' W' q' : rx N O T W q T' W' q' -> steps (mid N O T W p q) (mid N O T' W' p q').
Proof.
  intros R. induction R as [T W q|T W n k T' W' q L E F R IH|T W t k T' W' q E R IH]; [apply steps_refl| |].
  - eapply steps_trans; [eapply (steps_one _ _ GoR); reflexivity|]. cbn [fst snd mid e_prog e_out e_posted e_got].
    eapply steps_trans; [|exact IH]. apply (steps_one _ _ (ToR T)). cbn [fire fst snd]. unfold deliver. cbn [e_prog e_out e_posted e_got].
    rewrite Nat.leb_refl. rewrite (proj2 (Nat.ltb_lt T N)) by exact L. cbn [andb app]. rewrite upd_same. rewrite E, Nat.eqb_refl. unfold mid. do 3 f_equal.
    + extensionality u. unfold upd. destruct (Nat.eqb_spec u T) as [->|Nu].
      * rewrite (proj2 (Nat.leb_gt (S T) T)) by lia. reflexivity.
      * destruct (Nat.leb_spec T u), (Nat.leb_spec (S T) u); try reflexivity; lia.
    + extensionality u. unfold upd. destruct (Nat.eqb_spec u T); reflexivity.
    + extensionality u. unfold upd. destruct (Nat.eqb_spec u T) as [->|]; [rewrite F|]; reflexivity.
  - eapply steps_trans; [|exact IH]. apply (steps_one _ _ GoR). cbn [fire fst snd mid]. unfold local. cbn [e_prog e_out e_posted e_got]. rewrite E. unfold mid. do 3 f_equal.
    extensionality u. unfold upd. destruct (Nat.eqb_spec u t); reflexivity.
Qed.
Lemma posts {A B} l : forall T (k : prog A) out (b : ep B), (forall t, T <= t -> out t = []) ->
  steps (mkEp (isends T l k) out (fun _ => []) (fun _ => []), b)
    (mkEp k (fun t => if (T <=? t) && (t <? T + length l) then [nth (t - T) l []] else out t) (fun _ => []) (fun _ => []), b).
Proof.
  induction l as [|m l IH]; intros T k out b H; cbn [isends].
  - match goal with |- steps _ (mkEp _ ?o _ _, _) => assert (E : o = out) end.
    { extensionality t. cbn [length]. destruct (Nat.leb_spec T t), (Nat.ltb_spec t (T + 0)); try reflexivity. lia. }
    rewrite E. apply steps_refl.
  - eapply steps_trans; [apply (steps_one _ _ GoL); reflexivity|]. cbn [fst snd e_out e_posted e_got].
    eapply steps_trans; [apply IH|].
    + intros t L. rewrite upd_other by lia. apply H. lia.
    + match goal with |- steps (mkEp _ ?o1 _ _, _) (mkEp _ ?o2 _ _, _) => assert (E : o1 = o2) end; [|rewrite E; apply steps_refl].
      extensionality t. cbn [length]. unfold upd. destruct (Nat.eqb_spec t T) as [->|Nt].
      * rewrite (proj2 (Nat.leb_gt (S T) T)) by lia. rewrite Nat.leb_refl, (proj2 (Nat.ltb_lt T (T + S (length l)))) by lia. cbn [andb].
        rewrite H by lia. rewrite Nat.sub_diag. reflexivity.
      * destruct (Nat.leb_spec T t).
        -- rewrite (proj2 (Nat.leb_le (S T) t)) by lia. replace (t <? S T + length l) with (t <? T + S (length l)) by (f_equal; lia).
           destruct (t <? T + S (length l)); cbn [andb]; [|reflexivity]. replace (t - T) with (S (t - S T)) by lia. reflexivity.
        -- rewrite (proj2 (Nat.leb_gt (S T) t)) by lia. reflexivity.
Qed.
Lemma waits {A B} ts (k : prog A) (b : ep B) : steps (mkEp (waitS ts k) (fun _ => []) (fun _ => []) (fun _ => []), b) (mkEp k (fun _ => []) (fun _ => []) (fun _ => []), b).
Proof. induction ts as [|t ts IH]; cbn [waitS]; [apply steps_refl|]. eapply steps_trans; [apply (steps_one _ _ GoL); reflexivity|exact IH]. Qed.
(** a sender that posts everything and then waits; a receiver that runs through these messages *)
Lemma phase_group {A B} T0 l ts (a : A) (q : prog B) b :
  (forall B' (g : B -> prog B'), exists W, rx (T0 + length l) (fun t => nth (t - T0) l []) T0 (fun _ => false) (bind q g) (T0 + length l) W (g b) /\ forall t, W t = false) ->
  phase (isends T0 l (waitS ts (Ret a))) q a b.
Proof.
  intros H A' B' f g. destruct (H B' g) as (W & R & Z). rewrite isends_bind, waitS_bind. cbn [bind].
  eapply steps_trans; [apply posts; reflexivity|].
  pose proof (rx_steps _ _ (waitS ts (f a)) _ _ _ _ _ _ R) as Q. unfold mid in Q.
  replace (fun t => if (fun _ => false) t then [Some (nth (t - T0) l [])] else []) with (fun _ : nat => @nil (option payload)) in Q by reflexivity.
  eapply steps_trans; [exact Q|]. clear Q R.
  match goal with |- steps (mkEp _ ?o1 _ _, mkEp _ _ _ ?g1) _ => assert (E1 : o1 = fun _ => []); [|assert (E2 : g1 = fun _ => [])] end.
  - extensionality t. destruct (Nat.leb_spec (T0 + length l) t), (Nat.ltb_spec t (T0 + length l)); try reflexivity. lia.
  - extensionality t. rewrite Z. reflexivity.
  - rewrite E1, E2. apply waits.
Qed.

(** ** Loops of the receivers *)
Lemma rx_irecvs {B} N O ns : forall T W (k : prog B), T + length ns <= N -> (forall i, i < length ns -> length (O (T + i)) = nth i ns 0) ->
  (forall t, T <= t -> W t = false) ->
  rx N O T W (irecvs T ns k) (T + length ns) (fun t => W t || ((T <=? t) && (t <? T + length ns))) k.
Proof.
  induction ns as [|n ns IH]; intros T W k L H HW; cbn [irecvs length] in *.
  - match goal with |- rx _ _ _ _ _ _ ?w _ => assert (E : w = W) end.
    { extensionality t. destruct (Nat.leb_spec T t), (Nat.ltb_spec t (T + 0)); try lia; cbn [andb]; apply orb_false_r. }
    rewrite E, Nat.add_0_r. constructor.
  - econstructor; [lia|rewrite <- (Nat.add_0_r T); apply (H 0); lia|apply HW; lia|].
    replace (T + S (length ns)) with (S T + length ns) by lia.
    match goal with |- rx _ _ _ _ _ _ ?w _ => assert (E : w = fun t => upd W T true t || ((S T <=? t) && (t <? S T + length ns))) end.
    { extensionality t. unfold upd. destruct (Nat.eqb_spec t T) as [->|Nt].
      - rewrite Nat.leb_refl, (proj2 (Nat.ltb_lt T (S T + length ns))) by lia. apply orb_true_r.
      - destruct (Nat.leb_spec T t), (Nat.leb_spec (S T) t); try reflexivity; lia. }
    rewrite E. apply IH; [lia| |].
    + intros i Hi. replace (S T + i) with (T + S i) by lia. rewrite (H (S i)) by lia. reflexivity.
    + intros t Ht. rewrite upd_other by lia. apply HW. lia.
Qed.
Lemma rx_waitR {B} N O T ts : forall W (k : list (option payload) -> prog B), NoDup ts -> (forall t, In t ts -> W t = true) ->
  rx N O T W (waitR ts k) T (fun t => W t && negb (existsb (Nat.eqb t) ts)) (k (map (fun t => Some (O t)) ts)).
Proof.
  induction ts as [|t ts IH]; intros W k ND H; cbn [waitR map].
  - match goal with |- rx _ _ _ _ _ _ ?w _ => assert (E : w = W) end; [extensionality u; cbn; apply andb_true_r|]. rewrite E. constructor.
  - inversion ND as [|? ? NI ND']; subst. econstructor; [apply H; left; reflexivity|].
    match goal with |- rx _ _ _ _ _ _ ?w _ => assert (E : w = fun u => upd W t false u && negb (existsb (Nat.eqb u) ts)) end.
    { extensionality u. cbn [existsb]. unfold upd. destruct (Nat.eqb_spec u t); cbn [orb negb andb]; [apply andb_false_r|reflexivity]. }
    rewrite E. apply (IH _ (fun l => k (Some (O t) :: l))); [exact ND'|]. intros u I. rewrite upd_other; [apply H; right; exact I|]. intros ->. contradiction.
Qed.
End Phase.
