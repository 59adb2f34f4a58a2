(** Properties of the messages between main and workers: C63. *)
From Coq Require Import FinFun Lra.
From Verif Require Import MPI MPINet MPIPhase.
Local Open Scope nat_scope.

Lemma asReals_reals v : asReals (reals v) = Some v.
Proof. induction v as [|x v IH]; cbn; [reflexivity|]. fold (reals v). rewrite IH. reflexivity. Qed.
Lemma reals_length v : length (reals v) = length v. Proof. apply map_length. Qed.
Ltac rxs := repeat first
  [ match goal with |- rx _ _ _ _ (Irecv _ _ _) _ _ _ => eapply RxI; [cbn; lia|cbn; rewrite ?reals_length, ?Nat2Z.id; reflexivity|reflexivity|] end
  | match goal with |- rx _ _ _ _ (WaitR _ _) _ _ _ => eapply RxW; [reflexivity|]; cbn end ].
Ltac rxend := let t := fresh in intros t; unfold upd; repeat (match goal with |- context [Nat.eqb t ?n] => destruct (Nat.eqb t n) end); reflexivity.
Ltac group := apply phase_group; intros; eexists; split; [cbn [bind]; cbn; rxs; rewrite ?asReals_reals; cbn; apply RxO | rxend].
Section Phases.
Variable eager : nat -> payload -> bool.
Lemma stop_phase b : phase eager (sendStop b) recvStop tt (Some b).
Proof. apply (phase_group eager 99 [[WB b]] [99]). intros. eexists. split; [cbn; rxs; apply RxO|rxend]. Qed.
Lemma meta_phase b i v : phase eager (sendMeta b i v) recvMeta tt (Some (b, i, v)).
Proof. group. Qed.
Lemma back_phase b i : phase eager (sendBack b i) recvBack tt (Some (b, i)).
Proof. group. Qed.
Lemma corr_phase d iv rf : phase eager (sendCorr d iv rf) recvCorr tt (Some (d, iv, rf)).
Proof.
  destruct d as [[[id dL0] [sU sL]] [pU pL]], iv as [t0 t1], rf as [rU rL]. unfold sendCorr, recvCorr. eapply phase_bind; [group|]. cbv beta iota. group.
Qed.
Lemma init_phase d t : phase eager (sendInit d t) recvInit tt (Some (d, t)).
Proof. destruct d as [[[id dL0] [sU sL]] [pU pL]]. unfold sendInit, recvInit. eapply phase_bind; [group|]. cbv beta iota. group. Qed.

(** ** The answers *)
Lemma nth_flat {X} c (f : nat -> list X) d r : (forall k, length (f k) = c) -> forall n k a, k < n -> r < c -> nth (c * k + r) (flat_map f (seq a n)) d = nth r (f (a + k)) d.
Proof.
  intros H n. induction n as [|n IH]; intros k a L R; [lia|]. cbn [seq flat_map]. destruct k as [|k].
  - rewrite Nat.mul_0_r, Nat.add_0_r. cbn [Nat.add]. rewrite app_nth1 by (rewrite H; lia). reflexivity.
  - rewrite app_nth2 by (rewrite H; nia). rewrite H. replace (c * S k + r - c) with (c * k + r) by nia. rewrite IH by lia. f_equal. f_equal. lia.
Qed.
Lemma flat_len {X} c (f : nat -> list X) : (forall k, length (f k) = c) -> forall n a, length (flat_map f (seq a n)) = c * n.
Proof. intros H n. induction n as [|n IH]; intros a; cbn; [lia|]. rewrite app_length, H, IH. nia. Qed.
Lemma nth_sols (sols : list solution) k : k < length sols -> nth k (map (fun s => reals (fst s)) sols) [] = reals (fst (nthS sols k)).
Proof. intros L. rewrite (nth_indep _ [] (reals (fst (([], 0%R) : solution)))) by (rewrite map_length; exact L). apply (map_nth (fun s : solution => reals (fst s))). Qed.
Lemma asZs_map {X} (g : X -> payload) (z : X -> Z) l : (forall x, In x l -> g x = [WI (z x)]) -> asZs (map (fun x => Some (g x)) l) = Some (map z l).
Proof. induction l as [|x l IH]; intros H; cbn; [reflexivity|]. rewrite H by (left; reflexivity). rewrite IH by (intros; apply H; right; assumption). reflexivity. Qed.
Lemma asRs_map {X} (g : X -> payload) (z : X -> R) l : (forall x, In x l -> g x = [WR (z x)]) -> asRs (map (fun x => Some (g x)) l) = Some (map z l).
Proof. induction l as [|x l IH]; intros H; cbn; [reflexivity|]. rewrite H by (left; reflexivity). rewrite IH by (intros; apply H; right; assumption). reflexivity. Qed.
Lemma asVs_map {X} (g : X -> payload) (z : X -> vec) l : (forall x, In x l -> g x = reals (z x)) -> asVs (map (fun x => Some (g x)) l) = Some (map z l).
Proof. induction l as [|x l IH]; intros H; cbn; [reflexivity|]. rewrite H by (left; reflexivity). rewrite asReals_reals, IH by (intros; apply H; right; assumption). reflexivity. Qed.
Lemma combine_sols (sols : list solution) : combine (map (fun k => fst (nthS sols k)) (seq 0 (length sols))) (map (fun k => snd (nthS sols k)) (seq 0 (length sols))) = sols.
Proof.
  assert (G : forall (A B : Type) (f : nat -> A) (g : nat -> B) l, combine (map f l) (map g l) = map (fun k => (f k, g k)) l).
  { induction l as [|x l IH]; cbn; [reflexivity|]. rewrite IH. reflexivity. }
  rewrite G. apply (nth_ext _ _ ([], 0%R) ([], 0%R)); [rewrite map_length, seq_length; reflexivity|]. rewrite map_length, seq_length. intros k L.
  rewrite (nth_indep _ _ ((fun k => (fst (nthS sols k), snd (nthS sols k))) 0)) by (rewrite map_length, seq_length; exact L).
  rewrite (map_nth (fun k => (fst (nthS sols k), snd (nthS sols k)))). rewrite seq_nth by exact L. cbn [Nat.add]. unfold nthS. symmetry. apply surjective_pairing.
Qed.
Lemma nodup_map (f : nat -> nat) l : (forall a b, f a = f b -> a = b) -> NoDup l -> NoDup (map f l).
Proof. intros I H. apply FinFun.Injective_map_NoDup; [exact I|exact H]. Qed.
Lemma waited (t : nat) ts : In t ts -> existsb (Nat.eqb t) ts = true.
Proof. intros I. apply existsb_exists. exists t. split; [exact I|apply Nat.eqb_refl]. Qed.
(** the sizes are read when they are still (or again) the right ones *)
Definition rightSizes (sols : list solution) (fn : nat -> nat) : Prop :=
  forall k, k < length sols -> length (fst (nthS sols (fn k))) = length (fst (nthS sols k)).
Definition rightLoads (sols : list solution) (fl : nat -> nat) : Prop := forall k, k < length sols -> snd (nthS sols (fl k)) = snd (nthS sols k).
(** the solutions with the loads that were read *)
Definition received (fl : nat -> nat) (sols : list solution) : list solution := map (fun k => (fst (nthS sols k), snd (nthS sols (fl k)))) (seq 0 (length sols)).
Lemma combine_map {A B} (f : nat -> A) (g : nat -> B) l : combine (map f l) (map g l) = map (fun k => (f k, g k)) l.
Proof. induction l as [|x l IH]; cbn; [reflexivity|]. rewrite IH. reflexivity. Qed.
Lemma received_right fl sols : rightLoads sols fl -> received fl sols = sols.
Proof.
  intros H. rewrite <- (combine_sols sols) at 2. rewrite combine_map. unfold received. apply map_ext_in. intros k I. apply in_seq in I. rewrite H by lia. reflexivity.
Qed.
Lemma ansCorr_phase fl fn ds sols up lo : rightSizes sols fn -> length ds = S (length sols) ->
  phase eager (sendAnsCorr fl fn ds sols up lo) recvAnsCorr tt (Some (ds, received fl sols, up, lo)).
Proof.
  intros HR HD. unfold sendAnsCorr. apply phase_group. intros B' g. set (n := length sols).
  set (L := ansCorrMsgs fl fn ds sols up lo). set (O := fun t => nth (t - 0) L []).
  assert (EL : length L = 4 + 4 * n).
  { unfold L, ansCorrMsgs. rewrite !app_length, map_length. cbn [length]. rewrite (flat_len 3) by reflexivity. unfold n, solution. lia. }
  assert (O0 : O 0 = [WR up]) by reflexivity. assert (O1 : O 1 = [WR lo]) by reflexivity. assert (O2 : O 2 = [WI (Z.of_nat n)]) by reflexivity.
  assert (OF : forall r k, r < 3 -> k < n -> O (3 + 3 * k + r) = nth r [[WR (nthR ds k)]; [WR (snd (nthS sols (fl k)))]; [WI (Z.of_nat (length (fst (nthS sols (fn k)))))]] []).
  { intros r k Hr Hk. unfold O, L, ansCorrMsgs. rewrite Nat.sub_0_r. rewrite app_nth2 by (cbn; lia). cbn [length]. replace (3 + 3 * k + r - 3) with (3 * k + r) by lia.
    rewrite app_nth1 by (rewrite (flat_len 3) by reflexivity; fold n; lia). rewrite (nth_flat 3) by (auto; fold n; lia). reflexivity. }
  assert (Od : forall k, k < S n -> O (3 + 3 * k) = [WR (nthR ds k)]).
  { intros k Hk. destruct (Nat.eq_dec k n) as [->|NE].
    - unfold O, L, ansCorrMsgs. rewrite Nat.sub_0_r. rewrite app_nth2 by (cbn; lia). cbn [length]. rewrite app_nth2 by (rewrite (flat_len 3) by reflexivity; fold n; lia).
      rewrite (flat_len 3) by reflexivity. fold n. replace (3 + 3 * n - 3 - 3 * n) with 0 by lia. reflexivity.
    - pose proof (OF 0 k ltac:(lia) ltac:(lia)) as E. rewrite Nat.add_0_r in E. exact E. }
  assert (Ol : forall k, k < n -> O (4 + 3 * k) = [WR (snd (nthS sols (fl k)))]).
  { intros k Hk. pose proof (OF 1 k ltac:(lia) ltac:(lia)) as E. replace (3 + 3 * k + 1) with (4 + 3 * k) in E by lia. rewrite E. reflexivity. }
  assert (On : forall k, k < n -> O (5 + 3 * k) = [WI (Z.of_nat (length (fst (nthS sols k))))]).
  { intros k Hk. pose proof (OF 2 k ltac:(lia) ltac:(lia)) as E. replace (3 + 3 * k + 2) with (5 + 3 * k) in E by lia. rewrite E. cbn. rewrite (HR k Hk). reflexivity. }
  assert (Ou : forall k, k < n -> O (4 + 3 * n + k) = reals (fst (nthS sols k))).
  { intros k Hk. unfold O, L, ansCorrMsgs. rewrite Nat.sub_0_r. rewrite app_nth2 by (cbn; lia). cbn [length]. rewrite app_nth2 by (rewrite (flat_len 3) by reflexivity; fold n; lia).
    rewrite (flat_len 3) by reflexivity. fold n. rewrite app_nth2 by (cbn [length]; lia). cbn [length]. replace (4 + 3 * n + k - 3 - 3 * n - 1) with k by lia. apply nth_sols. exact Hk. }
  change (exists W, rx (length L) O 0 (fun _ => false) (bind recvAnsCorr g) (length L) W (g (Some (ds, received fl sols, up, lo))) /\ (forall t, W t = false)). rewrite EL. clearbody O. clear EL OF. clear L.
  assert (E1 : forall t, t < 4 + 3 * n -> length (O t) = 1).
  { intros t Ht. destruct t as [|[|[|t]]]; [rewrite O0|rewrite O1|rewrite O2|]; try reflexivity.
    pose proof (Nat.div_mod t 3 ltac:(lia)) as DM. pose proof (Nat.mod_upper_bound t 3 ltac:(lia)) as MB. set (k := t / 3) in *. destruct (t mod 3) as [|[|[|]]]; [| | |lia].
    - replace (S (S (S t))) with (3 + 3 * k) by lia. rewrite Od by lia. reflexivity.
    - replace (S (S (S t))) with (4 + 3 * k) by lia. rewrite Ol by lia. reflexivity.
    - replace (S (S (S t))) with (5 + 3 * k) by lia. rewrite On by lia. reflexivity. }
  eexists. split.
  { unfold recvAnsCorr. cbn [bind]. eapply RxI; [lia|apply E1; lia|reflexivity|]. eapply RxW; [reflexivity|]. eapply RxI; [lia|apply E1; lia|reflexivity|].
    eapply RxI; [lia|apply E1; lia|reflexivity|]. eapply RxW; [reflexivity|]. cbn [bind]. rewrite O2. cbv beta iota zeta. rewrite Nat2Z.id. fold n.
    rewrite irecvs_bind. eapply rx_trans.
    { apply rx_irecvs; rewrite ?repeat_length.
      - lia.
      - intros i Hi. rewrite E1 by lia. rewrite (nth_indep _ 0 1) by (rewrite repeat_length; lia). rewrite nth_repeat. reflexivity.
      - intros t Ht. unfold upd. destruct (Nat.eqb_spec t 2); [lia|]. destruct (Nat.eqb_spec t 1); [lia|]. destruct (Nat.eqb_spec t 0); [lia|]. reflexivity. }
    rewrite waitR_bind. eapply rx_trans.
    { apply rx_waitR.
      - apply nodup_map; [intros; lia|apply seq_NoDup].
      - intros t I. apply in_map_iff in I. destruct I as (k & <- & I). apply in_seq in I. rewrite repeat_length.
        rewrite (proj2 (Nat.leb_le 3 (5 + 3 * k))) by lia. rewrite (proj2 (Nat.ltb_lt (5 + 3 * k) _)) by lia. apply orb_true_r. }
    rewrite map_map. rewrite (asZs_map (fun k => O (5 + 3 * k)) (fun k => Z.of_nat (length (fst (nthS sols k))))) by (intros k I; apply in_seq in I; apply On; lia).
    rewrite map_map. rewrite irecvs_bind. rewrite repeat_length. replace (3 + (3 * n + 1)) with (4 + 3 * n) by lia. eapply rx_trans.
    { apply rx_irecvs; rewrite ?map_length, ?seq_length.
      - lia.
      - intros i Hi. rewrite Ou by exact Hi. rewrite reals_length.
        rewrite (nth_indep _ 0 ((fun k => Z.to_nat (Z.of_nat (length (fst (nthS sols k))))) 0)) by (rewrite map_length, seq_length; exact Hi).
        rewrite (map_nth (fun k => Z.to_nat (Z.of_nat (length (fst (nthS sols k)))))). rewrite seq_nth by exact Hi. rewrite Nat2Z.id. reflexivity.
      - intros t Ht. unfold upd. destruct (Nat.eqb_spec t 2); [lia|]. destruct (Nat.eqb_spec t 1); [lia|]. destruct (Nat.eqb_spec t 0); [lia|].
        rewrite (proj2 (Nat.ltb_ge t _)) by lia. rewrite andb_false_r. reflexivity. }
    rewrite waitR_bind. eapply rx_trans.
    { apply rx_waitR; [apply seq_NoDup|]. intros t I. apply in_seq in I. rewrite map_length, seq_length.
      rewrite (proj2 (Nat.leb_le (4 + 3 * n) t)) by lia. rewrite (proj2 (Nat.ltb_lt t (4 + 3 * n + n))) by lia. apply orb_true_r. }
    assert (NE : forall t l, ~ In t l -> existsb (Nat.eqb t) l = false).
    { intros t l NI. destruct (existsb (Nat.eqb t) l) eqn:E; [|reflexivity]. apply existsb_exists in E. destruct E as (x & I & X). apply Nat.eqb_eq in X. subst x. contradiction. }
    rewrite waitR_bind. eapply rx_trans.
    { apply rx_waitR; [apply nodup_map; [intros; lia|apply seq_NoDup]|]. intros t I. apply in_map_iff in I. destruct I as (k & <- & I). apply in_seq in I.
      rewrite (proj2 (Nat.leb_le 3 (4 + 3 * k))) by lia. rewrite (proj2 (Nat.ltb_lt (4 + 3 * k) (4 + 3 * n))) by lia.
      rewrite !NE; [rewrite orb_true_r; reflexivity| |].
      - intros J. apply in_seq in J. lia.
      - intros J. apply in_map_iff in J. destruct J as (k' & J & _). lia. }
    rewrite waitR_bind. eapply rx_trans.
    { apply rx_waitR; [apply nodup_map; [intros; lia|apply seq_NoDup]|]. intros t I. apply in_map_iff in I. destruct I as (k & <- & I). apply in_seq in I.
      rewrite (proj2 (Nat.leb_le 3 (3 + 3 * k))) by lia. rewrite (proj2 (Nat.ltb_lt (3 + 3 * k) (4 + 3 * n))) by lia.
      rewrite !NE; [rewrite orb_true_r; reflexivity| | |].
      - intros J. apply in_map_iff in J. destruct J as (k' & J & _). lia.
      - intros J. apply in_seq in J. lia.
      - intros J. apply in_map_iff in J. destruct J as (k' & J & _). lia. }
    cbn [bind]. eapply RxW.
    { rewrite !NE; [reflexivity| | | |]; intros J; [|apply in_map_iff in J; destruct J as (k' & J & _); lia|apply in_seq in J; lia|apply in_map_iff in J; destruct J as (k' & J & _); lia].
      apply in_map_iff in J. destruct J as (k' & J & _). lia. }
    rewrite !map_map. rewrite O0, O1.
    rewrite (asVs_map O (fun t => fst (nthS sols (t - (4 + 3 * n))))).
    2:{ intros t I. apply in_seq in I. rewrite <- Ou by lia. f_equal. lia. }
    rewrite (asRs_map (fun k => O (4 + 3 * k)) (fun k => snd (nthS sols (fl k)))) by (intros k I; apply in_seq in I; apply Ol; lia).
    rewrite (asRs_map (fun k => O (3 + 3 * k)) (fun k => nthR ds k)) by (intros k I; apply in_seq in I; apply Od; lia).
    assert (Q1 : map (fun t => fst (nthS sols (t - (4 + 3 * n)))) (seq (4 + 3 * n) n) = map (fun k => fst (nthS sols k)) (seq 0 n)).
    { apply (nth_ext _ _ [] []); rewrite !map_length, !seq_length; [reflexivity|]. intros k Hk.
      rewrite (nth_indep _ _ ((fun t => fst (nthS sols (t - (4 + 3 * n)))) 0)) by (rewrite map_length, seq_length; exact Hk).
      rewrite (map_nth (fun t => fst (nthS sols (t - (4 + 3 * n))))). rewrite seq_nth by exact Hk.
      rewrite (nth_indep _ [] ((fun k => fst (nthS sols k)) 0)) by (rewrite map_length, seq_length; exact Hk).
      rewrite (map_nth (fun k => fst (nthS sols k))). rewrite seq_nth by exact Hk. f_equal. f_equal. lia. }
    rewrite Q1. rewrite combine_map. change (map (fun k => (fst (nthS sols k), snd (nthS sols (fl k)))) (seq 0 n)) with (received fl sols).
    assert (Q2 : map (fun k => nthR ds k) (seq 0 (S n)) = ds).
    { apply (nth_ext _ _ 0%R 0%R); rewrite map_length, seq_length; [lia|]. intros k Hk.
      rewrite (nth_indep _ _ ((fun k => nthR ds k) 0)) by (rewrite map_length, seq_length; exact Hk). rewrite (map_nth (fun k => nthR ds k)). rewrite seq_nth by exact Hk. reflexivity. }
    rewrite Q2. rewrite map_length, seq_length. replace (4 + 3 * n + n) with (4 + 4 * n) by lia. apply RxO. }
  intros t. unfold upd. cbv beta. destruct (Nat.eqb_spec t 1); [reflexivity|].
  destruct (Nat.eqb_spec t 2); [subst; reflexivity|]. destruct (Nat.eqb_spec t 0); [subst; reflexivity|]. cbn [orb].
  destruct (Nat.leb_spec (4 + 3 * n) t) as [G|G].
  - destruct (Nat.ltb_spec t (4 + 4 * n)) as [G2|G2].
    + rewrite (waited t (seq (4 + 3 * n) n)) by (apply in_seq; lia). rewrite !andb_false_r. reflexivity.
    + rewrite (proj2 (Nat.ltb_ge t (4 + 3 * n))) by lia. rewrite !andb_false_r. reflexivity.
  - pose proof (Nat.div_mod (t - 3) 3 ltac:(lia)) as DM. pose proof (Nat.mod_upper_bound (t - 3) 3 ltac:(lia)) as MB. set (k := (t - 3) / 3) in *. destruct ((t - 3) mod 3) as [|[|[|]]]; [| | |lia].
    + rewrite (waited t (map (fun k => 3 + 3 * k) (seq 0 (S n)))) by (apply in_map_iff; exists k; split; [lia|apply in_seq; lia]). rewrite !andb_false_r. reflexivity.
    + rewrite (waited t (map (fun k => 4 + 3 * k) (seq 0 n))) by (apply in_map_iff; exists k; split; [lia|apply in_seq; lia]). rewrite !andb_false_r. reflexivity.
    + rewrite (waited t (map (fun k => 5 + 3 * k) (seq 0 n))) by (apply in_map_iff; exists k; split; [lia|apply in_seq; lia]). rewrite !andb_false_r. reflexivity.
Qed.
Lemma ansInit_phase fl fn dist sols bif : rightSizes sols fn -> phase eager (sendAnsInit fl fn dist sols bif) recvAnsInit tt (Some (dist, received fl sols, bif)).
Proof.
  intros HR. unfold sendAnsInit. apply phase_group. intros B' g. set (n := length sols).
  set (L := ansInitMsgs fl fn dist sols bif). set (O := fun t => nth (t - 0) L []).
  assert (EL : length L = 3 + 3 * n).
  { unfold L, ansInitMsgs. rewrite !app_length, map_length. cbn [length]. rewrite (flat_len 2) by reflexivity. unfold n, solution. lia. }
  assert (O0 : O 0 = [WR dist]) by reflexivity. assert (O1 : O 1 = [WB bif]) by reflexivity. assert (O2 : O 2 = [WI (Z.of_nat n)]) by reflexivity.
  assert (OF : forall r k, r < 2 -> k < n -> O (3 + 2 * k + r) = nth r [[WR (snd (nthS sols (fl k)))]; [WI (Z.of_nat (length (fst (nthS sols (fn k)))))]] []).
  { intros r k Hr Hk. unfold O, L, ansInitMsgs. rewrite Nat.sub_0_r. rewrite app_nth2 by (cbn; lia). cbn [length]. replace (3 + 2 * k + r - 3) with (2 * k + r) by lia.
    rewrite app_nth1 by (rewrite (flat_len 2) by reflexivity; fold n; lia). rewrite (nth_flat 2) by (auto; fold n; lia). reflexivity. }
  assert (Ol : forall k, k < n -> O (3 + 2 * k) = [WR (snd (nthS sols (fl k)))]).
  { intros k Hk. pose proof (OF 0 k ltac:(lia) ltac:(lia)) as E. rewrite Nat.add_0_r in E. exact E. }
  assert (On : forall k, k < n -> O (4 + 2 * k) = [WI (Z.of_nat (length (fst (nthS sols k))))]).
  { intros k Hk. pose proof (OF 1 k ltac:(lia) ltac:(lia)) as E. replace (3 + 2 * k + 1) with (4 + 2 * k) in E by lia. rewrite E. cbn. rewrite (HR k Hk). reflexivity. }
  assert (Ou : forall k, k < n -> O (3 + 2 * n + k) = reals (fst (nthS sols k))).
  { intros k Hk. unfold O, L, ansInitMsgs. rewrite Nat.sub_0_r. rewrite app_nth2 by (cbn; lia). cbn [length]. rewrite app_nth2 by (rewrite (flat_len 2) by reflexivity; fold n; lia).
    rewrite (flat_len 2) by reflexivity. fold n. replace (3 + 2 * n + k - 3 - 2 * n) with k by lia. apply nth_sols. exact Hk. }
  change (exists W, rx (length L) O 0 (fun _ => false) (bind recvAnsInit g) (length L) W (g (Some (dist, received fl sols, bif))) /\ (forall t, W t = false)). rewrite EL. clearbody O. clear EL OF. clear L.
  assert (E1 : forall t, t < 3 + 2 * n -> length (O t) = 1).
  { intros t Ht. destruct t as [|[|[|t]]]; [rewrite O0|rewrite O1|rewrite O2|]; try reflexivity.
    pose proof (Nat.div_mod t 2 ltac:(lia)) as DM. pose proof (Nat.mod_upper_bound t 2 ltac:(lia)) as MB. set (k := t / 2) in *. destruct (t mod 2) as [|[|]]; [| |lia].
    - replace (S (S (S t))) with (3 + 2 * k) by lia. rewrite Ol by lia. reflexivity.
    - replace (S (S (S t))) with (4 + 2 * k) by lia. rewrite On by lia. reflexivity. }
  eexists. split.
  { unfold recvAnsInit. cbn [bind]. eapply RxI; [lia|apply E1; lia|reflexivity|]. eapply RxW; [reflexivity|]. eapply RxI; [lia|apply E1; lia|reflexivity|].
    eapply RxI; [lia|apply E1; lia|reflexivity|]. eapply RxW; [reflexivity|]. cbn [bind]. rewrite O2. cbv beta iota zeta. rewrite Nat2Z.id. fold n.
    rewrite irecvs_bind. eapply rx_trans.
    { apply rx_irecvs; rewrite ?repeat_length.
      - lia.
      - intros i Hi. rewrite E1 by lia. rewrite (nth_indep _ 0 1) by (rewrite repeat_length; lia). rewrite nth_repeat. reflexivity.
      - intros t Ht. unfold upd. destruct (Nat.eqb_spec t 2); [lia|]. destruct (Nat.eqb_spec t 1); [lia|]. destruct (Nat.eqb_spec t 0); [lia|]. reflexivity. }
    rewrite waitR_bind. eapply rx_trans.
    { apply rx_waitR.
      - apply nodup_map; [intros; lia|apply seq_NoDup].
      - intros t I. apply in_map_iff in I. destruct I as (k & <- & I). apply in_seq in I. rewrite repeat_length.
        rewrite (proj2 (Nat.leb_le 3 (4 + 2 * k))) by lia. rewrite (proj2 (Nat.ltb_lt (4 + 2 * k) _)) by lia. apply orb_true_r. }
    rewrite map_map. rewrite (asZs_map (fun k => O (4 + 2 * k)) (fun k => Z.of_nat (length (fst (nthS sols k))))) by (intros k I; apply in_seq in I; apply On; lia).
    rewrite map_map. rewrite irecvs_bind. rewrite repeat_length. eapply rx_trans.
    { apply rx_irecvs; rewrite ?map_length, ?seq_length.
      - lia.
      - intros i Hi. rewrite Ou by exact Hi. rewrite reals_length.
        rewrite (nth_indep _ 0 ((fun k => Z.to_nat (Z.of_nat (length (fst (nthS sols k))))) 0)) by (rewrite map_length, seq_length; exact Hi).
        rewrite (map_nth (fun k => Z.to_nat (Z.of_nat (length (fst (nthS sols k)))))). rewrite seq_nth by exact Hi. rewrite Nat2Z.id. reflexivity.
      - intros t Ht. unfold upd. destruct (Nat.eqb_spec t 2); [lia|]. destruct (Nat.eqb_spec t 1); [lia|]. destruct (Nat.eqb_spec t 0); [lia|].
        rewrite (proj2 (Nat.ltb_ge t _)) by lia. rewrite andb_false_r. reflexivity. }
    rewrite waitR_bind. eapply rx_trans.
    { apply rx_waitR; [apply seq_NoDup|]. intros t I. apply in_seq in I. rewrite map_length, seq_length.
      rewrite (proj2 (Nat.leb_le (3 + 2 * n) t)) by lia. rewrite (proj2 (Nat.ltb_lt t (3 + 2 * n + n))) by lia. apply orb_true_r. }
    assert (NE : forall t l, ~ In t l -> existsb (Nat.eqb t) l = false).
    { intros t l NI. destruct (existsb (Nat.eqb t) l) eqn:E; [|reflexivity]. apply existsb_exists in E. destruct E as (x & I & X). apply Nat.eqb_eq in X. subst x. contradiction. }
    rewrite waitR_bind. eapply rx_trans.
    { apply rx_waitR; [apply nodup_map; [intros; lia|apply seq_NoDup]|]. intros t I. apply in_map_iff in I. destruct I as (k & <- & I). apply in_seq in I.
      rewrite (proj2 (Nat.leb_le 3 (3 + 2 * k))) by lia. rewrite (proj2 (Nat.ltb_lt (3 + 2 * k) (3 + 2 * n))) by lia.
      rewrite !NE; [rewrite orb_true_r; reflexivity| |].
      - intros J. apply in_seq in J. lia.
      - intros J. apply in_map_iff in J. destruct J as (k' & J & _). lia. }
    cbn [bind]. eapply RxW.
    { rewrite !NE; [reflexivity| | |]; intros J; [apply in_map_iff in J; destruct J as (k' & J & _); lia|apply in_seq in J; lia|apply in_map_iff in J; destruct J as (k' & J & _); lia]. }
    rewrite !map_map. rewrite O0, O1.
    rewrite (asVs_map O (fun t => fst (nthS sols (t - (3 + 2 * n))))).
    2:{ intros t I. apply in_seq in I. rewrite <- Ou by lia. f_equal. lia. }
    rewrite (asRs_map (fun k => O (3 + 2 * k)) (fun k => snd (nthS sols (fl k)))) by (intros k I; apply in_seq in I; apply Ol; lia).
    assert (Q1 : map (fun t => fst (nthS sols (t - (3 + 2 * n)))) (seq (3 + 2 * n) n) = map (fun k => fst (nthS sols k)) (seq 0 n)).
    { apply (nth_ext _ _ [] []); rewrite !map_length, !seq_length; [reflexivity|]. intros k Hk.
      rewrite (nth_indep _ _ ((fun t => fst (nthS sols (t - (3 + 2 * n)))) 0)) by (rewrite map_length, seq_length; exact Hk).
      rewrite (map_nth (fun t => fst (nthS sols (t - (3 + 2 * n))))). rewrite seq_nth by exact Hk.
      rewrite (nth_indep _ [] ((fun k => fst (nthS sols k)) 0)) by (rewrite map_length, seq_length; exact Hk).
      rewrite (map_nth (fun k => fst (nthS sols k))). rewrite seq_nth by exact Hk. f_equal. f_equal. lia. }
    rewrite Q1. rewrite combine_map. change (map (fun k => (fst (nthS sols k), snd (nthS sols (fl k)))) (seq 0 n)) with (received fl sols).
    rewrite map_length, seq_length. replace (3 + 2 * n + n) with (3 + 3 * n) by lia. apply RxO. }
  intros t. unfold upd. cbv beta. destruct (Nat.eqb_spec t 1); [reflexivity|].
  destruct (Nat.eqb_spec t 2); [subst; reflexivity|]. destruct (Nat.eqb_spec t 0); [subst; reflexivity|]. cbn [orb].
  destruct (Nat.leb_spec (3 + 2 * n) t) as [G|G].
  - destruct (Nat.ltb_spec t (3 + 3 * n)) as [G2|G2].
    + rewrite (waited t (seq (3 + 2 * n) n)) by (apply in_seq; lia). rewrite !andb_false_r. reflexivity.
    + rewrite (proj2 (Nat.ltb_ge t (3 + 2 * n))) by lia. rewrite !andb_false_r. reflexivity.
  - pose proof (Nat.div_mod (t - 3) 2 ltac:(lia)) as DM. pose proof (Nat.mod_upper_bound (t - 3) 2 ltac:(lia)) as MB. set (k := (t - 3) / 2) in *. destruct ((t - 3) mod 2) as [|[|]]; [| |lia].
    + rewrite (waited t (map (fun k => 3 + 2 * k) (seq 0 n))) by (apply in_map_iff; exists k; split; [lia|apply in_seq; lia]). rewrite !andb_false_r. reflexivity.
    + rewrite (waited t (map (fun k => 4 + 2 * k) (seq 0 n))) by (apply in_map_iff; exists k; split; [lia|apply in_seq; lia]). rewrite !andb_false_r. reflexivity.
Qed.
End Phases.

(** ** C63 *)
Section Session.
Variable eager : nat -> payload -> bool.
Variable solve : bool.
Variable level : Z -> Z -> Z.
Variable initiation : entry -> R -> R * list solution * bool.
Variable correction : entry -> R * R -> Z -> solution -> list R * list solution * R * R.
Variable fl fn : nat -> nat.
(** what a worker should see of a job, and main of its answer; [f] changes the solutions *)
Definition taskOf (j : work) : Z * Z * task :=
  (w_branch j, w_id j, if isInit solve (w_level j) then TInit (w_entry j) (w_tstart j) else TCorr (w_entry j) (w_interval j) (w_level j) (w_ref j)).
Definition replyOf (f : list solution -> list solution) (j : work) : Z * Z * reply :=
  (w_branch j, w_id j,
   if isInit solve (w_level j) then let '(d, ss, b) := initiation (w_entry j) (w_tstart j) in RInit d (f ss) b
   else let '(ds, ss, u, l) := correction (w_entry j) (w_interval j) (w_level j) (w_ref j) in RCorr ds (f ss) u l).
Definition solsOf (j : work) : list solution :=
  if isInit solve (w_level j) then let '(d, ss, b) := initiation (w_entry j) (w_tstart j) in ss
  else let '(ds, ss, u, l) := correction (w_entry j) (w_interval j) (w_level j) (w_ref j) in ss.
(** main's data have the level that was sent, and a correction has one more distance than solutions *)
Definition proper (j : work) : Prop :=
  level (w_branch j) (w_id j) = w_level j /\
  (isInit solve (w_level j) = false -> let '(ds, ss, u, l) := correction (w_entry j) (w_interval j) (w_level j) (w_ref j) in length ds = S (length ss)).
Lemma session_phase jobs : forall fuel got seen, length jobs < fuel -> (forall j, In j jobs -> proper j /\ rightSizes (solsOf j) fn) ->
  phase eager (mainSession solve level jobs got) (workerSession solve initiation correction fl fn fuel seen)
    (Some (got ++ map (replyOf (received fl)) jobs)) (Some (seen ++ map taskOf jobs)).
Proof.
  induction jobs as [|j jobs IH]; intros fuel got seen LF H; (destruct fuel as [|fuel]; [cbn in LF; lia|]); cbn [mainSession workerSession map].
  - rewrite !app_nil_r. eapply phase_bind; [apply stop_phase|]. cbv beta iota. apply phase_ret.
  - destruct (H j (or_introl eq_refl)) as [[HL HC] HS].
    eapply phase_bind; [apply stop_phase|]. cbv beta iota. eapply phase_bind; [apply meta_phase|]. cbv beta iota.
    assert (IH' : forall g s, phase eager (mainSession solve level jobs g) (workerSession solve initiation correction fl fn fuel s)
      (Some (g ++ map (replyOf (received fl)) jobs)) (Some (s ++ map taskOf jobs))).
    { intros g s. apply IH; [cbn in LF; lia|]. intros j' I. apply H. right. exact I. }
    unfold replyOf at 1, taskOf at 1. unfold solsOf in HS. destruct (isInit solve (w_level j)) eqn:EI.
    + eapply phase_bind; [apply init_phase|]. cbv beta iota. destruct (initiation (w_entry j) (w_tstart j)) as [[d ss] bif] eqn:EW.
      eapply phase_bind; [apply phase_flip, back_phase|]. cbv beta iota. rewrite HL, EI.
      eapply phase_bind; [apply phase_flip, ansInit_phase; exact HS|]. cbv beta iota.
      specialize (IH' (got ++ [(w_branch j, w_id j, RInit d (received fl ss) bif)]) (seen ++ [(w_branch j, w_id j, TInit (w_entry j) (w_tstart j))])).
      rewrite <- !app_assoc in IH'. exact IH'.
    + specialize (HC eq_refl). eapply phase_bind; [apply corr_phase|]. cbv beta iota.
      destruct (correction (w_entry j) (w_interval j) (w_level j) (w_ref j)) as [[[ds ss] u] l] eqn:EW.
      eapply phase_bind; [apply phase_flip, back_phase|]. cbv beta iota. rewrite HL, EI.
      eapply phase_bind; [apply phase_flip, ansCorr_phase; assumption|]. cbv beta iota.
      specialize (IH' (got ++ [(w_branch j, w_id j, RCorr ds (received fl ss) u l)]) (seen ++ [(w_branch j, w_id j, TCorr (w_entry j) (w_interval j) (w_level j) (w_ref j))])).
      rewrite <- !app_assoc in IH'. exact IH'.
Qed.
Lemma start_ended {A B} (a : A) (b : B) : ended eager (start (Ret a) (Ret b)).
Proof. intros [| |t|t]; reflexivity. Qed.
(** main's and the worker's result, and nothing is left in the channels *)
Definition outcome {A B} (s : ep A * ep B) (a : A) (b : B) : Prop :=
  e_prog (fst s) = Ret a /\ e_prog (snd s) = Ret b /\
  forall t, e_out (fst s) t = [] /\ e_out (snd s) t = [] /\ e_posted (fst s) t = [] /\ e_posted (snd s) t = [] /\ e_got (fst s) t = [] /\ e_got (snd s) t = [].
(** In whatever order main, worker and network proceed and whatever the library buffers: no run is
    longer than n steps, no run gets stuck before main and worker have ended, and then the worker
    was given the jobs in the order in which main sent them, main has received its answers in
    this order, with the loads that were in the variable when it was read, and no message is left. *)
Theorem C63_session_partial jobs fuel :
  length jobs < fuel -> (forall j, In j jobs -> proper j /\ rightSizes (solsOf j) fn) ->
  exists n, let s0 := start (mainSession solve level jobs []) (workerSession solve initiation correction fl fn fuel []) in
    (exists s, runs eager n s0 s /\ forall l, fire eager l s = None) /\
    forall k s, runs eager k s0 s -> k <= n /\ ((forall l, fire eager l s = None) -> outcome s (Some (map (replyOf (received fl)) jobs)) (Some (map taskOf jobs))).
Proof.
  intros LF H. pose proof (session_phase jobs fuel [] [] LF H _ _ Ret Ret) as [n R]. rewrite !bind_ret in R. cbn [app] in R.
  exists n. cbv zeta. split; [eexists; split; [exact R|apply start_ended]|]. intros k s Q. destruct (confluent eager n _ _ (start_ended _ _) R k s Q) as [L C]. split; [exact L|]. intros E.
  inversion C as [? E1|? ? l ? ? E1]; subst; [|rewrite E in E1; discriminate]. unfold outcome. cbn. repeat split.
Qed.
End Session.
Print Assumptions C63_session_partial.
(** If every load and size is read before the next is written, or if there is one solution per
    answer, whatever the timing: main receives the answers of the worker. *)
Theorem C63_answers_partial eager solve level initiation correction fl fn jobs fuel :
  length jobs < fuel -> (forall j, In j jobs -> proper solve level correction j) ->
  (forall j, In j jobs -> timing (length (solsOf solve initiation correction j)) fl /\ timing (length (solsOf solve initiation correction j)) fn) ->
  (forall k, fl k = k) /\ (forall k, fn k = k) \/ (forall j, In j jobs -> length (solsOf solve initiation correction j) <= 1) ->
  exists n, let s0 := start (mainSession solve level jobs []) (workerSession solve initiation correction fl fn fuel []) in
    (exists s, runs eager n s0 s /\ forall l, fire eager l s = None) /\
    forall k s, runs eager k s0 s -> k <= n /\ ((forall l, fire eager l s = None) -> outcome s (Some (map (replyOf solve initiation correction (fun x => x)) jobs)) (Some (map (taskOf solve) jobs))).
Proof.
  intros LF HP HT HC.
  assert (G : forall j, In j jobs -> rightSizes (solsOf solve initiation correction j) fn /\ rightLoads (solsOf solve initiation correction j) fl).
  { intros j I. destruct HC as [[E1 E2]|HC]; [split; intros k L; rewrite ?E1, ?E2; reflexivity|]. specialize (HC j I). destruct (HT j I) as [T1 T2].
    split; intros k L; [specialize (T2 k L); replace (fn k) with k by lia|specialize (T1 k L); replace (fl k) with k by lia]; reflexivity. }
  destruct (C63_session_partial eager solve level initiation correction fl fn jobs fuel LF) as [n [HE H]]; [intros j I; split; [apply HP; exact I|apply G; exact I]|].
  exists n. cbv zeta. split; [exact HE|]. intros k s R. destruct (H k s R) as [L E]. split; [exact L|]. intros Z. specialize (E Z).
  replace (map (replyOf solve initiation correction (fun x => x)) jobs) with (map (replyOf solve initiation correction (received fl)) jobs); [exact E|].
  apply map_ext_in. intros j I. destruct (G j I) as [_ GL]. unfold replyOf, solsOf in *. destruct (isInit solve (w_level j)).
  - destruct (initiation (w_entry j) (w_tstart j)) as [[d ss] b]. rewrite received_right by exact GL. reflexivity.
  - destruct (correction (w_entry j) (w_interval j) (w_level j) (w_ref j)) as [[[ds ss] u] l]. rewrite received_right by exact GL. reflexivity.
Qed.
Print Assumptions C63_answers_partial.
(** one correction with two solutions and loads 1, 2; one initiation *)
Open Scope R_scope.
Definition job1 : work := mkW 0 1 1 (1%Z, 1/2, ([0; 0], 0), ([0; 0], 0)) (0, 1) ([4; 4], 3) 0.
Definition job2 : work := mkW 0 2 0 (2%Z, 1/2, ([0; 0], 0), ([0; 0], 0)) (0, 0) ([0; 0], 0) 5.
Definition init1 (d : entry) (t : R) : R * list solution * bool := (1/2, [([1; 1], 7)], false).
Definition corr1 (d : entry) (i : R * R) (v : Z) (r : solution) : list R * list solution * R * R := ([1/2; 1/4; 1/4], [([1; 1], 1); ([2; 2], 2)], 1, 1).
Definition level1 (b i : Z) : Z := if (i =? 1)%Z then 1%Z else 0%Z.
Close Scope R_scope.
Lemma jobs1_proper : forall j, In j [job1; job2; job1] -> proper true level1 corr1 j.
Proof. intros j [<-|[<-|[<-|[]]]]; split; try reflexivity; discriminate. Qed.
Example C63_example eager : exists n, let s0 := start (mainSession true level1 [job1; job2; job1] []) (workerSession true init1 corr1 (fun k => k) (fun k => k) 4 []) in
  (exists s, runs eager n s0 s /\ forall l, fire eager l s = None) /\ forall k s, runs eager k s0 s -> k <= n /\ ((forall l, fire eager l s = None) -> outcome s
    (Some [(0%Z, 1%Z, RCorr [1/2; 1/4; 1/4]%R [([1; 1], 1); ([2; 2], 2)]%R 1 1); (0%Z, 2%Z, RInit (1/2) [([1; 1], 7)]%R false); (0%Z, 1%Z, RCorr [1/2; 1/4; 1/4]%R [([1; 1], 1); ([2; 2], 2)]%R 1 1)])
    (Some [(0%Z, 1%Z, TCorr (w_entry job1) (0, 1)%R 1 ([4; 4], 3)%R); (0%Z, 2%Z, TInit (w_entry job2) 5); (0%Z, 1%Z, TCorr (w_entry job1) (0, 1)%R 1 ([4; 4], 3)%R)])).
Proof.
  apply (C63_answers_partial eager true level1 init1 corr1 (fun k => k) (fun k => k) [job1; job2; job1] 4); [cbn; lia|apply jobs1_proper| |left; auto].
  intros j I. split; intros k L; lia.
Qed.
(** Refuted: [load] is overwritten while its send is pending. If the library reads it after the loop,
    every run ends with main believing that both solutions have the load of the last. *)
Theorem C63_refuted : exists fl, timing 2 fl /\ exists n,
  let eager := fun _ _ => false in
  let s0 := start (mainSession true level1 [job1] []) (workerSession true init1 corr1 fl (fun k => k) 2 []) in
  let wrong := [(0%Z, 1%Z, RCorr [1/2; 1/4; 1/4]%R [([1; 1], 2); ([2; 2], 2)]%R 1 1)] in
  (exists s, runs eager n s0 s /\ forall l, fire eager l s = None) /\
  (forall k s, runs eager k s0 s -> k <= n /\ ((forall l, fire eager l s = None) -> outcome s (Some wrong) (Some [taskOf true job1]))) /\
  wrong <> [replyOf true init1 corr1 (fun x => x) job1].
Proof.
  exists (fun _ => 1). split; [intros k L; lia|].
  destruct (C63_session_partial (fun _ _ => false) true level1 init1 corr1 (fun _ => 1) (fun k => k) [job1] 2) as [n [HE H]]; [cbn; lia| |].
  - intros j [<-|[]]. split; [apply jobs1_proper; left; reflexivity|intros k L; reflexivity].
  - exists n. cbv zeta. split; [exact HE|]. split; [exact H|]. unfold replyOf. cbn. intros X. injection X as X. lra.
Qed.
Print Assumptions C63_refuted.
