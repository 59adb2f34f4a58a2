(** Progress lemmas and a concrete history used by the examples of Props_APALMData. *)
From Verif Require Import Prelude APALMData APALMDataProofs APALMDataInv APALMSpec APALMHist.
Local Open Scope R_scope.

Section Progress.
Context {sol : Type}.
Notation data := (data sol).

Lemma entry_points (d : data) c e : Inv d c -> In e (entries d) ->
  exists a b, In a c /\ In b c /\ seg_lo e = px a /\ seg_hi e = px b.
Proof.
  intros I He. pose proof (inv_rep _ _ I) as (R1&_). pose proof (inv_entries _ _ I) as H.
  rewrite Forall_forall in H. specialize (H e He).
  assert (Hin : In (seg_lo e) (d_xi d) /\ In (seg_hi e) (d_xi d)).
  { destruct H as [(_ & E & Hi)|(_ & HA)]; [rewrite <- E; auto|apply Adj_in; auto]. }
  rewrite R1 in Hin. destruct Hin as [H1 H2].
  apply in_map_iff in H1 as (a & Ea & Ha). apply in_map_iff in H2 as (b & Eb & Hb).
  exists a, b. auto.
Qed.

(** pop never fails while work is waiting *)
Lemma pop_total (d : data) c e q : Inv d c -> d_queue d = e :: q ->
  exists d' o, pop d = Ok (d', o).
Proof.
  intros I Eq. pose proof (inv_rep _ _ I) as HR. pose proof HR as (R1&R2&R3&R4&R5&R6&R7&R8).
  destruct (entry_points d c e I) as (a & b & Ia & Ib & Ea & Eb).
  { unfold entries. rewrite Eq. left; auto. }
  destruct e as [[xlo xhi] lev]. cbn in Ea, Eb. subst.
  unfold pop. rewrite (inv_init _ _ I), Eq. cbn [negb].
  destruct (rread 0 (px a) (d_tmap (with_queue d q))) as [t1 m1].
  destruct (rread 0 (px b) m1) as [t2 m2]. cbn [d_sols d_prevs with_maps with_queue].
  rewrite R3, R4, (rfind_map_in c ps a R6 Ia), (rfind_map_in c pp a R6 Ia). eauto.
Qed.

Lemma initWith_total ml tol ts (ss : list sol) : incr ts -> length ts = length ss -> (2 <= length ts)%nat ->
  exists d, initWith (newData ml tol) ts ss = Ok d.
Proof.
  intros Hi Hl H2. unfold initWith, setData. rewrite (sortedb_incr _ Hi). cbn [negb].
  destruct (transform01_ok ts Hi H2) as (xs & Ex & Ix & Lx & Hx0). rewrite Ex. cbn [rbind].
  destruct xs as [|x xr]; [cbn in Lx; lia|].
  destruct ss as [|s sr]; [cbn in Hl; lia|]. destruct ts as [|t tr]; [cbn in H2; lia|].
  cbn [newData d_sols d_levels d_prevs with_knots]. cbn [length] in *.
  unfold deref. cbn [minsert mfind mset]. rewrite Reqb_refl. cbn [rbind].
  rewrite (setDataLoop_ok xr x tr sr s [(x, s)] [(x, s)] [(x, 0%Z)]); auto; try lia.
  2:{ cbn. rewrite Reqb_refl. reflexivity. }
  cbn [rbind fst snd]. set (d1 := with_sols _ _ _ _).
  set (c := mkPoint x t s s 0%Z :: newPoints 0 s xr tr sr).
  destruct (init_inv d1 c) as (d3 & E3 & _); eauto.
  - unfold RepK, d1, c. cbn. rewrite !newPoints_px, !newPoints_pt by lia. repeat split; auto.
  - unfold c; discriminate.
  - assert (Pl : Forall (fun p => pl p = 0%Z) c).
    { unfold c. constructor; auto. rewrite Forall_forall. intros p Hp.
      assert (In (pl p) (repeat 0%Z (length sr))).
      { rewrite <- (newPoints_pl 0 s xr tr sr) by lia. apply in_map, Hp. }
      apply repeat_spec in H. auto. }
    rewrite Forall_forall in *. intros p Hp. rewrite (Pl p Hp). lia.
Qed.
End Progress.

(** A concrete history: a curve with points at times 0,1,2 and solutions 10,11,12;
    both segments are handed out (jobs 0 and 1). *)
Lemma ex_history' :
  exists (d0 d1 d2 : data nat) (e0 e1 : segment),
    initWith (newData 3 (1/10)) [0;1;2] [10;11;12]%nat = Ok d0 /\
    created 3 (1/10) d0 /\ times d0 = [0; 1; 2] /\ sols d0 = [10; 11; 12]%nat /\
    history d0 [(CPop, OPop 0 1 10 10); (CPop, OPop 1 1 11 10)]%nat d2 /\
    exec d0 CPop = Ok (d1, OPop 0 1 10 10)%nat /\
    d_jobs d2 = [(0, e0); (1, e1)]%nat /\
    seg_lev e0 = 1%Z /\ segTimes d2 e0 = (0, 1) /\ seg_lev e1 = 1%Z /\ segTimes d2 e1 = (1, 2) /\
    waiting d2 = [] /\ d_optMaxLevel d2 = 3%Z /\ d_maxLevel d2 = 3%Z /\ d_tol d2 = 1/10 /\ d_ID d2 = 2%nat /\
    times d2 = [0; 1; 2] /\ sols d2 = [10; 11; 12]%nat.
Proof.
  assert (Hi : incr [0; 1; 2]).
  { apply incr_cons. split; [apply incr_cons; split; [apply incr_one|]|].
    - intros y [<-|[]]; lra.
    - intros y [<-|[<-|[]]]; lra. }
  destruct (initWith_total 3 (1/10) [0;1;2] [10;11;12]%nat Hi eq_refl ltac:(cbn; lia)) as (d0 & E0).
  destruct (created_data_inv 3 (1/10) [0;1;2] [10;11;12]%nat d0 Hi eq_refl E0) as (c & I0 & Et & Es & Pl & O1 & O2 & O3 & O4 & O5 & Epp).
  destruct c as [|p0 [|p1 [|p2 [|]]]]; try discriminate.
  specialize (Epp 0%nat). cbn in Et, Es, Epp. injection Epp as PP0 PP1 PP2. injection Et as T0 T1 T2. injection Es as S0 S1 S2.
  cbn [map consecutive fst snd] in O5.
  destruct (pop_total d0 _ _ _ I0 O5) as (d1 & [[[i0 dt0] st0] pv0] & P0).
  destruct (pop_inv _ _ _ _ _ _ _ I0 P0)
    as (I1 & Ei0 & x1 & h1 & l1 & q1 & a1 & b1 & Q1 & Q1' & J1 & ID1 & Ia1 & Ib1 & Xa1 & Xb1 & St1 & Pv1 & Dt1 & M1 & M1' & _).
  rewrite O5 in Q1. injection Q1 as <- <- <- <-.
  destruct (pop_total d1 _ _ _ I1 Q1') as (d2 & [[[i1 dt1] st1] pv1] & P1).
  destruct (pop_inv _ _ _ _ _ _ _ I1 P1)
    as (I2 & Ei1 & x2 & h2 & l2 & q2 & a2 & b2 & Q2 & Q2' & J2 & ID2 & Ia2 & Ib2 & Xa2 & Xb2 & St2 & Pv2 & Dt2 & M2 & M2' & _).
  rewrite Q1' in Q2. injection Q2 as <- <- <- <-.
  pose proof (inv_rep _ _ I0) as HR0. pose proof (inv_rep _ _ I2) as HR2.
  pose proof HR2 as (R1&R2&R3&R4&R5&R6&R7&R8).
  assert (NDx : NoDup (map px [p0; p1; p2])) by (apply incr_NoDup; auto).
  cbn in NDx. inversion NDx as [|? ? N1 ND1]; subst. inversion ND1 as [|? ? N2 ND2]; subst. cbn in N1, N2.
  assert (U : forall u v : @point nat, In u [p0;p1;p2] -> In v [p0;p1;p2] -> px u = px v -> u = v).
  { intros u v [<-|[<-|[<-|[]]]] [<-|[<-|[<-|[]]]] E; auto; exfalso; rewrite E in *; intuition. }
  assert (a1 = p0) by (apply U; cbn; auto). assert (b1 = p1) by (apply U; cbn; auto).
  assert (a2 = p1) by (apply U; cbn; auto). assert (b2 = p2) by (apply U; cbn; auto). subst.
  assert (Hpv : pp p1 = ps p0 /\ pp p0 = ps p0).
  { split; congruence. }
  destruct Hpv as [Hpv1 Hpv0].
  assert (D0 : (if Reqb (px p0) (px p1) && (1 =? 0)%Z then d_dt d0 else pt p1 - pt p0) = 1).
  { cbn. rewrite andb_false_r. lra. }
  assert (D1 : (if Reqb (px p1) (px p2) && (1 =? 0)%Z then d_dt d1 else pt p2 - pt p1) = 1).
  { cbn. rewrite andb_false_r. lra. }
  rewrite D0 in P0. rewrite D1 in P1. rewrite Hpv0, S0 in P0. rewrite Hpv1, S0, S1 in P1.
  rewrite O3 in P0. rewrite ID1, O3 in P1.
  assert (X0 : exec d0 CPop = Ok (d1, OPop 0 1 10 10)%nat) by (cbn [exec]; rewrite P0; reflexivity).
  assert (X1 : exec d1 CPop = Ok (d2, OPop 1 1 11 10)%nat) by (cbn [exec]; rewrite P1; reflexivity).
  exists d0, d1, d2, (px p0, px p1, 1%Z), (px p1, px p2, 1%Z).
  split; [exact E0|].
  split; [apply (cr_data 3 (1/10) [0;1;2] [10;11;12]%nat); auto|].
  split; [rewrite (times_eq _ _ HR0); cbn; congruence|].
  split; [rewrite (sols_eq _ _ HR0); cbn; congruence|].
  split. { apply (h_snoc _ [(CPop, OPop 0 1 10 10)%nat] d1 CPop (OPop 1 1 11 10)%nat d2);
             [apply (h_snoc _ [] d0 CPop (OPop 0 1 10 10)%nat d1); [constructor|exact I|exact X0]|exact I|exact X1]. }
  split; [exact X0|].
  rewrite O4 in J1. rewrite J1, ID1, O3 in J2. cbn in J2.
  assert (Ta : forall p, In p [p0;p1;p2] -> timeAt d2 (px p) = pt p) by (intros; eapply timeAt_val; eauto).
  split; [exact J2|]. unfold segTimes. cbn [seg_lo seg_hi fst snd seg_lev].
  rewrite (Ta p0), (Ta p1), (Ta p2), T0, T1, T2 by (cbn; auto).
  destruct (inv_opt _ _ I2) as [OA OB].
  repeat split.
  - exact Q2'.
  - congruence.
  - congruence.
  - congruence.
  - congruence.
  - rewrite (times_eq _ _ HR2); cbn; congruence.
  - rewrite (sols_eq _ _ HR2); cbn; congruence.
Qed.

Lemma ex_history0 : exists d0 d2 : data nat,
  initWith (newData 3 (1/10)) [0;1;2] [10;11;12]%nat = Ok d0 /\
  history d0 [(CPop, OPop 0 1 10 10); (CPop, OPop 1 1 11 10)]%nat d2.
Proof. destruct ex_history' as (d0 & d1 & d2 & e0 & e1 & H & _ & _ & _ & H1 & _). exists d0, d2. auto. Qed.
Lemma ex_history :
  exists (d0 d1 d2 : data nat) (e0 e1 : segment),
    created 3 (1/10) d0 /\ times d0 = [0; 1; 2] /\ sols d0 = [10; 11; 12]%nat /\
    history d0 [(CPop, OPop 0 1 10 10); (CPop, OPop 1 1 11 10)]%nat d2 /\
    exec d0 CPop = Ok (d1, OPop 0 1 10 10)%nat /\
    d_jobs d2 = [(0, e0); (1, e1)]%nat /\
    seg_lev e0 = 1%Z /\ segTimes d2 e0 = (0, 1) /\ seg_lev e1 = 1%Z /\ segTimes d2 e1 = (1, 2) /\
    waiting d2 = [] /\ d_optMaxLevel d2 = 3%Z /\ d_maxLevel d2 = 3%Z /\ d_tol d2 = 1/10 /\ d_ID d2 = 2%nat /\
    times d2 = [0; 1; 2] /\ sols d2 = [10; 11; 12]%nat.
Proof. destruct ex_history' as (d0 & d1 & d2 & e0 & e1 & H & H1). exists d0, d1, d2, e0, e1. exact H1. Qed.

(** job 0 is answered with two points at distances 1/2, 1/2 and a remainder of 1/4 *)
Lemma ex_submit :
  exists (d d' : data nat) e,
    reachable d /\ active d 0 e /\ correction e /\ seg_lev e = 1%Z /\ d_maxLevel d = 3%Z /\ d_tol d = 1/10 /\
    snd (jobTimes d 0) = (0, 1) /\
    length [1/2; 1/2; 1/4] = S (length [20; 21]%nat) /\ Forall (fun x => 0 < x) [1/2; 1/2; 1/4] /\
    submit d 0 [1/2; 1/2; 1/4] [20; 21]%nat (1/2) (3/4) = Ok d'.
Proof.
  destruct ex_history as (d0 & d1 & d2 & e0 & e1 & Hc & _ & _ & Hh & _ & J & L0 & T0 & _ & _ & _ & _ & O & O' & _).
  assert (A0 : active d2 0 e0) by (unfold active; rewrite J; left; auto).
  assert (HR : reachable d2) by (exists 3%Z, (1/10), d0; eauto).
  destruct (reachable_inv _ HR) as (c & I).
  assert (C0 : correction e0) by (unfold correction; lia).
  assert (Hr : result_ok [1/2; 1/2; 1/4] [20; 21]%nat).
  { split; [reflexivity|]. repeat constructor; lra. }
  destruct (submit_accepts d2 c 0 e0 [1/2;1/2;1/4] [20;21]%nat (1/2) (3/4) I A0 C0 Hr) as [_ Hacc].
  rewrite (jobTimes_val _ _ _ _ I A0), T0 in Hacc.
  destruct Hacc as (d' & E).
  { cbn. rewrite !Rsum_cons, Rsum_nil. lra. }
  exists d2, d', e0. repeat split; auto; try apply Hr.
  rewrite (jobTimes_val _ _ _ _ I A0). exact T0.
Qed.
