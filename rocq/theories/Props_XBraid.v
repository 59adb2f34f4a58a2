(** Properties of the parallel-in-time wrapper: C56, C77, C78. *)
From Verif Require Import VS Status RunTac Static StaticRun Dynamic DynRun XBraid Props_Dynamic.
From Coq Require Import Lia.
Local Open Scope R_scope.

Lemma coords_length {n} : forall x : VS_Rn n, length (coords x) = S n.
Proof. induction n as [|n IH]; intros x; cbn; [reflexivity|]. f_equal. apply IH. Qed.
Lemma ofCoords_coords {n} : forall x : VS_Rn n, ofCoords n (coords x) = x.
Proof. induction n as [|n IH]; intros x; cbn; [reflexivity|]. rewrite IH. destruct x. reflexivity. Qed.
Lemma seg1 a b c (k : nat) : length a = k -> segment 0 k (a ++ b ++ c) = a.
Proof. intros <-. unfold segment. cbn [skipn]. rewrite firstn_app, Nat.sub_diag, firstn_all. cbn. apply app_nil_r. Qed.
Lemma seg2 a b c (k : nat) : length a = k -> length b = k -> segment k k (a ++ b ++ c) = b.
Proof. intros Ha Hb. unfold segment. rewrite skipn_app, <- Ha, Nat.sub_diag, skipn_all. cbn. rewrite Ha, <- Hb. rewrite firstn_app, Nat.sub_diag, firstn_all. cbn. apply app_nil_r. Qed.
Lemma seg3 a b c (k : nat) : length a = k -> length b = k -> length c = k -> segment (2 * k) k (a ++ b ++ c) = c.
Proof.
  intros Ha Hb Hc. unfold segment. rewrite app_assoc, skipn_app. replace (2 * k)%nat with (length (a ++ b)) by (rewrite app_length; lia).
  rewrite skipn_all, Nat.sub_diag. cbn. rewrite <- Hc. apply firstn_all.
Qed.
Lemma set1 v a b c k : length a = k -> length v = k -> setSegment 0 v (a ++ b ++ c) = v ++ b ++ c.
Proof. intros Ha Hv. unfold setSegment. cbn [firstn app Nat.add]. rewrite Hv, <- Ha, skipn_app, Nat.sub_diag, skipn_all. reflexivity. Qed.
Lemma set2 v a b c k : length a = k -> length b = k -> length v = k -> setSegment k v (a ++ b ++ c) = a ++ v ++ c.
Proof.
  intros Ha Hb Hv. unfold setSegment. rewrite <- Ha at 1. rewrite firstn_app, Nat.sub_diag, firstn_all. cbn [firstn]. rewrite app_nil_r.
  f_equal. f_equal. rewrite app_assoc, skipn_app. replace (k + length v)%nat with (length (a ++ b)) by (rewrite app_length; lia). rewrite skipn_all, Nat.sub_diag. reflexivity.
Qed.
Lemma set3 v a b c k : length a = k -> length b = k -> length c = k -> length v = k -> setSegment (2 * k) v (a ++ b ++ c) = a ++ b ++ v.
Proof.
  intros Ha Hb Hc Hv. unfold setSegment. rewrite (app_assoc a b c). replace (2 * k)%nat with (length (a ++ b)) by (rewrite app_length; lia).
  rewrite firstn_app, Nat.sub_diag, firstn_all. cbn [firstn]. rewrite app_nil_r, skipn_all2 by (rewrite !app_length; lia). rewrite app_nil_r, <- app_assoc. reflexivity.
Qed.
Lemma init_pack {n} (s : bst (VS_Rn n)) : xbInit (S n) s = coords (x_U (b_x s)) ++ coords (x_V (b_x s)) ++ coords (x_A (b_x s)).
Proof.
  unfold xbInit. rewrite Nat.eqb_refl.
  replace (repeat 0 (3 * S n)) with (repeat 0 (S n) ++ repeat 0 (S n) ++ repeat 0 (S n)) by (rewrite <- !repeat_app; f_equal; lia).
  erewrite set1, set2, set3; rewrite ?coords_length, ?repeat_length; reflexivity.
Qed.
Lemma step_pack {n} (stepf : R -> R -> xst (VS_Rn n) -> run (xst (VS_Rn n)) sans) level err t0 t1 u v a inv :
  xbStep stepf (S n) level err None t0 t1 (coords u ++ coords v ++ coords a, inv) =
  match stepf t0 (t1 - t0) (mkX u v a inv) with
  | Threw e x => Threw e (coords u ++ coords v ++ coords a, x_inv x)
  | Done (Fin q) x => Done (true, xbFactor level q err) (coords (x_U x) ++ coords (x_V x) ++ coords (x_A x), x_inv x)
  | Done (NonFin q) x => Done (false, xbFactor level q err) (coords (x_U x) ++ coords (x_V x) ++ coords (x_A x), x_inv x)
  end.
Proof.
  unfold xbStep. rewrite Nat.eqb_refl. cbn [negb fst snd]. cbv zeta.
  rewrite seg1, seg2, seg3 by apply coords_length. rewrite !ofCoords_coords.
  destruct (stepf _ _ _) as [[q|q] x|e x]; [| |reflexivity]; (erewrite set1, set2, set3; rewrite ?coords_length; reflexivity).
Qed.

(** ** C56 *)
(** The vector made from the solver's displacement, velocity and acceleration, handed to the
    access callback, gives back these three; a step of the wrapper on such a vector computes what
    the const step of the solver computes, and the callback then sees its three vectors. In
    all these vectors the declared buffer size is the number of entries plus two. *)
Theorem C56_packing {n} (stepf : R -> R -> xst (VS_Rn n) -> run (xst (VS_Rn n)) sans) (s : bst (VS_Rn n)) :
  (let '(u, v, a) := xbAccess (S n) (xbInit (S n) s) in
   ofCoords n u = x_U (b_x s) /\ ofCoords n v = x_V (b_x s) /\ ofCoords n a = x_A (b_x s)) /\
  (2 + length (xbInit (S n) s) = xbBuf (S n))%nat /\
  forall level err t0 t1 r u',
    xbStep stepf (S n) level err None t0 t1 (xbInit (S n) s, x_inv (b_x s)) = Done r u' ->
    (2 + length (fst u') = xbBuf (S n))%nat /\
    exists ans x, fst (dynConst stepf t0 (t1 - t0) (x_U (b_x s)) (x_V (b_x s)) (x_A (b_x s)) s) = Done ans x /\
      fst r = (match ans with Fin _ => true | NonFin _ => false end) /\ snd u' = x_inv x /\
      let '(u, v, a) := xbAccess (S n) (fst u') in ofCoords n u = x_U x /\ ofCoords n v = x_V x /\ ofCoords n a = x_A x.
Proof.
  rewrite init_pack. split; [|split].
  - unfold xbAccess. rewrite seg1, seg2, seg3 by apply coords_length. rewrite !ofCoords_coords. auto.
  - rewrite !app_length, !coords_length. unfold xbBuf. lia.
  - intros level err t0 t1 r u' H. rewrite step_pack in H. unfold dynConst. cbn [fst].
    destruct (stepf _ _ _) as [[q|q] x|e x]; [| |discriminate]; injection H as <- <-; cbn [fst snd];
      (split; [rewrite !app_length, !coords_length; unfold xbBuf; lia|]); do 2 eexists; (split; [reflexivity|]); (split; [reflexivity|]); (split; [reflexivity|]);
      unfold xbAccess; rewrite seg1, seg2, seg3 by apply coords_length; rewrite !ofCoords_coords; auto.
Qed.
Print Assumptions C56_packing.
(** With a number of unknowns that is not the solver's dimension the initial vector is zero
    whatever the solver's vectors are. *)
Theorem C56_mismatch {n} nd (s : bst (VS_Rn n)) : nd <> S n -> xbInit nd s = repeat 0 (3 * nd).
Proof. intros H. unfold xbInit. rewrite (proj2 (Nat.eqb_neq (S n) nd)) by auto. reflexivity. Qed.
(** The step with a forcing vector is the step on the sum. *)
Theorem C56_forcing {n} (stepf : R -> R -> xst (VS_Rn n) -> run (xst (VS_Rn n)) sans) nd level err f t0 t1 u inv :
  xbStep stepf nd level err (Some f) t0 t1 (u, inv) = xbStep stepf nd level err None t0 t1 (map (fun x => fst x + snd x) (combine u f), inv).
Proof. reflexivity. Qed.
Example C56_example : let s := dynNew (S := VS_Rn 1) (1, 2) (3, 4) (5, 6) in
  xbInit 2 s = [1; 2; 3; 4; 5; 6] /\ xbAccess 2 (xbInit 2 s) = ([1; 2], [3; 4], [5; 6]) /\ xbBuf 2 = 8%nat.
Proof. cbn. auto. Qed.

(** ** C77 *)
(** Steps of the wrapper on the finest level over the intervals of a time grid, without forcing. *)
Inductive XSteps {n} (stepf : R -> R -> xst (VS_Rn n) -> run (xst (VS_Rn n)) sans) : R -> list R -> list R * option (VS_Rn n -> VS_Rn n) -> list R * option (VS_Rn n -> VS_Rn n) -> Prop :=
| XNil t u : XSteps stepf t [] u u
| XCons t t1 l u err k u1 u2 : xbStep stepf (S n) 0 err None t t1 u = Done (true, k) u1 -> XSteps stepf t1 l u1 u2 -> XSteps stepf t (t1 :: l) u u2.
(** Sequential steps of the object over the same intervals, without callback. *)
Inductive DSteps {n} (stepf : R -> R -> xst (VS_Rn n) -> run (xst (VS_Rn n)) sans) : list R -> bst (VS_Rn n) -> bst (VS_Rn n) -> Prop :=
| DNil s : DSteps stepf [] s s
| DCons t1 l s q s1 s2 : dynStep stepf None (t1 - b_time s) s = Done q s1 -> DSteps stepf l s1 s2 -> DSteps stepf (t1 :: l) s s2.
(** Running the wrapper over a time grid from the initial vector gives the displacement, velocity
    and acceleration of stepping the object itself through the grid. *)
Theorem C77_sequential {n} (stepf : R -> R -> xst (VS_Rn n) -> run (xst (VS_Rn n)) sans) l s u :
  b_bad s = false -> XSteps stepf (b_time s) l (xbInit (S n) s, x_inv (b_x s)) u ->
  exists s', DSteps stepf l s s' /\ xbAccess (S n) (fst u) = (coords (x_U (b_x s')), coords (x_V (b_x s')), coords (x_A (b_x s'))) /\
    b_time s' = last l (b_time s).
Proof.
  rewrite init_pack. revert s. induction l as [|t1 l IH]; intros s NB H.
  - inversion H; subst. exists s. split; [constructor|]. cbn [fst]. unfold xbAccess. rewrite seg1, seg2, seg3 by apply coords_length. auto.
  - inversion H as [|? ? ? ? err k u1 ? E R]; subst. rewrite step_pack in E.
    assert (EX : mkX (x_U (b_x s)) (x_V (b_x s)) (x_A (b_x s)) (x_inv (b_x s)) = b_x s) by (destruct (b_x s); reflexivity). rewrite EX in E.
    destruct (stepf (b_time s) (t1 - b_time s) (b_x s)) as [[q|q] x|e x] eqn:ES; [|discriminate|discriminate]. injection E as <- <-.
    assert (ET : b_time s + (t1 - b_time s) = t1) by ring.
    destruct (IH (mkB x (b_time s + (t1 - b_time s)) q false)) as (s' & D & A & T); [reflexivity|cbn [b_time b_x]; rewrite ET; exact R|].
    exists s'. split; [|split; [exact A|]].
    + eapply DCons; [|exact D]. unfold dynStep. rewrite NB, ES. reflexivity.
    + rewrite T. cbn [b_time last]. rewrite ET. destruct l as [|t2 l]; [reflexivity|]. clear. revert t2. induction l as [|t3 l IH]; intros; cbn [last]; [reflexivity|]. apply IH.
Qed.
Print Assumptions C77_sequential.
Example C77_example : exists k u, XSteps (n := 0) (explicitEuler (osc 1 0 4 (fun _ => 0))) 0 [1/2; 3/2] ([1; 0; 0], None) (k, u) /\ k = [-1; -6; 0].
Proof.
  assert (E : Reqb (1 * 1) 0 = false) by (apply Reqb_false; lra).
  eexists _, _. split.
  - eapply (XCons (n := 0)) with (err := 0). { unfold xbStep. cbn. unfold massInverse. cbn. rewrite E. cbn. reflexivity. }
    eapply (XCons (n := 0)) with (err := 0). { unfold xbStep. cbn. reflexivity. }
    apply XNil.
  - cbn. f_equal; [lra|]. f_equal; lra.
Qed.
(** Refuted with a pre-step callback: the const step does not call it, so a callback that refuses
    stops the sequential run and not the wrapper. *)
Theorem C77_callback_refuted : exists (stepf : R -> R -> xst VS_R -> run (xst VS_R) sans) s u k,
  xbStep (n := 0) stepf 1 0 0 None 0 1 (xbInit (n := 0) 1 s, x_inv (b_x s)) = Done (true, k) u /\ fst u <> xbInit (n := 0) 1 s /\
  dynStep stepf (Some No) 1 s = Done OtherError (mkB (b_x s) (b_time s) OtherError (b_bad s)).
Proof.
  exists (fun (t dt : R) (s : xst VS_R) => Done (Fin Success) (xU (S := VS_R) ((x_U s : R) + dt) s)), (dynNew (S := VS_R) 0 0 0). do 2 eexists.
  split; [cbn; reflexivity|]. split; [|reflexivity]. cbn. intros H. injection H as H. lra.
Qed.
Print Assumptions C77_callback_refuted.

(** ** C78 *)
Lemma ceil_pos x : 0 < x -> (1 <= ceilR x)%Z.
Proof. intros H. unfold ceilR. destruct (base_Int_part (- x)) as [A _]. assert (B : IZR (Int_part (- x)) < 0) by lra. apply lt_IZR in B. lia. Qed.
Lemma ceil_up x : x <= IZR (ceilR x) < x + 1.
Proof. unfold ceilR. rewrite opp_IZR. destruct (base_Int_part (- x)) as [A B]. split; lra. Qed.
(** A step on the finest level asks for a refinement factor: two if the step failed, and for a
    successful one with positive error estimate e the least whole number k >= 1 with k^2 >= 1000 e;
    if there is no estimate (-1) one. On the other levels it asks for nothing. *)
Theorem C78_factor_partial level q error : (q = Success -> error = -1 \/ 0 < error) ->
  match xbFactor level q error with
  | None => level <> O
  | Some k => level = O /\ (1 <= k)%Z /\ (q <> Success -> k = 2%Z) /\
      (q = Success -> error = -1 -> k = 1%Z) /\
      (q = Success -> 0 < error -> 1000 * error <= IZR k * IZR k /\ forall j, (0 <= j)%Z -> 1000 * error <= IZR j * IZR j -> (k <= j)%Z)
  end.
Proof.
  intros H. unfold xbFactor. destruct level as [|l]; cbn [Nat.eqb]; [|discriminate].
  assert (F : q <> Success -> O = O /\ (1 <= 2)%Z /\ (q <> Success -> 2%Z = 2%Z) /\ (q = Success -> error = -1 -> 2%Z = 1%Z) /\
    (q = Success -> 0 < error -> 1000 * error <= 2 * 2 /\ forall j, (0 <= j)%Z -> 1000 * error <= IZR j * IZR j -> (2 <= j)%Z)).
  { intros N. split; [reflexivity|]. split; [lia|]. split; [reflexivity|]. split; intros; contradiction. }
  destruct q; try (apply F; discriminate). clear F. destruct (Reqb error (-1)) eqn:E.
  - apply Reqb_true in E. split; [reflexivity|]. split; [lia|]. split; [congruence|]. split; [reflexivity|]. intros _ P. lra.
  - apply Reqb_false in E. destruct (H eq_refl) as [A|P]; [contradiction|].
    assert (PE : 0 < error / (1/1000)) by lra. assert (SP : 0 < sqrt (error / (1/1000))) by (apply sqrt_lt_R0; exact PE).
    split; [reflexivity|]. split; [apply ceil_pos; exact SP|]. split; [congruence|]. split; [intros _ A; contradiction|]. intros _ _.
    set (r := sqrt (error / (1/1000))) in *. assert (RR : r * r = 1000 * error). { unfold r. rewrite sqrt_sqrt; lra. }
    destruct (ceil_up r) as [C1 C2]. split.
    + rewrite <- RR. apply Rmult_le_compat; lra.
    + intros j Hj Q. rewrite <- RR in Q. assert (PJ : 0 <= IZR j) by (apply IZR_le; exact Hj).
      assert (RJ : r <= IZR j). { destruct (Rle_or_lt r (IZR j)) as [A|A]; [exact A|]. exfalso. assert (IZR j * IZR j < r * r) by (apply Rmult_le_0_lt_compat; lra). lra. }
      assert (LT : IZR (ceilR r) < IZR (j + 1)) by (rewrite plus_IZR; lra). apply lt_IZR in LT. lia.
Qed.
Print Assumptions C78_factor_partial.
(** 1000 e = 5: factor 3 *)
Example C78_example : xbFactor 0 Success (5/1000) = Some 3%Z.
Proof.
  pose proof (C78_factor_partial 0 Success (5/1000)) as H.
  destruct (xbFactor 0 Success (5/1000)) as [k|]; [|exfalso; apply H; [right; lra|reflexivity]].
  destruct H as (_ & K1 & _ & _ & P); [right; lra|]. destruct P as [P1 P2]; [reflexivity|lra|].
  assert (K3 : (k <= 3)%Z) by (apply P2; [lia|cbn; lra]). f_equal.
  assert (k = 1 \/ k = 2 \/ k = 3)%Z by lia. destruct H as [-> | [-> | ->]]; [cbn in P1; lra|cbn in P1; lra|reflexivity].
Qed.
(** Refuted: a successful step whose error estimate is zero asks for the factor 0, so "at least
    one" is false. *)
Theorem C78_refuted : exists error, xbFactor 0 Success error = Some 0%Z.
Proof.
  exists 0. unfold xbFactor. cbn [Nat.eqb]. rewrite (proj2 (Reqb_false 0 (-1))) by lra. f_equal. replace (0 / (1/1000)) with 0 by lra. rewrite sqrt_0.
  unfold ceilR. destruct (base_Int_part (- 0)) as [A B]. assert (A' : IZR (Int_part (-0)) <= 0) by lra. assert (B' : -1 < IZR (Int_part (-0))) by lra.
  apply le_IZR in A'. apply lt_IZR in B'. lia.
Qed.
Print Assumptions C78_refuted.
