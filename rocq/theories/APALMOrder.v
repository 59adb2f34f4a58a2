(** The curve that the corrections of a branch lead to, whatever the order in which they are answered. *)
From Verif Require Import Prelude APALMData APALMDataProofs APALMDataInv APALMSpec APALMHist.
From Coq Require Import Permutation.
Local Open Scope R_scope.

Section Order.
Context {sol : Type}.
Notation data := (@data sol).
Notation point := (@point sol).
(** the answer to a correction, from its level, length, start, previous solution and reference *)
Variable work : Z -> R -> sol -> sol -> sol -> list R * list sol * R * R.
Variables (ml : Z) (tol : R).

(** a point, with the time since the point before it *)
Definition item (a b : point) : R * R * sol * sol * Z := (pt b - pt a, px b, ps b, pp b, pl b).
Notation items := (list (R * R * sol * sol * Z)).
(** the level at which the segment beginning at [x] is to be corrected *)
Definition segAt (l : list segment) (x : R) : option Z :=
  match find (fun e => Reqb (seg_lo e) x) l with Some e => Some (seg_lev e) | None => None end.
Fixpoint walk (E : Z -> point -> point -> items) (l : list segment) (c : list point) : items :=
  match c with
  | a :: ((b :: _) as c') => match segAt l (px a) with Some v => E v a b | None => [item a b] end ++ walk E l c'
  | _ => []
  end.
(** the points of the segment from [a] to [b] when it is corrected, with [n] levels at most *)
Fixpoint expand (n : nat) (lev : Z) (a b : point) : items :=
  match n with
  | O => [item a b]
  | S n =>
    let '(ds, ss, up, lo) := work lev (pt b - pt a) (ps a) (pp a) (ps b) in
    walk (expand n) (newSegments ml tol (px a :: midX a b ds ++ [px b]) lev (pt b - pt a - lo) (Rsum ds - up - (pt b - pt a - lo)) (pt b - pt a))
      (spliced [] a b [] lev ds ss)
  end.
Definition depth (lev : Z) : nat := S (Z.to_nat (ml - lev)).
Definition grow (lev : Z) (a b : point) : items := expand (depth lev) lev a b.

(** ** segAt *)
Lemma segAt_in l x v : segAt l x = Some v -> exists e, In e l /\ seg_lo e = x /\ seg_lev e = v.
Proof.
  unfold segAt. destruct (find _ l) as [e|] eqn:E; [|discriminate]. intros H. injection H as <-.
  apply find_some in E as [E1 E2]. apply Reqb_true in E2. eauto.
Qed.
Lemma segAt_none l x : segAt l x = None -> ~ In x (map seg_lo l).
Proof.
  unfold segAt. destruct (find _ l) as [e|] eqn:E; [discriminate|]. intros _ H. apply in_map_iff in H as (e & <- & He).
  apply (find_none _ _ E) in He. assert (Reqb (seg_lo e) (seg_lo e) = true) by (apply Reqb_true; reflexivity). congruence.
Qed.
Lemma segAt_nodup l e : NoDup (map seg_lo l) -> In e l -> segAt l (seg_lo e) = Some (seg_lev e).
Proof.
  intros ND He. destruct (segAt l (seg_lo e)) as [v|] eqn:E.
  - apply segAt_in in E as (e' & H1 & H2 & <-). f_equal. f_equal. clear -ND He H1 H2. induction l as [|x l IH]; [destruct He|].
    cbn [map] in ND. inversion ND as [|? ? Hn ND']; subst. destruct He as [->|He], H1 as [->|H1]; auto.
    + exfalso. apply Hn. rewrite <- H2. apply in_map, H1.
    + exfalso. apply Hn. rewrite H2. apply in_map, He.
  - apply segAt_none in E. exfalso. apply E, in_map, He.
Qed.
Lemma segAt_out l x : ~ In x (map seg_lo l) -> segAt l x = None.
Proof. intros H. destruct (segAt l x) as [v|] eqn:E; auto. apply segAt_in in E as (e & H1 & <- & _). exfalso. apply H, in_map, H1. Qed.
(** only membership at [x] matters *)
Lemma segAt_eq l l' x : NoDup (map seg_lo l) -> NoDup (map seg_lo l') -> (forall e, seg_lo e = x -> (In e l <-> In e l')) -> segAt l x = segAt l' x.
Proof.
  intros N1 N2 H. destruct (segAt l x) as [v|] eqn:E.
  - apply segAt_in in E as (e & H1 & <- & <-). symmetry. apply segAt_nodup; auto. apply H; auto.
  - symmetry. apply segAt_out. apply segAt_none in E. intros Hx. apply E. apply in_map_iff in Hx as (e & <- & He). apply in_map. apply H; auto.
Qed.

(** ** walk *)
Lemma walk_app E l p a q : walk E l (p ++ a :: q) = walk E l (p ++ [a]) ++ walk E l (a :: q).
Proof.
  induction p as [|x p IH]; [reflexivity|]. destruct p as [|y p].
  - cbn [app walk]. rewrite app_nil_r. reflexivity.
  - cbn [app] in *. change (walk E l (x :: y :: p ++ a :: q)) with (match segAt l (px x) with Some v => E v x y | None => [item x y] end ++ walk E l (y :: p ++ a :: q)).
    rewrite IH. rewrite app_assoc. reflexivity.
Qed.
Lemma walk_ext E E' l l' c : (forall a, In a (removelast c) -> segAt l (px a) = segAt l' (px a)) ->
  (forall a b v, In a (removelast c) -> segAt l (px a) = Some v -> E v a b = E' v a b) -> walk E l c = walk E' l' c.
Proof.
  induction c as [|a c IH]; intros H1 H2; [reflexivity|]. destruct c as [|b c]; [reflexivity|].
  change (walk E l (a :: b :: c)) with (match segAt l (px a) with Some v => E v a b | None => [item a b] end ++ walk E l (b :: c)).
  change (walk E' l' (a :: b :: c)) with (match segAt l' (px a) with Some v => E' v a b | None => [item a b] end ++ walk E' l' (b :: c)).
  change (removelast (a :: b :: c)) with (a :: removelast (b :: c)) in H1, H2.
  rewrite IH; [|intros x Hx; apply H1; right; exact Hx|intros x y v Hx Hv; apply H2; [right; exact Hx|exact Hv]]. rewrite <- H1 by (left; auto). f_equal.
  destruct (segAt l (px a)) as [v|] eqn:E0; [|reflexivity]. apply H2; auto. left; auto.
Qed.
Lemma item_shift s a b : item (shift s a) (shift s b) = item a b.
Proof. unfold item, shift. cbn [px pt ps pp pl]. replace (pt b + s - (pt a + s)) with (pt b - pt a) by ring. reflexivity. Qed.
Lemma walk_shift E l s c : (forall v a b, E v (shift s a) (shift s b) = E v a b) -> walk E l (map (shift s) c) = walk E l c.
Proof.
  intros H. induction c as [|a c IH]; [reflexivity|]. destruct c as [|b c]; [reflexivity|].
  change (walk E l (a :: b :: c)) with (match segAt l (px a) with Some v => E v a b | None => [item a b] end ++ walk E l (b :: c)).
  rewrite <- IH. cbn [map walk]. cbn [shift px]. f_equal. destruct (segAt l (px a)); [apply H|rewrite item_shift; reflexivity].
Qed.
Lemma timePoints_shift s t ds : timePoints (t + s) ds = map (fun x => x + s) (timePoints t ds).
Proof. revert t. induction ds as [|d ds IH]; intros t; cbn [timePoints map]; [reflexivity|]. rewrite <- IH. replace (t + s + d) with (t + d + s) by ring. reflexivity. Qed.
Lemma interior_map (f : R -> R) l : interior (map f l) = map f (interior l).
Proof.
  unfold interior. destruct l as [|x l]; [reflexivity|]. cbn [map tl]. induction l as [|y l IH]; [reflexivity|].
  destruct l as [|z l]; [reflexivity|]. change (f y :: removelast (map f (z :: l)) = f y :: map f (removelast (z :: l))). f_equal. exact IH.
Qed.
Lemma midT_shift s (a : point) ds : midT (shift s a) ds = map (fun x => x + s) (midT a ds).
Proof. unfold midT. cbn [shift pt]. rewrite timePoints_shift, interior_map. reflexivity. Qed.
Lemma midX_shift s (a b : point) ds : midX (shift s a) (shift s b) ds = midX a b ds.
Proof. unfold midX. rewrite midT_shift, map_map. apply map_ext. intros x. unfold parOf. cbn [shift px pt]. replace (x + s - (pt a + s)) with (x - pt a) by ring. reflexivity. Qed.
Lemma newPoints_shift s lev p xs : forall ts (ss : list sol), newPoints lev p xs (map (fun x => x + s) ts) ss = map (shift s) (newPoints lev p xs ts ss).
Proof. revert p. induction xs as [|x xs IH]; intros p [|t ts] [|u ss]; cbn; try reflexivity. rewrite IH. reflexivity. Qed.
Lemma spliced_shift s (a b : point) lev ds ss : spliced [] (shift s a) (shift s b) [] lev ds ss = map (shift s) (spliced [] a b [] lev ds ss).
Proof.
  unfold spliced. fold (midT (shift s a) ds) (midT a ds) (midX (shift s a) (shift s b) ds) (midX a b ds).
  rewrite midX_shift, midT_shift, newPoints_shift. cbn [app map shift px pt ps pp pl]. f_equal. rewrite map_app. f_equal. cbn [map]. f_equal.
  unfold shift. cbn. f_equal. ring.
Qed.
Lemma expand_shift n : forall lev s a b, expand n lev (shift s a) (shift s b) = expand n lev a b.
Proof.
  induction n as [|n IH]; intros lev s a b; cbn [expand]; [rewrite item_shift; reflexivity|].
  replace (pt (shift s b) - pt (shift s a)) with (pt b - pt a) by (cbn; ring). cbn [shift ps pp].
  destruct (work lev (pt b - pt a) (ps a) (pp a) (ps b)) as [[[ds ss] up] lo].
  change (mkPoint (px a) (pt a + s) (ps a) (pp a) (pl a)) with (shift s a). change (mkPoint (px b) (pt b + s) (ps b) (pp b) (pl b)) with (shift s b).
  rewrite midX_shift, spliced_shift. cbn [shift px]. apply walk_shift. intros. apply IH.
Qed.

(** ** one answer *)
Lemma newSegments_in xs lev le ue Dt e : (2 <= length xs)%nat -> In e (newSegments ml tol xs lev le ue Dt) ->
  (lev < ml)%Z /\ seg_lev e = (lev + 1)%Z /\ In (seg_lo e, seg_hi e) (consecutive xs).
Proof.
  intros H. rewrite newSegments_eq by exact H. destruct (lev <? ml)%Z eqn:EL; [|intros []]. apply Z.ltb_lt in EL.
  intros He. apply in_map_iff in He as ([x y] & <- & He). cbn. split; [exact EL|]. split; [reflexivity|].
  assert (Hne : consecutive xs <> []) by (intros E; pose proof (consecutive_length xs); rewrite E in *; cbn in *; lia).
  destruct (Rltb _ _), (Rltb _ _); [destruct He| | |exact He].
  - destruct He as [He|[]]. rewrite (app_removelast_last (0, 0) Hne). apply in_or_app. right. left. exact He.
  - apply removelast_incl in He. exact He.
Qed.
Lemma newSegments_nodup xs lev le ue Dt : (2 <= length xs)%nat -> NoDup xs -> NoDup (map seg_lo (newSegments ml tol xs lev le ue Dt)).
Proof.
  intros H ND. rewrite newSegments_eq by exact H. destruct (lev <? ml)%Z; [|constructor]. rewrite map_map.
  change (fun x : R * R => seg_lo (fst x, snd x, (lev + 1)%Z)) with (fun x : R * R => fst x).
  assert (N : NoDup (map fst (consecutive xs))) by (rewrite consecutive_fst; apply NoDup_removelast, ND).
  destruct (Rltb _ _), (Rltb _ _); [constructor|constructor; [intros []|constructor]| |exact N].
  change (fun x : R * R => fst x) with (@fst R R). replace (map fst (removelast (consecutive xs))) with (removelast (map fst (consecutive xs))).
  - apply NoDup_removelast, N.
  - generalize (consecutive xs). intros l. induction l as [|x [|y l] IH]; [reflexivity|reflexivity|]. change (fst x :: removelast (map fst (y :: l)) = fst x :: map fst (removelast (y :: l))). f_equal. exact IH.
Qed.
Lemma incr_nodup l : incr l -> NoDup l.
Proof.
  induction l as [|x l IH]; intros H; [constructor|]. apply incr_cons in H as [H1 H2]. constructor; auto. intros Hin. specialize (H2 x Hin). lra.
Qed.
Lemma NoDup_app_r {A} (l l' : list A) : NoDup (l ++ l') -> NoDup l'.
Proof. induction l as [|x l IH]; auto. intros H. inversion H; auto. Qed.

Lemma grow_step (segs segs' : list segment) pre a b post lev ds ss up lo :
  incr (map px (pre ++ a :: b :: post)) -> incr (map px (spliced pre a b post lev ds ss)) -> result_ok ds ss ->
  work lev (pt b - pt a) (ps a) (pp a) (ps b) = (ds, ss, up, lo) ->
  NoDup (map seg_lo segs) -> NoDup (map seg_lo segs') -> (forall e, In e segs -> In (seg_lo e) (map px (pre ++ a :: b :: post))) ->
  In (px a, px b, lev) segs ->
  (forall e, In e segs' <-> (In e segs /\ e <> (px a, px b, lev)) \/
     In e (newSegments ml tol (px a :: midX a b ds ++ [px b]) lev (pt b - pt a - lo) (Rsum ds - up - (pt b - pt a - lo)) (pt b - pt a))) ->
  walk grow segs' (spliced pre a b post lev ds ss) = walk grow segs (pre ++ a :: b :: post).
Proof.
  intros Ix Ix' Hr Hw N1 N2 Hlo He Hs'. set (new := newSegments _ _ _ _ _ _ _) in *.
  assert (Hne : (2 <= length (px a :: midX a b ds ++ [px b]))%nat) by (cbn [length]; rewrite app_length; cbn [length]; lia).
  assert (Hx : map px (spliced pre a b post lev ds ss) = map px pre ++ px a :: midX a b ds ++ px b :: map px post).
  { rewrite spliced_px by apply Hr. rewrite map_app, <- app_assoc. reflexivity. }
  rewrite Hx in Ix'. set (s := Rsum ds - (pt b - pt a)).
  assert (Hnew : forall e, In e new -> (lev < ml)%Z /\ seg_lev e = (lev + 1)%Z /\ In (seg_lo e) (px a :: midX a b ds)).
  { intros e H. destruct (newSegments_in _ _ _ _ _ _ Hne H) as (H1 & H2 & H3). split; [exact H1|]. split; [exact H2|].
    apply (in_map fst) in H3. rewrite consecutive_fst in H3. cbn [fst] in H3.
    change (px a :: midX a b ds ++ [px b]) with ((px a :: midX a b ds) ++ [px b]) in H3. rewrite removelast_last in H3. exact H3. }
  assert (Inc : NoDup (map px pre ++ px a :: midX a b ds ++ px b :: map px post)) by (apply incr_nodup; exact Ix').
  (* which segments begin at a point of the old curve other than a *)
  assert (Old : forall p : point, In p pre \/ In p (b :: post) -> segAt segs' (px p) = segAt segs (px p)).
  { intros p Hp. assert (NA : px p <> px a /\ ~ In (px p) (midX a b ds)).
    { assert (D : In (px p) (map px pre) \/ In (px p) (px b :: map px post)) by (destruct Hp as [Hp|Hp]; [left|right]; [|apply (in_map px) in Hp]; [apply in_map|]; auto).
      apply incr_app in Ix' as (_ & I2 & I3). change (px a :: midX a b ds ++ px b :: map px post) with ((px a :: midX a b ds) ++ px b :: map px post) in I2, I3.
      apply incr_app in I2 as (_ & _ & I2). destruct D as [D|D].
      - split; [intros E|intros E].
        + specialize (I3 (px p) (px a) D). rewrite E in I3. assert (px a < px a) by (apply I3; left; auto). lra.
        + specialize (I3 (px p) (px p) D). assert (px p < px p) by (apply I3; apply in_or_app; left; right; auto). lra.
      - split; [intros E|intros E].
        + specialize (I2 (px a) (px p)). rewrite <- E in I2. assert (px p < px p) by (apply I2; [left; auto|auto]). lra.
        + specialize (I2 (px p) (px p)). assert (px p < px p) by (apply I2; [right; auto|auto]). lra. }
    apply segAt_eq; auto. intros e E. rewrite Hs'. split.
    - intros [[H _]|H]; [exact H|]. apply Hnew in H as (_ & _ & [H|H]); [exfalso; apply (proj1 NA); congruence|exfalso; apply (proj2 NA); congruence].
    - intros H. left. split; [exact H|]. intros ->. apply (proj1 NA). symmetry. exact E. }
  (* and at the points in between *)
  assert (Mid : forall p : point, In (px p) (px a :: midX a b ds) -> segAt segs' (px p) = segAt new (px p)).
  { intros p Hp. apply segAt_eq; auto.
    - apply newSegments_nodup; [exact Hne|]. clear -Inc. apply NoDup_app_r in Inc.
      change (px a :: midX a b ds ++ px b :: map px post) with ((px a :: midX a b ds) ++ px b :: map px post) in Inc.
      change (px a :: midX a b ds ++ [px b]) with ((px a :: midX a b ds) ++ [px b]).
      replace ((px a :: midX a b ds) ++ px b :: map px post) with (((px a :: midX a b ds) ++ [px b]) ++ map px post) in Inc by (rewrite <- app_assoc; reflexivity).
      apply NoDup_app_l in Inc. exact Inc.
    - intros e E. rewrite Hs'. split; [|auto]. intros [[H NE]|H]; [|exact H]. exfalso. pose proof (Hlo e H) as HL. rewrite E in HL.
      destruct Hp as [Hp|Hp].
      + apply NE. clear -N1 H He E Hp. assert (EL : seg_lo e = seg_lo (px a, px b, lev)) by (rewrite E; symmetry; exact Hp).
        induction segs as [|x l IH]; [destruct H|]. cbn [map] in N1. inversion N1 as [|? ? Hn ND]; subst.
        destruct H as [->|H], He as [He|He]; auto; try (exfalso; apply Hn; first [rewrite EL; exact (in_map seg_lo _ _ He)|subst x; rewrite <- EL; exact (in_map seg_lo _ _ H)]).
      + rewrite map_app in HL. cbn [map] in HL. assert (C : In (px p) (map px pre) \/ px p = px a \/ In (px p) (px b :: map px post)).
        { apply in_app_or in HL as [HL|[HL|HL]]; auto. }
        apply incr_app in Ix' as (_ & I2 & I3). pose proof I2 as I2'. apply incr_cons in I2 as [_ I2].
        change (px a :: midX a b ds ++ px b :: map px post) with ((px a :: midX a b ds) ++ px b :: map px post) in I2'. apply incr_app in I2' as (_ & _ & I2').
        destruct C as [C|[C|C]].
        * specialize (I3 _ (px p) C). assert (px p < px p) by (apply I3; right; apply in_or_app; auto). lra.
        * specialize (I2 (px p)). assert (px a < px p) by (apply I2; apply in_or_app; auto). lra.
        * specialize (I2' (px p) (px p)). assert (px p < px p) by (apply I2'; [right; auto|auto]). lra. }
  (* split both curves at a and b *)
  set (mids := newPoints lev (ps a) (midX a b ds) (midT a ds) ss).
  assert (Hm : map px mids = midX a b ds).
  { unfold mids. apply newPoints_px; rewrite ?(midX_length a b ds ss), ?(midT_length a ds ss); auto; apply Hr. }
  assert (Es : spliced pre a b post lev ds ss = pre ++ a :: mids ++ map (shift s) (b :: post)) by reflexivity.
  assert (Em : spliced [] a b [] lev ds ss = a :: mids ++ [shift s b]) by reflexivity.
  rewrite Es. rewrite walk_app. change (map (shift s) (b :: post)) with (shift s b :: map (shift s) post).
  change (a :: mids ++ shift s b :: map (shift s) post) with ((a :: mids) ++ shift s b :: map (shift s) post). rewrite (walk_app grow segs' (a :: mids)).
  rewrite (walk_app grow segs pre a (b :: post)). change (walk grow segs (a :: b :: post)) with (match segAt segs (px a) with Some v => grow v a b | None => [item a b] end ++ walk grow segs (b :: post)).
  assert (SA : segAt segs (px a) = Some lev) by (apply (segAt_nodup segs (px a, px b, lev)); auto). rewrite SA.
  f_equal; [|f_equal].
  - apply walk_ext; [|auto]. rewrite removelast_last. intros p Hp. apply Old. auto.
  - unfold grow at 2. unfold depth. cbn [expand]. rewrite Hw. fold new. rewrite Em. apply walk_ext.
    + change (a :: mids ++ [shift s b]) with ((a :: mids) ++ [shift s b]). rewrite removelast_last. intros p Hp. apply Mid.
      destruct Hp as [->|Hp]; [left; auto|right]. rewrite <- Hm. apply in_map, Hp.
    + intros p q v Hp Hv. unfold grow. change (a :: mids ++ [shift s b]) with ((a :: mids) ++ [shift s b]) in Hp. rewrite removelast_last in Hp. rewrite Mid in Hv by (destruct Hp as [->|Hp]; [left; auto|right; rewrite <- Hm; apply in_map, Hp]).
      apply segAt_in in Hv as (e & H1 & _ & <-). destruct (Hnew e H1) as (L & -> & _). unfold depth. f_equal. lia.
  - change (shift s b :: map (shift s) post) with (map (shift s) (b :: post)). rewrite walk_shift by (intros; apply expand_shift).
    apply walk_ext; [|auto]. intros p Hp. apply Old. right. apply removelast_incl in Hp. exact Hp.
Qed.
End Order.
