(** Properties of the tools: C60-C62, C81. *)
From Verif Require Import Tools.
Local Open Scope R_scope.

(** ** C60 *)
(** adds after an init, none of which fails an assertion; every matrix has one column per point and
    all columns have as many entries as the matrix has rows *)
Inductive Adds (debug : bool) : outp -> outp -> Prop :=
| AddsNil s : Adds debug s s
| AddsCons s rows pts other s1 s2 : outAdd debug rows pts other s = Some s1 -> (forall c, In c pts -> length c = rows) -> length pts = o_points s ->
    Adds debug s1 s2 -> Adds debug s s2
| AddsPrec s n s2 : Adds debug (outPrec n s) s2 -> Adds debug s s2.
Lemma flat_length {A B} (f : A -> list B) l n : (forall x, In x l -> length (f x) = n) -> length (flat_map f l) = (length l * n)%nat.
Proof. induction l as [|a l IH]; intros H; cbn; [reflexivity|]. rewrite app_length, H, IH; [reflexivity| |left; reflexivity]. intros x I. apply H. right. exact I. Qed.
(** With the assertions on, and as many columns as points: every row has as many cells as the
    header. *)
Theorem C60_rectangular_partial ph oh s s' r :
  Adds true (outInit ph oh s) s' -> In r (f_rows (o_file s')) ->
  length r = (o_points s * length ph + length oh)%nat /\ f_cur (o_file s') = [].
Proof.
  intros H.
  assert (G : forall s1, Adds true s1 s' -> o_points s1 = o_points s -> o_nP s1 = length ph -> o_nO s1 = length oh -> f_cur (o_file s1) = [] ->
    (forall r, In r (f_rows (o_file s1)) -> length r = (o_points s * length ph + length oh)%nat) ->
    (forall r, In r (f_rows (o_file s')) -> length r = (o_points s * length ph + length oh)%nat) /\ f_cur (o_file s') = []).
  { clear H r. intros s1 H. induction H as [s1|s1 rows pts other s2 s3 E HC HP H IH|s1 n s3 H IH]; intros P1 P2 P3 P4 P5.
    - auto.
    - unfold outAdd in E. destruct ((rows =? o_nP s1)%nat) eqn:E1; cbn in E; [|discriminate]. destruct ((length other =? o_nO s1)%nat) eqn:E2; cbn in E; [|discriminate].
      apply Nat.eqb_eq in E1, E2. injection E as <-. apply IH; cbn; auto.
      intros r I. apply in_app_iff in I. destruct I as [I|[<-|[]]]; [apply P5; exact I|]. rewrite P4. cbn [app].
      rewrite app_length, map_length, (flat_length _ _ rows) by (intros c I; rewrite map_length; apply HC; exact I). rewrite HP, P1, E1, E2, P2, P3. reflexivity.
    - apply IH; cbn; auto. }
  destruct (G _ H) as [A B]; cbn; auto.
  intros r0 [<-|[]]. rewrite app_length, map_length, (flat_length _ _ (length ph)) by (intros; apply map_length). rewrite seq_length. reflexivity.
Qed.
Print Assumptions C60_rectangular_partial.
Example C60_example : exists s1, let s0 := outInit ["ux"; "uy"]%string ["load"]%string (outNew 2 fempty) in
  outAdd true 2 [[1; 2]; [3; 4]] [5] s0 = Some s1 /\ Adds true s0 s1 /\ map (@length _) (f_rows (o_file s1)) = [5; 5]%nat.
Proof.
  eexists. cbv zeta. split; [reflexivity|]. split; [|reflexivity]. eapply (AddsCons _ _ 2 [[1; 2]; [3; 4]] [5]); [reflexivity| |reflexivity|apply AddsNil].
  intros c [<-|[<-|[]]]; reflexivity.
Qed.
(** Refuted: the number of columns is not compared with the number of points: with one point in the
    header and data of two, the assertions hold and the row is longer than the header. The
    same for an object without points, and without assertions for any sizes. *)
Theorem C60_refuted : exists s1, outAdd true 1 [[1]; [2]] [] (outInit ["ux"]%string [] (outNew 1 fempty)) = Some s1 /\
  map (@length _) (f_rows (o_file s1)) = [1; 2]%nat.
Proof. eexists. split; reflexivity. Qed.
Print Assumptions C60_refuted.

(** ** C81 *)
(** The precision has no effect: every value in the file has six digits, whatever was set. *)
Theorem C81_digits debug s0 s' : Adds debug s0 s' -> (forall r c, In r (f_rows (o_file s0)) -> In c r -> match c with Val _ d => d = 6%nat | _ => True end) ->
  f_cur (o_file s0) = [] ->
  forall r c, In r (f_rows (o_file s')) -> In c r -> match c with Val _ d => d = 6%nat | _ => True end.
Proof.
  intros H. induction H as [s1|s1 rows pts other s2 s3 E HC HP H IH|s1 n s3 H IH]; intros P Q.
  - exact P.
  - unfold outAdd in E. destruct (_ && _)%bool; [discriminate|]. injection E as <-. apply IH; [|reflexivity]. cbn.
    intros r c I J. apply in_app_iff in I. destruct I as [I|[<-|[]]]; [exact (P r c I J)|]. rewrite Q in J. cbn in J.
    apply in_app_iff in J. destruct J as [J|J].
    + apply in_flat_map in J. destruct J as (x & _ & J). apply in_map_iff in J. destruct J as (y & <- & _). reflexivity.
    + apply in_map_iff in J. destruct J as (y & <- & _). reflexivity.
  - apply IH; [exact P|exact Q].
Qed.
Print Assumptions C81_digits.
Theorem C81_refuted : exists s1, outAdd true 1 [[1]] [] (outInit ["ux"]%string [] (outPrec 12 (outNew 1 fempty))) = Some s1 /\
  o_prec s1 = 12%nat /\ In [Val 1 6] (f_rows (o_file s1)).
Proof. eexists. split; [reflexivity|]. split; [reflexivity|]. right. left. reflexivity. Qed.

(** ** C61 *)
(** equality of two multi-patches with concrete patches, coordinate by coordinate *)
Ltac peq := repeat lazymatch goal with |- @eq R _ _ => lra | _ => progress f_equal end.
Ltac meq := unfold PanelT, PanelStrip, PanelL, LBeam, TBeam, IBeam, Plate, Strip, mMap, mJoin, ptMap, shiftPt, swapPt; cbn; peq.
Theorem C61_translation_partial dx dy dz :
  (forall L W x y z, Plate L W (x + dx) (y + dy) (z + dz) = mMap (shiftPt dx dy dz) (Plate L W x y z)) /\
  (forall L H x y z, Strip L H (x + dx) (y + dy) (z + dz) = mMap (shiftPt dx dy dz) (Strip L H x y z)) /\
  (forall L H W x y z, IBeam L H W (x + dx) (y + dy) (z + dz) = mMap (shiftPt dx dy dz) (IBeam L H W x y z)) /\
  (forall L H W x y z, TBeam L H W (x + dx) (y + dy) (z + dz) = mMap (shiftPt dx dy dz) (TBeam L H W x y z)) /\
  (forall L H W x y z, LBeam L H W (x + dx) (y + dy) (z + dz) = mMap (shiftPt dx dy dz) (LBeam L H W x y z)) /\
  (forall L W H F x y z, PanelT L W H F (x + dx) (y + dy) (z + dz) = mMap (shiftPt dx dy dz) (PanelT L W H F x y z)) /\
  (forall L W H x y z, PanelStrip L W H (x + dx) (y + dy) (z + dz) = mMap (shiftPt dx dy dz) (PanelStrip L W H x y z)) /\
  (forall L W H F x y z, PanelL L W H F (x + dx) (y + dy) (z + dz) = mMap (shiftPt dx dy dz) (PanelL L W H F x y z)).
Proof. repeat split; intros; meq. Qed.
Print Assumptions C61_translation_partial.
(** Refuted: PlateGirderL ignores its origin. *)
Theorem C61_refuted : exists Lp Wp Hwg Wfg Hws Wfs,
  PlateGirderL Lp Wp Hwg Wfg Hws Wfs (0 + 1) (0 + 0) (0 + 0) <> mMap (shiftPt 1 0 0) (PlateGirderL Lp Wp Hwg Wfg Hws Wfs 0 0 0).
Proof.
  exists 2, 2, 2, 2, 1, (1/2). intros H. apply (f_equal (fun m => fst (fst (c0 (hd (mkP (0,0,0) (0,0,0) (0,0,0) (0,0,0)) (m_patches m)))))) in H. cbn in H. lra.
Qed.
Print Assumptions C61_refuted.
Example C61_example : m_patches (PanelStrip 4 2 1 10 20 30) =
  [mkP (10, 20, 30) (14, 20, 30) (10, 21, 30) (14, 21, 30); mkP (10, 19, 30) (14, 19, 30) (10, 20, 30) (14, 20, 30); mkP (10, 20, 30) (14, 20, 30) (10, 20, 31) (14, 20, 31)].
Proof. meq. Qed.

(** ** C62 *)
(** the two sides exist and have the same end points *)
Definition joined (m : mpatch) (f : nat * nat * (nat * nat)) : Prop :=
  let '((p, s), (q, t)) := f in
  exists a b, nth_error (m_patches m) p = Some a /\ nth_error (m_patches m) q = Some b /\ p <> q /\
    sideOf s a <> None /\ (sideOf s a = sideOf t b \/ sideOf s a = option_map (fun e => (snd e, fst e)) (sideOf t b)).
(** patches reachable from patch 0 over a list of joints *)
Inductive linked (l : list (nat * nat * (nat * nat))) : nat -> Prop :=
| LkO : linked l 0
| LkR p s q t : In ((p, s), (q, t)) l -> linked l p -> linked l q
| LkL p s q t : In ((p, s), (q, t)) l -> linked l q -> linked l p.
Open Scope nat_scope.
(** the joints the shapes are meant to have: (patch, side) - (patch, side) *)
Definition jI := [((0,4),(1,3)); ((0,4),(2,4)); ((1,3),(2,4)); ((0,3),(3,3)); ((0,3),(4,4)); ((3,3),(4,4))].
Definition jT := [((0,4),(1,3)); ((0,4),(2,4)); ((1,3),(2,4))].
Definition jL := [((0,4),(1,3))].
Definition jPT := [((0,3),(1,4)); ((2,3),(0,3)); ((2,3),(1,4)); ((2,4),(3,3)); ((2,4),(4,4)); ((3,3),(4,4))].
Definition jPS := [((0,3),(1,4)); ((2,3),(0,3)); ((2,3),(1,4))].
Definition jPL := [((0,4),(1,3)); ((1,4),(2,3)); ((3,3),(0,4)); ((3,3),(1,3)); ((3,4),(4,3))].
Definition jG := [((0,4),(1,3)); ((1,4),(2,3)); ((3,4),(4,3)); ((4,4),(5,3)); ((0,1),(3,2)); ((1,1),(4,2)); ((2,1),(5,2));
  ((6,3),(1,3)); ((6,4),(7,3)); ((8,3),(4,3)); ((8,4),(9,3)); ((6,1),(8,2)); ((7,1),(9,2));
  ((19,3),(1,1)); ((19,4),(7,1)); ((19,4),(10,3)); ((19,1),(6,1)); ((10,4),(11,3)); ((10,4),(12,4));
  ((20,3),(2,1)); ((20,4),(13,3)); ((20,1),(19,2)); ((13,4),(14,3)); ((13,4),(15,4)); ((13,1),(10,2));
  ((21,3),(0,1)); ((21,4),(16,3)); ((21,2),(19,1)); ((16,4),(17,3)); ((16,4),(18,4)); ((16,2),(10,1));
  ((11,2),(14,1)); ((12,2),(15,1)); ((11,1),(17,2)); ((12,1),(18,2))].
Close Scope nat_scope.
Ltac jn := unfold joined; eexists _, _; split; [reflexivity|]; split; [reflexivity|]; split; [discriminate|]; split; [discriminate|];
  unfold mMap, mJoin, ptMap, shiftPt, swapPt; cbn; left; peq.
(** Whatever the sizes and the origin, at these joints the sides of the patches coincide, and the
    joints connect all patches of the shape. *)
Theorem C62_joints_partial :
  (forall L H W x y z, Forall (joined (IBeam L H W x y z)) jI) /\
  (forall L H W x y z, Forall (joined (TBeam L H W x y z)) jT) /\
  (forall L H W x y z, Forall (joined (LBeam L H W x y z)) jL) /\
  (forall L W H F x y z, Forall (joined (PanelT L W H F x y z)) jPT) /\
  (forall L W H x y z, Forall (joined (PanelStrip L W H x y z)) jPS) /\
  (forall L W H F x y z, Forall (joined (PanelL L W H F x y z)) jPL) /\
  (forall Lp Wp Hwg Wfg Hws Wfs x y z, Forall (joined (PlateGirderL Lp Wp Hwg Wfg Hws Wfs x y z)) jG).
Proof. repeat split; intros; repeat (constructor; [jn|]); constructor. Qed.
Print Assumptions C62_joints_partial.
Fixpoint reach (l : list (nat * nat * (nat * nat))) (k : nat) (seen : list nat) : list nat :=
  match k with O => seen | S k =>
    reach l k (fold_left (fun seen f => let '((p, _), (q, _)) := f in
      if existsb (Nat.eqb p) seen then q :: seen else if existsb (Nat.eqb q) seen then p :: seen else seen) l seen) end.
Lemma reach_linked l k : forall seen, (forall q, In q seen -> linked l q) -> forall q, In q (reach l k seen) -> linked l q.
Proof.
  induction k as [|k IH]; intros seen H q I; cbn in I; [exact (H q I)|]. apply IH in I; [exact I|]. clear IH I q.
  assert (G : forall l', incl l' l -> forall seen, (forall q, In q seen -> linked l q) -> forall q,
    In q (fold_left (fun seen f => let '((p, _), (q, _)) := f in
      if existsb (Nat.eqb p) seen then q :: seen else if existsb (Nat.eqb q) seen then p :: seen else seen) l' seen) -> linked l q).
  { induction l' as [|[[p s] [q t]] l' IH]; intros I sn HS r J; cbn [fold_left] in J; [exact (HS r J)|].
    apply IH in J; [exact J|intros x X; apply I; right; exact X|]. intros r' J'.
    destruct (existsb (Nat.eqb p) sn) eqn:E1; [|destruct (existsb (Nat.eqb q) sn) eqn:E2; [|exact (HS r' J')]].
    - destruct J' as [<-|J']; [|exact (HS r' J')]. apply existsb_exists in E1. destruct E1 as (x & X1 & X2). apply Nat.eqb_eq in X2. subst x.
      eapply LkR; [apply I; left; reflexivity|exact (HS p X1)].
    - destruct J' as [<-|J']; [|exact (HS r' J')]. apply existsb_exists in E2. destruct E2 as (x & X1 & X2). apply Nat.eqb_eq in X2. subst x.
      eapply LkL; [apply I; left; reflexivity|exact (HS q X1)]. }
  apply G; [apply incl_refl|exact H].
Qed.
(** all patches below [n] are found *)
Lemma all_linked l n : forallb (fun p => existsb (Nat.eqb p) (reach l 4 [O])) (seq 0 n) = true -> forall p, (p < n)%nat -> linked l p.
Proof.
  intros H p L. rewrite forallb_forall in H. specialize (H p). rewrite existsb_exists in H. destruct H as (x & I & E).
  - apply in_seq. lia.
  - apply Nat.eqb_eq in E. subst x. apply (reach_linked l 4 [O]); [|exact I]. intros q [<-|[]]. constructor.
Qed.
Theorem C62_connected_partial :
  (forall L H W x y z p, (p < length (m_patches (IBeam L H W x y z)))%nat -> linked jI p) /\
  (forall L H W x y z p, (p < length (m_patches (TBeam L H W x y z)))%nat -> linked jT p) /\
  (forall L W H F x y z p, (p < length (m_patches (PanelT L W H F x y z)))%nat -> linked jPT p) /\
  (forall L W H x y z p, (p < length (m_patches (PanelStrip L W H x y z)))%nat -> linked jPS p) /\
  (forall L W H F x y z p, (p < length (m_patches (PanelL L W H F x y z)))%nat -> linked jPL p) /\
  (forall Lp Wp Hwg Wfg Hws Wfs x y z p, (p < length (m_patches (PlateGirderL Lp Wp Hwg Wfg Hws Wfs x y z)))%nat -> linked jG p).
Proof.
  repeat split; intros; match goal with |- linked ?l ?p => refine (all_linked l _ _ p ltac:(eassumption)); vm_compute; reflexivity end.
Qed.
Print Assumptions C62_connected_partial.
(** Refuted: the interface that LBeam declares joins the upper side of the web with the short side
    of the flange. *)
Theorem C62_refuted : exists L H W, ~ Forall (joined (LBeam L H W 0 0 0)) (m_faces (LBeam L H W 0 0 0)).
Proof.
  exists 3, 2, 1. intros F. inversion F as [|? ? J]; subst. destruct J as (a & b & A & B & _ & _ & [E|E]); cbn in A, B; injection A as <-; injection B as <-; cbn in E; injection E; intros; lra.
Qed.
Print Assumptions C62_refuted.
