(** Properties of the eigenvalue programs: C124, C125. *)
From Verif Require Import VS Status RunTac Static StaticRun Eigen EigenProg Props_Eigen.
Local Open Scope R_scope.
Lemma firstN_spec {A} n : forall l r : list A, firstN n l = Some r -> length r = n /\ (n <= length l)%nat /\ forall k, (k < n)%nat -> nth_error r k = nth_error l k.
Proof.
  induction n as [|n IH]; intros l r; cbn.
  - intros H. injection H as <-. repeat split; [lia|]. intros; lia.
  - destruct l as [|x l]; [discriminate|]. destruct (firstN n l) as [r'|] eqn:E; [|discriminate]. intros H. injection H as <-.
    destruct (IH l r' E) as (A1 & A2 & A3). cbn. repeat split; [lia|lia|]. intros [|k] Hk; [reflexivity|]. cbn. apply A3. lia.
Qed.
Lemma firstN_some {A} n : forall l : list A, (n <= length l)%nat -> exists r, firstN n l = Some r.
Proof. induction n as [|n IH]; intros [|x l] H; cbn in *; eauto; try lia. destruct (IH l ltac:(lia)) as (r & ->). eauto. Qed.
(** the state after a successful computation holds as many vectors as values *)
Lemma report_done {S : VS} plotN write (r : run (est S) status) out : report plotN write r = PDone out ->
  exists s, r = Done Success s /\ length (sh_print out) = 10%nat /\ (10 <= length (e_vals s))%nat /\
    (forall k, (k < 10)%nat -> nth_error (sh_print out) k = nth_error (e_vals s) k) /\
    sh_write out = (if write then e_vals s else []) /\
    (match plotN with None => sh_plot out = [] | Some n => length (sh_plot out) = n /\ (n <= length (e_vecs s))%nat /\ forall k, (k < n)%nat -> nth_error (sh_plot out) k = nth_error (e_vecs s) k end).
Proof.
  unfold report. destruct r as [q s|]; [|discriminate]. destruct q; try discriminate. destruct (firstN 10 (e_vals s)) as [a|] eqn:E1; [|discriminate].
  destruct (match plotN with Some n => firstN n (e_vecs s) | None => Some [] end) as [b|] eqn:E2; [|discriminate]. intros H. injection H as <-. exists s. split; [reflexivity|].
  destruct (firstN_spec _ _ _ E1) as (A1 & A2 & A3). cbn [sh_print sh_plot sh_write]. repeat (split; [assumption || reflexivity|]).
  destruct plotN as [n|]; [|injection E2 as <-; reflexivity]. apply firstN_spec. exact E2.
Qed.
(** a successful computation leaves values and vectors of the same number, at most [number] if the library gives no more *)
Definition atMost {S : VS} (L : elib S) : Prop :=
  (forall m A B n c a t b l, (0 <= n)%Z -> l_gen L m A B n c a t b = Yes (CSuccessful, l) -> (Z.of_nat (length l) <= n)%Z) /\
  (forall m A B n c h a t b l, (0 <= n)%Z -> l_shift L m A B n c h a t b = Yes (CSuccessful, l) -> (Z.of_nat (length l) <= n)%Z).
Lemma sparse_lengths {S : VS} (L : elib S) spectra o n s s' : e_stat s <> AssemblyError -> eSparse L spectra o n s = Done Success s' ->
  length (e_vals s') = length (e_vecs s') /\ (atMost L -> (0 <= n)%Z -> (Z.of_nat (length (e_vals s')) <= n)%Z).
Proof.
  intros NA H.
  assert (I : forall m, eImpl L o m n s = Done Success s' -> length (e_vals s') = length (e_vecs s') /\ (atMost L -> (0 <= n)%Z -> (Z.of_nat (length (e_vals s')) <= n)%Z)).
  { intros m E. unfold eImpl in E. destruct m.
    1,2: match type of E with context [l_gen ?a ?b ?c ?d ?e ?f ?g ?h ?i] => destruct (l_gen a b c d e f g h i) as [[[] l]| |] eqn:EL end; try discriminate;
      injection E as <-; unfold addShift; cbn [eStat eOut e_vals e_vecs]; rewrite !map_length; split; [reflexivity|]; intros (A & _) Hn; eapply A; eassumption.
    all: match type of E with context [l_shift ?a ?b ?c ?d ?e ?f ?g ?h ?i ?j] => destruct (l_shift a b c d e f g h i j) as [[[] l]| |] eqn:EL end; try discriminate;
      injection E as <-; cbn [eStat eOut e_vals e_vecs]; rewrite !map_length; split; [reflexivity|]; intros (_ & A) Hn; eapply A; eassumption. }
  unfold eSparse in H. destruct (e_stat s); try contradiction;
    (destruct spectra; cbn [negb] in H; [|discriminate];
     destruct (Z.eqb _ 0); [eapply I; eassumption|]; destruct (Z.eqb _ 1); [eapply I; eassumption|]; destruct (Z.eqb _ 2); [eapply I; eassumption|];
     destruct (Z.eqb _ 3); [eapply I; eassumption|]; destruct (Z.eqb _ 4); [eapply I; eassumption|]; discriminate).
Qed.
Lemma compute_lengths {S : VS} (L : elib S) o s s' : e_stat s <> AssemblyError -> eCompute L o s = Done Success s' -> length (e_vals s') = length (e_vecs s').
Proof.
  intros NA H. unfold eCompute in H. destruct (e_stat s); try contradiction;
    (destruct (l_dense L _ _) as [l| |]; try discriminate; injection H as <-; unfold addShift; cbn [eStat eOut e_vals e_vecs]; rewrite !map_length; reflexivity).
Qed.
(** every entry is the value of a mode of the pencil (A, B); [l] plots and values belong together *)
Definition pairsOf {S : VS} (A B : S -> S) (vals : list (option R)) : Prop := forall k x, nth_error vals k = Some x -> exists y v, x = Some y /\ A v = y *v B v.

(** ** C124 *)
(** If modal_shell_XML or its multipatch variant ends normally, ten eigenvalues are printed, each with an eigenvector of the
    stiffness and mass matrices; with the option plot, nmodes shapes are plotted, and the k-th belongs to the k-th value
    (printed if k < 10); with the option write all values are written. The same for the two examples. *)
Theorem C124_modal_partial {S : VS} (L : elib S) spectra o K M out :
  libOK L ->
  ((exists nmodes plot write, modalProg L spectra o nmodes plot write K M = PDone out) \/ (exists sparse plot first write, modalExample L spectra o sparse plot first write K M = PDone out)) ->
  length (sh_print out) = 10%nat /\ pairsOf K M (sh_print out) /\ pairsOf K M (sh_write out) /\
  (sh_write out = [] \/ forall k, (k < 10)%nat -> nth_error (sh_print out) k = nth_error (sh_write out) k) /\
  forall k v x, nth_error (sh_plot out) k = Some v -> nth_error (sh_print out) k = Some x -> exists y, x = Some y /\ K v = y *v M v.
Proof.
  intros OK H.
  assert (G : exists plotN write r, report plotN write r = PDone out /\ forall s, r = Done Success s ->
    length (e_vals s) = length (e_vecs s) /\ forall k x v, eMode k s = Some (x, v) -> exists y, x = Some y /\ K v = y *v M v).
  { destruct H as [(n & pl & w & H)|(sp & pl & fi & w & H)].
    - unfold modalProg in H. exists (if pl then Some n else None), w. eexists. split; [exact H|]. intros s E. split; [eapply sparse_lengths; [|exact E]; discriminate|].
      intros k x v Ek. destruct (C57_spectrum L spectra o (Z.of_nat n) (modalNew K M) s k x v OK ltac:(discriminate) (or_intror E) Ek) as (y & A1 & A2 & _). eauto.
    - unfold modalExample in H. cbv zeta in H. eexists _, w, _. split; [exact H|]. intros s E. destruct sp.
      + split; [eapply sparse_lengths; [|exact E]; discriminate|].
        intros k x v Ek. destruct (C57_spectrum L spectra o 10 (modalNew K M) s k x v OK ltac:(discriminate) (or_intror E) Ek) as (y & A1 & A2 & _). eauto.
      + split; [eapply compute_lengths; [|exact E]; discriminate|].
        intros k x v Ek. destruct (C57_spectrum L spectra o 10 (modalNew K M) s k x v OK ltac:(discriminate) (or_introl E) Ek) as (y & A1 & A2 & _). eauto. }
  destruct G as (pn & w & r & HR & GP). destruct (report_done _ _ _ _ HR) as (s & -> & A1 & A2 & A3 & A4 & A5). destruct (GP s eq_refl) as (LE & PR).
  assert (PV : pairsOf K M (e_vals s)).
  { intros k x E. assert (Hk : (k < length (e_vecs s))%nat) by (rewrite <- LE; apply nth_error_Some; congruence).
    destruct (nth_error (e_vecs s) k) as [v|] eqn:V; [|apply nth_error_None in V; lia]. destruct (PR k x v) as (y & Y1 & Y2); [unfold eMode; rewrite E, V; reflexivity|]. eauto. }
  assert (K10 : forall k x, nth_error (sh_print out) k = Some x -> (k < 10)%nat) by (intros k x E; rewrite <- A1; apply nth_error_Some; congruence).
  split; [exact A1|]. split; [|split; [|split]].
  - intros k x E. apply (PV k). rewrite <- A3 by (eapply K10; exact E). exact E.
  - rewrite A4. destruct w; [exact PV|]. intros [|k] x E; discriminate.
  - rewrite A4. destruct w; [right; exact A3|left; reflexivity].
  - intros k v x E1 E2. destruct pn as [n|]; [|rewrite A5 in E1; destruct k; discriminate]. destruct A5 as (B1 & B2 & B3).
    assert (Hk : (k < n)%nat) by (rewrite <- B1; apply nth_error_Some; congruence).
    rewrite B3 in E1 by exact Hk. rewrite A3 in E2 by (eapply K10; exact E2). apply (PR k). unfold eMode. rewrite E1, E2. reflexivity.
Qed.
Print Assumptions C124_modal_partial.
(** Refuted: with fewer than ten modes (the default of nmodes is 1) neither of the four programs ends normally, whatever
    the matrices: a library that gives no more values than asked for leaves less than ten, and the loop that prints reads behind them. *)
Theorem C124_refuted {S : VS} (L : elib S) spectra o nmodes plot write K M multi cg F jac out : atMost L -> (nmodes < 10)%nat ->
  modalProg L spectra o nmodes plot write K M <> PDone out /\ bucklingProg L multi spectra o nmodes plot write cg K F jac <> PDone out /\
  forall s, eSparse L spectra o (Z.of_nat nmodes) (modalNew K M) = Done Success s -> modalProg L spectra o nmodes plot write K M = PUndef.
Proof.
  intros AM Hn.
  assert (G : forall s pn, e_stat s <> AssemblyError -> report pn write (eSparse L spectra o (Z.of_nat nmodes) s) <> PDone out).
  { intros s pn NA H. destruct (report_done _ _ _ _ H) as (s' & E & _ & A & _). destruct (sparse_lengths L spectra o _ s s' NA E) as (_ & B). specialize (B AM ltac:(lia)). lia. }
  split; [apply G; discriminate|]. split.
  - unfold bucklingProg. destruct (jac (cg K F)) as [[] [m|]|]; try discriminate. apply G. discriminate.
  - intros s E. unfold modalProg, report. rewrite E. destruct (sparse_lengths L spectra o (Z.of_nat nmodes) (modalNew K M) s ltac:(discriminate) E) as (_ & B). specialize (B AM ltac:(lia)).
    destruct (firstN 10 (e_vals s)) as [r|] eqn:E1; [|reflexivity]. destruct (firstN_spec _ _ _ E1) as (_ & A & _). lia.
Qed.
Print Assumptions C124_refuted.
(** one-dimensional problems: the library gives the eigenpair as often as asked for *)
Definition lib10 : elib VS_R := mkL (S := VS_R) (fun _ _ => No)
  (fun m A B n _ _ _ _ => if Reqb (B 1) 0 then Throws XOther else if Reqb (A 1) (A 1 / B 1 * B 1) then Yes (CSuccessful, repeat (A 1 / B 1, 1 : VS_R) (Z.to_nat n)) else Throws XOther)
  (fun m A B _ _ _ _ _ _ => Yes (CNotConverging, [])) (fun _ => None) (fun A b => if Reqb (A 1) 0 then None else Some (b / A 1)).
Lemma lib10_ok : libOK lib10.
Proof.
  split; cbn; intros; try discriminate.
  destruct (Reqb (B 1) 0); [discriminate|]. destruct (Reqb _ _) eqn:E; [|discriminate]. injection H as <-. apply repeat_spec in H0. injection H0 as -> ->. apply Reqb_true in E. exact E.
Qed.
Lemma lib10_atMost : atMost lib10.
Proof.
  split; cbn [lib10 l_gen l_shift]; [|discriminate]. intros m A B n _ _ _ _ l Hn H.
  destruct (Reqb (B 1) 0); [discriminate H|]. destruct (Reqb _ _); [|discriminate H]. injection H as <-. rewrite repeat_length. lia.
Qed.
Lemma lib10_eval nmodes (A B : VS_R -> VS_R) a b : a <> 0 -> b <> 0 -> (forall x, A x = a * x) -> (forall x, B x = b * x) -> exists y, y = a / b /\
  eSparse lib10 true (eo 0 0) (Z.of_nat nmodes) (modalNew (S := VS_R) A B) = Done Success (eStat Success (eOut (S := VS_R) (repeat (y, 1) nmodes) (modalNew (S := VS_R) A B))).
Proof.
  intros Ha Hb HA HB. exists (a / b). split; [reflexivity|]. unfold eSparse. cbn [e_stat modalNew negb Z.eqb eo_solver eo]. unfold eImpl, shifted. cbn [l_gen lib10 eo_shift eo e_B e_A modalNew].
  rewrite (proj2 (Reqb_true 0 0)) by reflexivity. rewrite HB, HA. rewrite (proj2 (Reqb_false (b * 1) 0)) by lra.
  match goal with |- context [Reqb ?u ?v] => rewrite (proj2 (Reqb_true u v)) by (field; lra) end. rewrite Nat2Z.id. unfold addShift.
  do 3 f_equal. induction nmodes as [|n IH]; [reflexivity|]. cbn [repeat map fst snd]. f_equal; [f_equal; field; exact Hb|exact IH].
Qed.
Example C124_example : libOK lib10 /\ atMost lib10 /\ exists out, modalProg lib10 true (eo 0 0) 10 true true (fun x : VS_R => 6 * x) (fun x => 2 * x) = PDone out /\
  sh_print out = repeat (Some (6 / 2)) 10 /\ sh_plot out = repeat 1 10 /\ sh_write out = sh_print out /\
  modalProg lib10 true (eo 0 0) 1 false false (fun x : VS_R => 6 * x) (fun x => 2 * x) = PUndef.
Proof.
  split; [exact lib10_ok|]. split; [exact lib10_atMost|]. unfold modalProg.
  destruct (lib10_eval 10 (fun x => 6 * x) (fun x => 2 * x) 6 2 ltac:(lra) ltac:(lra) ltac:(reflexivity) ltac:(reflexivity)) as (y & -> & ->).
  destruct (lib10_eval 1 (fun x => 6 * x) (fun x => 2 * x) 6 2 ltac:(lra) ltac:(lra) ltac:(reflexivity) ltac:(reflexivity)) as (z & -> & ->).
  eexists. split; [reflexivity|]. repeat split.
Qed.

(** ** C125 *)
(** If the Jacobian is the linear stiffness plus a part that grows in proportion to the displacement, every value y printed by
    buckling_shell_XML belongs to a load factor -y at which the tangent stiffness along the linear solution is singular. The
    values printed by the multipatch variant do not: the load factor that belongs to y is -y / (1 + y). *)
Theorem C125_loads_partial {S : VS} (L : elib S) multi spectra o nmodes plot write cg KL F jac u1 (G : S -> S) out k x :
  libOK L -> cg KL F = u1 -> (forall c, jac (c *v u1) = JDone true (Some (fun w => KL w +v c *v G w))) ->
  bucklingProg L multi spectra o nmodes plot write cg KL F jac = PDone out -> nth_error (sh_print out) k = Some x ->
  exists y v, x = Some y /\ (plot = true -> (k < nmodes)%nat -> nth_error (sh_plot out) k = Some v) /\
    (multi = true -> y = -1 -> G v = v0) /\
    (multi = false \/ y <> -1 -> let load := if multi then - (y / (1 + y)) else - y in exists m, jac (load *v u1) = JDone true (Some m) /\ m v = v0).
Proof.
  intros OK HU HJ HP HX. unfold bucklingProg in HP. rewrite HU in HP. replace u1 with (1 *v u1) in HP by vring. rewrite HJ in HP. cbv zeta in HP.
  set (KNL := if multi then _ else _) in HP.
  destruct (report_done _ _ _ _ HP) as (s & E & A1 & A2 & A3 & A4 & A5).
  assert (Hk : (k < 10)%nat) by (rewrite <- A1; apply nth_error_Some; congruence). rewrite A3 in HX by exact Hk.
  destruct (sparse_lengths L spectra o (Z.of_nat nmodes) (bucklingNew0 KL KNL) s ltac:(discriminate) E) as (LE & _).
  assert (Hv : (k < length (e_vecs s))%nat) by (rewrite <- LE; apply nth_error_Some; congruence).
  destruct (nth_error (e_vecs s) k) as [v|] eqn:V; [|apply nth_error_None in V; lia].
  assert (EM : eMode k s = Some (x, v)) by (unfold eMode; rewrite HX, V; reflexivity).
  destruct (C57_spectrum L spectra o (Z.of_nat nmodes) (bucklingNew0 KL KNL) s k x v OK ltac:(discriminate) (or_intror E) EM) as (y & -> & EQ & _). cbn [bucklingNew0 e_A e_B] in EQ.
  exists y, v. split; [reflexivity|]. split; [|split].
  - intros -> Hn. destruct A5 as (_ & _ & A5). rewrite A5 by exact Hn. exact V.
  - intros -> ->. unfold KNL in EQ. match type of EQ with _ = ?rhs => transitivity (KL v -v rhs); [vring|rewrite <- EQ; vring] end.
  - intros Hm. cbv zeta. eexists. split; [apply HJ|]. cbv beta. unfold KNL in EQ. destruct multi.
    + destruct Hm as [Hm|Hm]; [discriminate|]. assert (Hm' : 1 + y <> 0) by lra.
      assert (EQ2 : (1 + y) *v KL v = y *v G v).
      { transitivity (KL v +v y *v KL v); [vring|]. rewrite EQ at 1. vring. }
      transitivity ((/ (1 + y)) *v ((1 + y) *v KL v -v y *v G v)); [|rewrite EQ2; vring]. vfield. lra.
    + rewrite EQ. vring.
Qed.
Print Assumptions C125_loads_partial.
(** Refuted: a structure whose tangent is 6 - 3 c along the linear solution (zero at c = 2). buckling_shell_XML prints -2, the
    multipatch variant -2/3. *)
Definition exBuckle : VS_R -> jans VS_R := fun u => JDone (S := VS_R) true (Some (fun w => 6 * w + u * (-3 * w))).
Theorem C125_refuted : exists out out', let cg := fun (A : VS_R -> VS_R) b => b / A 1 in
  bucklingProg lib10 false true (eo 0 0) 10 false false cg (fun w : VS_R => 6 * w) (6 : VS_R) exBuckle = PDone out /\
  bucklingProg lib10 true true (eo 0 0) 10 false false cg (fun w : VS_R => 6 * w) (6 : VS_R) exBuckle = PDone out' /\
  (exists y, nth_error (sh_print out) 0 = Some (Some y) /\ y = -2) /\ (exists y, nth_error (sh_print out') 0 = Some (Some y) /\ y = -2/3) /\
  exists m, exBuckle 2 = JDone (S := VS_R) true (Some m) /\ m 1 = 0.
Proof.
  unfold bucklingProg. cbv zeta. unfold exBuckle. cbv iota. change (@bucklingNew0) with (fun (S : VS) (A N : S -> S) => modalNew A (fun x => N x -v A x)). cbv beta.
  match goal with |- context [modalNew ?A ?B] => destruct (lib10_eval 10 A B 6 (-3) ltac:(lra) ltac:(lra) ltac:(reflexivity) ltac:(intros; cbn; field)) as (y & Ey & ->) end.
  match goal with |- context [eSparse _ _ _ _ (modalNew ?A ?B)] => destruct (lib10_eval 10 A B 6 (-9) ltac:(lra) ltac:(lra) ltac:(reflexivity) ltac:(intros; cbn; field)) as (z & Ez & ->) end.
  eexists. eexists. split; [reflexivity|]. split; [reflexivity|]. split; [eexists; split; [reflexivity|rewrite Ey; cbn [fst]; field]|]. split; [eexists; split; [reflexivity|rewrite Ez; cbn [fst]; field]|].
  eexists. split; [reflexivity|]. cbn. lra.
Qed.
Print Assumptions C125_refuted.
Example C125_example : libOK lib10 /\ (let cg := fun (A : VS_R -> VS_R) b => b / A 1 in cg (fun w => 6 * w) 6 = 1) /\
  forall c, exBuckle (c * 1) = JDone (S := VS_R) true (Some (fun w => 6 * w + c * 1 * (-3 * w))).
Proof. split; [exact lib10_ok|]. split; [cbv zeta; change (6 / (6 * 1) = 1 :> R); field|reflexivity]. Qed.
