(** Properties of the eigenvalue solvers: C57-C59, C79, C80. *)
From Verif Require Import VS Status RunTac Static StaticRun Eigen.
Local Open Scope R_scope.

(** (x, v) solves A v = x B v *)
Definition pair_of {S : VS} (A B : S -> S) (x : R) (v : S) : Prop := A v = x *v B v.
(** the library gives eigenpairs of the matrices it gets *)
Record libOK {S : VS} (L : elib S) : Prop := {
  ok_dense : forall A B l x v, l_dense L A B = Yes l -> In (x, v) l -> pair_of A B x v;
  ok_gen : forall m A B n c a t b l x v, l_gen L m A B n c a t b = Yes (CSuccessful, l) -> In (x, v) l -> pair_of A B x v;
  ok_shift : forall m A B n c h a t b l x v, l_shift L m A B n c h a t b = Yes (CSuccessful, l) -> In (x, v) l -> pair_of A B x v }.
Lemma mode_out {S : VS} q (l : list (R * S)) s k x v : eMode k (eStat q (eOut l s)) = Some (x, v) -> exists y, x = Some y /\ In (y, v) l.
Proof.
  unfold eMode. cbn [e_vals e_vecs eStat eOut]. rewrite !nth_error_map. destruct (nth_error l k) as [[y w]|] eqn:E; [|discriminate].
  cbn. intros H. injection H as <- <-. exists y. split; [reflexivity|]. eapply nth_error_In; eassumption.
Qed.
Lemma shift_pair {S : VS} (A B : S -> S) sh (s : est S) l y v :
  e_A s = A -> e_B s = B -> (forall x v, In (x, v) l -> pair_of (shifted sh s) B x v) -> In (y, v) (addShift sh l) -> pair_of A B y v.
Proof.
  intros <- <- H I. unfold addShift in I. apply in_map_iff in I. destruct I as ([x w] & E & I). cbn in E. injection E as <- <-.
  specialize (H x w I). unfold pair_of, shifted in *. destruct (Reqb sh 0) eqn:Z.
  - apply Reqb_true in Z. rewrite Z, Rplus_0_r. exact H.
  - transitivity ((e_A s w -v sh *v e_B s w) +v sh *v e_B s w); [vring|]. rewrite H. vring.
Qed.

(** ** C57 *)
(** Whatever the shift, the mode and the options: after compute or computeSparse has returned Success
    every mode(k) is an eigenpair of the matrices of the problem, and the matrices are the ones
    given at construction. *)
Theorem C57_spectrum {S : VS} (L : elib S) spectra o number s s' k x v :
  libOK L -> e_stat s <> AssemblyError ->
  eCompute L o s = Done Success s' \/ eSparse L spectra o number s = Done Success s' ->
  eMode k s' = Some (x, v) ->
  exists y, x = Some y /\ e_A s v = y *v e_B s v /\ e_A s' = e_A s /\ e_B s' = e_B s.
Proof.
  intros OK NA H M.
  assert (G : forall l : list (R * S), s' = eStat Success (eOut l s) -> (forall y w, In (y, w) l -> pair_of (e_A s) (e_B s) y w) ->
    exists y, x = Some y /\ e_A s v = y *v e_B s v /\ e_A s' = e_A s /\ e_B s' = e_B s).
  { intros l -> P. apply mode_out in M. destruct M as (y & -> & I). exists y. split; [reflexivity|]. split; [apply P; exact I|]. split; reflexivity. }
  assert (I : forall m, eImpl L o m number s = Done Success s' -> exists y, x = Some y /\ e_A s v = y *v e_B s v /\ e_A s' = e_A s /\ e_B s' = e_B s).
  { intros m E. unfold eImpl in E. destruct m.
    1,2: match type of E with context [l_gen ?a ?b ?c ?d ?e ?f ?g ?h ?i] => destruct (l_gen a b c d e f g h i) as [[[] l]| |] eqn:EL end; try discriminate;
      injection E as <-; eapply G; [reflexivity|]; intros y w I; eapply shift_pair; [reflexivity|reflexivity| |exact I];
      intros; eapply (ok_gen _ OK); eassumption.
    all: match type of E with context [l_shift ?a ?b ?c ?d ?e ?f ?g ?h ?i ?j] => destruct (l_shift a b c d e f g h i j) as [[[] l]| |] eqn:EL end; try discriminate;
      injection E as <-; eapply G; [reflexivity|]; intros y w I; eapply (ok_shift _ OK); eassumption. }
  destruct H as [H|H].
  - unfold eCompute in H. destruct (e_stat s); try contradiction;
      (destruct (l_dense L _ _) as [l| |] eqn:E; [|discriminate|discriminate]; injection H as <-; eapply G; [reflexivity|];
       intros y w J; eapply shift_pair; [reflexivity|reflexivity| |exact J]; intros; eapply (ok_dense _ OK); eassumption).
  - unfold eSparse in H. destruct (e_stat s); try contradiction;
      (destruct spectra; cbn [negb] in H; [|discriminate];
       destruct (Z.eqb _ 0); [eapply I; eassumption|]; destruct (Z.eqb _ 1); [eapply I; eassumption|]; destruct (Z.eqb _ 2); [eapply I; eassumption|];
       destruct (Z.eqb _ 3); [eapply I; eassumption|]; destruct (Z.eqb _ 4); [eapply I; eassumption|]; discriminate).
Qed.
Print Assumptions C57_spectrum.
(** one-dimensional problems: the dense solver divides *)
Definition lib1 : elib VS_R := mkL (S := VS_R)
  (fun A B => if Reqb (B 1) 0 then Throws XOther else if Reqb (A 1) (A 1 / B 1 * B 1) then Yes [(A 1 / B 1, 1 : VS_R)] else Throws XOther)
  (fun m A B _ _ _ _ _ => if Reqb (B 1) 0 then Throws XOther else if Reqb (A 1) (A 1 / B 1 * B 1) then Yes (CSuccessful, [(A 1 / B 1, 1 : VS_R)]) else Throws XOther)
  (fun m A B _ _ _ _ _ _ => Yes (CNotConverging, []))
  (fun A => if Reqb (A 1) 0 then None else Some (fun x => x / A 1)) (fun A b => if Reqb (A 1) 0 then None else Some (b / A 1)).
Lemma lib1_ok : libOK lib1.
Proof.
  split; cbn; intros.
  - destruct (Reqb (B 1) 0); [discriminate|]. destruct (Reqb _ _) eqn:E; [|discriminate]. injection H as <-. destruct H0 as [H0|[]]. injection H0 as <- <-. apply Reqb_true in E. exact E.
  - destruct (Reqb (B 1) 0); [discriminate|]. destruct (Reqb _ _) eqn:E; [|discriminate]. injection H as <-. destruct H0 as [H0|[]]. injection H0 as <- <-. apply Reqb_true in E. exact E.
  - discriminate.
Qed.
Definition eo (solver : Z) (sh : R) : eopts := mkEO solver 4 4 3 (1/10) sh.
Example C57_example : exists s', eCompute lib1 (eo 0 7) (modalNew (S := VS_R) (fun x => 6 * x) (fun x => 2 * x)) = Done Success s' /\
  exists y, eMode 0 s' = Some (Some y, 1) /\ y = 3.
Proof.
  unfold eCompute, modalNew, shifted. cbn [e_stat e_B e_A eo_shift eo l_dense lib1]. rewrite (proj2 (Reqb_false 7 0)) by lra.
  rewrite (proj2 (Reqb_false (2 * 1) 0)) by lra.
  match goal with |- context [Reqb ?a ?b] => rewrite (proj2 (Reqb_true a b)) by (cbn; field) end.
  eexists. split; [reflexivity|]. eexists. split; [reflexivity|]. cbn. field.
Qed.
(** Success says nothing about the dense solver: it never reads its info(), so an answer that is
    no eigenpair (as for a B that is not positive definite) is passed on. *)
Theorem C57_refuted : exists (L : elib VS_R) o A B s' x v, eCompute L o (modalNew A B) = Done Success s' /\ eMode 0 s' = Some (Some x, v) /\ A v <> x *v B v.
Proof.
  exists (mkL (S := VS_R) (fun _ _ => Yes [(0, 1 : VS_R)]) (fun _ _ _ _ _ _ _ _ => No) (fun _ _ _ _ _ _ _ _ _ => No) (fun _ => None) (fun _ _ => None)), (eo 0 0), (fun x => x), (fun x => - x).
  do 3 eexists. split; [reflexivity|]. split; [reflexivity|]. cbn. lra.
Qed.

(** ** C58 *)
(** calls on an eigenvalue solver *)
Inductive ecall (S : VS) := ECompute (o : eopts) | ESparse (sp : bool) (o : eopts) (n : Z) | EPower (o : eopts) (ones : S).
Arguments ECompute {S}. Arguments ESparse {S}. Arguments EPower {S}.
Definition eRun {S : VS} (L : elib S) (c : ecall S) (s : est S) : run (est S) status :=
  match c with ECompute o => eCompute L o s | ESparse sp o n => eSparse L sp o n s | EPower o ones => ePower L o ones s end.
Fixpoint eRuns {S : VS} (L : elib S) (l : list (ecall S)) (s : est S) : est S :=
  match l with [] => s | c :: l => eRuns L l (stateOf (eRun L c s)) end.
(** If the Jacobian throws while the buckling solver is built, the object can be used, and after any
    calls every compute function returns AssemblyError and there are no values or vectors. *)
Theorem C58_exception_partial {S : VS} (L : elib S) linear rhs jac scaling e u l c :
  l_solve L linear (scaling *v rhs) = Some u -> jac u = JThrow e ->
  exists s, bucklingNew L linear rhs jac scaling = Done tt s /\
    let s' := eRuns L l s in eRun L c s' = Done AssemblyError s' /\ e_vals s' = [] /\ e_vecs s' = [].
Proof.
  intros H1 H2. unfold bucklingNew. rewrite H1, H2. eexists. split; [reflexivity|].
  assert (ST : forall c s, e_stat s = AssemblyError -> eRun L c s = Done AssemblyError s).
  { intros [o|sp o n|o ones] s E; cbn; [unfold eCompute|unfold eSparse|unfold ePower]; rewrite E; reflexivity. }
  assert (RE : forall l s, e_stat s = AssemblyError -> eRuns L l s = s).
  { induction l0 as [|c0 l0 IH]; intros s E; cbn [eRuns]; [reflexivity|]. rewrite ST by exact E. cbn [stateOf]. apply IH. exact E. }
  cbv zeta. rewrite RE by reflexivity. split; [apply ST; reflexivity|]. split; reflexivity.
Qed.
Print Assumptions C58_exception_partial.
Example C58_example : exists s, bucklingNew lib1 (fun x : VS_R => 2 * x) (4 : VS_R) (fun _ => JThrow (XInt 1)) 1 = Done tt s /\ e_stat s = AssemblyError.
Proof. unfold bucklingNew. cbn. rewrite (proj2 (Reqb_false (2 * 1) 0)) by lra. eexists. split; reflexivity. Qed.
(** Refuted: a Jacobian that returns false is not noticed: the solver is built from whatever the
    callback left in the matrix, and compute returns Success with values. *)
Theorem C58_refuted : exists s s', bucklingNew lib1 (fun x : VS_R => 2 * x) (4 : VS_R) (fun _ => JDone (S := VS_R) false (Some (fun x => 3 * x))) 1 = Done tt s /\
  eCompute lib1 (eo 0 0) s = Done Success s' /\ exists y, e_vals s' = [Some y] /\ y = 2.
Proof.
  unfold bucklingNew. cbn [l_solve lib1]. rewrite (proj2 (Reqb_false (2 * 1) 0)) by lra. do 2 eexists. split; [reflexivity|].
  unfold eCompute, shifted. cbn [e_stat e_A e_B eo_shift eo l_dense lib1]. rewrite (proj2 (Reqb_true 0 0)) by reflexivity.
  match goal with |- context [Reqb ?a 0] => assert (EB : a = 1) by (cbn; lra); rewrite (proj2 (Reqb_false a 0)) by (rewrite EB; lra); rewrite EB end.
  match goal with |- context [Reqb ?a ?b] => rewrite (proj2 (Reqb_true a b)) by (cbn; field) end.
  split; [reflexivity|]. eexists. split; [reflexivity|]. cbn. lra.
Qed.
Print Assumptions C58_refuted.

(** ** C59 *)
Lemma enormalize_unit {S : VS} (v : S) : v <> v0 -> enormalize v = (1 / norm v) *v v /\ norm (enormalize v) = 1 /\ v = norm v *v enormalize v.
Proof.
  intros N. assert (P : 0 < dot v v). { pose proof (dot_pos S v). destruct (Req_dec (dot v v) 0) as [E|E]; [exfalso; apply N; apply dot_zero; exact E|lra]. }
  assert (Q : 0 < norm v) by (unfold norm; apply sqrt_lt_R0; exact P).
  unfold enormalize. rewrite (proj2 (Rltb_true 0 _) P). split; [reflexivity|]. split.
  - unfold norm at 1. autorewrite with dot. replace (1 / norm v * (1 / norm v * dot v v)) with 1; [apply sqrt_1|].
    unfold norm in *. rewrite <- (sqrt_sqrt (dot v v)) at 3 by lra. field. lra.
  - transitivity ((norm v * (1 / norm v)) *v v); [|vring]. replace (norm v * (1 / norm v)) with 1 by (field; lra). vring.
Qed.
(** Success of the power iteration with a tolerance of at most one and a vector v that is not
    zero: v has length one and is the normalised image D w of a vector w with |v - w| < tol, where
    D = A^-1 B, so w is an approximate eigenvector: |D w - |D w| w| < tol |D w|. The value is the
    quotient v.v / v.Dv. *)
Theorem C59_power {S : VS} (L : elib S) o ones s s' v :
  e_stat s <> AssemblyError -> eo_tol o <= 1 -> ePower L o ones s = Done Success s' -> e_vecs s' = [v] -> v <> v0 ->
  exists Ai w, l_inv L (e_A s) = Some Ai /\
    let D := fun x => Ai (e_B s x) in
    norm v = 1 /\ norm (D w) <> 0 /\ D w = norm (D w) *v v /\ norm (v -v w) < eo_tol o /\
    norm (D w -v norm (D w) *v w) < eo_tol o * norm (D w) /\
    (dot v (D v) <> 0 -> e_vals s' = [Some (dot v v / dot v (D v))]).
Proof.
  intros NA T1 H HV NV. unfold ePower in H.
  assert (G : match l_inv L (e_A s) with
    | Some Ai => let '(v, ok) := powerLoop (fun x => Ai (e_B s x)) (eo_tol o) 100 ones v0 in
        Done (if ok then Success else NotConverged) (mkE (e_A s) (e_B s) (if ok then Success else NotConverged) [if Reqb (dot v (Ai (e_B s v))) 0 then None else Some (dot v v / dot v (Ai (e_B s v)))] [v])
    | None => Done NotConverged (mkE (e_A s) (e_B s) NotConverged [None] (e_vecs s)) end = Done Success s') by (destruct (e_stat s); try contradiction; exact H).
  clear H NA. destruct (l_inv L (e_A s)) as [Ai|]; [|discriminate].
  set (D := fun x => Ai (e_B s x)) in *. exists Ai.
  destruct (powerLoop D (eo_tol o) 100 ones v0) as [u ok] eqn:EP. destruct ok; [|discriminate]. injection G as <-. cbn [e_vecs e_vals] in *. injection HV as ->.
  assert (NZ : forall w, v = enormalize (D w) -> D w <> v0).
  { intros w E Z. apply NV. rewrite E, Z. unfold enormalize. destruct (Rltb _ _); [vring|reflexivity]. }
  assert (LP : forall n u w0, w0 = v0 \/ u = w0 -> powerLoop D (eo_tol o) n u w0 = (v, true) -> exists w, v = enormalize (D w) /\ norm (v -v w) < eo_tol o).
  { induction n as [|n IH]; intros u w0 C E; [discriminate|]. cbn [powerLoop] in E. destruct (Rltb _ _) eqn:T.
    - injection E as E. rewrite E in T. apply Rltb_true in T. destruct C as [C|C]; [|exists u; subst; auto].
      exfalso. destruct (enormalize_unit _ (NZ u (eq_sym E))) as (_ & U & _). rewrite E in U. rewrite C in T.
      replace (v -v v0) with v in T by vring. lra.
    - eapply IH; [|exact E]. right. reflexivity. }
  destruct (LP _ _ _ (or_introl eq_refl) EP) as (w & EW & TW). exists w. split; [reflexivity|]. cbv zeta. change (Ai (e_B s w)) with (D w).
  destruct (enormalize_unit _ (NZ w EW)) as (_ & U & X). rewrite <- EW in U, X.
  assert (NN : norm (D w) <> 0). { intros Z. apply (NZ w EW). apply norm_zero. exact Z. }
  split; [exact U|]. split; [exact NN|]. split; [exact X|]. split; [exact TW|]. split.
  - replace (D w -v norm (D w) *v w) with (norm (D w) *v (v -v w)).
    + rewrite norm_scale, Rabs_pos_eq by apply norm_pos. rewrite (Rmult_comm (eo_tol o)). apply Rmult_lt_compat_l; [|exact TW]. pose proof (norm_pos (D w)). lra.
    + rewrite X at 2. vring.
  - intros ND. unfold D in ND. rewrite (proj2 (Reqb_false _ 0) ND). reflexivity.
Qed.
Print Assumptions C59_power.
(** With D linear and |D x| <= c |x| the returned vector itself and the inverse of the returned
    value are an approximate eigenpair. *)
Theorem C59_bound {S : VS} (L : elib S) o ones s s' v c :
  e_stat s <> AssemblyError -> eo_tol o <= 1 -> ePower L o ones s = Done Success s' -> e_vecs s' = [v] -> v <> v0 ->
  (forall Ai, l_inv L (e_A s) = Some Ai -> linear (fun x => Ai (e_B s x)) /\ forall x, norm (Ai (e_B s x)) <= c * norm x) ->
  exists Ai r, l_inv L (e_A s) = Some Ai /\ let D := fun x => Ai (e_B s x) in
    0 < r /\ norm (D v -v r *v v) <= c * eo_tol o /\ Rabs (dot v (D v) - r) <= c * eo_tol o.
Proof.
  intros NA T1 H HV NV HD. destruct (C59_power L o ones s s' v NA T1 H HV NV) as (Ai & w & EA & U & NN & X & TW & _).
  exists Ai, (norm (Ai (e_B s w))). split; [exact EA|]. cbv zeta. destruct (HD Ai EA) as [LD BD]. set (D := fun x => Ai (e_B s x)) in *. change (Ai (e_B s w)) with (D w) in *. cbv beta in BD.
  assert (P : 0 < norm (D w)) by (pose proof (norm_pos (D w)); lra).
  assert (C0 : 0 <= c). { destruct (Rle_or_lt 0 c) as [A|A]; [exact A|]. pose proof (BD v) as Q. rewrite U in Q. pose proof (norm_pos (Ai (e_B s v))). lra. }
  assert (E : norm (D v -v norm (D w) *v v) <= c * eo_tol o).
  { rewrite <- X. rewrite <- (lin_sub LD). eapply Rle_trans; [apply BD|]. apply Rmult_le_compat_l; [exact C0|lra]. }
  split; [exact P|]. split; [exact E|]. change (Ai (e_B s v)) with (D v).
  replace (dot v (D v) - norm (D w)) with (dot v (D v -v norm (D w) *v v)).
  - eapply Rle_trans; [apply cauchy_schwarz|]. rewrite U, Rmult_1_l. exact E.
  - assert (UU : dot v v = 1). { unfold norm in U. rewrite <- (sqrt_sqrt (dot v v)) by apply dot_pos. rewrite U. ring. }
    unfold vsub, vopp. autorewrite with dot. rewrite UU. ring.
Qed.
Print Assumptions C59_bound.
(** If the vector of ones is an eigenvector, A 1 = l B 1 with l > 0, and A has the inverse Ai, the
    power iteration returns Success with exactly this eigenpair. *)
Theorem C59_eigenvector_partial {S : VS} (L : elib S) o ones s l Ai :
  e_stat s <> AssemblyError -> 0 < eo_tol o -> ones <> v0 -> 0 < l ->
  l_inv L (e_A s) = Some Ai -> linear Ai -> linear (e_A s) -> linear (e_B s) -> (forall x, Ai (e_A s x) = x) -> e_A s ones = l *v e_B s ones ->
  exists s' v, ePower L o ones s = Done Success s' /\ eMode 0 s' = Some (Some l, v) /\ e_A s v = l *v e_B s v /\ norm v = 1.
Proof.
  intros NA T ON LP EA LA LLA LB IV EE.
  set (D := fun x => Ai (e_B s x)).
  assert (D1 : forall k, D (k *v ones) = (k / l) *v ones).
  { intros k. unfold D. rewrite (lin_scale _ LB), (lin_scale _ LA).
    assert (Q : Ai (e_B s ones) = (1 / l) *v ones). { rewrite <- (IV ones) at 2. rewrite EE, (lin_scale _ LA). vfield; lra. }
    rewrite Q. vfield; lra. }
  destruct (enormalize_unit ones ON) as (N1 & N2 & N3). set (v := enormalize ones) in *.
  assert (NP : 0 < norm ones). { pose proof (norm_pos ones). destruct (Req_dec (norm ones) 0) as [Z|Z]; [exfalso; apply ON; apply norm_zero; exact Z|lra]. }
  assert (EN : forall k, 0 < k -> enormalize (k *v ones) = v).
  { intros k K. assert (KN : k *v ones <> v0). { intros Z. apply ON. transitivity ((1 / k) *v (k *v ones)); [vfield; lra|]. rewrite Z. vring. }
    destruct (enormalize_unit _ KN) as (E & _ & _). rewrite E, N1, norm_scale, Rabs_pos_eq by lra. vfield; lra. }
  assert (EO : ones = 1 *v ones) by vring.
  assert (F : forall n u w0, (exists k, 0 < k /\ u = k *v ones) -> (n <> O)%nat -> fst (powerLoop D (eo_tol o) n u w0) = v).
  { induction n as [|n IH]; intros u w0 (k & K & ->) N; [contradiction|]. cbn [powerLoop]. rewrite D1, EN by (apply Rdiv_lt_0_compat; assumption).
    destruct (Rltb _ _); [reflexivity|]. destruct n as [|n]; [reflexivity|]. apply IH; [|discriminate]. exists (1 / norm ones). split; [apply Rdiv_lt_0_compat; lra|exact N1]. }
  assert (G : snd (powerLoop D (eo_tol o) 100 ones v0) = true).
  { assert (Q1 : enormalize (D ones) = v). { rewrite EO at 1. rewrite D1. apply EN. apply Rdiv_lt_0_compat; lra. }
    assert (Q2 : enormalize (D v) = v). { rewrite N1 at 1. rewrite D1. apply EN. apply Rdiv_lt_0_compat; [apply Rdiv_lt_0_compat; lra|assumption]. }
    change 100%nat with (Datatypes.S (Datatypes.S 98)). cbn [powerLoop]. rewrite Q1. destruct (Rltb _ _); [reflexivity|]. rewrite Q2.
    replace (norm (v -v v)) with 0; [rewrite (proj2 (Rltb_true 0 _) T); reflexivity|]. replace (v -v v) with (v0 : S) by vring. symmetry. apply norm_0. }
  assert (FF : fst (powerLoop D (eo_tol o) 100 ones v0) = v). { apply F; [exists 1; split; [lra|exact EO]|discriminate]. }
  destruct (powerLoop D (eo_tol o) 100 ones v0) as [v' ok] eqn:EP. cbn in G, FF. subst v' ok.
  assert (DV : D v = (1 / l) *v v). { rewrite N1, D1. vfield; lra. }
  assert (UU : dot v v = 1). { unfold norm in N2. rewrite <- (sqrt_sqrt (dot v v)) by apply dot_pos. rewrite N2. ring. }
  assert (DD : dot v (D v) = 1 / l). { rewrite DV. autorewrite with dot. rewrite UU. ring. }
  exists (mkE (e_A s) (e_B s) Success [Some l] [v]), v. split; [|split; [reflexivity|split; [|exact N2]]].
  - unfold ePower. destruct (e_stat s); try contradiction; rewrite EA; fold D; rewrite EP; cbv zeta; change (Ai (e_B s v)) with (D v); rewrite DD, UU;
      (rewrite (proj2 (Reqb_false (1 / l) 0)) by (intros Z; assert (1 / l * l = 1) by (field; lra); rewrite Z in *; lra)); replace (1 / (1 / l)) with l by (field; lra); reflexivity.
  - rewrite N1. rewrite (lin_scale _ LLA), (lin_scale _ LB), EE. vring.
Qed.
Print Assumptions C59_eigenvector_partial.
Example C59_example : exists s' v, ePower lib1 (eo 0 0) (1 : VS_R) (modalNew (S := VS_R) (fun x => 6 * x) (fun x => 2 * x)) = Done Success s' /\
  eMode 0 s' = Some (Some 3, v) /\ 6 * v = 3 * (2 * v) /\ norm (v : VS_R) = 1.
Proof.
  destruct (C59_eigenvector_partial lib1 (eo 0 0) (1 : VS_R) (modalNew (S := VS_R) (fun x => 6 * x) (fun x => 2 * x)) 3 (fun x => x / (6 * 1))) as (s' & v & A & B & C & D).
  - discriminate.
  - cbn. lra.
  - cbn. lra.
  - lra.
  - cbn. rewrite (proj2 (Reqb_false (6 * 1) 0)) by lra. reflexivity.
  - split; intros; cbn; field.
  - split; intros; cbn; field.
  - split; intros; cbn; field.
  - intros x. cbn. field.
  - cbn. ring.
  - exists s', v. auto.
Qed.
(** Refuted: with a negative eigenvalue (the usual case in buckling) the iterates change sign in
    every step and the exact eigenvector is reported as NotConverged; with B = 0 the iterates are
    zero, and this is reported as Success with a value 0/0. *)
Theorem C59_refuted :
  (exists s', ePower lib1 (eo 0 0) (1 : VS_R) (modalNew (S := VS_R) (fun x => x) (fun x => - x)) = Done NotConverged s') /\
  (exists s', ePower lib1 (eo 0 0) (1 : VS_R) (modalNew (S := VS_R) (fun x => x) (fun x => 0 * x)) = Done Success s' /\ eMode 0 s' = Some (None, 0)).
Proof.
  assert (E1 : Reqb 1 0 = false) by (apply Reqb_false; lra).
  split.
  - unfold ePower. cbn [e_stat modalNew e_A e_B l_inv lib1 eo_tol eo]. rewrite E1.
    assert (LP : forall n k u w, (k = 1 \/ k = -1) -> u = k -> (w = k \/ w = 0) -> snd (powerLoop (S := VS_R) (fun x : R => - x / 1) (1/10) n u w) = false).
    { induction n as [|n IH]; intros k u w K -> W; [reflexivity|]. cbn [powerLoop].
      assert (EN : enormalize (S := VS_R) (- k / 1) = - k).
      { unfold enormalize. cbn [dot VS_R]. destruct K as [->| ->].
        - rewrite (proj2 (Rltb_true 0 _)) by lra. unfold norm. cbn. match goal with |- context [sqrt ?a] => replace a with 1 by lra end. rewrite sqrt_1. lra.
        - rewrite (proj2 (Rltb_true 0 _)) by lra. unfold norm. cbn. match goal with |- context [sqrt ?a] => replace a with 1 by lra end. rewrite sqrt_1. lra. }
      rewrite EN. rewrite (proj2 (Rltb_false _ _)).
      - apply (IH (- k)); [destruct K as [->| ->]; [right|left]; lra|reflexivity|left; reflexivity].
      - unfold norm. cbn. assert (SQ : 1 <= sqrt ((- k + -1 * w) * (- k + -1 * w))); [|lra]. rewrite <- sqrt_1 at 1. apply sqrt_le_1_alt.
        destruct K as [->| ->], W as [->| ->]; lra. }
    specialize (LP 100%nat 1 1 0 (or_introl eq_refl) eq_refl (or_intror eq_refl)).
    match goal with |- exists s', (let '(v, ok) := ?x in _) = _ => change (snd x = false) in LP; destruct x as [v ok] end. cbn [snd] in LP. subst ok. eexists. reflexivity.
  - unfold ePower. cbn [e_stat modalNew e_A e_B l_inv lib1 eo_tol eo]. rewrite E1. change 100%nat with (Datatypes.S (Datatypes.S 98)). cbn [powerLoop].
    assert (EZ : enormalize (S := VS_R) (0 * 1 / 1) = 0). { unfold enormalize. rewrite (proj2 (Rltb_false 0 _)); cbn; lra. }
    rewrite EZ. rewrite (proj2 (Rltb_true _ _)).
    + eexists. split; [reflexivity|]. unfold eMode. cbn. rewrite (proj2 (Reqb_true _ 0)) by lra. reflexivity.
    + replace ((0 : VS_R) -v v0) with (v0 : VS_R) by (cbn; lra). rewrite norm_0. lra.
Qed.
Print Assumptions C59_refuted.

(** ** C79: the buckling problem *)
(** If the Jacobian is the linear stiffness plus a part G that grows in proportion to the
    displacement (G_u = s G for u = s times the linear solution), then every eigenpair (x, v) of the
    solver gives the load factor -x scaling at which the tangent stiffness along the linear solution
    is singular in direction v, whatever the scaling. *)
Theorem C79_buckling {S : VS} (L : elib S) linear rhs jac scaling s u1 (G : S -> S) spectra o number s' k x v :
  libOK L -> (forall c, l_solve L linear (c *v rhs) = Some (c *v u1)) ->
  (forall c, jac (c *v u1) = JDone true (Some (fun w => linear w +v c *v G w))) ->
  bucklingNew L linear rhs jac scaling = Done tt s ->
  eCompute L o s = Done Success s' \/ eSparse L spectra o number s = Done Success s' ->
  eMode k s' = Some (x, v) ->
  exists y, x = Some y /\ let load := - (y * scaling) in exists m, jac (load *v u1) = JDone true (Some m) /\ m v = v0.
Proof.
  intros OK HS HJ HB H M. unfold bucklingNew in HB. rewrite HS, HJ in HB. injection HB as <-.
  pose proof (fun a => C57_spectrum L spectra o number _ s' k x v OK a H M) as Q. destruct Q as (y & -> & E & _); [discriminate|]. cbn [e_A e_B] in E.
  exists y. split; [reflexivity|]. cbv zeta. eexists. split; [apply HJ|]. cbv beta. rewrite E. vring.
Qed.
Print Assumptions C79_buckling.
Example C79_example : exists s s' y, bucklingNew lib1 (fun x : VS_R => 6 * x) (6 : VS_R) (fun u => JDone (S := VS_R) true (Some (fun w => 6 * w + u * (-3 * w)))) 2 = Done tt s /\
  eCompute lib1 (eo 0 0) s = Done Success s' /\ e_vals s' = [Some y] /\ y = -1.
Proof.
  unfold bucklingNew. cbn [l_solve lib1]. rewrite (proj2 (Reqb_false (6 * 1) 0)) by lra. do 3 eexists. split; [reflexivity|].
  unfold eCompute, shifted. cbn [e_stat e_A e_B eo_shift eo l_dense lib1]. rewrite (proj2 (Reqb_true 0 0)) by reflexivity.
  match goal with |- context [Reqb ?a 0] => assert (EB : a = -6) by (cbn; field); rewrite (proj2 (Reqb_false a 0)) by (rewrite EB; lra); rewrite EB end.
  match goal with |- context [Reqb ?a ?b] => rewrite (proj2 (Reqb_true a b)) by (cbn; field) end.
  split; [reflexivity|]. split; [reflexivity|]. cbn. lra.
Qed.

(** ** C80: no stale results *)
(** Refuted: after a computation that does not converge values() still gives those of the
    computation before. *)
Theorem C80_refuted : exists s1 s2 y, eCompute lib1 (eo 2 0) (modalNew (S := VS_R) (fun x => 6 * x) (fun x => 2 * x)) = Done Success s1 /\
  eSparse lib1 true (eo 2 0) 1 s1 = Done NotConverged s2 /\ eMode 0 s2 = Some (Some y, 1).
Proof.
  unfold eCompute, modalNew, shifted. cbn [e_stat e_B e_A eo_shift eo l_dense lib1]. rewrite (proj2 (Reqb_true 0 0)) by reflexivity.
  rewrite (proj2 (Reqb_false (2 * 1) 0)) by lra.
  match goal with |- context [Reqb ?a ?b] => rewrite (proj2 (Reqb_true a b)) by (cbn; field) end.
  do 3 eexists. split; [reflexivity|]. split; reflexivity.
Qed.
Print Assumptions C80_refuted.
(** After any call the values and vectors are the ones before, or those of this call: untouched by
    every call that does not return Success, except that computePower always stores its last
    iterate. *)
Theorem C80_kept_partial {S : VS} (L : elib S) c s q s' :
  eRun L c s = Done q s' -> q <> Success -> (forall o ones, c <> EPower o ones) -> e_vals s' = e_vals s /\ e_vecs s' = e_vecs s.
Proof.
  intros H NQ NP. destruct c as [o|sp o n|o ones]; [| |exfalso; eapply NP; reflexivity]; cbn [eRun] in H.
  - unfold eCompute in H. destruct (e_stat s); try (injection H as <- <-; auto; fail);
      (destruct (l_dense L _ _); injection H as <- <-; [contradiction|auto|auto]).
  - assert (I : forall m, eImpl L o m n s = Done q s' -> e_vals s' = e_vals s /\ e_vecs s' = e_vecs s).
    { intros m E. unfold eImpl in E. destruct m;
      match type of E with context [match ?x with _ => _ end] => destruct x as [[[] l]| |] end; try discriminate; injection E as <- <-; auto; contradiction. }
    unfold eSparse in H. destruct (e_stat s); try (injection H as <- <-; auto; fail);
      (destruct sp; cbn [negb] in H; [|injection H as <- <-; auto];
       destruct (Z.eqb _ 0); [eapply I; eassumption|]; destruct (Z.eqb _ 1); [eapply I; eassumption|]; destruct (Z.eqb _ 2); [eapply I; eassumption|];
       destruct (Z.eqb _ 3); [eapply I; eassumption|]; destruct (Z.eqb _ 4); [eapply I; eassumption|]; injection H as <- <-; auto).
Qed.
Print Assumptions C80_kept_partial.
