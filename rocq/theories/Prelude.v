(** Common definitions: outcomes, decidable comparison of scalars, sorted lists,
    and the associative containers used by the code. *)
From Coq Require Export Reals Lra Lia List ZArith Bool Arith Sorting.Sorted Sorting.Permutation.
Export ListNotations.

(** ** Outcomes
    [Fail] stands for everything that is not a normal return:
    - [EAssert]  a failing GISMO_ASSERT (gsDebug.h of G+Smo; active in debug builds),
    - [EEnsure]  a failing GISMO_ENSURE (always active, throws),
    - [EThrow n] `throw n` with an int, as in gsALMBase.hpp l.140, 196, 411,
    - [ERange]   an exception of `.at()`,
    - [EUndef]   undefined behaviour in C++ (out-of-range read, null pointer,
                 integer division by zero, use of an uninitialised value),
    - [ENaN]     a NaN/inf reaches a place where the model stops following IEEE,
    - [EFuel]    the recursion bound of the model is used up. *)
Inductive err := EAssert | EEnsure | EThrow (n : Z) | ERange | EUndef | ENaN | EFuel.
Inductive result (A : Type) := Ok (a : A) | Fail (e : err).
Arguments Ok {A} _.
Arguments Fail {A} _.

Definition rbind {A B} (x : result A) (f : A -> result B) : result B :=
  match x with Ok a => f a | Fail e => Fail e end.
Notation "'do' x <- a ; b" := (rbind a (fun x => b))
  (at level 200, x pattern, a at level 100, b at level 200, right associativity).

(** ** Scalars: T is modelled by R, comparison operators by the booleans below. *)
Definition Rltb (a b : R) : bool := if Rlt_dec a b then true else false.
Definition Rleb (a b : R) : bool := if Rle_dec a b then true else false.
Definition Reqb (a b : R) : bool := if Req_EM_T a b then true else false.

Lemma Rltb_true a b : Rltb a b = true <-> (a < b)%R.
Proof. unfold Rltb; destruct (Rlt_dec a b); split; auto; discriminate. Qed.
Lemma Rltb_false a b : Rltb a b = false <-> (b <= a)%R.
Proof. unfold Rltb; destruct (Rlt_dec a b); split; intros; auto; try discriminate; lra. Qed.
Lemma Rleb_true a b : Rleb a b = true <-> (a <= b)%R.
Proof. unfold Rleb; destruct (Rle_dec a b); split; auto; discriminate. Qed.
Lemma Rleb_false a b : Rleb a b = false <-> (b < a)%R.
Proof. unfold Rleb; destruct (Rle_dec a b); split; intros; auto; try discriminate; lra. Qed.
Lemma Reqb_true a b : Reqb a b = true <-> a = b.
Proof. unfold Reqb; destruct (Req_EM_T a b); split; auto; discriminate. Qed.
Lemma Reqb_false a b : Reqb a b = false <-> a <> b.
Proof. unfold Reqb; destruct (Req_EM_T a b); split; intros; auto; try discriminate; contradiction. Qed.
Lemma Reqb_refl a : Reqb a a = true.
Proof. apply Reqb_true; reflexivity. Qed.

(** ** Sorted lists *)
Definition incr (l : list R) : Prop := StronglySorted Rlt l.

Lemma incr_app l1 l2 :
  incr (l1 ++ l2) <-> incr l1 /\ incr l2 /\ (forall x y, In x l1 -> In y l2 -> (x < y)%R).
Proof.
  unfold incr. induction l1 as [|a l1 IH]; cbn.
  - split; [intros H; repeat split; auto; [constructor | intros x y []] | intros (_ & H & _); exact H].
  - split.
    + intros H. apply StronglySorted_inv in H as [H1 H2]. apply IH in H1 as (A & B & C).
      rewrite Forall_app in H2. destruct H2 as [H2 H3]. repeat split; auto.
      * constructor; auto.
      * intros x y [->|Hx] Hy; [rewrite Forall_forall in H3; auto | auto].
    + intros (A & B & C). apply StronglySorted_inv in A as [A1 A2]. constructor.
      * apply IH. repeat split; auto.
      * rewrite Forall_app. split; auto. rewrite Forall_forall. intros y Hy. auto.
Qed.

Lemma incr_cons a l : incr (a :: l) <-> incr l /\ (forall y, In y l -> (a < y)%R).
Proof.
  unfold incr. split.
  - intros H. apply StronglySorted_inv in H as [H1 H2]. rewrite Forall_forall in H2. auto.
  - intros [H1 H2]. constructor; auto. rewrite Forall_forall. auto.
Qed.

Lemma incr_nil : incr [].
Proof. constructor. Qed.
Lemma incr_one a : incr [a].
Proof. constructor; constructor. Qed.

Lemma incr_NoDup l : incr l -> NoDup l.
Proof.
  induction l as [|a l IH]; intros H; constructor.
  - apply incr_cons in H as [_ H]. intros Hin. specialize (H _ Hin). lra.
  - apply IH. apply incr_cons in H. tauto.
Qed.

Lemma incr_map_shift c l : incr l -> incr (map (fun x => x + c)%R l).
Proof.
  induction l as [|a l IH]; intros H; [constructor|].
  apply incr_cons in H as [H1 H2]. cbn. apply incr_cons. split; auto.
  intros y Hy. apply in_map_iff in Hy as (z & <- & Hz). specialize (H2 _ Hz). lra.
Qed.

(** ** std::map: association list in increasing key order *)
Section Map.
  Context {K V : Type}.
  Variables keqb kltb : K -> K -> bool.

  (** count(k)/find(k) *)
  Fixpoint mfind (k : K) (m : list (K * V)) : option V :=
    match m with
    | [] => None
    | (k', v) :: m' => if keqb k k' then Some v else mfind k m'
    end.

  (** m[k] = v *)
  Fixpoint mset (k : K) (v : V) (m : list (K * V)) : list (K * V) :=
    match m with
    | [] => [(k, v)]
    | (k', v') :: m' =>
        if keqb k k' then (k, v) :: m'
        else if kltb k k' then (k, v) :: (k', v') :: m'
        else (k', v') :: mset k v m'
    end.

  (** m.insert({k,v}): keeps the old value when the key is present *)
  Definition minsert (k : K) (v : V) (m : list (K * V)) : list (K * V) :=
    match mfind k m with Some _ => m | None => mset k v m end.

  (** reading through operator[]: a missing key is inserted with default value d *)
  Definition mread (d : V) (k : K) (m : list (K * V)) : V * list (K * V) :=
    match mfind k m with
    | Some v => (v, m)
    | None => (d, mset k d m)
    end.

  (** erase(k) *)
  Definition merase (k : K) (m : list (K * V)) : list (K * V) :=
    filter (fun e => negb (keqb k (fst e))) m.

  Hypothesis keqb_true : forall a b, keqb a b = true <-> a = b.

  Lemma mfind_in k v m : mfind k m = Some v -> In (k, v) m.
  Proof.
    induction m as [|[k' v'] m IH]; cbn; [discriminate|].
    destruct (keqb k k') eqn:E.
    - apply keqb_true in E as <-. intros [= ->]. auto.
    - auto.
  Qed.

  Lemma mfind_none k m : mfind k m = None <-> ~ In k (map fst m).
  Proof.
    induction m as [|[k' v'] m IH]; cbn; [tauto|].
    destruct (keqb k k') eqn:E.
    - apply keqb_true in E as <-. split; [discriminate|tauto].
    - rewrite IH. split; [|tauto]. intros H [->|H']; [|auto].
      assert (keqb k k = true) by (apply keqb_true; reflexivity). congruence.
  Qed.

  Lemma mfind_NoDup k v m : NoDup (map fst m) -> In (k, v) m -> mfind k m = Some v.
  Proof.
    induction m as [|[k' v'] m IH]; cbn; [contradiction|]. intros ND [E|Hin].
    - injection E as -> ->. replace (keqb k k) with true; auto. symmetry; apply keqb_true; auto.
    - inversion ND; subst. destruct (keqb k k') eqn:E; [|auto].
      apply keqb_true in E as <-. exfalso. apply H1. apply in_map_iff. exists (k, v). auto.
  Qed.

  Lemma mfind_mset_same k v m : mfind k (mset k v m) = Some v.
  Proof.
    assert (Hr : keqb k k = true) by (apply keqb_true; reflexivity).
    induction m as [|[k' v'] m IH]; cbn; [rewrite Hr; auto|].
    destruct (keqb k k') eqn:E; cbn; [rewrite Hr; auto|].
    destruct (kltb k k'); cbn; [rewrite Hr; auto|rewrite E; auto].
  Qed.

  Lemma mfind_mset_other k k' v m : k <> k' -> mfind k' (mset k v m) = mfind k' m.
  Proof.
    intros Hn. assert (Hn' : keqb k' k = false).
    { destruct (keqb k' k) eqn:E; auto. apply keqb_true in E. congruence. }
    induction m as [|[k2 v2] m IH]; cbn; [rewrite Hn'; auto|].
    destruct (keqb k k2) eqn:E.
    - apply keqb_true in E as <-. cbn. rewrite Hn'. auto.
    - destruct (kltb k k2); cbn; [rewrite Hn'; auto|]. destruct (keqb k' k2); auto.
  Qed.

  Lemma mread_snd_find d k k' m :
    k' <> k -> mfind k' (snd (mread d k m)) = mfind k' m.
  Proof.
    intros. unfold mread. destruct (mfind k m) eqn:E; cbn; auto.
    apply mfind_mset_other. auto.
  Qed.

  Lemma mread_known d k v m : mfind k m = Some v -> mread d k m = (v, m).
  Proof. unfold mread. intros ->. reflexivity. Qed.

  Lemma in_merase k e m : In e (merase k m) <-> In e m /\ fst e <> k.
  Proof.
    unfold merase. rewrite filter_In. split; intros [A B]; split; auto.
    - intros <-. apply negb_true_iff in B.
      assert (keqb (fst e) (fst e) = true) by (apply keqb_true; auto). congruence.
    - apply negb_true_iff. destruct (keqb k (fst e)) eqn:E; auto. apply keqb_true in E. congruence.
  Qed.

  Hypothesis kltb_irrefl : forall a, kltb a a = false.
  Hypothesis kltb_asym : forall a b, kltb a b = true -> kltb b a = false.

  (** position of a new key: after all smaller, before all larger ones *)
  Lemma mset_middle k v m1 m2 :
    (forall e, In e m1 -> kltb (fst e) k = true) ->
    (forall e, In e m2 -> kltb k (fst e) = true) ->
    mset k v (m1 ++ m2) = m1 ++ (k, v) :: m2.
  Proof.
    intros H1 H2. induction m1 as [|[k1 v1] m1 IH]; cbn.
    - destruct m2 as [|[k2 v2] m2]; cbn; auto.
      assert (Hlt : kltb k k2 = true) by (apply (H2 (k2, v2)); left; auto).
      destruct (keqb k k2) eqn:E.
      + apply keqb_true in E as ->. rewrite kltb_irrefl in Hlt. discriminate.
      + rewrite Hlt. auto.
    - assert (Hlt : kltb k1 k = true) by (apply (H1 (k1, v1)); left; auto).
      destruct (keqb k k1) eqn:E.
      + apply keqb_true in E as ->. rewrite kltb_irrefl in Hlt. discriminate.
      + rewrite (kltb_asym _ _ Hlt). rewrite IH; auto. intros e He. apply H1. right; auto.
  Qed.
End Map.

(** maps with scalar keys (std::map<T,...>) *)
Notation rfind := (mfind Reqb).
Notation rset := (mset Reqb Rltb).
Notation rinsert := (minsert Reqb Rltb).
Notation rread := (mread Reqb Rltb).
(** maps with integer keys (std::map<index_t,...>) *)
Notation nfind := (mfind Nat.eqb).
Notation nset := (mset Nat.eqb Nat.ltb).
Notation nread := (mread Nat.eqb Nat.ltb).
Notation nerase := (merase Nat.eqb).

Lemma Rltb_irrefl a : Rltb a a = false.
Proof. apply Rltb_false. lra. Qed.
Lemma Rltb_asym a b : Rltb a b = true -> Rltb b a = false.
Proof. rewrite Rltb_true, Rltb_false. lra. Qed.

Lemma rset_middle {V} k (v : V) m1 m2 :
  (forall x, In x (map fst m1) -> (x < k)%R) ->
  (forall x, In x (map fst m2) -> (k < x)%R) ->
  rset k v (m1 ++ m2) = m1 ++ (k, v) :: m2.
Proof.
  intros H1 H2. apply mset_middle.
  - apply Reqb_true.
  - apply Rltb_irrefl.
  - apply Rltb_asym.
  - intros e He. apply Rltb_true, H1, in_map, He.
  - intros e He. apply Rltb_true, H2, in_map, He.
Qed.

Lemma rinsert_new {V} k (v : V) m :
  ~ In k (map fst m) -> rinsert k v m = rset k v m.
Proof.
  intros H. unfold minsert. apply (mfind_none Reqb Rltb Reqb_true) in H. rewrite H. reflexivity.
Qed.

(** ** gsKnotVector (G+Smo, outside this repository): a sorted list.
    [kinsert] is insert(knot); [kaddConstant] is addConstant(start,amount),
    taken to add [amount] to all knots >= [start]. *)
Fixpoint kinsert (x : R) (l : list R) : list R :=
  match l with
  | [] => [x]
  | y :: l' => if Rltb x y then x :: y :: l' else y :: kinsert x l'
  end.
Definition kaddConstant (start amount : R) (l : list R) : list R :=
  map (fun x => if Rleb start x then (x + amount)%R else x) l.

Lemma kinsert_middle x l1 l2 :
  (forall y, In y l1 -> (y < x)%R) -> (forall y, In y l2 -> (x < y)%R) ->
  kinsert x (l1 ++ l2) = l1 ++ x :: l2.
Proof.
  intros H1 H2. induction l1 as [|a l1 IH]; cbn.
  - destruct l2 as [|b l2]; cbn; auto.
    assert (Rltb x b = true) as -> by (apply Rltb_true, H2; left; auto). auto.
  - assert (Rltb x a = false) as ->.
    { apply Rltb_false. specialize (H1 a (or_introl eq_refl)). lra. }
    rewrite IH; auto. intros y Hy. apply H1. right; auto.
Qed.

(** sum of a list of scalars *)
Definition Rsum (l : list R) : R := fold_right Rplus 0%R l.

Lemma Rsum_nil : Rsum [] = 0%R.
Proof. reflexivity. Qed.
Lemma Rsum_cons a l : Rsum (a :: l) = (a + Rsum l)%R.
Proof. reflexivity. Qed.
Lemma Rsum_app l1 l2 : Rsum (l1 ++ l2) = (Rsum l1 + Rsum l2)%R.
Proof.
  induction l1 as [|a l1 IH].
  - rewrite Rsum_nil. cbn [app]. lra.
  - cbn [app]. rewrite !Rsum_cons, IH. lra.
Qed.
Lemma Rsum_pos l : Forall (fun d => 0 < d)%R l -> (0 <= Rsum l)%R.
Proof. induction 1 as [|d l Hd Hl IH]; [rewrite Rsum_nil|rewrite Rsum_cons]; lra. Qed.
Lemma Rsum_pos_lt l : Forall (fun d => 0 < d)%R l -> l <> [] -> (0 < Rsum l)%R.
Proof.
  intros H. destruct H as [|d l Hd Hl]; [congruence|]. intros _. rewrite Rsum_cons.
  pose proof (Rsum_pos l Hl). lra.
Qed.
Arguments Rsum : simpl never.
