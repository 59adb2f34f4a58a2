(** Vectors: an arbitrary real inner-product space. gsVector<T> with dot and norm is such a
    space for every number of degrees of freedom (T read as the reals). *)
From Coq Require Export Reals Lra Psatz List ZArith Lia Bool.
From Verif Require Export Prelude.
Export ListNotations.
Local Open Scope R_scope.

Record VS : Type := mkVS {
  vec :> Type;
  v0 : vec;
  vadd : vec -> vec -> vec;
  vscale : R -> vec -> vec;
  dot : vec -> vec -> R;
  vadd_comm : forall x y, vadd x y = vadd y x;
  vadd_assoc : forall x y z, vadd x (vadd y z) = vadd (vadd x y) z;
  vadd_0 : forall x, vadd x v0 = x;
  vscale_opp : forall x, vadd x (vscale (-1) x) = v0;
  vscale_1 : forall x, vscale 1 x = x;
  dot_sym : forall x y, dot x y = dot y x;
  dot_add : forall x y z, dot (vadd x y) z = dot x z + dot y z;
  dot_scale : forall a x z, dot (vscale a x) z = a * dot x z;
  dot_pos : forall x, 0 <= dot x x;
  dot_zero : forall x, dot x x = 0 -> x = v0
}.
Arguments v0 {_}. Arguments vadd {_}. Arguments vscale {_}. Arguments dot {_}.

Definition vopp {S : VS} (x : S) : S := vscale (-1) x.
Definition vsub {S : VS} (x y : S) : S := vadd x (vopp y).
(** Eigen's norm() *)
Definition norm {S : VS} (x : S) : R := sqrt (dot x x).

Declare Scope vec_scope.
Delimit Scope vec_scope with V.
Notation "x +v y" := (vadd x y) (at level 50, left associativity).
Notation "x -v y" := (vsub x y) (at level 50, left associativity).
Notation "a *v x" := (vscale a x) (at level 40, left associativity).

Section Lemmas.
Context {S : VS}.
Implicit Types x y z : S.

Lemma dot_add_r x y z : dot z (x +v y) = dot z x + dot z y.
Proof. rewrite dot_sym, dot_add, (dot_sym _ x), (dot_sym _ y). reflexivity. Qed.
Lemma dot_scale_r a x z : dot z (a *v x) = a * dot z x.
Proof. rewrite dot_sym, dot_scale, (dot_sym _ x). reflexivity. Qed.
Lemma dot_0_l z : dot v0 z = 0.
Proof. rewrite <- (vscale_opp S v0), dot_add, dot_scale. ring. Qed.
Lemma dot_0_r z : dot z v0 = 0.
Proof. rewrite dot_sym. apply dot_0_l. Qed.
Lemma dot_opp_l x z : dot (vopp x) z = - dot x z.
Proof. unfold vopp. rewrite dot_scale. ring. Qed.
Lemma dot_opp_r x z : dot z (vopp x) = - dot z x.
Proof. unfold vopp. rewrite dot_scale_r. ring. Qed.
Lemma dot_sub_l x y z : dot (x -v y) z = dot x z - dot y z.
Proof. unfold vsub. rewrite dot_add, dot_opp_l. ring. Qed.
Lemma dot_sub_r x y z : dot z (x -v y) = dot z x - dot z y.
Proof. unfold vsub. rewrite dot_add_r, dot_opp_r. ring. Qed.

Lemma vsub_zero_eq x y : x -v y = v0 -> x = y.
Proof.
  intros H. assert (E : (x -v y) +v y = y) by (rewrite H, vadd_comm; apply vadd_0).
  unfold vsub in E. rewrite <- vadd_assoc, (vadd_comm S _ y) in E. unfold vopp in E. rewrite vscale_opp, vadd_0 in E. auto.
Qed.
(** two vectors with the same products with all vectors are equal *)
Lemma dot_ext x y : (forall z, dot x z = dot y z) -> x = y.
Proof.
  intros H. apply vsub_zero_eq, dot_zero. rewrite dot_sub_l, (H (x -v y)). ring.
Qed.
End Lemmas.

Global Hint Rewrite @dot_add @dot_add_r @dot_scale @dot_scale_r @dot_0_l @dot_0_r @dot_opp_l @dot_opp_r
  @dot_sub_l @dot_sub_r : dot.
(** vector equations by testing against every vector *)
Ltac vring := apply dot_ext; let z := fresh "z" in intros z; autorewrite with dot; try ring.
Ltac vfield := apply dot_ext; let z := fresh "z" in intros z; autorewrite with dot; try field.

Section Lemmas2.
Context {S : VS}.
Implicit Types x y z : S.
Lemma vadd_sub_cancel x y : (x +v y) -v x = y.
Proof. vring. Qed.
Lemma vscale_0 x : 0 *v x = v0.
Proof. vring. Qed.
Lemma vscale_v0 a : a *v (v0 : S) = v0.
Proof. vring. Qed.
Lemma vsub_self x : x -v x = v0.
Proof. vring. Qed.
Lemma vadd_0_l x : v0 +v x = x.
Proof. vring. Qed.

Lemma norm_sq x : norm x * norm x = dot x x.
Proof. apply sqrt_sqrt, dot_pos. Qed.
Lemma norm_pos x : 0 <= norm x.
Proof. apply sqrt_pos. Qed.
Lemma norm_zero x : norm x = 0 <-> x = v0.
Proof.
  split; intros H.
  - apply dot_zero. rewrite <- norm_sq, H. ring.
  - subst. unfold norm. rewrite dot_0_l. apply sqrt_0.
Qed.
Lemma norm_0 : norm (v0 : S) = 0.
Proof. apply norm_zero. reflexivity. Qed.
Lemma norm_scale a x : norm (a *v x) = Rabs a * norm x.
Proof.
  unfold norm. autorewrite with dot. rewrite <- Rmult_assoc. rewrite sqrt_mult by (try apply dot_pos; nra).
  rewrite sqrt_Rsqr_abs || (replace (a * a) with (Rsqr a) by reflexivity; rewrite sqrt_Rsqr_abs). reflexivity.
Qed.
Lemma norm_opp x : norm (vopp x) = norm x.
Proof. unfold vopp. rewrite norm_scale. replace (Rabs (-1)) with 1; [ring|]. rewrite Rabs_left; lra. Qed.
Lemma cauchy_schwarz x y : Rabs (dot x y) <= norm x * norm y.
Proof.
  apply Rsqr_incr_0_var; [|apply Rmult_le_pos; apply norm_pos].
  rewrite <- Rsqr_abs. unfold Rsqr. replace (norm x * norm y * (norm x * norm y)) with (dot x x * dot y y)
    by (rewrite <- !norm_sq; ring).
  destruct (Req_dec (dot y y) 0) as [E|E].
  - apply dot_zero in E. subst. rewrite !dot_0_r. lra.
  - pose proof (dot_pos S y). pose proof (dot_pos S (dot y y *v x -v dot x y *v y)) as H1.
    autorewrite with dot in H1. rewrite (dot_sym S y x) in H1.
    assert (0 <= dot y y * (dot x x * dot y y - dot x y * dot x y)) by nra. 
    apply Rmult_le_reg_l with (dot y y); nra.
Qed.
Lemma norm_triangle x y : norm (x +v y) <= norm x + norm y.
Proof.
  apply Rsqr_incr_0_var; [|pose proof (norm_pos x); pose proof (norm_pos y); lra].
  unfold Rsqr. rewrite norm_sq. autorewrite with dot. rewrite (dot_sym S y x).
  pose proof (cauchy_schwarz x y). pose proof (Rle_abs (dot x y)).
  rewrite <- (norm_sq x), <- (norm_sq y). nra.
Qed.
End Lemmas2.

(** ** Instances: R, products, hence R^n *)
Definition VS_R : VS.
Proof.
  refine (mkVS R 0 Rplus Rmult Rmult _ _ _ _ _ _ _ _ _ _); abstract (intros; first [ring | nra]).
Defined.
Definition VS_prod (A B : VS) : VS.
Proof.
  refine (mkVS (A * B) (v0, v0) (fun x y => (fst x +v fst y, snd x +v snd y)) (fun a x => (a *v fst x, a *v snd x))
    (fun x y => dot (fst x) (fst y) + dot (snd x) (snd y)) _ _ _ _ _ _ _ _ _ _).
  - abstract (intros [a b] [c d]; cbn; f_equal; apply vadd_comm).
  - abstract (intros [a b] [c d] [e f]; cbn; f_equal; apply vadd_assoc).
  - abstract (intros [a b]; cbn; f_equal; apply vadd_0).
  - abstract (intros [a b]; cbn; f_equal; apply vscale_opp).
  - abstract (intros [a b]; cbn; f_equal; apply vscale_1).
  - abstract (intros [a b] [c d]; cbn; f_equal; apply dot_sym).
  - abstract (intros [a b] [c d] [e f]; cbn; rewrite !dot_add; ring).
  - abstract (intros k [a b] [c d]; cbn; rewrite !dot_scale; ring).
  - abstract (intros [a b]; cbn; pose proof (dot_pos _ a); pose proof (dot_pos _ b); lra).
  - abstract (intros [a b]; cbn; intros H; pose proof (dot_pos _ a); pose proof (dot_pos _ b);
    f_equal; apply dot_zero; lra).
Defined.
(** R^(n+1) *)
Fixpoint VS_Rn (n : nat) : VS := match n with O => VS_R | S n => VS_prod VS_R (VS_Rn n) end.

(** ** Linear maps *)
Record linear {A B : VS} (f : A -> B) : Prop := {
  lin_add : forall x y, f (x +v y) = f x +v f y;
  lin_scale : forall a x, f (a *v x) = a *v f x
}.
Section Linear.
Context {A B : VS} {f : A -> B} (L : linear f).
Lemma lin_0 : f v0 = v0.
Proof. rewrite <- (vscale_0 v0), (lin_scale f L). apply vscale_0. Qed.
Lemma lin_opp x : f (vopp x) = vopp (f x).
Proof. unfold vopp. apply (lin_scale f L). Qed.
Lemma lin_sub x y : f (x -v y) = f x -v f y.
Proof. unfold vsub. rewrite (lin_add f L), lin_opp. reflexivity. Qed.
End Linear.
