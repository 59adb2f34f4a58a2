(** Properties of the time loops of the programs: C122. *)
From Verif Require Import VS Status RunTac Static Dynamic DynRun Props_Dynamic DynLoop.
Local Open Scope R_scope.
(** ** C122 *)
Section C122.
Context {S : VS}.
Variable stepf : R -> R -> xst S -> run (xst S) sans.
Variable dt : R.
(** [walk t0 d x l]: from the state [x], [l] are the states of successive steps that return Success, the first from time
    [t0], each later one from a time larger by [d] *)
Fixpoint walk (t0 d : R) (x : xst S) (l : list (xst S)) : Prop :=
  match l with
  | [] => True
  | y :: l => (stepf t0 dt x = Done (Fin Success) y \/ stepf t0 dt x = Done (NonFin Success) y) /\ walk (t0 + d) d y l
  end.
(** the times written, from [t0] in steps of [d], with the displacements of the states *)
Fixpoint rows (t0 d : R) (l : list (xst S)) : list (R * S) :=
  match l with [] => [] | x :: l => (t0, x_U x) :: rows (t0 + d) d l end.
Lemma shell_inv n : forall s l s' l', shellLoop stepf dt n s l = Done tt (s', l') ->
  exists ys, length ys = n /\ walk (b_time s) dt (b_x s) ys /\ l' = l ++ rows (b_time s + dt) dt ys /\ b_time s' = b_time s + INR n * dt.
Proof.
  induction n as [|n IH]; intros s l s' l' H.
  - cbn in H. injection H as <- <-. exists []. cbn. rewrite app_nil_r. repeat split. lra.
  - cbn [shellLoop] in H. unfold dynStep in H. destruct (b_bad s); [discriminate|].
    destruct (stepf (b_time s) dt (b_x s)) as [[q|q] x|] eqn:E; try discriminate;
    (destruct (status_eqb q Success) eqn:Q; [apply status_eqb_true in Q; subst q|discriminate]);
    destruct (IH _ _ _ _ H) as (ys & H1 & H2 & H3 & H4); cbn [b_time b_x] in *;
    (exists (x :: ys); cbn [length walk rows]; split; [lia|]; split; [split; [auto|exact H2]|]; split;
      [rewrite H3, <- app_assoc; reflexivity|rewrite H4, S_INR; lra]).
Qed.
Lemma tut_inv n : forall s time l s' l', tutLoop stepf dt n time s l = Done tt (s', l') -> time = b_time s ->
  exists ys, length ys = n /\ walk (b_time s) dt (b_x s) ys /\ l' = l ++ rows time dt ys.
Proof.
  induction n as [|n IH]; intros s time l s' l' H ->.
  - cbn in H. injection H as <- <-. exists []. cbn. rewrite app_nil_r. auto.
  - cbn [tutLoop] in H. unfold dynStep in H. destruct (b_bad s); [discriminate|].
    destruct (stepf (b_time s) dt (b_x s)) as [[q|q] x|] eqn:E; try discriminate;
    (destruct (status_eqb q Success) eqn:Q; [apply status_eqb_true in Q; subst q|discriminate]);
    destruct (IH _ _ _ _ _ H eq_refl) as (ys & H1 & H2 & H3); cbn [b_time b_x] in *;
    (exists (x :: ys); cbn [length walk rows]; split; [lia|]; split; [split; [auto|exact H2]|]; rewrite H3, <- app_assoc; reflexivity).
Qed.
(** example_DynamicShell and example_DynamicShellNL, when they end without exception: [n] rows, the displacements are
    those of [n] successive successful steps from times 0, dt, 2 dt, ..., and row i has the time (i+1) dt at which its step
    ends. *)
Theorem C122_shell_partial n u v a s' l : shellLoop stepf dt n (dynNew u v a) [] = Done tt (s', l) ->
  exists ys, length ys = n /\ walk 0 dt (mkX u v a None) ys /\ l = rows dt dt ys /\ b_time s' = INR n * dt.
Proof.
  intros H. destruct (shell_inv n _ _ _ _ H) as (ys & H1 & H2 & H3 & H4). cbn in *. rewrite Rplus_0_l in *. exists ys. auto.
Qed.
(** The tutorials attach to the displacement at the end of step i the time i dt at which the step starts. *)
Theorem C122_tutorial_partial n u v a s' l : tutLoop stepf dt n 0 (dynNew u v a) [] = Done tt (s', l) ->
  exists ys, length ys = n /\ walk 0 dt (mkX u v a None) ys /\ l = rows 0 dt ys.
Proof. intros H. exact (tut_inv n _ 0 _ _ _ H eq_refl). Qed.
Lemma beam_inv dbg n : forall x bad s l s' l', beamLoop stepf dt dbg n 0 x bad s l = Done tt (s', l') -> b_time s = 0 -> x_inv (b_x s) = x_inv x ->
  exists ys, length ys = n /\ (dbg = true -> walk 0 0 x ys) /\ l' = l ++ rows 0 0 ys /\ b_time s' = 0.
Proof.
  induction n as [|n IH]; intros x bad s l s' l' H Ht Hi.
  - cbn in H. injection H as <- <-. exists []. cbn. rewrite app_nil_r. auto.
  - cbn [beamLoop] in H. destruct bad; [discriminate|]. unfold dynConst in H. rewrite Hi in H.
    replace (mkX (x_U x) (x_V x) (x_A x) (x_inv x)) with x in H by (destruct x; reflexivity).
    destruct (stepf 0 dt x) as [a y|] eqn:E; [|discriminate]. cbn [stateOf b_time] in H. rewrite Ht in H.
    assert (K : forall q bd, a = Fin q /\ bd = false \/ a = NonFin q /\ bd = true ->
      (if dbg && negb (status_eqb q Success) then Threw XOther (mkB (mkX (x_U (b_x s)) (x_V (b_x s)) (x_A (b_x s)) (x_inv y)) 0 (b_stat s) (b_bad s), l)
       else beamLoop stepf dt dbg n 0 y bd (mkB (mkX (x_U (b_x s)) (x_V (b_x s)) (x_A (b_x s)) (x_inv y)) 0 (b_stat s) (b_bad s)) (l ++ [(0, x_U y)])) = Done tt (s', l') ->
      exists ys, length ys = Datatypes.S n /\ (dbg = true -> walk 0 0 x ys) /\ l' = l ++ rows 0 0 ys /\ b_time s' = 0).
    { intros q bd Ha Hb. destruct (dbg && negb (status_eqb q Success)) eqn:D; [discriminate|].
      destruct (IH _ _ _ _ _ _ Hb eq_refl eq_refl) as (ys & H1 & H2 & H3 & H4). exists (y :: ys). cbn [length walk rows]. rewrite Rplus_0_l.
      split; [lia|]. split; [|split; [rewrite H3, <- app_assoc; reflexivity|exact H4]].
      intros ->. split; [|exact (H2 eq_refl)]. cbn in D. destruct (status_eqb q Success) eqn:Q; [|discriminate]. apply status_eqb_true in Q. subst q.
      destruct Ha as [(-> & _)|(-> & _)]; auto. }
    destruct a as [q|q]; apply (K q _ ltac:(eauto) H).
Qed.
(** example_DynamicBeamNL: time() stays 0, because the const step does not advance it. Whatever the
    integrator, every step (in a debug build: a successful one) is made from time 0 and every row has the time 0. *)
Theorem C122_beam n dbg u v a s' l : beamLoop stepf dt dbg n 0 (mkX u v a None) false (dynNew u v a) [] = Done tt (s', l) ->
  exists ys, length ys = n /\ (dbg = true -> walk 0 0 (mkX u v a None) ys) /\ l = rows 0 0 ys /\ b_time s' = 0.
Proof. intros H. exact (beam_inv dbg n _ _ _ _ _ _ H eq_refl eq_refl). Qed.
Lemma rows_time t0 d ys : forall i r, nth_error (rows t0 d ys) i = Some r -> fst r = t0 + INR i * d.
Proof.
  revert t0. induction ys as [|y ys IH]; intros t0 [|i] r H; try discriminate; cbn [rows nth_error] in H.
  - injection H as <-. cbn. lra.
  - rewrite (IH _ _ _ H), S_INR. lra.
Qed.
(** So the time of row i is (i+1) dt in the shell examples, i dt in the tutorials and 0 in the beam example. *)
Theorem C122_times n u v a s1 s2 s3 l1 l2 l3 dbg : shellLoop stepf dt n (dynNew u v a) [] = Done tt (s1, l1) ->
  tutLoop stepf dt n 0 (dynNew u v a) [] = Done tt (s2, l2) -> beamLoop stepf dt dbg n 0 (mkX u v a None) false (dynNew u v a) [] = Done tt (s3, l3) ->
  forall i r1 r2 r3, nth_error l1 i = Some r1 -> nth_error l2 i = Some r2 -> nth_error l3 i = Some r3 ->
  fst r1 = INR (Datatypes.S i) * dt /\ fst r2 = INR i * dt /\ fst r3 = 0.
Proof.
  intros H1 H2 H3 i r1 r2 r3 N1 N2 N3.
  destruct (C122_shell_partial _ _ _ _ _ _ H1) as (y1 & _ & _ & -> & _). destruct (C122_tutorial_partial _ _ _ _ _ _ H2) as (y2 & _ & _ & ->).
  destruct (C122_beam _ _ _ _ _ _ _ H3) as (y3 & _ & _ & -> & _).
  rewrite (rows_time _ _ _ _ _ N1), (rows_time _ _ _ _ _ N2), (rows_time _ _ _ _ _ N3), S_INR. lra.
Qed.
End C122.
Print Assumptions C122_shell_partial.
Print Assumptions C122_tutorial_partial.
Print Assumptions C122_beam.
Print Assumptions C122_times.
(** A unit mass under the force t, explicit Euler, dt = 1, three steps from rest: the shell programs write (1,0), (2,0), (3,1), the tutorials
    (0,0), (1,0), (2,1); the beam program, which repeats the step from time 0, writes (0,0) three times. *)
Definition exDrop : dprob VS_R := osc 1 0 0 (fun t => t).
Ltac dstep := lazymatch goal with |- context [explicitEuler ?p ?t ?d ?s] =>
  let E := fresh "E" in eassert (E : explicitEuler p t d s = Done _ _) by dev; rewrite E; clear E; cbn [b_bad b_time b_x x_U x_V x_A x_inv b_stat stateOf status_eqb andb negb] end.
Theorem C122_refuted : exists s1 s2 s3 l1 l2 l3,
  shellLoop (explicitEuler exDrop) 1 3 (dynNew (S := VS_R) 0 0 0) [] = Done tt (s1, l1) /\ l1 = [(1, 0); (2, 0); (3, 1)] /\
  tutLoop (explicitEuler exDrop) 1 3 0 (dynNew (S := VS_R) 0 0 0) [] = Done tt (s2, l2) /\ l2 = [(0, 0); (1, 0); (2, 1)] /\
  beamLoop (explicitEuler exDrop) 1 true 3 0 (mkX (S := VS_R) 0 0 0 None) false (dynNew (S := VS_R) 0 0 0) [] = Done tt (s3, l3) /\ l3 = [(0, 0); (0, 0); (0, 0)].
Proof.
  eexists _, _, _, _, _, _. split. { cbn [shellLoop dynStep dynNew b_bad b_time b_x]. unfold dynStep. cbn [dynNew b_bad b_time b_x]. do 3 dstep. reflexivity. }
  split; [rcbv; repeat f_equal; lra|].
  split. { cbn [tutLoop]. unfold dynStep. cbn [dynNew b_bad b_time b_x]. do 3 dstep. reflexivity. }
  split; [rcbv; repeat f_equal; lra|].
  split. { cbn [beamLoop]. unfold dynConst. cbn [dynNew b_bad b_time b_x x_U x_V x_A x_inv]. do 3 dstep. reflexivity. }
  rcbv; repeat f_equal; lra.
Qed.
Print Assumptions C122_refuted.
