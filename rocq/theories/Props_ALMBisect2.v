(** C100: what a search with bisection leaves behind. *)
From Verif Require Import VS Status RunTac ALMBase ALMBaseProofs ALMStep ALMLog ALMPoints ALMRun ALMVerbose Props_ALMStep Props_ALMStab ALMSingular Props_ALMSingular Props_ALMExtended Props_ALMBisect.
Local Open Scope R_scope.

(** With bisection the recorded sign is the one known at the start of the last trial. Here the first trial ended behind the
    limit point: the stable point before the search and the stable point reached after going back to (1/2,1/2) have the same
    stability, and the change is reported. *)
Theorem C100_refuted : exists s s' : st VS_R R, s_stabPrev foldSt = (-1)%Z /\
  computeSingularPoint_ exFold (foldOpts (3/4)) ConsistentCrisfield (4/5 : VS_R) (4/5) false true true foldSt = Ret tt s /\
  stabilityChange s = false /\ s_stab s = 1%Z /\
  step exFold (foldOpts (3/4)) ConsistentCrisfield (setSolution (1/2 : VS_R) (1/2) s) = Ret tt s' /\ s_stat s' = Success /\
  stability s' = (-1)%Z /\ stabilityChange s' = true.
Proof.
  eexists. eexists. split; [reflexivity|]. split; [ev|]. split; [rcbv; reflexivity|]. split; [rcbv; reflexivity|]. split; [ev|]. rcbv.
  split; [reflexivity|]. split; [|reflexivity]. rewrite (proj2 (Rltb_false 1 0)) by lra. reflexivity.
Qed.
Print Assumptions C100_refuted.
(** a search without bisection, from (19/20,15/16) *)
Example C100_example : exists s s', computeSingularPoint_ exFold (foldOpts 0) ConsistentCrisfield (19/20 : VS_R) (15/16) false true true foldSt = Ret tt s /\
  s_stabPrev foldSt = (-1)%Z /\ s_stab s = (-1)%Z /\ (exists t, testSingularPoint exFold (foldOpts 0) true foldSt = Ret true t) /\
  step exFold (foldOpts 0) ConsistentCrisfield (setSolution (1/2 : VS_R) (1/2) s) = Ret tt s' /\ s_stat s' = Success.
Proof.
  eexists. eexists. split; [ev|]. split; [reflexivity|]. split; [rcbv; reflexivity|]. split; [eexists; ev|]. split; [ev|]. rcbv. reflexivity.
Qed.
