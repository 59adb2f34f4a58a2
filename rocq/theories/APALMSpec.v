(** Vocabulary for stating properties of gsAPALMData through its API.
    Nothing here is used by the model. *)
From Verif Require Import Prelude APALMData.
Local Open Scope R_scope.

Section Spec.
Context {sol : Type}.
Notation data := (data sol).

(** the exported curve: getFlatSolution() *)
Definition times (d : data) : list R := fst (fst (snd (getFlatSolution d (-1)))).
Definition sols (d : data) : list sol := snd (fst (snd (getFlatSolution d (-1)))).
Definition levels (d : data) : list Z := snd (snd (getFlatSolution d (-1))).

(** time at which a curve parameter is stored *)
Definition timeAt (d : data) (xi : R) : R := snd (readTime d xi).
(** time interval of a segment *)
Definition segTimes (d : data) (e : segment) : R * R := (timeAt d (seg_lo e), timeAt d (seg_hi e)).
(** segments that wait in the queue or are handed out *)
Definition waiting (d : data) : list segment := d_queue d.
Definition handedOut (d : data) : list segment := map snd (d_jobs d).
(** a correction segment; level 0 means: continue the curve from its end point *)
Definition correction (e : segment) : Prop := (1 <= seg_lev e)%Z.
(** job [id] is active with segment [e] *)
Definition active (d : data) (id : nat) (e : segment) : Prop := In (id, e) (d_jobs d).
End Spec.

(** a and b are neighbours in l *)
Definition neighbours {A} (l : list A) (a b : A) : Prop :=
  exists k, nth_error l k = Some a /\ nth_error l (S k) = Some b.

(** lengths of the intervals between neighbours *)
Fixpoint gaps (l : list R) : list R :=
  match l with
  | a :: ((b :: _) as l') => (b - a) :: gaps l'
  | _ => []
  end.

(** t, t+d1, t+d1+d2, ... *)
Fixpoint runningSums (t : R) (ds : list R) : list R :=
  match ds with [] => [t] | d :: ds' => t :: runningSums (t + d) ds' end.

(** pairs of neighbours *)
Fixpoint neighbourPairs {A} (l : list A) : list (A * A) :=
  match l with
  | a :: ((b :: _) as l') => (a, b) :: neighbourPairs l'
  | _ => []
  end.
