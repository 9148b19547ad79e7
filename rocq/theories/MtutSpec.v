(** What the properties of the motion tutorial talk about. *)
From Coq Require Import QArith.
From Verif Require Import Base MtutModel.
Open Scope list_scope.

(** The prediction entries that the challenge looks at: valid steps of agents to be predicted. *)
Definition counted (batch : list agent) (target pred : point) : Prop := exists steps, In (true, steps) batch /\ In (true, (target, pred)) steps.
(** Two batches that differ only in predictions that do not count. *)
Definition same_step (to_predict : bool) (s s' : bool * (point * point)) : Prop :=
  fst s = fst s' /\ fst (snd s) = fst (snd s') /\ (to_predict = true -> fst s = true -> snd (snd s) = snd (snd s')).
Definition same_counted (b b' : list agent) : Prop := Forall2 (fun a a' => fst a = fst a' /\ Forall2 (same_step (fst a)) (snd a) (snd a')) b b'.
(** Training on batches one after the other: the final weights and all predictions. *)
Fixpoint trained {W B P} (train : W -> B -> W * list P) (w : W) (bs : list B) : W * list P :=
  match bs with [] => (w, []) | b :: bs' => let r := trained train (fst (train w b)) bs' in (fst r, snd (train w b) ++ snd r) end.
(** The step of a title, relative to the current one. *)
Definition relative_step (t : title) : Z := match t with Past n => - Z.of_nat n | Current => 0 | Future n => Z.of_nat n end.
(** A valid position of some agent at some step. *)
Definition seen (states : list (list (bool * point))) (p : point) : Prop := exists l, In l states /\ In (true, p) l.
