(** Property C14: mean average precision. *)
From Coq Require Import Permutation Lqa.
From Verif Require Import Base ApModel ApSpec ApProofs.
Open Scope Q_scope.

(** C14. The value is the area below the envelope curve of the samples. *)
Theorem C14_value : forall S delta rs, S <> [] -> 0 < delta -> delta <= 1 -> (forall s, In s S -> 0 <= snd s) ->
  recall_levels S rs -> exists a, mean_average_precision S delta = Ok a /\ a == ap_spec S delta rs.
Proof. exact map_value_all. Qed.
Print Assumptions C14_value.
Theorem C14_levels_exist : forall S, (forall s, In s S -> 0 <= snd s) -> exists rs, recall_levels S rs.
Proof. exact levels_exist. Qed.
Print Assumptions C14_levels_exist.

(** C14. The order of the samples does not matter. *)
Theorem C14_order_independent : forall S S' delta, 0 < delta -> delta <= 1 -> (forall s, In s S -> 0 <= snd s) ->
  Permutation S S' ->
  exists a a', mean_average_precision S delta = Ok a /\ mean_average_precision S' delta = Ok a' /\ a == a'.
Proof. exact map_perm. Qed.
Print Assumptions C14_order_independent.

(** C14. It lies in [0,1]. *)
Theorem C14_unit_interval : forall S delta, 0 < delta -> delta <= 1 ->
  (forall s, In s S -> 0 <= fst s <= 1 /\ 0 <= snd s <= 1) ->
  exists a, mean_average_precision S delta = Ok a /\ 0 <= a <= 1.
Proof. exact map_bounds. Qed.
Print Assumptions C14_unit_interval.

(** C14. Raising precisions never lowers it. *)
Theorem C14_monotone : forall S S' delta, 0 < delta -> delta <= 1 -> (forall s, In s S -> 0 <= snd s) ->
  Forall2 (fun s s' => fst s <= fst s' /\ snd s = snd s') S S' ->
  exists a a', mean_average_precision S delta = Ok a /\ mean_average_precision S' delta = Ok a' /\ a <= a'.
Proof. exact map_monotone. Qed.
Print Assumptions C14_monotone.

(** C14. With perfect precision it is the largest recall. *)
Theorem C14_perfect_precision : forall S delta best, 0 < delta -> delta <= 1 -> S <> [] ->
  (forall s, In s S -> fst s == 1 /\ 0 <= snd s <= best) -> (exists s, In s S /\ snd s == best) ->
  exists a, mean_average_precision S delta = Ok a /\ a == best.
Proof. exact map_perfect. Qed.
Print Assumptions C14_perfect_precision.

Definition ex_samples : list (Q * Q) := [(1 # 2, 9 # 10); (1, 0); (3 # 4, 1 # 5); (1 # 4, 1 # 2)].
Example C14_nonvacuous :
  (forall s, In s ex_samples -> 0 <= fst s <= 1 /\ 0 <= snd s <= 1) /\
  recall_levels ex_samples [9 # 10; 1 # 2; 1 # 5; 0] /\
  match mean_average_precision ex_samples (1 # 10) with Ok a => Qred a = (41 # 80) | Err _ => False end.
Proof.
  split; [|split].
  - intros s [<-|[<-|[<-|[<-|[]]]]]; cbn; lra.
  - split.
    + repeat constructor.
    + intros r. split.
      * intros (x & [<-|[<-|[<-|[<-|[]]]]] & E); [right; exists (1 # 2, 9 # 10)|right; exists (1 # 4, 1 # 2)|right; exists (3 # 4, 1 # 5)|left; now symmetry];
          (split; [cbn; auto|exact E]).
      * intros [E|(s & [<-|[<-|[<-|[<-|[]]]]] & E)]; cbn [snd] in E; eexists; (split; [|exact E]) || (split; [|symmetry; exact E]); cbn; auto.
  - vm_compute. reflexivity.
Qed.
