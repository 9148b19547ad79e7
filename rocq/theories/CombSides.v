(** The scales of the default configurations of the combined keypoint metric. *)
From Coq Require Import Reals Lra QArith String List Lia.
From Verif Require Import Base ResultLib KpModel CombModel.
Import ListNotations.
Open Scope list_scope.

Lemma default_scales c : In c [DEFAULT_CONFIG_CAMERA; DEFAULT_CONFIG_LASER; DEFAULT_CONFIG_ALL] -> per_type_scales c = DEFAULT_PER_TYPE_SCALES.
Proof. intros [<-|[<-|[<-|[]]]]; reflexivity. Qed.
Lemma scales_sides c k a : In c [DEFAULT_CONFIG_CAMERA; DEFAULT_CONFIG_LASER; DEFAULT_CONFIG_ALL] -> (5 <= k <= 10)%Z ->
  (In (k, a) (per_type_scales c) <-> In ((k + 8)%Z, a) (per_type_scales c)).
Proof.
  intros Hc Hk. rewrite (default_scales c Hc). unfold DEFAULT_PER_TYPE_SCALES. cbn [map fst snd].
  assert (D : k = 5%Z \/ k = 6%Z \/ k = 7%Z \/ k = 8%Z \/ k = 9%Z \/ k = 10%Z) by lia.
  decompose [or] D; subst k; match goal with |- context [(?x + 8)%Z] => let y := eval compute in (x + 8)%Z in change (x + 8)%Z with y end;
    (split; intros H; cbn [In] in H; repeat (destruct H as [H|H]; [try discriminate H; injection H as <-; cbn [In]; tauto|]); destruct H).
Qed.
Lemma scales_positive c k a : In c [DEFAULT_CONFIG_CAMERA; DEFAULT_CONFIG_LASER; DEFAULT_CONFIG_ALL] -> In (k, a) (per_type_scales c) -> (0 < a)%R.
Proof.
  intros Hc. rewrite (default_scales c Hc). unfold DEFAULT_PER_TYPE_SCALES. cbn [map fst snd In]. intros H.
  repeat (destruct H as [H|H]; [injection H as _ <-; lra|]). destruct H.
Qed.
