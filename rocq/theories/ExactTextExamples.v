(** Concrete numbers printed. *)
From Coq Require Import ZArith QArith Qabs List Lia.
From Verif Require Import Base ExactFloatModel ExactFloatSpec ExactTextModel ExactTextSpec.
Import ListNotations.
Local Open Scope Z_scope.

(** 26 with one digit, 2^35, and pi as a double. *)
Definition n26 : exactfloat := {| sign := 1; bn_exp := 1; bn := 13 |}.
Definition p35 : exactfloat := {| sign := 1; bn_exp := 35; bn := 1 |}.
Definition pi53 : exactfloat := {| sign := 1; bn_exp := -48; bn := 884279719003555 |}.

Lemma n26_canonical : canonical n26.
Proof. split; [left; reflexivity|]. right. vm_compute. repeat split; try reflexivity; discriminate. Qed.
Lemma p35_canonical : canonical p35.
Proof. split; [left; reflexivity|]. right. vm_compute. repeat split; try reflexivity; discriminate. Qed.
Lemma pi53_canonical : canonical pi53.
Proof. split; [left; reflexivity|]. right. vm_compute. repeat split; try reflexivity; discriminate. Qed.
Lemma n26_decades : decades (Qabs (value n26)) 2.
Proof. split; vm_compute; [discriminate|reflexivity]. Qed.
Lemma p35_decades : decades (Qabs (value p35)) 11.
Proof. split; vm_compute; [discriminate|reflexivity]. Qed.

(** "2e+1" *)
Lemma n26_text : to_string_with_max_digits n26 1 = [50; 101; 43; 49].
Proof. vm_compute. reflexivity. Qed.
(** "3.435973836e+10" *)
Lemma p35_text : to_string p35 = [51; 46; 52; 51; 53; 57; 55; 51; 56; 51; 54; 101; 43; 49; 48].
Proof. vm_compute. reflexivity. Qed.
(** "3.1415926535897931<50>" *)
Lemma pi53_text : to_unique_string pi53 = [51; 46; 49; 52; 49; 53; 57; 50; 54; 53; 51; 53; 56; 57; 55; 57; 51; 49; 60; 53; 48; 62].
Proof. vm_compute. reflexivity. Qed.

Lemma p35_not_nearest : exists q, reads (to_string p35) q /\ ~ rounded kRoundTiesToEven (value p35 * (1 # 10)) 3435973836
  /\ (q == 34359738360 # 1)%Q.
Proof.
  exists (34359738360 # 1)%Q. split; [rewrite p35_text; exists (34359738360 # 1)%Q; split; [vm_compute; reflexivity|reflexivity]|].
  split; [|reflexivity]. intros [H _]. vm_compute in H. apply H. reflexivity.
Qed.
