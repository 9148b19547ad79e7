From Coq Require Import Reals List Bool Arith Lra Lia.
From Verif Require Import Base ResultLib GeomModel GeomBase WayModel AucModel AucProofs AucCounts AucMetrics.
From Verif Require Import AucSpec.
Import ListNotations.
Open Scope R_scope.

Lemma occ1 x : occupied (1, x) = true.
Proof. unfold occupied. cbn [fst]. destruct Req_EM_T; [lra|reflexivity]. Qed.
Lemma occ0 x : occupied (0, x) = false.
Proof. unfold occupied. cbn [fst]. destruct Req_EM_T; [reflexivity|lra]. Qed.
Definition swapped : list (R * R) := [(0, 1); (1, 1 / 2)].
Lemma swapped_hits i : (i <= 99)%nat -> hits swapped i = if Nat.leb i 49 then 1 else 0.
Proof.
  intros L. unfold hits, swapped. rewrite !number_cons, occ1, occ0. cbn [andb]. unfold number. cbn [filter length INR]. rewrite Rplus_0_l, Rplus_0_r.
  destruct (Nat.eq_dec i 0) as [->|N]; [reflexivity|]. destruct (Nat.eq_dec i 99) as [->|M]; [reflexivity|].
  destruct (Nat.leb_spec i 49) as [A|A].
  - rewrite (proj2 (above_between i (1, 1 / 2) ltac:(lia))); [reflexivity|]. cbn [snd]. apply le_INR in A.
    replace (INR 49) with 49 in A by (rewrite INR_IZR_INZ; reflexivity). lra.
  - destruct (above i (1, 1 / 2)) eqn:E; [|reflexivity]. apply above_between in E; [|lia]. cbn [snd] in E. apply (le_INR 50) in A.
    replace (INR 50) with 50 in A by (rewrite INR_IZR_INZ; reflexivity). lra.
Qed.
Lemma swapped_alarms i : (i <= 98)%nat -> alarms swapped i = 1.
Proof.
  intros L. unfold alarms, swapped. rewrite !number_cons, occ1, occ0. cbn [andb negb]. unfold number. cbn [filter length INR]. rewrite !Rplus_0_r.
  destruct (Nat.eq_dec i 0) as [->|N]; [reflexivity|]. rewrite (proj2 (above_between i (0, 1) ltac:(lia))); [reflexivity|]. cbn [snd].
  apply le_INR in L. replace (INR 98) with 98 in L by (rewrite INR_IZR_INZ; reflexivity). lra.
Qed.
(** A free cell above the occupied one. *)
Lemma swapped_value : compute_occupancy_auc [0; 1] [1; 1 / 2] = Ok (1 - ln 2).
Proof.
  rewrite (scores_exist [0; 1] [1; 1 / 2]) by (intros x [<-|[<-|[]]]; lra). f_equal. cbn [combine]. fold swapped.
  assert (A : all_predicted swapped) by (intros c [<-|[<-|[]]]; unfold predicted; cbn [snd]; lra).
  rewrite (value_eq _ A).
  rewrite <- hits_first, swapped_hits by lia. cbn [Nat.leb]. rewrite (sum_single _ _ 49%nat (seq_NoDup 99 0)); [|apply in_seq; lia|].
  - unfold level_part. rewrite !swapped_hits, !swapped_alarms by lia. change (Nat.leb 50 49) with false. change (Nat.leb 49 49) with true. cbn iota.
    rewrite part_next; try lra. unfold divide_no_nan. destruct Req_EM_T; [lra|].
    replace ((1 + 1) / (0 + 1)) with 2 by field. field.
  - intros j J D. apply in_seq in J. apply level_flat. rewrite !swapped_hits by lia.
    destruct (Nat.leb_spec j 49), (Nat.leb_spec (S j) 49); try reflexivity; lia.
Qed.
