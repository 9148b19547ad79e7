From Coq Require Import Reals List Bool Arith Lra Lia Permutation.
From Verif Require Import Base ResultLib GeomModel GeomBase WayModel AucModel.
From Verif Require AucSpec.
Import ListNotations.
Open Scope R_scope.

(** ** Logarithms *)
Lemma ln_below r : 0 < r -> r <> 1 -> ln r < r - 1.
Proof.
  intros P N. assert (L : ln r <> 0). { intros L. apply N. rewrite <- (exp_ln r P), L. apply exp_0. }
  pose proof (exp_ineq1 (ln r) L) as E. rewrite (exp_ln r P) in E. lra.
Qed.
Lemma ln_above r : 0 < r -> r <> 1 -> 1 - / r < ln r.
Proof.
  intros P N. assert (Q : 0 < / r) by now apply Rinv_0_lt_compat.
  assert (M : / r <> 1). { intros E. apply N. rewrite <- (Rinv_inv r). rewrite E. lra. }
  pose proof (ln_below (/ r) Q M) as B. rewrite ln_Rinv in B by exact P. lra.
Qed.

(** ** The part between two levels *)
Section Part.
Variables h1 a1 h0 a0 : R.
Hypothesis H1 : 0 <= h1. Hypothesis A1 : 0 <= a1. Hypothesis H0 : h1 <= h0. Hypothesis A0 : a1 <= a0.
Let p0 := h0 + a0.
Let p1 := h1 + a1.
Definition slope_of : R := divide_no_nan (h0 - h1) (Rmax (p0 - p1) 0).
Definition part : R :=
  slope_of * (h0 - h1 + (h1 - slope_of * p1) * ln (if rltb 0 p0 && rltb 0 p1 then divide_no_nan p0 (Rmax p1 0) else 1)).
Lemma slope_flat : h0 = h1 -> slope_of = 0.
Proof. intros E. unfold slope_of, divide_no_nan. rewrite E. destruct Req_EM_T; [reflexivity|]. unfold Rdiv. ring. Qed.
Lemma slope_eq : p1 < p0 -> slope_of = (h0 - h1) / (p0 - p1).
Proof. intros L. unfold slope_of, divide_no_nan. rewrite Rmax_left by lra. destruct Req_EM_T; [lra|reflexivity]. Qed.
Lemma part_flat : h0 = h1 -> part = 0.
Proof. intros E. unfold part. rewrite (slope_flat E). ring. Qed.
Lemma part_first : h1 < h0 -> p1 = 0 -> part = (h0 - h1) * ((h0 - h1) / p0).
Proof.
  intros L E. assert (P : p1 < p0) by (subst p0 p1; lra). unfold part. rewrite (slope_eq P).
  replace (rltb 0 p1) with false by (symmetry; apply rltb_false; lra). rewrite andb_false_r, ln_1, E. field. lra.
Qed.
Lemma part_next : h1 < h0 -> 0 < p1 -> part = (h0 - h1) / (p0 - p1) * (h0 - h1 + (h1 - (h0 - h1) / (p0 - p1) * p1) * ln (p0 / p1)).
Proof.
  intros L E. assert (P : p1 < p0) by (subst p0 p1; lra). unfold part. rewrite (slope_eq P).
  rewrite (proj2 (rltb_iff 0 p1) E), (proj2 (rltb_iff 0 p0)) by lra. cbn [andb].
  unfold divide_no_nan. rewrite Rmax_left by lra. destruct (Req_EM_T p1 0); [lra|]. reflexivity.
Qed.
Lemma part_cases : h1 < h0 -> 0 < part <= h0 - h1 /\ (part = h0 - h1 <-> a0 = 0).
Proof.
  intros L. assert (P : p1 < p0) by (subst p0 p1; lra).
  assert (P0 : 0 < p0) by (subst p0; lra).
  destruct (Rle_lt_dec p1 0) as [Z|Z].
  - assert (Z1 : p1 = 0) by (subst p1; lra). assert (h1 = 0 /\ a1 = 0) as [Z2 Z3] by (subst p1; lra).
    rewrite (part_first L Z1), Z2. replace (h0 - 0) with h0 by ring.
    assert (D : 0 < h0 / p0 <= 1).
    { split; [apply Rdiv_lt_0_compat; lra|]. apply (Rmult_le_reg_r p0); [lra|]. unfold Rdiv. rewrite Rmult_assoc, Rinv_l by lra. subst p0. lra. }
    assert (h0 * (h0 / p0) = h0 <-> a0 = 0).
    { split.
      - intros E. assert (h0 / p0 = 1). { apply (Rmult_eq_reg_l h0); lra. }
        assert (h0 = p0). { apply (Rmult_eq_reg_r (/ p0)); [|apply Rinv_neq_0_compat; lra]. rewrite Rinv_r by lra. exact H. } subst p0. lra.
      - intros E. assert (EE : p0 = h0) by (subst p0; lra). rewrite EE. field. lra. }
    repeat split; try tauto; nra.
  - rewrite (part_next L Z).
    set (s := (h0 - h1) / (p0 - p1)). set (r := p0 / p1).
    assert (S0 : s * (p0 - p1) = h0 - h1) by (unfold s; field; lra).
    assert (R0 : r * p1 = p0) by (unfold r; field; lra).
    assert (R1 : 1 < r) by nra.
    assert (S1 : 0 < s) by (unfold s; apply Rdiv_lt_0_compat; lra).
    assert (S2 : s <= 1). { apply (Rmult_le_reg_r (p0 - p1)); [lra|]. rewrite S0. subst p0 p1. lra. }
    pose proof (ln_below r ltac:(lra) ltac:(lra)) as B.
    pose proof (ln_above r ltac:(lra) ltac:(lra)) as C.
    assert (C' : 0 < ln r). { assert (/ r < 1). { rewrite <- Rinv_1. apply Rinv_lt_contravar; lra. } lra. }
    set (x := ln r) in *. assert (R2 : (r - 1) * p1 = p0 - p1) by lra.
    destruct (Rtotal_order (h1 - s * p1) 0) as [N|[N|N]].
    + (* falling *)
      assert (h1 - s * p1 + 0 < 0) by lra.
      assert (U : s * (h0 - h1 + (h1 - s * p1) * x) < h0 - h1).
      { assert (U1 : (h1 - s * p1) * x < 0) by (apply Ropp_lt_cancel; rewrite Ropp_0, Ropp_mult_distr_l; apply Rmult_lt_0_compat; lra).
        apply Rlt_le_trans with (s * (h0 - h1)); [apply Rmult_lt_compat_l; lra|].
        apply Rle_trans with (1 * (h0 - h1)); [apply Rmult_le_compat_r; lra|lra]. }
      assert (V : 0 <= h0 - h1 + (h1 - s * p1) * (r - 1)).
      { replace (h0 - h1 + (h1 - s * p1) * (r - 1)) with (s * (p0 - p1) + h1 * (r - 1) - s * ((r - 1) * p1)) by (rewrite S0; ring). rewrite R2.
        assert (0 <= h1 * (r - 1)) by (apply Rmult_le_pos; lra). lra. }
      assert (W : 0 < s * (h0 - h1 + (h1 - s * p1) * x)).
      { apply Rmult_lt_0_compat; [lra|]. assert (0 < (s * p1 - h1) * (r - 1 - x)) by (apply Rmult_lt_0_compat; lra). lra. }
      split; [lra|]. split; [lra|]. intros E. exfalso.
      assert (T : h1 = p1 /\ h0 = p0) by (subst p0 p1; lra). destruct T as [T1 T2].
      rewrite T1, T2 in S0. assert (T : s = 1). { apply (Rmult_eq_reg_r (p0 - p1)); lra. } rewrite T in N. lra.
    + (* straight through the origin *)
      rewrite N, Rmult_0_l, Rplus_0_r. split; [nra|]. split.
      * intros E. assert (T : s = 1). { apply (Rmult_eq_reg_r (h0 - h1)); lra. } rewrite T in *. subst p0 p1. lra.
      * intros E. assert (T : h1 = p1 /\ h0 = p0) by (subst p0 p1; lra). destruct T as [T1 T2].
        rewrite T1, T2 in S0. assert (T : s = 1). { apply (Rmult_eq_reg_r (p0 - p1)); lra. } rewrite T. ring.
    + (* rising alarms *)
      assert (V : s * (h0 - h1 + (h1 - s * p1) * x) < s * (h0 - h1 + (h1 - s * p1) * (r - 1))) by (apply Rmult_lt_compat_l; [lra|]; apply Rplus_lt_compat_l, Rmult_lt_compat_l; lra).
      assert (X : h0 - h1 + (h1 - s * p1) * (r - 1) = h1 * (r - 1)).
      { replace (h0 - h1 + (h1 - s * p1) * (r - 1)) with (s * (p0 - p1) + h1 * (r - 1) - s * ((r - 1) * p1)) by (rewrite S0; ring). rewrite R2. ring. }
      rewrite X in V.
      assert (Y : s * (h1 * (r - 1)) <= h0 - h1).
      { rewrite <- S0. apply Rmult_le_compat_l; [lra|]. rewrite <- R2, Rmult_comm. apply Rmult_le_compat_l; subst p1; lra. }
      assert (W : 0 < s * (h0 - h1 + (h1 - s * p1) * x)). { apply Rmult_lt_0_compat; [lra|]. assert (0 < (h1 - s * p1) * x) by (apply Rmult_lt_0_compat; lra). lra. }
      split; [lra|]. split; [lra|]. intros E. exfalso.
      assert (T : h1 = p1 /\ h0 = p0) by (subst p0 p1; lra). destruct T as [T1 T2].
      rewrite T1, T2 in S0. assert (T : s = 1). { apply (Rmult_eq_reg_r (p0 - p1)); lra. } rewrite T in N. lra.
Qed.
Lemma part_range : 0 <= part <= h0 - h1.
Proof. destruct (Rle_lt_or_eq_dec h1 h0 H0) as [L|E]; [destruct (part_cases L); lra|]. rewrite part_flat by auto. lra. Qed.
Lemma part_area : AucSpec.interpolated_area h1 a1 h0 a0 part.
Proof.
  unfold AucSpec.interpolated_area. fold p0 p1.
  destruct (Rle_lt_or_eq_dec h1 h0 H0) as [L|E].
  2:{ exists (fun _ => 0). rewrite part_flat by auto. split; [ring|]. intros s S P. assert (s = 0).
      { apply (Rmult_eq_reg_r (p0 - p1)); [|lra]. rewrite S. lra. } subst s. split; intros q Q.
      - apply continuity_pt_const. intros ? ?. reflexivity.
      - replace (0 * ((h1 + 0 * (q - p1)) / q)) with 0 by ring. apply derivable_pt_lim_const. }
  assert (P : p1 < p0) by (subst p0 p1; lra).
  set (s := (h0 - h1) / (p0 - p1)).
  assert (S0 : s * (p0 - p1) = h0 - h1) by (unfold s; field; lra).
  assert (U : forall t, t * (p0 - p1) = h0 - h1 -> t = s).
  { intros t T. apply (Rmult_eq_reg_r (p0 - p1)); lra. }
  destruct (Rle_lt_dec p1 0) as [Z|Z].
  - assert (Z1 : p1 = 0) by (subst p1; lra). assert (Z2 : h1 = 0) by (subst p1; lra).
    exists (fun q => s * s * q). split.
    + rewrite (part_first L Z1). unfold s. rewrite Z1. field. lra.
    + intros t T _. rewrite (U t T). assert (D : forall q, derivable_pt_lim (fun q => s * s * q) q (s * s)).
      { intros q. pose proof (derivable_pt_lim_scal id (s * s) q 1 (derivable_pt_lim_id q)) as D. rewrite Rmult_1_r in D. exact D. }
      split; intros q Q.
      * apply derivable_continuous_pt. exists (s * s). apply D.
      * replace (s * ((h1 + s * (q - p1)) / q)) with (s * s); [apply D|]. rewrite Z2, Z1. field. lra.
  - exists (fun q => s * s * q + s * (h1 - s * p1) * ln q). split.
    + rewrite (part_next L Z). fold s. unfold Rdiv at 1. rewrite ln_mult, ln_Rinv by (try apply Rinv_0_lt_compat; lra). rewrite <- S0. ring.
    + intros t T _. rewrite (U t T).
      assert (D : forall q, 0 < q -> derivable_pt_lim (fun q => s * s * q + s * (h1 - s * p1) * ln q) q (s * s * 1 + s * (h1 - s * p1) * / q)).
      { intros q Q. apply (derivable_pt_lim_plus (fun q => s * s * q) (fun q => s * (h1 - s * p1) * ln q)).
        - exact (derivable_pt_lim_scal id (s * s) q 1 (derivable_pt_lim_id q)).
        - exact (derivable_pt_lim_scal ln (s * (h1 - s * p1)) q (/ q) (derivable_pt_lim_ln q Q)). }
      split; intros q Q.
      * apply derivable_continuous_pt. eexists. apply D. lra.
      * replace (s * ((h1 + s * (q - p1)) / q)) with (s * s * 1 + s * (h1 - s * p1) * / q); [apply D; lra|]. field. lra.
Qed.
End Part.
