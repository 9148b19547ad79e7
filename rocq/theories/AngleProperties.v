(** C16: heading accuracy. C50: modulo and wrapping helpers. *)
From Coq Require Import Qabs.
From Verif Require Import Base AngleModel AngleSpec AngleProofs.
Open Scope Q_scope.

(** The heading accuracy is 1 minus the circular distance in units of pi, and lies in [0, 1]. *)
Theorem C16_value pi pd gt : 0 < pi ->
  exists d, circular_distance (2 * pi) pd gt d /\ 0 <= d <= pi /\ heading_accuracy pi pd gt == 1 - d / pi.
Proof. exact (heading_value pi pd gt). Qed.
Print Assumptions C16_value.
Theorem C16_symmetric pi a b : 0 < pi -> heading_accuracy pi a b == heading_accuracy pi b a.
Proof. exact (heading_sym pi a b). Qed.
Print Assumptions C16_symmetric.
Theorem C16_periodic pi a b a' b' : 0 < pi -> congruent (2 * pi) a a' -> congruent (2 * pi) b b' ->
  heading_accuracy pi a b == heading_accuracy pi a' b'.
Proof. exact (heading_congruent pi a b a' b'). Qed.
Print Assumptions C16_periodic.
(** It is 1 exactly for equal headings and 0 exactly for opposite headings. *)
Theorem C16_extremes pi a b : 0 < pi ->
  (heading_accuracy pi a b == 1 <-> congruent (2 * pi) a b) /\
  (heading_accuracy pi a b == 0 <-> congruent (2 * pi) a (b + pi)).
Proof. intros H. split; [exact (heading_one pi a b H)|exact (heading_zero pi a b H)]. Qed.
Print Assumptions C16_extremes.

(** C50. *)
Theorem C50_wrap lo hi v : lo < hi ->
  (lo <= wrap_to_range lo hi v < hi /\ congruent (hi - lo) (wrap_to_range lo hi v) v) /\
  forall w, congruent (hi - lo) v w -> wrap_to_range lo hi v == wrap_to_range lo hi w.
Proof. intros H. split; [exact (wrap_spec lo hi v H)|exact (fun w => wrap_congruent lo hi v w H)]. Qed.
Print Assumptions C50_wrap.
(** For signed and unsigned integral types no intermediate value leaves the type's range. *)
Theorem C50_integral lo hi x y : (lo = - hi - 1 \/ lo = 0)%Z -> (0 < y)%Z -> (2 * y <= hi)%Z -> (lo <= x <= hi)%Z ->
  int_positive_modulo lo hi x y = Ok (x mod y)%Z.
Proof. exact (int_modulo lo hi x y). Qed.
Print Assumptions C50_integral.
(** The documented limit on the second argument is needed. *)
Theorem C50_integral_limit_refuted : exists lo hi x y, (lo = - hi - 1 /\ 0 < y <= hi /\ lo <= x <= hi)%Z /\
  int_positive_modulo lo hi x y = Err RuntimeError.
Proof. exists (-128)%Z, 127%Z, 5%Z, 64%Z. split; [lia|reflexivity]. Qed.
Print Assumptions C50_integral_limit_refuted.
(** Clamping gives the nearest value of the range. *)
Theorem C50_bound lo hi v : (lo <= hi)%Z -> (lo <= bound_to_range lo hi v <= hi)%Z /\
  (forall w, lo <= w <= hi -> Z.abs (v - bound_to_range lo hi v) <= Z.abs (v - w))%Z.
Proof. exact (bound_spec lo hi v). Qed.
Print Assumptions C50_bound.

Example C16_nonvacuous : heading_accuracy (22#7) 1 (1 + (44#7)) == 1 /\ heading_accuracy (22#7) ((22#7) - (1#10)) (-(22#7) + (1#10)) == 1 - (14#220).
Proof. split; reflexivity. Qed.
Example C50_nonvacuous : int_positive_modulo (-128) 127 (-128) 60 = Ok 52%Z /\ wrap_to_range (-1) 1 (7#2) == -(1#2).
Proof. split; reflexivity. Qed.
