(** Property C05: the Hungarian algorithm returns a maximum weight perfect matching. *)
From Coq Require Import Permutation.
From Verif Require Import Base HungarianModel HungarianSpec HungarianProofs.
Open Scope Z_scope.

(** C05. For every size and every matrix of weights in [0, 2^30 - 1] the algorithm terminates,
    no FATAL line is reached, no int32 addition overflows, and the returned vector is a
    permutation of the columns whose total weight no other permutation exceeds. *)
Theorem C05_hungarian_maximum_weight : forall n edge,
  (0 < n)%nat -> length edge = (n * n)%nat -> Forall (fun z => 0 <= z <= 1073741823) edge ->
  exists sigma lx ly,
    hungarian n edge = Ok (map Some sigma, lx, ly) /\ max_assignment n edge sigma.
Proof.
  intros n edge Hn Hl Hf.
  destruct (hungarian_main_list n edge Hn Hl Hf) as (s & lx & ly & E & M & _). eauto.
Qed.
Print Assumptions C05_hungarian_maximum_weight.

(** C05. The returned labels certify optimality: they dominate every weight and are tight on
    the matching. *)
Theorem C05_hungarian_labels_certify : forall n edge,
  (0 < n)%nat -> length edge = (n * n)%nat -> Forall (fun z => 0 <= z <= 1073741823) edge ->
  exists sigma lx ly,
    hungarian n edge = Ok (map Some sigma, lx, ly) /\ length lx = n /\ length ly = n /\
    (forall i j, (i < n)%nat -> (j < n)%nat -> nth (i * n + j)%nat edge 0 <= nth i lx 0 + nth j ly 0) /\
    (forall i, (i < n)%nat ->
       nth i lx 0 + nth (nth i sigma 0%nat) ly 0 = nth (i * n + nth i sigma 0%nat)%nat edge 0).
Proof.
  intros n edge Hn Hl Hf.
  destruct (hungarian_main_list n edge Hn Hl Hf) as (s & lx & ly & E & _ & R). eauto.
Qed.
Print Assumptions C05_hungarian_labels_certify.

(** C05. An empty graph is rejected (CHECK_GT). *)
Theorem C05_empty_graph_rejected : forall edge, hungarian 0 edge = Err CheckFailed.
Proof. reflexivity. Qed.
Print Assumptions C05_empty_graph_rejected.

(** C05. The bound on the weights is needed: with int32 weights above 2^30 the labels overflow. *)
Theorem C05_all_int32_weights_refuted : exists edge,
  length edge = (3 * 3)%nat /\ Forall (fun z => 0 <= z <= int_max) edge /\
  hungarian 3 edge = Err RuntimeError.
Proof. exact overflow_witness. Qed.
Print Assumptions C05_all_int32_weights_refuted.

(** C05. The results that count as overflow are exactly those that an int32 cannot hold. *)
Theorem C05_overflow_is_int32_range : forall z, in_int z = true <-> - 2 ^ 31 <= z < 2 ^ 31.
Proof. exact in_int_range. Qed.
Print Assumptions C05_overflow_is_int32_range.

(** ** Non-vacuity *)
Definition m3 : list Z := [7;4;3; 6;8;5; 9;4;4].
Example m3_admissible : length m3 = (3 * 3)%nat /\ Forall (fun z => 0 <= z <= 1073741823) m3.
Proof. split; [reflexivity|]. unfold m3. repeat constructor; lia. Qed.
Example m3_solved : match hungarian 3 m3 with Ok (p, _, _) => p | Err _ => [] end
  = [Some 2; Some 1; Some 0]%nat.
Proof. vm_compute. reflexivity. Qed.
Example m3_total : total_weight 3 m3 [2;1;0]%nat = 20 /\ total_weight 3 m3 [0;1;2]%nat = 19.
Proof. vm_compute. split; reflexivity. Qed.
