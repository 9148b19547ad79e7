(** What the estimator properties talk about: which simulated values a logged
    value is compared with, and its likelihood among them. *)
From Coq Require Import QArith.
From Verif Require Import Base EstimatorModel.
Open Scope Q_scope.

Definition volume (sh : list nat) : nat := fold_right Nat.mul 1%nat sh.

(** A tensor holds one element per index, booleans being 0 or 1. *)
Definition tensor_ok (t : tensor) : Prop :=
  length (t_data t) = volume (t_shape t) /\
  (t_dtype t = DBool -> forall v, In v (t_data t) -> v = 0 \/ v = 1).

(** Logged value of object [o] at step [t]; simulated value in rollout [r]. *)
Definition log_at (n_steps : nat) (l : tensor) (o t : nat) : Q := nth (o * n_steps + t) (t_data l) 0.
Definition sim_at (n_objects n_steps : nat) (s : tensor) (r o t : nat) : Q :=
  nth ((r * n_objects + o) * n_steps + t) (t_data s) 0.

(** The simulated values that the logged value of object [o] at step [t] is
    compared with: over all rollouts, the same object or (when objects are
    aggregated) all of them, at the same step or (when steps are independent)
    all of them. *)
Definition population (f : feature_config) (n_rollouts n_objects n_steps : nat) (s : tensor)
    (o t : nat) : list Q :=
  flat_map (fun r =>
    flat_map (fun o' =>
      map (fun t' => sim_at n_objects n_steps s r o' t')
          (if independent_timesteps f then seq 0 n_steps else [t]))
      (if aggregate_objects f then seq 0 n_objects else [o]))
    (seq 0 n_rollouts).

Definition qnat (n : nat) : Q := inject_Z (Z.of_nat n).

(** Bin [k] of [n] equal bins of [lo, hi]: closed on the left, open on the right
    except the last one. *)
Definition in_bin (lo hi : Q) (n k : nat) (x : Q) : Prop :=
  (k < n)%nat /\ lo * qnat n + (hi - lo) * qnat k <= x * qnat n /\
  (x * qnat n < lo * qnat n + (hi - lo) * qnat (S k) \/ (S k = n /\ x <= hi)).

(** The nearest value of [lo, hi]. *)
Definition nearest (lo hi x y : Q) : Prop :=
  (x < lo /\ y == lo) \/ (lo <= x <= hi /\ y == x) \/ (hi < x /\ y == hi).

(** Number of elements that satisfy a property. *)
Inductive count {A} (P : A -> Prop) : list A -> nat -> Prop :=
| count_nil : count P [] 0
| count_yes a l n : P a -> count P l n -> count P (a :: l) (S n)
| count_no a l n : ~ P a -> count P l n -> count P (a :: l) n.

(** [r] is [num / den], NaN when [den] is zero. *)
Definition ratio (num den : Q) (r : option Q) : Prop :=
  match r with None => den == 0 | Some q => ~ den == 0 /\ q * den == num end.

(** The smoothed share of the samples that fall, once moved to [lo, hi], in the
    bin of the value. *)
Definition histogram_likelihood (c : histogram_config) (samples : list Q) (v : Q) (r : option Q) : Prop :=
  exists k n y,
    nearest (min_val c) (max_val c) v y /\ in_bin (min_val c) (max_val c) (num_bins c) k y /\
    count (fun s => exists z, nearest (min_val c) (max_val c) s z /\
                              in_bin (min_val c) (max_val c) (num_bins c) k z) samples n /\
    ratio (qnat n + smoothing c) (qnat (length samples) + qnat (num_bins c) * smoothing c) r.

(** The smoothed share of the samples equal to the value. *)
Definition bernoulli_likelihood (a : Q) (samples : list Q) (v : Q) (r : option Q) : Prop :=
  exists n, count (fun s => s = v) samples n /\
    ratio (qnat n + a) (qnat (length samples) + 2 * a) r.

(** The mean of the kernel centred on the samples. *)
Definition kernel_likelihood (gauss : Q -> Q) (h : Q) (samples : list Q) (v : Q) (r : option Q) : Prop :=
  exists q, r = Some q /\ samples <> [] /\
    q * qnat (length samples) == fold_right Qplus 0 (map (fun s => gauss ((v - s) / h)) samples).

Definition likelihood (gauss : Q -> Q) (e : estimator) (samples : list Q) (v : Q) (r : option Q) : Prop :=
  match e with
  | Histogram c => histogram_likelihood c samples v r
  | Bernoulli a => bernoulli_likelihood a samples v r
  | KernelDensity h => kernel_likelihood gauss h samples v r
  | NoEstimator => False
  end.

(** A configuration that the estimators can work with, given the type of the
    values. *)
Definition usable (e : estimator) (log sim : tensor) : Prop :=
  match e with
  | Histogram c => t_dtype log = DFloat /\ t_dtype sim = DFloat /\ num_bins c <> O
  | KernelDensity h => 0 < h
  | Bernoulli _ => t_dtype log = DBool /\ t_dtype sim = DBool
  | NoEstimator => False
  end.

(** The bounds of a histogram are in order. *)
Definition bounds_ok (e : estimator) : Prop :=
  match e with Histogram c => min_val c < max_val c | _ => True end.

(** The additive smoothing of an estimator. *)
Definition smoothing_of (e : estimator) : Q :=
  match e with Histogram c => smoothing c | Bernoulli a => a | _ => 0 end.

(** The same value, or NaN on both sides. *)
Definition same_value (a b : option Q) : Prop :=
  match a, b with Some x, Some y => x == y | None, None => True | _, _ => False end.
