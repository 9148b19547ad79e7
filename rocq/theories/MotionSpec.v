(** Specifications for the motion metrics. *)
From Coq Require Import Permutation Sorting.Sorted.
From Verif Require Import Base MotionModel MotionApSpec.
Open Scope Z_scope.

(** The predictions that are looked at: the first K, or all when K is not positive. *)
Definition first_predictions (K : Z) (m : mmp) : list joint := if 0 <? K then firstn (Z.to_nat K) m else m.

(** The answers of a function that may fail on a list of inputs. *)
Definition answers {A B} (f : A -> result B) (l : list A) (r : list B) : Prop := Forall2 (fun a b => f a = Ok b) l r.

(** At most one measurement. *)
Definition nothing (a : accum) : Prop := a_num a = 0 /\ (a_total a == 0)%Q.
Definition one (a : accum) (v : Q) : Prop := a_num a = 1 /\ (a_total a == v)%Q.

(** The errors at the valid steps 0..n of a trajectory with positions p and track states given by
    step. *)
Definition errors (g : geom) (steps : list (Q * Q * state)) : list Q :=
  map (fun '(x, y, s) => g_hypot g (x - st_x s)%Q (y - st_y s)%Q) (filter (fun '(_, _, s) => st_valid s) steps).
Definition mean (l : list Q) : Q := (sum_list l / inject_Z (Z.of_nat (length l)))%Q.
(** [steps] pairs the positions 0..n of the trajectory with the track states at their times. *)
Definition paired (c : mcfg) (t : traj) (tr : track) (n : Z) (steps : list (Q * Q * state)) : Prop :=
  Z.of_nat (length steps) = n + 1 /\
  forall i, (Z.of_nat i <= n) -> exists x y s,
    nth_error steps i = Some (x, y, s) /\ nth_error (tj_x t) i = Some x /\ nth_error (tj_y t) i = Some y /\
    nth_error (tr_states tr) (Z.to_nat ((Z.of_nat i + 1) * (tsps c / psps c) + hist c)) = Some s.

(** Samples up to the representation of the confidence. *)
Definition same_samples (s s' : list (Q * bool)) : Prop :=
  Permutation (map (fun a => (Qred (fst a), snd a)) s) (map (fun a => (Qred (fst a), snd a)) s').

(** A well formed configuration: positive rates, the prediction rate divides the track rate, every
    measurement step is a step of the prediction. *)
Definition wf_cfg (c : mcfg) : Prop :=
  0 < psps c /\ 0 < tsps c /\ (psps c | tsps c) /\ 0 <= hist c /\ 0 <= fut c /\ 0 <= max_preds c /\
  (0 < scl_lo c)%Q /\ (0 < scl_hi c)%Q /\
  (forall sc, In sc (step_cfgs c) -> 0 <= m_step sc < fut c * psps c / tsps c).
Definition full_tracks (c : mcfg) (s : scenario) : Prop :=
  forall t, In t (sc_tracks s) -> Z.of_nat (length (tr_states t)) = hist c + fut c + 1.
(** A failure that is reported as a status, as opposed to a crash. *)
Definition no_crash {A} (r : result A) : Prop := match r with Ok _ => True | Err e => e = ValueError end.

(** Equal reported metrics. *)
Definition same_metrics (a b : bundle) : Prop :=
  b_type a = b_type b /\ b_step a = b_step b /\ (b_ade a == b_ade b)%Q /\ (b_fde a == b_fde b)%Q /\ (b_miss a == b_miss b)%Q /\
  (b_overlap a == b_overlap b)%Q /\ (b_map a == b_map b)%Q /\ (b_soft a == b_soft b)%Q.

(** Equal as sets. *)
Definition same_ids (a b : list Z) : Prop := forall x, In x a <-> In x b.
(** A multimodal prediction whose joint predictions, after a possibly empty run of predictions without
    trajectories, all predict the same objects. *)
Definition consistent (m : mmp) : Prop :=
  exists empty rest, m = empty ++ rest /\ (forall j, In j empty -> jt_trajs j = []) /\
    (forall j, In j rest -> jt_trajs j <> []) /\
    (forall j j', In j rest -> In j' rest -> same_ids (map tj_id (jt_trajs j)) (map tj_id (jt_trajs j'))).
(** All trajectories have n positions. *)
Definition all_steps (n : Z) (p : preds) : Prop :=
  forall m j t, In m (pr_mms p) -> In j m -> In t (jt_trajs j) ->
    Z.of_nat (length (tj_x t)) = n /\ Z.of_nat (length (tj_y t)) = n.
(** The object x is predicted by p; the object x has to be predicted in s. *)
Definition predicted (p : preds) (x : Z) : Prop :=
  exists m j t, In m (pr_mms p) /\ In j m /\ In t (jt_trajs j) /\ tj_id t = x.
Definition to_predict (s : scenario) (x : Z) : Prop :=
  exists i t, In i (sc_predict s) /\ 0 <= i /\ nth_error (sc_tracks s) (Z.to_nat i) = Some t /\ tr_id t = x.
(** The accepted predictions. *)
Definition valid_predictions (n : Z) (p : preds) (s : scenario) : Prop :=
  pr_id p = sc_id s /\ all_steps n p /\ (forall m, In m (pr_mms p) -> consistent m) /\
  (forall i, In i (sc_predict s) -> 0 <= i < Z.of_nat (length (sc_tracks s))) /\
  (forall x, predicted p x <-> to_predict s x).
