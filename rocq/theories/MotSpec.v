(** Specification of multi object tracking evaluation: correspondences and their accounting,
    in terms of the objects of a frame. *)
From Coq Require Import Permutation.
From Verif Require Import Base MatcherModel MatcherSpec MotModel HungarianSpec.
Open Scope Z_scope.

(** A map as a relation. *)
Definition maps_to (m : amap) (k v : nat) : Prop := In (k, v) m.
(** No key and no value occurs twice. *)
Definition one_to_one (m : amap) : Prop := NoDup (keys m) /\ NoDup (vals m).
Definition inverse_of (m m' : amap) : Prop := forall k v, maps_to m k v <-> maps_to m' v k.

(** The prediction with tracking id [h] (the first one if the id is repeated) and the ground
    truth with id [g] among the objects under evaluation. *)
Definition pred_of (f : mframe) (h : nat) : option nat :=
  find (fun x => Nat.eqb (nth x (pids f) 0%nat) h) (psub f).
Definition gt_of (f : mframe) (g : nat) : option nat :=
  find (fun x => Nat.eqb (nth x (gids f) 0%nat) g) (gsub f).
(** The ground truth with id [g] and the prediction with id [h] are in the frame and may match. *)
Definition compatible (f : mframe) (g h : nat) : Prop :=
  exists x y, pred_of f h = Some x /\ gt_of f g = Some y /\ canm f x y = Ok true.

(** The matcher answers every query about objects of the frame and, for lists of distinct objects,
    returns a one-to-one assignment of pairs that may match. *)
Record matcher_ok (f : mframe) : Prop := {
  mo_can : forall x y, (x < length (pids f))%nat -> (y < length (gids f))%nat -> exists b, canm f x y = Ok b;
  mo_iou : forall x y, (x < length (pids f))%nat -> (y < length (gids f))%nat -> exists v, iouv f x y = Ok v;
  mo_match : forall ps gs, NoDup ps -> NoDup gs ->
    Forall (fun x => x < length (pids f))%nat ps -> Forall (fun y => y < length (gids f))%nat gs ->
    exists pm gm, matchf f ps gs = Ok (pm, gm) /\ mutually_inverse (length ps) (length gs) pm gm /\
      forall i j, nth i pm None = Some j -> canm f (nth i ps 0%nat) (nth j gs 0%nat) = Ok true }.

(** Admissible frames. Prediction ids may repeat, ground truth ids may not. *)
Record mframe_ok (f : mframe) : Prop := {
  fo_matcher : matcher_ok f;
  fo_psub : Forall (fun x => x < length (pids f))%nat (psub f);
  fo_gsub : Forall (fun y => y < length (gids f))%nat (gsub f);
  fo_nlz : length (pnlz f) = length (pids f);
  fo_diff : length (gdiff f) = length (gids f);
  fo_gt_ids : NoDup (map (fun y => nth y (gids f) 0%nat) (gsub f));
  fo_iter : forall m, Permutation (iter f m) m }.

(** Reachable states. *)
Definition reachable (st : mot) : Prop :=
  exists fs ms, Forall mframe_ok fs /\ eval_all mot_init fs = Ok (st, ms).

(** ** Accounting of one frame, given its correspondences [nw] *)
Definition countb {A} (p : A -> bool) (l : list A) : Z := Z.of_nat (length (filter p l)).
Definition matched_gt (nw : amap) (g : nat) : bool := existsb (fun kv => Nat.eqb (fst kv) g) nw.
Definition matched_pd (nw : amap) (h : nat) : bool := existsb (fun kv => Nat.eqb (snd kv) h) nw.
Definition counted_gt (f : mframe) (nw : amap) (y : nat) : bool :=
  matched_gt nw (nth y (gids f) 0%nat) || Nat.leb (nth y (gdiff f) 0%nat) (level f).
Definition missed_gt (f : mframe) (nw : amap) (y : nat) : bool :=
  negb (matched_gt nw (nth y (gids f) 0%nat)) && Nat.leb (nth y (gdiff f) 0%nat) (level f).
Definition false_pd (f : mframe) (nw : amap) (h : nat) : bool :=
  negb (matched_pd nw h) &&
  match pred_of f h with Some x => negb (nth x (pnlz f) false) | None => false end.
(** Identity switches: the ground truth had another prediction, or the prediction belonged to a
    ground truth that is not in this frame. *)
Definition switched (old : amap) (gh : nat * nat) : bool :=
  existsb (fun kv => Nat.eqb (fst kv) (fst gh) && negb (Nat.eqb (snd kv) (snd gh))) old.
Definition stolen (f : mframe) (old : amap) (gh : nat * nat) : bool :=
  existsb (fun kv => Nat.eqb (snd kv) (snd gh) &&
                     match gt_of f (fst kv) with None => true | Some _ => false end) old.
Definition pair_cost (f : mframe) (gh : nat * nat) : Q :=
  match pred_of f (snd gh), gt_of f (fst gh) with
  | Some x, Some y => match iouv f x y with Ok v => 1 - v | Err _ => 0 end
  | _, _ => 0
  end.
Definition Qsum (l : list Q) : Q := fold_right Qplus 0%Q l.

(** Correspondences of a frame and the memory after it. *)
Record correspondences (st : mot) (f : mframe) (st' : mot) (nw : amap) : Prop := {
  co_one : one_to_one nw;
  co_pairs : forall g h, maps_to nw g h -> compatible f g h;
  co_kept : forall g h, maps_to (gt_pd st) g h -> compatible f g h -> maps_to nw g h;
  co_memory : forall g h, maps_to (gt_pd st') g h <->
    maps_to nw g h \/ (maps_to (gt_pd st) g h /\ ~ In g (keys nw) /\ ~ In h (vals nw)) }.

(** Change of the measurement by one frame. *)
Record accounting (st : mot) (f : mframe) (st' : mot) (nw : amap) : Prop := {
  ac_misses : misses (meas st') = misses (meas st) + countb (missed_gt f nw) (gsub f);
  ac_objects : objects_gt (meas st') = objects_gt (meas st) + countb (counted_gt f nw) (gsub f);
  ac_matches : matches (meas st') = matches (meas st) + Z.of_nat (length nw);
  ac_fps : fps (meas st') = fps (meas st) +
    countb (false_pd f nw) (nodup Nat.eq_dec (map (fun x => nth x (pids f) 0%nat) (psub f)));
  ac_mismatches : mismatches (meas st') = mismatches (meas st) +
    countb (switched (gt_pd st)) nw + countb (stolen f (gt_pd st)) nw;
  ac_cost : (cost (meas st') == cost (meas st) + Qsum (map (pair_cost f) nw))%Q }.
