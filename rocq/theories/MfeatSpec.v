(** What the scene features talk about, without the code's helpers. *)
From Coq Require Import Reals Permutation.
From Verif Require Import Base SimModel SimSpec GeomModel RoadModel MfeatModel.
Open Scope list_scope.
Open Scope R_scope.

(** The agents that are evaluated: the AV and the tracks to predict. *)
Definition evaluated_agent {F} (sc : scenario F) (id : Z) : Prop :=
  exists i t, (i = sdc_track_index sc \/ In i (tracks_to_predict sc)) /\ track_at sc i t /\ track_id t = id.

(** All the listed track numbers name tracks. *)
Definition indices_ok {F} (sc : scenario F) : Prop :=
  forall i, i = sdc_track_index sc \/ In i (tracks_to_predict sc) -> exists t, track_at sc i t.

(** The scenes that can be scored against a log of [n] steps: an accepted scene with each agent once,
    unambiguous ids, and no evaluated agent left out. *)
Definition scorable_for (n : nat) (sc : scenario R) (js : list (sim_trajectory R)) : Prop :=
  (uniform sc n /\ (10 < n)%nat) /\ acceptable js sc SIM_AGENTS /\ NoDup (map sim_id js) /\
  (forall id, required sc id -> occurs_once (map track_id (tracks sc)) id) /\
  indices_ok sc /\ (forall id, evaluated_agent sc id -> required sc id).

Definition scorable := scorable_for 91.

(** The agent [id] of the scene: its history followed by its simulated future, valid in the future at
    all steps or as in the log. *)
Definition sim_agent (sc : scenario R) (js : list (sim_trajectory R)) (log_validity : bool) (id : Z)
    (o : obj R) (tr : track R) : Prop :=
  exists s cur, In s js /\ sim_id s = id /\ In tr (tracks sc) /\ track_id tr = id /\
    nth_error (states tr) 10 = Some cur /\
    o = simulated_object tr cur s (if log_validity then map s_valid (skipn 11 (states tr)) else repeat true 80).

(** The box of an object at a step, and whether it is valid. *)
Definition object_cell (o : obj R) (t : nat) (c : obox * bool) : Prop :=
  exists x y l w h v,
    nth_error (o_x o) t = Some x /\ nth_error (o_y o) t = Some y /\ nth_error (o_length o) t = Some l /\
    nth_error (o_width o) t = Some w /\ nth_error (o_heading o) t = Some h /\ nth_error (o_valid o) t = Some v /\
    c = ({| bx := x; by_ := y; blength := l; bwidth := w; bheading := h |}, v).

(** The same with its height above the ground and its own height. *)
Definition object_box (o : obj R) (t : nat) (b : box3) (v : bool) : Prop :=
  object_cell o t (b_box b, v) /\ nth_error (o_z o) t = Some (b_z b) /\ nth_error (o_height o) t = Some (b_height b).
(** The valid boxes of the scene have a size. *)
Definition agents_sized (sc : scenario R) (js : list (sim_trajectory R)) (log_validity : bool) : Prop :=
  forall id o tr t c, sim_agent sc js log_validity id o tr -> object_cell o t (c, true) ->
    0 < blength c /\ 0 < bwidth c <= 10000000000.

(** The distance of two agents at a step as it is compared: very large when one of them is invalid,
    and moved away when it is the same agent. *)
Definition compared_as (same : bool) (e o : obox * bool) (v : R) : Prop :=
  exists d, box_distance (7 / 10) (fst e) (fst o) = Ok d /\
    v = (if snd e && snd o then (if same then d + 10000000000 else d) else 10000000000).

(** [d] is the smallest distance, at step [t], of the agent [id] to the agents of the scene. *)
Definition nearest_distance (sc : scenario R) (js : list (sim_trajectory R)) (b : bool) (id : Z) (t : nat) (d : R) : Prop :=
  let compared v := exists id' o tr o' tr' e c, sim_agent sc js b id o tr /\ sim_agent sc js b id' o' tr' /\
                      object_cell o t e /\ object_cell o' t c /\ compared_as (Z.eqb id' id) e c v in
  compared d /\ forall v, compared v -> d <= v.

(** The table [t] lists the agents of the scene, the evaluated ones first and in the order of [ids]. *)
Definition evaluated_first (sc : scenario R) (js : list (sim_trajectory R)) (b : bool) (ids : list Z) (t : trajectories R) : Prop :=
  n_objects t (length js) /\ firstn (length ids) (tr_id t) = ids /\ Permutation (tr_id t) (map sim_id js) /\
  forall k id o tr, nth_error (tr_id t) k = Some id -> sim_agent sc js b id o tr -> nth_object t k o.
(** True for the [m] evaluated agents, false for the [n] others. *)
Definition first_mask (m n : nat) : list bool := repeat true m ++ repeat false n.

(** The distance of a position to a logged position. *)
Definition distance_3d (x y z : R) (s : state R) : R :=
  sqrt ((x - center_x s) * (x - center_x s) + (y - center_y s) * (y - center_y s) + (z - center_z s) * (z - center_z s)).
(** The sum of the distances of a trajectory to the logged states that are valid. *)
Fixpoint total_error (x y z : list R) (log : list (state R)) : R :=
  match x, y, z, log with
  | a :: x, b :: y, c :: z, s :: log => (if s_valid s then distance_3d a b c s else 0) + total_error x y z log
  | _, _, _, _ => 0
  end.
Definition number_valid {F} (log : list (state F)) : nat := length (filter s_valid log).

(** The lanes of the map that are surface streets. *)
Definition surface_street (f : map_feature pt3) : list (Z * list pt3) :=
  match f with Lane i 2 p => [(i, p)] | _ => [] end.
Definition surface_streets (l : list (map_feature pt3)) : list (Z * list pt3) := flat_map surface_street l.
Definition road_edges (l : list (map_feature pt3)) : list (list pt3) :=
  flat_map (fun f => match f with RoadEdge p => [p] | _ => [] end) l.

(** A generated agent: its own trajectory, valid at all steps if the log is valid at the current one. *)
Definition gen_agent (js : list (sim_trajectory R)) (id : Z) (o : obj R) : Prop :=
  exists s, In s js /\ sim_id s = id /\ o = generated_object s.

(** The entry of agent number [k] in a tensor of one sample. *)
Definition agent_entry {A} (tensor : list (list A)) (k : nat) (a : A) : Prop :=
  exists rows, tensor = [rows] /\ nth_error rows k = Some a.
(** A tensor of one sample with [n] agents. *)
Definition one_sample {A} (tensor : list (list A)) (n : nat) : Prop := exists rows, tensor = [rows] /\ length rows = n.

(** Sample [i] of [all] is the only sample of [f]. *)
Definition sample_is (all : features) (i : nat) (f : features) : Prop :=
  nth_error (f_object_type all) i = nth_error (f_object_type f) 0 /\
  nth_error (f_valid all) i = nth_error (f_valid f) 0 /\ nth_error (f_ade all) i = nth_error (f_ade f) 0 /\
  nth_error (f_speed all) i = nth_error (f_speed f) 0 /\ nth_error (f_accel all) i = nth_error (f_accel f) 0 /\
  nth_error (f_turn all) i = nth_error (f_turn f) 0 /\ nth_error (f_turn_accel all) i = nth_error (f_turn_accel f) 0 /\
  nth_error (f_distance all) i = nth_error (f_distance f) 0 /\ nth_error (f_collision all) i = nth_error (f_collision f) 0 /\
  nth_error (f_ttc all) i = nth_error (f_ttc f) 0 /\ nth_error (f_road all) i = nth_error (f_road f) 0 /\
  nth_error (f_offroad all) i = nth_error (f_offroad f) 0 /\ nth_error (f_red all) i = nth_error (f_red f) 0.

(** An order of the elements of a set. *)
Definition listing {S} (X : extractors S) : Prop := forall l, Permutation (order X l) l.
