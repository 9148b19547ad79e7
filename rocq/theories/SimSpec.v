(** What the sim agents properties talk about, without the code's helpers. *)
From Verif Require Import Base SimModel.

(** The object [id] must be simulated: a track with that id is valid at the
    current step, the eleventh one. *)
Definition required {F} (sc : scenario F) (id : Z) : Prop :=
  exists t s, In t (tracks sc) /\ track_id t = id /\
              nth_error (states t) 10 = Some s /\ s_valid s = true.

(** Every track reaches the current step. *)
Definition reaches_current {F} (sc : scenario F) : Prop :=
  forall t, In t (tracks sc) -> (10 < length (states t))%nat.

(** Number of steps a challenge asks for. *)
Definition steps (ct : challenge) : nat :=
  match ct with SIM_AGENTS => 80 | SCENARIO_GEN => 91 end.

(** The submitted position and heading sequences have [n] steps. *)
Definition full_length {F} (n : nat) (s : sim_trajectory F) : Prop :=
  length (sim_x s) = n /\ length (sim_y s) = n /\ length (sim_z s) = n /\
  length (sim_heading s) = n.

(** The scenes a user may submit. *)
Definition acceptable {F} (js : list (sim_trajectory F)) (sc : scenario F) (ct : challenge) : Prop :=
  (forall s, In s js -> full_length (steps ct) s) /\
  (forall id, In id (map sim_id js) <-> required sc id).

(** There is at least one track and all the tracks have [n] states, [n > 0]. *)
Definition uniform {F} (sc : scenario F) (n : nat) : Prop :=
  tracks sc <> [] /\ (0 < n)%nat /\ forall t, In t (tracks sc) -> length (states t) = n.

(** [id] is the id of exactly one element of the list. *)
Definition occurs_once (ids : list Z) (id : Z) : Prop :=
  exists i, nth_error ids i = Some id /\ forall j, nth_error ids j = Some id -> j = i.

(** All that a table of trajectories says about one object. *)
Record obj (F : Type) := Obj {
  o_x : list F; o_y : list F; o_z : list F; o_heading : list F;
  o_length : list F; o_width : list F; o_height : list F;
  o_valid : list bool; o_id : Z; o_type : Z }.
Arguments Obj {F}. Arguments o_x {F}. Arguments o_y {F}. Arguments o_z {F}.
Arguments o_heading {F}. Arguments o_length {F}. Arguments o_width {F}.
Arguments o_height {F}. Arguments o_valid {F}. Arguments o_id {F}. Arguments o_type {F}.

(** The table has the same number [n] of objects in each tensor. *)
Definition n_objects {F} (t : trajectories F) (n : nat) : Prop :=
  length (tr_x t) = n /\ length (tr_y t) = n /\ length (tr_z t) = n /\
  length (tr_heading t) = n /\ length (tr_length t) = n /\ length (tr_width t) = n /\
  length (tr_height t) = n /\ length (tr_valid t) = n /\ length (tr_id t) = n /\
  length (tr_type t) = n.

(** Object number [k] of the table is [o]. *)
Definition nth_object {F} (t : trajectories F) (k : nat) (o : obj F) : Prop :=
  nth_error (tr_x t) k = Some (o_x o) /\ nth_error (tr_y t) k = Some (o_y o) /\
  nth_error (tr_z t) k = Some (o_z o) /\ nth_error (tr_heading t) k = Some (o_heading o) /\
  nth_error (tr_length t) k = Some (o_length o) /\ nth_error (tr_width t) k = Some (o_width o) /\
  nth_error (tr_height t) k = Some (o_height o) /\ nth_error (tr_valid t) k = Some (o_valid o) /\
  nth_error (tr_id t) k = Some (o_id o) /\ nth_error (tr_type t) k = Some (o_type o).

(** A track as an object, for all its steps. *)
Definition track_object {F} (t : track F) : obj F :=
  {| o_x := map center_x (states t); o_y := map center_y (states t);
     o_z := map center_z (states t); o_heading := map s_heading (states t);
     o_length := map s_length (states t); o_width := map s_width (states t);
     o_height := map s_height (states t); o_valid := map s_valid (states t);
     o_id := track_id t; o_type := track_type t |}.

(** The history of a track (its first eleven steps) followed by a submitted
    trajectory; the box keeps the size it has in the state [cur]. *)
Definition simulated_object {F} (t : track F) (cur : state F) (s : sim_trajectory F)
    (future_valid : list bool) : obj F :=
  let h := firstn 11 (states t) in
  {| o_x := map center_x h ++ sim_x s; o_y := map center_y h ++ sim_y s;
     o_z := map center_z h ++ sim_z s; o_heading := map s_heading h ++ sim_heading s;
     o_length := map s_length h ++ repeat (s_length cur) 80;
     o_width := map s_width h ++ repeat (s_width cur) 80;
     o_height := map s_height h ++ repeat (s_height cur) 80;
     o_valid := map s_valid h ++ future_valid;
     o_id := track_id t; o_type := track_type t |}.

(** The part of the log that a challenge asks to simulate. *)
Definition simulated_part {F} (ct : challenge) (t : track F) : list (state F) :=
  match ct with SIM_AGENTS => skipn 11 (states t) | SCENARIO_GEN => states t end.

(** The trajectory that repeats what was logged for a track. *)
Definition logged_trajectory {F} (ct : challenge) (t : track F) : sim_trajectory F :=
  let l := simulated_part ct t in
  {| sim_x := map center_x l; sim_y := map center_y l; sim_z := map center_z l;
     sim_heading := map s_heading l; sim_length := map s_length l;
     sim_width := map s_width l; sim_height := map s_height l;
     sim_valid := map s_valid l; sim_id := track_id t; sim_type := track_type t |}.

(** The track is valid at the current step. *)
Definition valid_now {F} (t : track F) : bool :=
  match nth_error (states t) 10 with Some s => s_valid s | None => false end.

(** The scenarios whose log can be turned into a submission: 91 steps, at least
    one agent to simulate and no ambiguity about which track an agent is. *)
Definition loggable {F} (sc : scenario F) : Prop :=
  uniform sc 91 /\ (exists id, required sc id) /\
  (forall id, required sc id -> occurs_once (map track_id (tracks sc)) id).

(** The log of a track as the evaluation sees it: the box keeps the size it has
    in the state [cur]. *)
Definition logged_object {F} (t : track F) (cur : state F) : obj F :=
  let h := firstn 11 (states t) in
  {| o_x := map center_x (states t); o_y := map center_y (states t);
     o_z := map center_z (states t); o_heading := map s_heading (states t);
     o_length := map s_length h ++ repeat (s_length cur) 80;
     o_width := map s_width h ++ repeat (s_width cur) 80;
     o_height := map s_height h ++ repeat (s_height cur) 80;
     o_valid := map s_valid (states t);
     o_id := track_id t; o_type := track_type t |}.

(** A generated trajectory as the evaluation sees it: valid at all steps. *)
Definition generated_object {F} (s : sim_trajectory F) : obj F :=
  {| o_x := sim_x s; o_y := sim_y s; o_z := sim_z s; o_heading := sim_heading s;
     o_length := sim_length s; o_width := sim_width s; o_height := sim_height s;
     o_valid := repeat true 91; o_id := sim_id s; o_type := sim_type s |}.

(** Strictly increasing lists: sorted and without repetition. *)
Inductive increasing : list Z -> Prop :=
| inc_nil : increasing []
| inc_cons a l : (forall b, In b l -> a < b) -> increasing l -> increasing (a :: l).

(** Track number [i] of a scenario, a negative [i] counting from the end. *)
Definition track_at {F} (sc : scenario F) (i : Z) (t : track F) : Prop :=
  exists j, nth_error (tracks sc) j = Some t /\
    (i = Z.of_nat j \/ (i < 0 /\ i + Z.of_nat (length (tracks sc)) = Z.of_nat j)).

(** [rows'] holds the steps [start, stop) of [rows], all the later steps when
    [stop] is [None]. *)
Definition sliced {A} (start : nat) (stop : option nat) (rows rows' : list (list A)) : Prop :=
  Forall2 (fun r r' => forall j v, nth_error r' j = Some v <->
             nth_error r (start + j) = Some v /\
             match stop with None => True | Some e => (start + j < e)%nat end) rows rows'.
