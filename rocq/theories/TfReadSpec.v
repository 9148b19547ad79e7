(** What reading converted examples should give. Shared with the models: the types of scenarios, configurations and examples, and the
    description of tensors in ScenarioSpec.v. *)
From Coq Require Import String.
From Verif Require Import Base ScenarioModel ScenarioSpec TfReadModel.
Open Scope list_scope.
Open Scope Z_scope.

(** The example [l] was converted from the scenario [sc]. *)
Definition converted (pf : platform) (cfg : config) (sc : scenario) (l : log) : Prop :=
  platform_ok pf /\ representable sc cfg /\ (0 < source_polyline_spacing cfg)%Q /\ 0 <= num_future_steps cfg /\ finite_now sc cfg
  /\ scenario_to_example pf sc cfg = Ok l.

(** The sizes the task is defined for. *)
Definition task_sizes (cfg : config) : Prop :=
  max_num_agents cfg = 128 /\ num_past_steps cfg = 11 /\ num_future_steps cfg = 80 /\ max_roadgraph_samples cfg = 20000
  /\ max_traffic_light_control_points_per_step cfg = 16.

(** The self-driving car has a row. *)
Definition sdc_kept (sc : scenario) (rows : list (option nat)) : bool :=
  existsb (fun r => match r with Some i => Nat.eqb i (sdc sc) | None => false end) rows.
(** What the current state of the self-driving car shows for a name: one value if it has a row, none otherwise. *)
Definition sdc_value (pf : platform) (cfg : config) (sc : scenario) (name : string) : option value :=
  state_field pf sc name (current_step cfg) (shown sc (Some (sdc sc)) (current_step cfg)).
Definition sdc_part (pf : platform) (cfg : config) (name : string) (p : scenario * list (option nat)) : list (option value) :=
  if sdc_kept (fst p) (snd p) then [sdc_value pf cfg (fst p) name] else [].
