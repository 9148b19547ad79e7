(** What the properties of the panoptic segmentation tutorial talk about. *)
From Coq Require Import String.
From Verif Require Import Base PvtModel.
Open Scope list_scope.

(** The last image of a camera. *)
Definition last_image {A} (l : list (Z * A)) (name : Z) (a : A) : Prop :=
  exists i, nth_error l i = Some (name, a) /\ forall j m, (i < j)%nat -> nth_error l j = Some m -> fst m <> name.
(** The cameras from left to right. *)
Definition left_to_right : list Z := [4; 2; 1; 3; 5]%Z.
(** The frames asked for: all of them if no times are given. *)
Definition asked {I} (times : list Z) (f : frame I) : Prop := times = [] \/ In (timestamp_micros f) times.
Inductive chosen {I} (times : list Z) : list (frame I) -> list (frame I) -> Prop :=
| chosen_nil : chosen times [] []
| chosen_yes f fs gs : asked times f -> chosen times fs gs -> chosen times (f :: fs) (f :: gs)
| chosen_no f fs gs : ~ asked times f -> chosen times fs gs -> chosen times (f :: fs) gs.
(** The name of the sequence: the first name that is not empty. *)
Definition sequence_name {I} (frames : list (frame I)) (name : string) : Prop :=
  (name = ""%string /\ forall f, In f frames -> context_name f = ""%string) \/
  (name <> ""%string /\ exists before f after, frames = before ++ f :: after /\ context_name f = name /\ forall g, In g before -> context_name g = ""%string).
(** The entries for a frame: one for each camera from left to right. *)
Definition entries_of {I P} (infer : I -> P) (name : string) (f : frame I) (es : list (entry P)) : Prop :=
  Forall2 (fun c e => e_camera e = c /\ e_time e = timestamp_micros f /\ e_context e = name /\ exists i, last_image (images f) c i /\ e_pred e = infer i) left_to_right es.
