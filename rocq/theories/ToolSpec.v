(** What the examples the tools evaluate should be, without maps and keys. *)
From Coq Require Import String Ascii Sorted Permutation.
From Verif Require Import Base ToolModel.
Open Scope Z_scope.

(** [l'] is what [P] keeps of [l], in the same order. *)
Inductive selects {A} (P : A -> Prop) : list A -> list A -> Prop :=
| sel_nil : selects P [] []
| sel_keep x l l' : P x -> selects P l l' -> selects P (x :: l) (x :: l')
| sel_drop x l l' : ~ P x -> selects P l l' -> selects P (x :: l) l'.

Section Spec.
Context {box : Type}.
Notation obj := (object box).
(** The camera image or sweep an object belongs to. *)
Definition frame_of (o : obj) : string * camera_name * Z := (context o, camera o, stamp o).
(** One entry for each frame that has an object, with the predictions and ground truths of that frame. *)
Definition by_frame (pds gts : list obj) (frames : list (string * camera_name * Z)) (ps gs : list (list obj)) : Prop :=
  NoDup frames /\
  (forall k, In k frames <-> exists o, (In o pds \/ In o gts) /\ frame_of o = k) /\
  Forall2 (fun k p => selects (fun o => frame_of o = k) pds p) frames ps /\
  Forall2 (fun k g => selects (fun o => frame_of o = k) gts g) frames gs.

(** The level by the number of points unless it is annotated. *)
Definition graded (n : obj -> Z) (o : obj) : obj :=
  with_level o (match level o with
                | Some LEVEL_1 => LEVEL_1
                | Some LEVEL_2 => LEVEL_2
                | _ => if Z_lt_dec 5 (n o) then LEVEL_1 else LEVEL_2
                end).
(** Ground truths seen by some camera. *)
Definition is_visible (o : obj) : Prop := exists s, visible o = Some s /\ s <> EmptyString.
Definition names_camera (o : obj) : Prop := exists s, visible o = Some s /\
  In s ["UNKNOWN"; "FRONT"; "FRONT_LEFT"; "FRONT_RIGHT"; "SIDE_LEFT"; "SIDE_RIGHT"; "REAR_LEFT"; "REAR"; "REAR_RIGHT"]%string.

(** The sequence of one context: one entry per time, ascending. *)
Definition sequence_of (pds gts : list obj) (c : string) (ps gs : list (list obj)) : Prop :=
  exists times, StronglySorted Z.lt times /\
    (forall t, In t times <-> exists o, (In o pds \/ In o gts) /\ context o = c /\ stamp o = t) /\
    Forall2 (fun t p => selects (fun o => context o = c /\ stamp o = t) pds p) times ps /\
    Forall2 (fun t g => selects (fun o => context o = c /\ stamp o = t) gts g) times gs.
End Spec.
