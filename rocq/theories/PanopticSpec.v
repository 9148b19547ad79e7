(** Specifications for panoptic labels. *)
From Coq Require Import String.
From Verif Require Import Base PanopticModel.
Open Scope Z_scope.

(** A semantic and an instance label that fit: the instance is below the divisor and the label below 2^32. *)
Definition fits (d sem inst : Z) : Prop := 0 <= sem /\ 0 <= inst < d /\ (sem + 1) * d <= 4294967296.
(** The object g of sequence s is mentioned by some label. *)
Definition mentioned (l : list seg_label) (s : string) (g : Z) : Prop :=
  exists f m, In f l /\ sl_seq f = s /\ In m (sl_map f) /\ im_global m = g.
(** The instance a pixel of f shows: v is the remapped global id of the last mapping of its local id, or
    the local id itself when there is none; tr tells whether it is tracked. *)
Definition shows (r : remapping) (f : seg_label) (inst v : Z) (tr : bool) : Prop :=
  (exists pre m post, sl_map f = pre ++ m :: post /\ im_local m = inst /\ (forall m', In m' post -> im_local m' <> inst) /\
     lookup r (sl_seq f) (im_global m) = Ok v /\ tr = im_tracked m) \/
  ((forall m, In m (sl_map f) -> im_local m <> inst) /\ v = inst /\ tr = false).
(** Acceptable labels: a positive divisor and at least one pixel, of type uint16. *)
Definition good_label (f : seg_label) : Prop := 0 < sl_div f /\ sl_pixels f <> [] /\ forall p, In p (sl_pixels f) -> 0 <= p < 65536.
(** The labelled frames, with the sequence of their label. *)
Definition labelled {F} (frames : list (F * option string)) : list (F * string) :=
  concat (map (fun p => match snd p with Some s => [(fst p, s)] | None => [] end) frames).
