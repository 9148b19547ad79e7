(** What the properties of the 3D semantic segmentation tutorial talk about. *)
From Coq Require Import QArith String Sorting.Sorted Sorting.Permutation.
From Verif Require Import Base SemtModel.
Open Scope list_scope.

(** Value [a] at row [r] and column [c]. *)
Definition at_pixel {A} (im : image A) (r c : nat) (a : A) : Prop := exists row, nth_error im r = Some row /\ nth_error row c = Some a.
(** Row by row. *)
Definition before (p q : nat * nat) : Prop := (fst p < fst q)%nat \/ (fst p = fst q /\ (snd p < snd q)%nat).
(** The pixels with a return, row by row. *)
Definition returns (im : image Q) (ps : list (nat * nat)) : Prop :=
  StronglySorted before ps /\ forall r c, In (r, c) ps <-> exists v, at_pixel im r c v /\ (0 < v)%Q.
(** The image of a laser and a return. *)
Definition image_of {A} (d : per_laser A) (laser : Z) (k : nat) (im : A) : Prop :=
  exists l, nth_error l k = Some im /\ exists i, nth_error d i = Some (laser, l) /\ forall j m, (j < i)%nat -> nth_error d j = Some m -> fst m <> laser.
(** The labels of the points of a laser. *)
Definition labels_of (range_images : per_laser (image Q)) (segmentation : per_laser (image label)) (k : nat) (laser : Z) (ls : list label) : Prop :=
  exists im ps, image_of range_images laser k im /\ returns im ps /\
    ((exists sl, image_of segmentation laser k sl /\ Forall2 (fun p l => at_pixel sl (fst p) (snd p) l) ps ls) \/
     ((forall m, In m segmentation -> fst m <> laser) /\ length ls = length ps /\ forall l, In l ls -> l = (0, 0)%Z)).
