(** C147: the tutorial of the panoptic video segmentation challenge. *)
From Coq Require Import String Sorting.Sorted Lia.
From Verif Require Import Base ResultLib PvtModel PvtSpec PvtProofs.
Open Scope list_scope.

(** Grouping a table by frame and taking the groups apart again gives the rows of the first three frames, in the order of the times and of the table. *)
Theorem C147_labels_read (V : Type) n (t : table V) out : (0 < n)%nat -> (forall k r, In (k, r) t -> List.length r = n) -> read_labels n t = Ok out <->
  exists keys, StronglySorted Z.lt keys /\ (forall k, In k keys <-> exists r, In (k, r) t) /\
    out = map (fun k => map snd (filter (fun r => (fst r =? k)%Z) t)) (firstn 3 keys).
Proof. exact (read_exact n t out). Qed.
Print Assumptions C147_labels_read.
(** The images of a frame, from left to right; the last one of each camera counts. *)
Theorem C147_order (A : Type) (l : list (Z * A)) out : in_order l = Ok out <-> Forall2 (last_image l) left_to_right out.
Proof. exact (order_exact l out). Qed.
Print Assumptions C147_order.
(** All five cameras are needed. *)
Theorem C147_order_accepts (A : Type) (l : list (Z * A)) : (exists out, in_order l = Ok out) <-> forall c, (1 <= c <= 5)%Z -> exists a, In (c, a) l.
Proof. exact (order_accepts l). Qed.
Print Assumptions C147_order_accepts.
(** The label called that of the front camera is that of the front left camera. *)
Theorem C147_front (A : Type) (frames : list (list (Z * A))) a : label_front frames = Ok a -> exists f fs, frames = f :: fs /\ last_image f 2 a.
Proof. exact (front_is_left frames a). Qed.
Print Assumptions C147_front.
(** Padding: zeros above the image, refused if it is too high. *)
Theorem C147_padding (V : Type) (zero : V) h w rows out : pad zero h (w, rows) = Ok out <->
  (List.length rows <= h)%nat /\ List.length out = h /\ skipn (h - List.length rows) out = rows /\
  forall r row, (r < h - List.length rows)%nat -> nth_error out r = Some row -> row = repeat zero w.
Proof. exact (pad_exact zero h w rows out). Qed.
Print Assumptions C147_padding.
(** The submission: for every frame asked for, and for each camera from left to right, the prediction for the image of that frame and camera,
    with its time and camera and the first name found in the file. Without times all frames are asked for. *)
Theorem C147_submission (I P : Type) (infer : I -> P) times frames out : generate_predictions infer times frames = Ok out <->
  exists name gs per, sequence_name frames name /\ chosen times frames gs /\ Forall2 (entries_of infer name) gs per /\ out = concat per.
Proof. exact (submission_exact infer times frames out). Qed.
Print Assumptions C147_submission.
(** So it is not the label of the front camera. *)
Theorem C147_front_refuted : exists (frames : list (list (Z * Z))) a f, nth_error frames 0 = Some f /\ label_front frames = Ok a /\ ~ last_image f 1 a.
Proof. exact (front_refuted ). Qed.
Print Assumptions C147_front_refuted.
(** A prediction may be submitted under the name of another sequence in the file, even of a frame left out. *)
Theorem C147_context_refuted : exists (frames : list (frame Z)) out e, generate_predictions (fun i => i) [2%Z] frames = Ok out /\ In e out /\ forall f, In f frames -> timestamp_micros f = e_time e -> context_name f <> e_context e.
Proof. exact (context_refuted ). Qed.
Print Assumptions C147_context_refuted.
(** The dummy prediction is zero at every pixel of the image. *)
Theorem C147_dummy size r c v : (exists row, nth_error (dummy_inference size) r = Some row /\ nth_error row c = Some v) <-> (r < fst size)%nat /\ (c < snd size)%nat /\ v = 0%Z.
Proof. exact (dummy_zero size r c v). Qed.
Print Assumptions C147_dummy.

Example C147_nonvacuous_read : read_labels 2 [(7, [1; 2]); (5, [3; 4]); (7, [5; 6])]%Z = Ok [[[3; 4]]; [[1; 2]; [5; 6]]]%Z.
Proof. reflexivity. Qed.
Example C147_nonvacuous_front : label_front [[(5, 50); (4, 40); (3, 30); (2, 20); (1, 10)]]%Z = Ok 20%Z.
Proof. reflexivity. Qed.
Example C147_nonvacuous_padding : pad 0%Z 3 (2%nat, [[1; 2]]%Z) = Ok [[0; 0]; [0; 0]; [1; 2]]%Z.
Proof. reflexivity. Qed.
Example C147_nonvacuous_submission : generate_predictions (fun i => i) [2%Z] [Frame "a" 1 []; Frame "a" 2 [(1, 10); (2, 20); (3, 30); (4, 40); (5, 50)]]%Z
  = Ok [Entry "a" 2 4 40; Entry "a" 2 2 20; Entry "a" 2 1 10; Entry "a" 2 3 30; Entry "a" 2 5 50]%Z.
Proof. reflexivity. Qed.
Example C147_nonvacuous_dummy : dummy_inference (2, 3)%nat = [[0; 0; 0]; [0; 0; 0]]%Z.
Proof. reflexivity. Qed.
