(** What the delta codec is supposed to do, without reference to how. *)
From Verif Require Import Base DeltaModel.

(** A stored image has as many elements as its shape says. *)
Definition well_shaped {A} (x : image A) : Prop :=
  length (pixels x) = (rows x * cols x * chans x)%nat.

(** Element (i, j, ch) of an image. *)
Definition pixel {A} (d : A) (x : image A) (i j ch : nat) : A :=
  nth ((i * cols x + j) * chans x + ch)%nat (pixels x) d.

(** The precision the caller asked for in channel [ch]. *)
Definition asked_precision (arg : precision_arg) (ch : nat) : Q :=
  match arg with
  | OneNumber p => p
  | ManyNumbers ps => nth ch ps 1%Q
  end.

(** Precision arguments the documentation allows for [c] channels. *)
Definition admissible (arg : precision_arg) (c : nat) : Prop :=
  match arg with
  | OneNumber p => (0 < p)%Q
  | ManyNumbers ps => length ps = c /\ Forall (fun p => 0 < p)%Q ps
  end.

(** [n] is a nearest integer to [q]; ties go to the even neighbour. *)
Definition nearest_even (q : Q) (n : Z) : Prop :=
  (Qabs (q - inject_Z n) < 1#2)%Q \/
  ((Qabs (q - inject_Z n) == 1#2)%Q /\ Z.even n = true).

Definition binary (m : list nat) : Prop := Forall (fun b => b = 0%nat \/ b = 1%nat) m.

(** Canonical run lists: at least one run, all runs but the first positive, not all zero. *)
Definition canonical_runs (ls : list nat) : Prop :=
  match ls with
  | [] => False
  | [l] => (0 < l)%nat
  | _ :: ls' => Forall (fun l => 0 < l)%nat ls'
  end.
