(** Well formed fields and messages. *)
From Verif Require Import Base WireModel.
Open Scope Z_scope.

Definition fits_varint (n : Z) : Prop := 0 <= n < 2 ^ 64.
Definition wire_ok (w : wire) : Prop :=
  match w with
  | VARINT n => fits_varint n
  | I64 b => length b = 8%nat
  | LEN b => fits_varint (Z.of_nat (length b))
  | I32 b => length b = 4%nat
  end.
Definition field_ok (f : field) : Prop := 0 < fst f < 2 ^ 29 /\ wire_ok (snd f).
(** The file of a list of objects. *)
Definition objects_file (objs : list (list Z)) : list Z := serialize (map (fun b => (1, LEN b)) objs).
(** A submission: its method name is field 2, its results are field 11, and field 1 is a number. *)
Definition submission_ok (fs : list field) (name : list Z) (objs : list (list Z)) : Prop :=
  Forall field_ok fs /\ (forall b, ~ In (1, LEN b) fs) /\
  (exists fs1 fs2, fs = fs1 ++ (2, LEN name) :: fs2 /\ forall b, ~ In (2, LEN b) (fs1 ++ fs2)) /\
  (exists fs1 fs2, fs = fs1 ++ (11, LEN (objects_file objs)) :: fs2 /\ forall b, ~ In (11, LEN b) (fs1 ++ fs2)).
(** The bytes happen to be fields one after the other. *)
Definition looks_like_message (name : list Z) : Prop := exists fs, parse name = Some fs.
