(** The files of the submission and latency tools: the protocol buffer wire format as far as
    metrics/tools/create_submission.cc and latency/compare_objects_file_to_submission_main.cc
    (in src/waymo_open_dataset) depend on it.

    Conventions.
    - Bytes are integers from 0 to 255. Groups (wire types 3 and 4), which these messages do not
      contain, are refused.
    - A message is the list of its fields in the order of the file. A field whose number or wire type
      is not declared is kept as unknown, as the generated parsers do.
    - [valid_object] and [valid_polygon] say whether the bytes of one Object and one Polygon2dProto
      message parse; they are parameters. *)
From Verif Require Import Base ResultLib.
Open Scope Z_scope.

Inductive wire := VARINT (n : Z) | I64 (b : list Z) | LEN (b : list Z) | I32 (b : list Z).
Definition field := (Z * wire)%type.

(** Base 128 varints of at most 10 bytes. *)
Fixpoint put_varint (fuel : nat) (n : Z) : list Z :=
  match fuel with
  | O => []
  | S f => if n <? 128 then [n] else (n mod 128 + 128) :: put_varint f (n / 128)
  end.
Fixpoint get_varint (fuel : nat) (bs : list Z) : option (Z * list Z) :=
  match fuel, bs with
  | S f, b :: bs' =>
      if b <? 128 then Some (b, bs') else
      match get_varint f bs' with Some (n, r) => Some (b - 128 + 128 * n, r) | None => None end
  | _, _ => None
  end.
Definition wire_code (w : wire) : Z := match w with VARINT _ => 0 | I64 _ => 1 | LEN _ => 2 | I32 _ => 5 end.
Definition put_wire (w : wire) : list Z :=
  match w with
  | VARINT n => put_varint 10 n
  | I64 b | I32 b => b
  | LEN b => put_varint 10 (Z.of_nat (length b)) ++ b
  end.
Definition put_field (f : field) : list Z := put_varint 10 (fst f * 8 + wire_code (snd f)) ++ put_wire (snd f).
(** SerializeAsString of the fields in this order. *)
Definition serialize (fs : list field) : list Z := concat (map put_field fs).

Definition take (n : nat) (bs : list Z) : option (list Z * list Z) :=
  if Nat.ltb (length bs) n then None else Some (firstn n bs, skipn n bs).
Definition get_field (bs : list Z) : option (field * list Z) :=
  match get_varint 10 bs with
  | None => None
  | Some (tag, r) =>
      let num := tag / 8 in
      if num =? 0 then None else
      match tag mod 8 with
      | 0 => match get_varint 10 r with Some (n, r') => Some ((num, VARINT n), r') | None => None end
      | 1 => match take 8 r with Some (b, r') => Some ((num, I64 b), r') | None => None end
      | 2 => match get_varint 10 r with
             | Some (n, r') => match take (Z.to_nat n) r' with Some (b, r'') => Some ((num, LEN b), r'') | None => None end
             | None => None
             end
      | 5 => match take 4 r with Some (b, r') => Some ((num, I32 b), r') | None => None end
      | _ => None
      end
  end.
Fixpoint get_fields (fuel : nat) (bs : list Z) : option (list field) :=
  match bs with
  | [] => Some []
  | _ => match fuel with
         | O => None
         | S f => match get_field bs with
                  | None => None
                  | Some (x, r) => match get_fields f r with Some l => Some (x :: l) | None => None end
                  end
         end
  end.
Definition parse (bs : list Z) : option (list field) := get_fields (length bs) bs.

Section Files.
Variables valid_object valid_polygon : list Z -> bool.
(** The messages in the fields with this number. *)
Definition messages (num : Z) (fs : list field) : list (list Z) :=
  flat_map (fun f => match f with (k, LEN b) => if k =? num then [b] else [] | _ => [] end) fs.
(** NoLabelZoneObject: Polygon2dProto zone = 1 (metrics.proto:48-52). *)
Definition valid_zone (bs : list Z) : bool :=
  match parse bs with None => false | Some fs => forallb valid_polygon (messages 1 fs) end.
(** Objects::ParseFromString: repeated Object objects = 1 and repeated NoLabelZoneObject
    no_label_zone_objects = 2 (metrics.proto:54-59). *)
Definition parse_objects (bs : list Z) : option (list (list Z)) :=
  match parse bs with
  | None => None
  | Some fs => if forallb valid_object (messages 1 fs) && forallb valid_zone (messages 2 fs) then Some (messages 1 fs) else None
  end.
(** Submission::ParseFromString followed by inference_results(), Objects inference_results = 11
    (submission.proto:26-87). *)
Fixpoint parse_all (l : list (list Z)) : option (list (list Z)) :=
  match l with
  | [] => Some []
  | b :: l' => match parse_objects b, parse_all l' with Some x, Some y => Some (x ++ y) | _, _ => None end
  end.
Definition parse_submission (bs : list Z) : option (list (list Z)) :=
  match parse bs with None => None | Some fs => parse_all (messages 11 fs) end.
(** ReadObjectsFromFile (compare_objects_file_to_submission_main.cc:79-100), one file. *)
Definition read_objects_file (bs : list Z) : result (list (list Z)) :=
  match parse_objects bs with
  | Some l => Ok l
  | None => match parse_submission bs with Some l => Ok l | None => Err CheckFailed end
  end.
Definition read_objects (files : list (list Z)) : result (list (list Z)) :=
  do l <- mapM read_objects_file files; Ok (concat l).
(** Reading one input file of create_submission (create_submission.cc:149-156). content.back() of an
    empty file is undefined behaviour; the model reports IndexError. *)
Definition read_input (bs : list Z) : result (list (list Z)) :=
  match rev bs with
  | [] => Err IndexError
  | last :: before =>
      let content := if last =? 10 then rev before else bs in
      match parse_objects content with Some l => Ok l | None => Err CheckFailed end
  end.
End Files.
