(** Segments of the plane.  Only the types of the inputs come from the model. *)
From Coq Require Import Reals List.
From Verif Require Import GeomSpec LineModel.
Import ListNotations.
Open Scope R_scope.

(** The closed segment of a value. *)
Definition on (s : seg) (x : point) : Prop := on_segment (start_ s) (end_ s) x.
Definition meet (s o : seg) : Prop := exists x, on s x /\ on o x.
(** [x] is at most [e] away from a point of the segment. *)
Definition near (e : R) (s : seg) (x : point) : Prop := exists y, on s y /\ dist x y <= e.
(** The area spanned by the two directions; zero for parallel segments. *)
Definition spread (s o : seg) : R :=
  (fst (end_ s) - fst (start_ s)) * (snd (end_ o) - snd (start_ o)) -
  (snd (end_ s) - snd (start_ s)) * (fst (end_ o) - fst (start_ o)).
Definition size (s : seg) : R := dist (start_ s) (end_ s).
(** The tolerance of the segments. *)
Definition eps : R := / 10 ^ 10.

(** Turning a point about another, counter-clockwise. *)
Definition turned (c : point) (a : R) (p : point) : point :=
  (fst c + (cos a * (fst p - fst c) - sin a * (snd p - snd c)),
   snd c + (sin a * (fst p - fst c) + cos a * (snd p - snd c))).
Definition middle (a b : point) : point := ((fst a + fst b) / 2, (snd a + snd b) / 2).
Definition moved_by (v p : point) : point := (fst p + fst v, snd p + snd v).
(** What a call does to the two ends. *)
Definition effect (c : call) (e : point * point) : point * point :=
  let both f := (f (fst e), f (snd e)) in
  let m := middle (fst e) (snd e) in
  match c with
  | Flip => (snd e, fst e)
  | RotateOrigin a => both (turned (0, 0) a)
  | RotatePoint p a => both (turned p a)
  | RotateCenter a => both (turned m a)
  | Shift v => both (moved_by v)
  | Move p => both (moved_by (fst p - fst m, snd p - snd m))
  | _ => e
  end.
Definition ends (s : seg) : point * point := (start_ s, end_ s).
(** The direction with the heading [h] leads from the start to the end. *)
Definition leads (s : seg) (h : R) : Prop :=
  fst (end_ s) - fst (start_ s) = size s * cos h /\ snd (end_ s) - snd (start_ s) = size s * sin h.
(** The stored values are right. *)
Definition truthful (s : seg) : Prop :=
  (forall l, length_ s = Some l -> l = size s) /\
  (forall i, inv_length_ s = Some i -> i = if Req_EM_T (size s) 0 then 0 else / size s) /\
  (forall h, heading_ s = Some h -> leads s h).
(** The segments a user can start from. *)
Inductive built : seg -> Prop :=
| built_default : built seg_default
| built_points a b : built (seg_points a b)
| built_direction c d len : 0 <= len -> fst d * fst d + snd d * snd d = 1 -> built (seg_direction c d len)
| built_heading c h len : 0 <= len -> built (seg_heading c h len).
(** The same direction up to whole turns. *)
Definition whole_turns (a b : R) : Prop := exists k : Z, a - b = IZR k * (2 * PI).
(** The bounding box of the ends. *)
Definition in_bounds (s : seg) (p : point) : Prop :=
  Rmin (fst (start_ s)) (fst (end_ s)) <= fst p <= Rmax (fst (start_ s)) (fst (end_ s)) /\
  Rmin (snd (start_ s)) (snd (end_ s)) <= snd p <= Rmax (snd (start_ s)) (snd (end_ s)).
