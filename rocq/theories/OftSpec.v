(** What the properties of the occupancy and flow tutorial talk about. *)
From Coq Require Import QArith Qabs String.
From Verif Require Import Base OftModel.
Open Scope list_scope.

Definition still (f : Q * Q) : Prop := (fst f == 0)%Q /\ (snd f == 0)%Q.
(** The total absolute difference over the cells in which the reference moves, and the number of these cells. *)
Inductive flow_error : list (Q * Q) -> list (Q * Q) -> Q -> Z -> Prop :=
| flow_error_nil : flow_error [] [] 0%Q 0
| flow_error_still r o rs os s n : still r -> flow_error rs os s n -> flow_error (r :: rs) (o :: os) s n
| flow_error_moves r o rs os s n : ~ still r -> flow_error rs os s n ->
    flow_error (r :: rs) (o :: os) (Qabs (fst r - fst o) + Qabs (snd r - snd o) + s)%Q (1 + n).
(** Twice the mean difference over these cells; zero if there are none. *)
Definition twice_mean (s : Q) (n : Z) (v : Q) : Prop := (n = 0%Z /\ v == 0)%Q \/ (0 < n)%Z /\ (v == 2 * (s / inject_Z n))%Q.
(** The sum of the entropies of corresponding cells. *)
Inductive entropy (xe : Q -> Q -> Q) : list Q -> list Q -> Q -> Prop :=
| entropy_nil : entropy xe [] [] 0%Q
| entropy_cons t p ts ps s : entropy xe ts ps s -> entropy xe (t :: ts) (p :: ps) (xe t p + s)%Q.
(** The mean of [n] numbers. *)
Definition mean_of (n : nat) (l : list Q) (v : Q) : Prop := List.length l = n /\ (0 < n)%nat /\ (v * inject_Z (Z.of_nat n) == fold_right Qplus 0 l)%Q.
Definition entropy_loss (xe : Q -> Q -> Q) (truth pred : option (list Q)) (v : Q) : Prop :=
  exists t p s, truth = Some t /\ pred = Some p /\ entropy xe t p s /\ (v == 1000 * s / inject_Z (Z.of_nat (List.length p)))%Q.
Definition flow_difference (reference other : option (list (Q * Q))) (v : Q) : Prop :=
  exists r o s n, reference = Some r /\ other = Some o /\ flow_error r o s n /\ twice_mean s n v.
(** The examples whose id is listed, in order. *)
Inductive listed {A} (ids : list string) : list (string * A) -> list (string * A) -> Prop :=
| listed_nil : listed ids [] []
| listed_yes id a l k : In id ids -> listed ids l k -> listed ids ((id, a) :: l) ((id, a) :: k)
| listed_no id a l k : ~ In id ids -> listed ids l k -> listed ids ((id, a) :: l) k.
(** The nearest of the 256 levels from 0 to 1, to half a level. *)
Definition level_of (q : Q) (b : Z) : Prop := (0 <= b <= 255)%Z /\ (Qabs (q - inject_Z b / 255) <= 1 # 510)%Q.
(** The nearest integer; flows outside the range of a byte are cut off. *)
Definition flow_level (q : Q) (b : Z) : Prop :=
  (-128 <= b <= 127)%Z /\ ((-128 <= q <= 127)%Q -> (Qabs (q - inject_Z b) <= 1 # 2)%Q) /\ ((127 <= q)%Q -> b = 127%Z) /\ ((q <= -128)%Q -> b = (-128)%Z).
Definition message_of (o c : list Q) (f : list (Q * Q)) (m : message) : Prop :=
  Forall2 (fun q b => (0 <= q <= 1)%Q -> level_of q b) o (m_observed m) /\ Forall2 (fun q b => (0 <= q <= 1)%Q -> level_of q b) c (m_occluded m) /\
  exists dx dy, Forall2 flow_level (map fst f) dx /\ Forall2 flow_level (map snd f) dy /\ m_flow m = flat_map (fun p => [fst p; snd p]) (combine dx dy).
Definition messages_of (n : nat) (w : waypoints Q (Q * Q)) (ms : list message) : Prop :=
  List.length ms = n /\ forall k m, nth_error ms k = Some m -> exists o c f,
    nth_error (observed_occupancy w) k = Some o /\ nth_error (occluded_occupancy w) k = Some c /\ nth_error (flow w) k = Some f /\ message_of o c f m.
