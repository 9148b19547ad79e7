(** Further theorems about C28 (column names), C34 (likelihoods and the smallest ADE) and C41 (road samples). *)
From Coq Require Import QArith String.
From Verif Require Import Base ResultLib ComponentModel MetametricModel MetametricSpec ScenarioModel ScenarioSpec TightSpec TightProofs.
Open Scope list_scope.
(** The columns: one for every way down to a leaf, named by the fields on it, repeated ones marked, with the component in front unless it is a key. *)
Theorem C28_column_names c x : In x (schema c) <-> exists n r t p, In (n, r, t) (cfields c) /\ leads t p /\
  x = ((match t with Node true _ => "" | _ => "[" ++ cname c ++ "]." end) ++ dotted ((n, r) :: p))%string.
Proof. exact (columns_exact c x). Qed.
Print Assumptions C28_column_names.
(** Which log-likelihoods the likelihood of a feature averages. *)
Theorem C34_counted_likelihoods exp b m v : feature_likelihood exp b m = Ok v -> exists r, counted b m r /\ (v = None <-> r = [] \/ In None r) /\
  (forall qs, Forall2 is_number r qs -> r <> [] -> exists x, v = Some (exp x) /\ is_mean qs x).
Proof. exact (likelihood_value exp b m v). Qed.
Print Assumptions C34_counted_likelihoods.
(** The smallest of the ADEs of the rollouts. *)
Theorem C34_min_ade exp w id b r : compute_scenario_metrics exp w id b = Ok r -> exists v, field_of r MinAde = Some v /\
  (v = None <-> ade b = [] \/ In None (map mean (ade b))) /\
  (forall x, v = Some x -> In (Some x) (map mean (ade b)) /\ forall y, In y (map mean (ade b)) -> exists q, y = Some q /\ (x <= q)%Q).
Proof. exact (min_ade_value exp w id b r). Qed.
Print Assumptions C34_min_ade.
(** A sample of a polyline lies on the spline through its neighbours, or on the line at the ends. *)
Theorem C41_road_sample cfg pts i : (0 < source_polyline_spacing cfg)%Q -> exists left a,
  (inject_Z (Z.of_nat i) * spacing cfg == (inject_Z (Z.of_nat left) + a) * source_polyline_spacing cfg)%Q /\ (0 <= a < 1)%Q /\
  let p k := nth k pts (V3 0 0 0) in
  forall f, In f [px; py; pz] ->
    ((1 <= left)%nat /\ (left + 2 < List.length pts)%nat ->
       on_spline (f (p (left - 1)%nat)) (f (p left)) (f (p (left + 1)%nat)) (f (p (left + 2)%nat)) a (f (polyline_sample cfg pts i))) /\
    (~ ((1 <= left)%nat /\ (left + 2 < List.length pts)%nat) -> on_line (f (p left)) (f (p (left + 1)%nat)) a (f (polyline_sample cfg pts i))).
Proof. exact (sample_value cfg pts i). Qed.
Print Assumptions C41_road_sample.

Example C28_nonvacuous_name : exists c, In "[A].b[*].c"%string (schema c).
Proof. exists {| cname := "A"; cfields := [("b", true, Node false [("c", false, Leaf)])] |}. now left. Qed.
Example C41_nonvacuous_spline : on_spline 0 1 2 3 (1 # 2) (3 # 2) /\ ~ on_line 0 1 (1 # 2) 1.
Proof. split; [exists 1%Q, 0%Q, 0%Q; repeat split|discriminate]. Qed.
