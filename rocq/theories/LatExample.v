(** A submission for two frames, and one that fails on the second. *)
From Coq Require Import String Permutation.
From Verif Require Import Base ResultLib KpModel LatModel LatSpec LatProofs LatMain.
Open Scope list_scope.
Open Scope string_scope.

(** An array is its number of rows; the model fails on images with more than [limit] rows. *)
Definition ex_model (limit : nat) : submission nat Z :=
  {| data_fields := ["FRONT_IMAGE"; "FRONT_IMAGE"]; initialize := Ok 0%Z;
     run_model := fun st data => match data with
       | [(_, n)] => if Nat.leb n limit then Ok {| next := (st + 1)%Z; output := [("scores", n); ("boxes", n); ("classes", n)]; tic := st; toc := (st + Z.of_nat n)%Z |} else Err RuntimeError
       | _ => Err ValueError end |}.
Definition ex_input : list (context_entry nat) :=
  [{| c_name := "a"; c_is_dir := true; c_entries := [{| f_name := "1"; f_is_dir := true; f_files := [("FRONT_IMAGE", 2%nat)] |};
       {| f_name := "notes"; f_is_dir := false; f_files := [] |}; {| f_name := "2"; f_is_dir := true; f_files := [("FRONT_IMAGE", 5%nat)] |}] |};
   {| c_name := "readme"; c_is_dir := false; c_entries := [] |}].
Lemma ex_listing : listing ex_input.
Proof.
  split; cbn.
  - constructor; [intros [H|[]]; discriminate|]. constructor; [intros []|constructor].
  - repeat constructor; cbn; auto.
Qed.
Lemma ex_success : snd (evaluator Some (ex_model 9) ex_input) = Ok tt /\
  after (fst (evaluator Some (ex_model 9) ex_input)) (fun _ => None) LatencyFile = Some (Numbers [2; 5]%Z).
Proof. split; vm_compute; reflexivity. Qed.
Lemma ex_abort : snd (evaluator Some (ex_model 3) ex_input) = Err RuntimeError.
Proof. vm_compute. reflexivity. Qed.
Theorem stale_latencies_refuted : ~ (forall (sub : submission nat Z) input fs e, listing input ->
  snd (evaluator Some sub input) = Err e -> forall l, after (fst (evaluator Some sub input)) fs LatencyFile <> Some (Numbers l)).
Proof.
  intros H. apply (H (ex_model 3) ex_input (after (fst (evaluator Some (ex_model 9) ex_input)) (fun _ => None)) RuntimeError ex_listing ex_abort [2; 5]%Z).
  vm_compute. reflexivity.
Qed.
Theorem repeated_field_refuted : ~ (forall (sub : submission nat Z) input st fs os st' f o data, listing input -> initialize sub = Ok st ->
  runs Some sub st (frames input) os st' -> In (f, o) (combine (frames input) os) -> given (data_fields sub) f data ->
  after (fst (evaluator Some sub input)) fs (File (context f) (timestamp f) "input_fields.txt") = Some (Lines (map fst data))).
Proof.
  intros H. set (f1 := {| context := "a"; timestamp := "1"; arrays := [("FRONT_IMAGE", 2%nat)] |}).
  assert (snd (evaluator Some (ex_model 9) ex_input) = Ok tt) as Hs by apply ex_success.
  apply (proj1 (outcome Some (ex_model 9) ex_input 0%Z ex_listing eq_refl)) in Hs. destruct Hs as (os & st' & R).
  assert (exists o, In (f1, o) (combine (frames ex_input) os)) as (o & Ho).
  { destruct os as [|o os]; [apply runs_length in R; discriminate|]. exists o. left. reflexivity. }
  assert (given (data_fields (ex_model 9)) f1 [("FRONT_IMAGE", 2%nat)]) as G by (split; [reflexivity|apply incl_refl]).
  specialize (H (ex_model 9) ex_input 0%Z (fun _ => None) os st' f1 o _ ex_listing eq_refl R Ho G). vm_compute in H. discriminate.
Qed.
