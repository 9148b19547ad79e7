(** The component of the documentation (component.py 45-62 and 128-135), and values of columns. *)
From Coq Require Import String.
From Verif Require Import Base ResultLib ComponentModel ComponentSpec ArrowModel ArrowSpec ArrowProofs.
Open Scope string_scope.
Open Scope list_scope.

Definition documented : tcomponent :=
  {| tname := "MyComponent";
     tfields := [tkey [("context_name", Text); ("object_id", Text)];
                 ("bar", true, TNode false [group "foo" [column "name" (ListOf Text); column "value" (ListOf Int32)]]);
                 group "baz" [column "value" Float32]] |}.
Lemma documented_schema : typed_schema documented =
  Ok [("key.context_name", Text); ("key.object_id", Text); ("[MyComponent].bar[*].foo.name", ListOf Text);
      ("[MyComponent].bar[*].foo.value", ListOf Int32); ("[MyComponent].baz.value", Float32)].
Proof. vm_compute. reflexivity. Qed.

(** Marking a field as repeated does not make its columns lists. *)
Definition scalar_repeated : tcomponent :=
  {| tname := "C"; tfields := [tkey [("id", Text)]; ("bar", true, TNode false [column "value" Int32])] |}.
Lemma repeated_refuted : exists c s, typed_schema c = Ok s /\ NoDup (schema (erase_component c)) /\ ~ repeated_lists (TNode false (tfields c)).
Proof.
  exists scalar_repeated. eexists. split; [vm_compute; reflexivity|]. split; [apply ComponentProofs.nodupb_ok; vm_compute; reflexivity|].
  intros H. inversion H as [|k fs Hf]; subst. destruct (Hf "bar" true _ (or_intror (or_introl eq_refl))) as [_ L]. specialize (L eq_refl).
  inversion L as [|k fs Hl]; subst. specialize (Hl "value" false _ (or_introl eq_refl)). inversion Hl as [a Ha|]; subst. destruct Ha.
Qed.
(** A leaf without a type makes a component without schema. *)
Definition untyped : tcomponent := {| tname := "C"; tfields := [tkey [("id", Text)]; ("value", false, TLeaf None)] |}.
Lemma untyped_schema : typed_schema untyped = Err RuntimeError /\ NoDup (schema (erase_component untyped)).
Proof. split; [vm_compute; reflexivity|]. apply ComponentProofs.nodupb_ok; vm_compute; reflexivity. Qed.

(** Python values, and the ones a column of some type holds; all columns may be null. *)
Inductive value := Null | Integer (n : Z) | Float | Chars | Bytes | Truth | Values (l : list value).
Fixpoint holds (a : arrow) (v : value) {struct a} : bool :=
  match a, v with
  | _, Null => true
  | Int8, Integer n => (-128 <=? n)%Z && (n <? 128)%Z
  | Int32, Integer n => (- 2 ^ 31 <=? n)%Z && (n <? 2 ^ 31)%Z
  | Int64, Integer n => (- 2 ^ 63 <=? n)%Z && (n <? 2 ^ 63)%Z
  | (Float32 | Float64), Float | Text, Chars | Binary, Bytes | Boolean, Truth => true
  | ListOf a, Values l => forallb (holds a) l
  | ListOfSize a n, Values l => Nat.eqb (List.length l) n && forallb (holds a) l
  | _, _ => false
  end.
Definition column_holds (a : option arrow) (v : value) : Prop := match a with Some a => holds a v = true | None => False end \/ v = Null.

Definition pose : tcomponent := {| tname := "VehiclePoseComponent"; tfields := [tkey [k_segment; k_frame]; group "world_from_vehicle" TTransform] |}.
Definition pose_of (n : nat) : list (val value) := [VNode [VLeaf Chars; VLeaf (Integer 1500000000000000)]; VNode [VLeaf (Values (repeat Float n))]].
Lemma pose_fits n : In pose typed_components /\ instance (erase_component pose) (pose_of n) /\
  (row_fits column_holds (component_arrow_types pose) (to_flatten_dict Null (erase_component pose) (pose_of n)) <-> n = 16%nat).
Proof.
  assert (In pose typed_components) as Hi by (do 21 right; left; reflexivity).
  assert (instance (erase_component pose) (pose_of n)) as Hp by (repeat split; discriminate). split; [exact Hi|]. split; [exact Hp|].
  rewrite (rows_fit Null column_holds (fun a => or_intror eq_refl) pose (pose_of n) Hp (dataset_nodup pose Hi)). cbn [tfields pose pose_of]. split.
  - intros H. inversion H as [|? ? ? ? _ H2]; subst. inversion H2 as [|? ? ? ? H3 _]; subst. cbn in H3. inversion H3 as [| |? ? ? H4]; subst.
    inversion H4 as [|? ? ? ? H5 _]; subst. cbn in H5. inversion H5 as [? ? [H6|H6]| |]; subst; [|discriminate].
    cbn [holds] in H6. apply andb_prop in H6. destruct H6 as [H6 _]. rewrite repeat_length in H6. now apply Nat.eqb_eq.
  - intros ->. repeat constructor; left; vm_compute; reflexivity.
Qed.
