(** C123: comparing examples. *)
From Coq Require Import String Permutation.
From Verif Require Import Base ExEqModel ExEqSpec ExEqProofs.
Open Scope list_scope.
(** Two examples are taken for the same exactly when they have the same names and the features agree, up to one exception. *)
Theorem C123_equal atol rtol a b : is_map a -> is_map b ->
  (examples_equal atol rtol a b = true <-> related (fun f g => agree atol rtol f g \/ confused f g) a b).
Proof. exact (equal_iff atol rtol a b). Qed.
Print Assumptions C123_equal.
(** Without empty float lists in the second there is no exception. *)
Theorem C123_strict atol rtol a b : is_map a -> is_map b -> no_empty_floats b ->
  (examples_equal atol rtol a b = true <-> related (agree atol rtol) a b).
Proof. exact (equal_strict atol rtol a b). Qed.
Print Assumptions C123_strict.
(** The order of the features does not matter. *)
Theorem C123_order atol rtol a a' b b' : is_map a -> is_map b -> Permutation a a' -> Permutation b b' ->
  examples_equal atol rtol a b = examples_equal atol rtol a' b'.
Proof. exact (order_irrelevant atol rtol a a' b b'). Qed.
Print Assumptions C123_order.
(** An example equals itself exactly when it holds no NaN. *)
Theorem C123_self atol rtol a : (0 <= atol)%Q -> (0 <= rtol)%Q -> is_map a -> (examples_equal atol rtol a a = true <-> ~ has_nan a).
Proof. exact (self_equal atol rtol a). Qed.
Print Assumptions C123_self.
(** With an absolute tolerance the order of the two does not matter. *)
Theorem C123_symmetric atol rtol a b : (rtol == 0)%Q -> is_map a -> is_map b -> no_empty_floats a -> no_empty_floats b ->
  examples_equal atol rtol a b = examples_equal atol rtol b a.
Proof. exact (symmetric atol rtol a b). Qed.
Print Assumptions C123_symmetric.
(** A larger tolerance accepts more. *)
Theorem C123_monotone atol atol' rtol rtol' a b : (atol <= atol')%Q -> (rtol <= rtol')%Q -> is_map a -> is_map b ->
  examples_equal atol rtol a b = true -> examples_equal atol' rtol' a b = true.
Proof. exact (monotone atol atol' rtol rtol' a b). Qed.
Print Assumptions C123_monotone.
(** Features of different kinds can be taken for the same. *)
Theorem C123_kind_refuted : exists a b, is_map a /\ is_map b /\ examples_equal (1 # 1000) 0 a b = true /\ examples_equal (1 # 1000) 0 b a = false
  /\ In ("x"%string, Int64List [1%Z; 2%Z]) a /\ In ("x"%string, FloatList []) b.
Proof. exact (kind_refuted ). Qed.
Print Assumptions C123_kind_refuted.
(** With a relative tolerance the order of the two matters. *)
Theorem C123_relative_refuted : exists rtol a b, is_map a /\ is_map b /\ no_empty_floats a /\ no_empty_floats b /\ (0 < rtol)%Q
  /\ examples_equal 0 rtol a b = true /\ examples_equal 0 rtol b a = false.
Proof. exact (relative_refuted ). Qed.
Print Assumptions C123_relative_refuted.
(** It is not an equivalence. *)
Theorem C123_transitive_refuted : exists a b c, is_map a /\ is_map b /\ is_map c /\ examples_equal (1 # 1000) 0 a b = true /\ examples_equal (1 # 1000) 0 b c = true
  /\ examples_equal (1 # 1000) 0 a c = false.
Proof. exact (transitive_refuted ). Qed.
Print Assumptions C123_transitive_refuted.
(** An example need not equal itself. *)
Theorem C123_self_refuted : exists a, is_map a /\ examples_equal (1 # 1000) 0 a a = false.
Proof. exact (self_refuted ). Qed.
Print Assumptions C123_self_refuted.

(** Two features in different orders, with numbers within the tolerance; and one beyond it. *)
Example C123_nonvacuous :
  let a := [("x"%string, FloatList [Fin 1; PosInf]); ("id"%string, BytesList ["abc"%string])] in
  let b := [("id"%string, BytesList ["abc"%string]); ("x"%string, FloatList [Fin (10005 # 10000); PosInf])] in
  let c := [("id"%string, BytesList ["abc"%string]); ("x"%string, FloatList [Fin (1002 # 1000); PosInf])] in
  is_map a /\ is_map b /\ no_empty_floats b /\ examples_equal (1 # 1000) 0 a b = true /\ examples_equal (1 # 1000) 0 a c = false.
Proof.
  split; [|split; [|split; [|split; reflexivity]]].
  - constructor; [intros [H|[]]; discriminate|]. constructor; [intros []|constructor].
  - constructor; [intros [H|[]]; discriminate|]. constructor; [intros []|constructor].
  - intros k [H|[H|[]]]; discriminate.
Qed.
