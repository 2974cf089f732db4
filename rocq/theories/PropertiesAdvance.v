(** advance, next, prev and distance (C221).  The model is AdvanceModel.v. *)
From Coq Require Import ZArith NArith List Bool.
From Verif Require Import Base StrIterModel StrIterSpec AdvanceModel AdvanceFacts.
Import ListNotations.
Open Scope Z_scope.

(** ** C221 *)

(** From every position to every other one, forwards for input iterators. *)
Theorem c221_advance_moves_partial :
  forall (A : Type) c (a : arr A) p q, c <> CInput \/ p <= q -> position A a p -> position A a q ->
  advance A c a p (q - p) = Ok q /\ next A c a p (q - p) = Ok q
  /\ (c <> CInput -> prev A c a p (p - q) = Ok q).
Proof. exact advance_moves. Qed.
Print Assumptions c221_advance_moves_partial.

Theorem c221_advance_outside_is_undefined :
  forall (A : Type) c (a : arr A) p n, c <> CInput \/ 0 <= n -> position A a p -> ~ position A a (p + n) ->
  advance A c a p n = Err EUndef.
Proof. exact advance_outside. Qed.
Print Assumptions c221_advance_outside_is_undefined.

(** advance of an input iterator by a negative offset is silently ignored. *)
Theorem c221_advance_moves_refuted :
  exists a p q, position N a p /\ position N a q /\ q <> p
  /\ advance N CInput a p (q - p) = Ok p /\ advance N CBidirectional a p (q - p) = Ok q.
Proof. exact ax_stays. Qed.
Print Assumptions c221_advance_moves_refuted.

Theorem c221_input_iterators_stay :
  forall (A : Type) (a : arr A) p n, n <= 0 -> advance A CInput a p n = Ok p.
Proof. exact input_stays. Qed.
Print Assumptions c221_input_iterators_stay.

Theorem c221_distance :
  forall (A : Type) c (a : arr A) p q, position A a p -> position A a q -> c = CRandom \/ p <= q ->
  distance A c a p q = Ok (q - p).
Proof. exact distances. Qed.
Print Assumptions c221_distance.

(** Backwards only random access iterators have a distance. *)
Theorem c221_distance_backwards_is_undefined :
  forall (A : Type) c (a : arr A) p q, c <> CRandom -> position A a p -> q < p -> distance A c a p q = Err EUndef.
Proof. exact distance_backwards. Qed.
Print Assumptions c221_distance_backwards_is_undefined.

Example c221_example : position N sx_arr 4 /\ advance N CBidirectional sx_arr 4 (-3) = Ok 1
  /\ advance N CInput sx_arr 1 3 = Ok 4 /\ prev N CBidirectional sx_arr 4 3 = Ok 1
  /\ advance N CBidirectional sx_arr 4 (-5) = Err EUndef /\ distance N CInput sx_arr 1 4 = Ok 3
  /\ distance N CRandom sx_arr 4 1 = Ok (-3) /\ distance N CBidirectional sx_arr 4 1 = Err EUndef.
Proof. exact ax_example. Qed.
