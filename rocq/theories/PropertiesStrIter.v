(** The iterators of string views and reverse iterators (C219, C220).  The model is
    StrIterModel.v. *)
From Coq Require Import ZArith NArith List Bool.
From Verif Require Import Base StrIterModel StrIterSpec StrIterFacts.
Import ListNotations.
Open Scope Z_scope.

(** ** C219 *)

Theorem c219_both_directions_visit_the_characters :
  forall (A : Type) (a : arr A) v, inside A a v ->
  v_walk A a v = Ok (chars A a v) /\ v_walk_back A a v = Ok (rev (chars A a v)).
Proof. exact view_walks. Qed.
Print Assumptions c219_both_directions_visit_the_characters.

Theorem c219_subscripts :
  forall (A : Type) (a : arr A) v i last, inside A a v -> 0 <= i < v_size v -> v_end A a v = Ok last ->
  exists x y, it_at A a (v_begin v) i = Ok x /\ nth_error (chars A a v) (Z.to_nat i) = Some x
    /\ r_at A a last i = Ok y /\ nth_error (rev (chars A a v)) (Z.to_nat i) = Some y.
Proof. exact view_access. Qed.
Print Assumptions c219_subscripts.

Theorem c219_differences_and_order :
  forall (A : Type) (a : arr A) p q, position A a p -> position A a q ->
  it_plus A a p (it_diff q p) = Ok q /\ it_minus A a q (it_diff q p) = Ok p
  /\ r_plus A a p (r_diff q p) = Ok q /\ r_minus A a q (r_diff q p) = Ok p
  /\ (it_lt p q = true <-> 0 < it_diff q p) /\ (r_lt p q = true <-> 0 < r_diff q p)
  /\ (it_eq p q = true <-> p = q)
  /\ it_gt p q = it_lt q p /\ it_le p q = negb (it_lt q p) /\ it_ge p q = negb (it_lt p q)
  /\ r_gt p q = r_lt q p /\ r_le p q = negb (r_lt q p) /\ r_ge p q = negb (r_lt p q).
Proof. exact laws. Qed.
Print Assumptions c219_differences_and_order.

Theorem c219_steps :
  forall (A : Type) (a : arr A) p, position A a p -> p < Z.of_nat (length a) ->
  it_inc A a p = Ok (p + 1) /\ it_dec A a (p + 1) = Ok p
  /\ r_dec A a p = Ok (p + 1) /\ r_inc A a (p + 1) = Ok p.
Proof. exact steps. Qed.
Print Assumptions c219_steps.

Example c219_example : inside N sx_arr sx_view /\ chars N sx_arr sx_view = [6; 7; 8; 9]%N
  /\ v_walk N sx_arr sx_view = Ok [6; 7; 8; 9]%N /\ v_walk_back N sx_arr sx_view = Ok [9; 8; 7; 6]%N
  /\ it_at N sx_arr 1 2 = Ok 8%N /\ r_at N sx_arr 5 0 = Ok 9%N /\ position N sx_arr 6
  /\ it_deref N sx_arr 6 = Err EUndef /\ it_inc N sx_arr 6 = Err EUndef
  /\ it_post_inc N sx_arr 1 = Ok (2, Dead) /\ r_post_inc N sx_arr 5 = Ok (4, Live 5).
Proof. exact sx_example. Qed.

(** ** C220 *)

(** The postfix operators move the iterator like the prefix ones. *)
Theorem c220_postfix_moves_the_iterator :
  forall (A : Type) (a : arr A) p q,
  (it_inc A a p = Ok q <-> exists h, it_post_inc A a p = Ok (q, h))
  /\ (it_dec A a p = Ok q <-> exists h, it_post_dec A a p = Ok (q, h)).
Proof. exact post_advances. Qed.
Print Assumptions c220_postfix_moves_the_iterator.

(** What they return cannot be used, whatever the iterator. *)
Theorem c220_postfix_results_are_dead :
  forall (A : Type) (a : arr A) p q h,
  it_post_inc A a p = Ok (q, h) \/ it_post_dec A a p = Ok (q, h) -> use h = Err EUndef.
Proof. exact post_moves. Qed.
Print Assumptions c220_postfix_results_are_dead.

(** So a loop over a view with *it++ is undefined unless the view is empty. *)
Theorem c220_postfix_loops_are_undefined :
  forall (A : Type) (a : arr A) v, inside A a v -> 0 < v_size v -> v_walk_post A a v = Err EUndef.
Proof. exact post_walk_undefined. Qed.
Print Assumptions c220_postfix_loops_are_undefined.

Theorem c220_postfix_loop_is_the_prefix_loop_refuted :
  exists a v, inside N a v /\ v_walk N a v = Ok [6; 7; 8; 9]%N /\ v_walk_post N a v = Err EUndef.
Proof. exact sx_post. Qed.
Print Assumptions c220_postfix_loop_is_the_prefix_loop_refuted.

(** Those of reverse_iterator return the old iterator. *)
Theorem c220_postfix_of_reverse_iterators :
  forall (A : Type) (a : arr A) p q h,
  (r_post_inc A a p = Ok (q, h) -> r_inc A a p = Ok q /\ use h = Ok p)
  /\ (r_post_dec A a p = Ok (q, h) -> r_dec A a p = Ok q /\ use h = Ok p).
Proof. exact r_post. Qed.
Print Assumptions c220_postfix_of_reverse_iterators.
