(** bucket(), bucket_count(), at(), count(), equal_range() and load_factor() of
    flat16_hash_map.h ([F16]), robin16_hash_map.h ([Q]) and robin_hash_map.h ([RH]). *)
From Coq Require Import NArith List Bool.
From Verif Require Import Base TableModel RobinModel Flat16Model Robin16Model.
Import ListNotations.
Open Scope N_scope.

Section Query.

Variables K V : Type.
Variable hash : K -> N.
Variable keq : K -> K -> bool.
Variable mix : N -> N.
Variable wide : bool.

Notation fmap := (fmap K V).
Notation qmap := (qmap K V).
Notation rmap := (rmap K V).

(** ** flat16 *)

(** The constant npos, F16:119. *)
Definition f_npos : N := two64 - 1.

(** bucket_count, F16:1115-1117: kGroupWidth. *)
Definition f_bucket_count (t : fmap) : N := 16.

(** bucket, F16:1119-1122. *)
Definition f_bucket (t : fmap) (k : K) : res N :=
  rbind (f_find_index K V hash keq mix t k) (fun r =>
  Ok match r with Some i => i / 16 | None => f_npos end).

(** find, F16:1342-1348: the position. *)
Definition f_find (t : fmap) (k : K) : res N :=
  rbind (f_find_index K V hash keq mix t k) (fun r =>
  Ok match r with Some i => i | None => f_end K V t end).

(** equal_range, F16:1354-1360 and F16:1362-1368; std::next is operator++. *)
Definition f_equal_range (t : fmap) (k : K) : res (N * N) :=
  rbind (f_find t k) (fun i =>
  if negb (i =? f_end K V t) then
    rbind (f_incr (f_fuel K V t) (f_ctrls _ _ t) i) (fun j => Ok (i, j))
  else Ok (i, i)).

(** for (it = i; it != j; ++it) collect *it; the operators are those of Flat16Model.v. *)
Fixpoint f_span (fuel : nat) (t : fmap) (i j : N) : res (list (K * V)) :=
  if i =? j then Ok []
  else match fuel with
       | O => Err ELoop
       | S fuel' =>
           rbind (f_deref K V t i) (fun kv =>
           rbind (f_incr (f_fuel K V t) (f_ctrls _ _ t) i) (fun i' =>
           rbind (f_span fuel' t i' j) (fun l => Ok (kv :: l))))
       end.

Definition f_range (t : fmap) (k : K) : res (list (K * V)) :=
  rbind (f_equal_range t k) (fun '(i, j) => f_span (f_fuel K V t) t i j).

(** load_factor, F16:1124-1126: the dividend and the divisor.  The conversion to float
    and the rounding of the quotient are not modelled. *)
Definition f_load (t : fmap) : N * N := (f_size _ _ t, f_cap K V t).

(** ** robin16 *)

(** find_impl, Q:2620-2703, and find, Q:1748-1751: slot_capacity() on a miss. *)
Definition q_find (t : qmap) (k : K) : res N :=
  rbind (q_find_index K V hash keq wide t k) (fun r =>
  Ok match r with Some i => i | None => q_cap K V t end).

(** bucket_count, Q:1492-1494, and bucket, Q:1496-1499. *)
Definition q_bucket_count (t : qmap) : N := 16.

Definition q_bucket (t : qmap) (k : K) : res N := q_find t k.

(** at, Q:1717-1726 and Q:1728-1737.  [None] is the exception out_of_range. *)
Definition q_at (t : qmap) (k : K) : res (option V) :=
  rbind (q_find t k) (fun i =>
  if i <=? q_mask _ _ t then rbind (q_deref K V t i) (fun kv => Ok (Some (snd kv)))
  else Ok None).

(** count, Q:1739-1742. *)
Definition q_count (t : qmap) (k : K) : res N :=
  rbind (q_find t k) (fun i => Ok (if i <=? q_mask _ _ t then 1 else 0)).

(** equal_range, Q:1757-1763 and Q:1765-1771. *)
Definition q_equal_range (t : qmap) (k : K) : res (N * N) :=
  rbind (q_find t k) (fun i =>
  if negb (i =? q_end K V t) then
    rbind (q_incr K V (q_fuel K V t) t i) (fun j => Ok (i, j))
  else Ok (i, i)).

(** for (it = i; it != j; ++it) collect *it; the operators are those of Robin16Model.v. *)
Fixpoint q_span (fuel : nat) (t : qmap) (i j : N) : res (list (K * V)) :=
  if i =? j then Ok []
  else match fuel with
       | O => Err ELoop
       | S fuel' =>
           rbind (q_deref K V t i) (fun kv =>
           rbind (q_incr K V (q_fuel K V t) t i) (fun i' =>
           rbind (q_span fuel' t i' j) (fun l => Ok (kv :: l))))
       end.

Definition q_range (t : qmap) (k : K) : res (list (K * V)) :=
  rbind (q_equal_range t k) (fun '(i, j) => q_span (q_fuel K V t) t i j).

(** load_factor, Q:1501-1503. *)
Definition q_load (t : qmap) : N * N := (q_size _ _ t, q_cap K V t).

(** ** robin *)

(** bucket_count, RH:3303-3305. *)
Definition r_bucket_count (t : rmap) : N := r_size _ _ t.

(** bucket, RH:3307-3310: find_ctrl_index (RH:5255-5257), which is direct_find_index
    (RH:5283-5364) with the loop of find. *)
Definition r_bucket (t : rmap) (k : K) : res N :=
  rbind (r_search K V hash keq t true k) (fun s =>
  Ok match s with Found i => i | Stop _ _ => r_max_slot_capacity K V t end).

(** std::next of an iterator, RH:2817-2825. *)
Definition r_succ (t : rmap) (i : N) : res N :=
  r_next (S (length (r_ctrls _ _ t))) (r_ctrls _ _ t) (r_max_slot_capacity K V t) i.

(** equal_range, RH:3564-3570 and RH:3572-3578. *)
Definition r_equal_range (t : rmap) (k : K) : res (N * N) :=
  rbind (r_find K V hash keq t k) (fun i =>
  if negb (i =? r_end K V t) then rbind (r_succ t i) (fun j => Ok (i, j))
  else Ok (i, i)).

(** for (it = i; it != j; ++it) collect *it; the operators are those of RobinModel.v. *)
Fixpoint r_span (fuel : nat) (t : rmap) (i j : N) : res (list (K * V)) :=
  if i =? j then Ok []
  else match fuel with
       | O => Err ELoop
       | S fuel' =>
           rbind (r_deref K V t i) (fun kv =>
           rbind (r_succ t i) (fun i' =>
           rbind (r_span fuel' t i' j) (fun l => Ok (kv :: l))))
       end.

Definition r_range (t : rmap) (k : K) : res (list (K * V)) :=
  rbind (r_equal_range t k) (fun '(i, j) => r_span (S (length (r_ctrls _ _ t))) t i j).

(** load_factor, RH:3312-3314. *)
Definition r_load (t : rmap) : N * N := (r_size _ _ t, r_slot_capacity K V t).

End Query.
