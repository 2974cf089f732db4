(** The groups that a lookup examines, and iterators that a client can obtain.
    [T15], [T16] as in TableModel.v. *)
From Coq Require Import NArith List Bool.
From Verif Require Import Base BitsModel ProberModel GroupModel TableModel IterModel.
Import ListNotations.
Open Scope N_scope.

Section Trace.

Variables K V : Type.
Variable hash : K -> N.
Variable keq : K -> K -> bool.
Variable kd : kind.

Notation table := (table K V).

(** The loop of find_impl, T15:2278-2321, find_index, T16:2129-2164, as
    TableModel.find_loop, but with the indices of the groups it reads. *)
Fixpoint find_groups (fuel : nat) (t : table) (k : K) (ch : N) (pr : prober) : list N :=
  match fuel with
  | O => []
  | S f =>
      pr_index pr ::
      match geti (t_groups _ _ t) (pr_index pr) with
      | None => []
      | Some g =>
          match scan_keys K V keq kd (t_slots _ _ t) k (pr_index pr)
                          (positions (kd_match_hash kd g ch)) with
          | Ok None =>
              if negb (kd_is_overflow kd g ch) then []
              else
                let '(pr', more) := next_bucket (t_gmask _ _ t) pr in
                if more then find_groups f t k ch pr' else []
          | _ => []
          end
      end
  end.

(** The groups read by find(key), T15:2269-2274, T16:2116-2121.  [fuel] is an
    arbitrary number of rounds. *)
Definition groups_read (fuel : nat) (t : table) (k : K) : list N :=
  find_groups fuel t k (ctrl_for_hash kd (hash k)) (prober_init (index_for_hash K V t (hash k))).

(** Iterators obtained from begin() by incrementing iterators other than end().
    flat_map_iterator15.hpp:489-493, group15_flat_table.hpp:513-516. *)
Inductive client_iter15 (t : table) : iter15 -> Prop :=
| ci15_begin : client_iter15 t (begin15 K V kd t)
| ci15_next it it' : client_iter15 t it -> it <> None -> incr15 K V kd t it = Ok it' ->
    client_iter15 t it'.

(** flat_map_iterator.hpp:148-168, group16_flat_table.hpp:500-507. *)
Inductive client_iter16 (past : N) (t : table) : iter16 -> Prop :=
| ci16_begin it : begin16 K V kd t = Ok it -> client_iter16 past t it
| ci16_next it it' : client_iter16 past t it -> it <> end16 K V kd t ->
    incr16 K V kd past t it = Ok it' -> client_iter16 past t it'.

End Trace.
