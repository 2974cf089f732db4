(** operator -- of the iterators of robin maps, for elements without indirection.
    [RH] = /repo/src/jstd/hashmap/robin_hash_map.h. *)
From Coq Require Import NArith List Bool.
From Verif Require Import Base RobinModel.
Import ListNotations.
Open Scope N_scope.

Section Back.

Variables K V : Type.

(** operator --, RH:2833-2842, from index [n].  At index 0 nothing happens; a control is
    read after the decrement only. *)
Fixpoint r_prev (ctrls : list N) (n : nat) : res N :=
  match n with
  | O => Ok 0
  | S n' =>
      match geti ctrls (N.of_nat n') with
      | None => Err EUndef
      | Some c => if c =? cEmpty then r_prev ctrls n' else Ok (N.of_nat n')
      end
  end.

(** while (it != first) { --it; collect *it }, the loop of std::erase_if
    (RH:6638-6647) without the erasure.  [fuel] is a bound on the rounds. *)
Fixpoint r_walk_back (fuel : nat) (t : rmap K V) (first i : N) : res (list (K * V)) :=
  if i =? first then Ok []
  else match fuel with
       | O => Err ELoop
       | S fuel' =>
           rbind (r_prev (r_ctrls _ _ t) (N.to_nat i)) (fun j =>
           rbind (r_deref K V t j) (fun kv =>
           rbind (r_walk_back fuel' t first j) (fun l => Ok (kv :: l))))
       end.

Definition r_back (t : rmap K V) : res (list (K * V)) :=
  rbind (r_begin K V t) (fun first => r_walk_back (length (r_ctrls _ _ t)) t first (r_end K V t)).

(** operator ++, RH:2817-2825. *)
Definition r_forth (t : rmap K V) (i : N) : res N :=
  r_next (S (length (r_ctrls _ _ t))) (r_ctrls _ _ t) (r_max_slot_capacity K V t) i.

(** operator -- of an iterator of [t] at position [i]. *)
Definition r_back_one (t : rmap K V) (i : N) : res N := r_prev (r_ctrls _ _ t) (N.to_nat i).

End Back.
