(** Specification of the cost of growing: how often a sequence of calls changes the
    capacity, and how many elements are moved by it (each of the present ones, once per
    change). *)
From Coq Require Import NArith List Bool.
From Verif Require Import Base TableModel RunModel.
Import ListNotations.
Open Scope N_scope.

Section Growth.

Variables K V : Type.
Variable hash : K -> N.
Variable keq : K -> K -> bool.
Variable kd : GroupModel.kind.

(** Calls that add elements or look at the map. *)
Definition adds (o : op K V) : bool :=
  match o with
  | OInsert _ _ _ _ | OAssign _ _ _ _ | OFind _ _ _ | OContains _ _ _ | OSize _ _ => true
  | _ => false
  end.

(** The number of reallocations and the number of moved elements. *)
Fixpoint costs (calls : list (call K V)) (t : table K V) : N * N :=
  match calls with
  | [] => (0, 0)
  | c :: rest =>
      match run K V hash keq kd [c] t with
      | Ok (_, t') =>
          let '(r, m) := costs rest t' in
          if capacity K V kd t' =? capacity K V kd t then (r, m) else (r + 1, m + t_size _ _ t)
      | Err _ => (0, 0)
      end
  end.

End Growth.

(** How many elements fit without growing, at the default load factor: seven eighths of the
    capacity, or all of it in the smallest table. *)
Definition growth_limit (capacity : N) : N := if 32 <? capacity then capacity * 7 / 8 else capacity.
