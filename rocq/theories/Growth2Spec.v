(** Specification of the cost of growing, for the flat16, robin16 and robin maps: how often a
    sequence of calls changes the capacity, and how many elements are moved by it (each of
    the present ones, once per change).  It stops at a call that throws. *)
From Coq Require Import NArith List Bool.
From Verif Require Import Base TableModel.
Import ListNotations.
Open Scope N_scope.

Section Costs.

Context {C T R : Type}.
Variable step : C -> T -> out T R.
Variables cap size : T -> N.

(** The number of reallocations and the number of moved elements. *)
Fixpoint costs2 (calls : list C) (t : T) : out T (N * N) :=
  match calls with
  | [] => Ret t (0, 0)
  | c :: rest =>
      obind (step c t) (fun t' _ =>
      obind (costs2 rest t') (fun t'' rm =>
      Ret t'' (if cap t' =? cap t then rm else (fst rm + 1, snd rm + size t))))
  end.

(** Every call is allowed in the state in which it is made. *)
Fixpoint obeys2 (ok : C -> T -> Prop) (calls : list C) (t : T) : Prop :=
  match calls with
  | [] => True
  | c :: rest => ok c t /\ match step c t with Ret t' _ => obeys2 ok rest t' | _ => True end
  end.

End Costs.
