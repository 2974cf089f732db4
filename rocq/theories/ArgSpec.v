(** Specification of insertions of several pairs. *)
From Coq Require Import NArith List Bool.
From Verif Require Import MapSpec.
Import ListNotations.

Section Spec.

Variables K V : Type.
Variable keq : K -> K -> bool.
Variable gone_key : K -> K.
Variable gone_value : V -> V.

(** The map after the pairs have been inserted one after the other. *)
Fixpoint put_all (l : list (K * V)) (m : list (K * V)) : list (K * V) :=
  match l with
  | [] => m
  | (k, v) :: l' => put_all l' (put_new K V keq k v m)
  end.

(** What is left of the pairs when those that are inserted are moved from. *)
Fixpoint left_range (const_key : bool) (m l : list (K * V)) : list (K * V) :=
  match l with
  | [] => []
  | (k, v) :: l' =>
      (if has K V keq k m then (k, v) else (if const_key then k else gone_key k, gone_value v))
      :: left_range const_key (put_new K V keq k v m) l'
  end.

End Spec.
