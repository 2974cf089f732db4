(** What the properties of the iterators of string views speak about. *)
From Coq Require Import ZArith NArith List Bool.
From Verif Require Import Base StrIterModel.
Import ListNotations.
Open Scope Z_scope.

Section StrIter.

Variable A : Type.

(** The view lies in the array; its characters. *)
Definition inside (a : arr A) (v : view) : Prop :=
  0 <= v_data v /\ 0 <= v_size v /\ v_data v + v_size v <= Z.of_nat (length a).
Definition chars (a : arr A) (v : view) : list A :=
  firstn (Z.to_nat (v_size v)) (skipn (Z.to_nat (v_data v)) a).

(** A pointer to an element, or behind the last one. *)
Definition position (a : arr A) (p : ptr) : Prop := 0 <= p <= Z.of_nat (length a).

End StrIter.

Definition sx_arr : arr N := [5; 6; 7; 8; 9; 10]%N.
Definition sx_view : view := {| v_data := 1; v_size := 4 |}.
