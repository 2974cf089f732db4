(** advance, next, prev and distance.  [IT] = /repo/src/jstd/iterator.h.
    An iterator is a position in an array (StrIterModel.v); its category says which of the
    overloads is taken.  Differences do not overflow. *)
From Coq Require Import ZArith NArith List Bool.
From Verif Require Import Base StrIterModel.
Import ListNotations.
Open Scope Z_scope.

(** The categories that the overloads tell apart, IT:27-63; a forward iterator is an input
    iterator here. *)
Inductive category := CInput | CBidirectional | CRandom.

Section Advance.

Variable A : Type.

(** for (; offset > 0; --offset) ++where, IT:171-173 and 180-182. *)
Fixpoint up (n : nat) (a : arr A) (p : ptr) : res ptr :=
  match n with O => Ok p | S n' => rbind (it_inc A a p) (fun q => up n' a q) end.

(** for (; offset < 0; ++offset) --where, IT:183-185. *)
Fixpoint down (n : nat) (a : arr A) (p : ptr) : res ptr :=
  match n with O => Ok p | S n' => rbind (it_dec A a p) (fun q => down n' a q) end.

(** advance_impl and advance, IT:167-199. *)
Definition advance (c : category) (a : arr A) (p : ptr) (offset : Z) : res ptr :=
  match c with
  | CInput => up (Z.to_nat offset) a p
  | CBidirectional => rbind (up (Z.to_nat offset) a p) (fun q => down (Z.to_nat (- offset)) a q)
  | CRandom => it_plus A a p offset
  end.

(** next, IT:233-243, and prev, IT:245-255, which requires a bidirectional iterator. *)
Definition next (c : category) (a : arr A) (p : ptr) (offset : Z) : res ptr := advance c a p offset.
Definition prev (c : category) (a : arr A) (p : ptr) (offset : Z) : res ptr := advance c a p (- offset).

(** The counting loop, IT:208-213 and 712-717, 730-735.  [fuel] is a bound on the rounds. *)
Fixpoint count (fuel : nat) (a : arr A) (first last : ptr) : res Z :=
  if it_eq first last then Ok 0
  else match fuel with
       | O => Err ELoop
       | S fuel' => rbind (it_inc A a first) (fun p => rbind (count fuel' a p last) (fun n => Ok (1 + n)))
       end.

(** distance_impl and distance, IT:203-229, and jstd::distance, IT:699-755. *)
Definition distance (c : category) (a : arr A) (first last : ptr) : res Z :=
  match c with
  | CRandom => Ok (it_diff last first)
  | _ => count (S (length a)) a first last
  end.

End Advance.
