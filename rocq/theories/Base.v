(** Machine words, array access and outcomes shared by all model files.
    Nothing here models one particular function of /repo; these are the
    building blocks (size_t arithmetic, C array access, outcome of a call). *)
From Coq Require Import NArith List Bool Lia.
Import ListNotations.
Open Scope N_scope.

(** [std::size_t] on the 64-bit targets that the library selects
    (kWordLength = 64): arithmetic is modulo 2^64. *)
Definition two64 : N := 2 ^ 64.
Definition w64 (x : N) : N := x mod two64.
Definition wadd (x y : N) : N := w64 (x + y).
Definition wsub (x y : N) : N := w64 (x + (two64 - w64 y)).
Definition wmul (x y : N) : N := w64 (x * y).

(** 32-bit words, used for the SSE2 movemask results. *)
Definition two32 : N := 2 ^ 32.
Definition w32 (x : N) : N := x mod two32.

(** Array read: [None] when the index is out of bounds. *)
Definition geti {A} (l : list A) (i : N) : option A := nth_error l (N.to_nat i).

Fixpoint upd {A} (l : list A) (n : nat) (x : A) : list A :=
  match l, n with
  | [], _ => []
  | _ :: l', O => x :: l'
  | a :: l', S n' => a :: upd l' n' x
  end.

(** Array write (only used in bounds). *)
Definition seti {A} (l : list A) (i : N) (x : A) : list A := upd l (N.to_nat i) x.

(** Why a call does not return normally and is not a C++ exception:
    - [EUndef]: undefined behaviour (raw slot read or destroyed, live slot
      overwritten by a construction, index out of bounds, write to a constant
      object, shift by the word width);
    - [ELoop]: a loop that never ends;
    - [ELeak]: an array is given back to the allocator while it still holds a
      live element. *)
Inductive err := EUndef | ELoop | ELeak.

Inductive res (A : Type) : Type :=
| Ok (a : A)
| Err (e : err).
Arguments Ok {A} a.
Arguments Err {A} e.

Definition rbind {A B} (r : res A) (f : A -> res B) : res B :=
  match r with Ok a => f a | Err e => Err e end.

(** Result of a member function: it returns, it throws (leaving a state), or
    it fails as above. *)
Inductive out (T A : Type) : Type :=
| Ret (t : T) (a : A)
| Throw (t : T)
| Fail (e : err).
Arguments Ret {T A} t a.
Arguments Throw {T A} t.
Arguments Fail {T A} e.

Definition obind {T A B} (r : out T A) (f : T -> A -> out T B) : out T B :=
  match r with Ret t a => f t a | Throw t => Throw t | Fail e => Fail e end.

(** The numbers [0, 1, ..., n-1]. *)
Definition seqN (n : N) : list N := map N.of_nat (seq 0 (N.to_nat n)).
