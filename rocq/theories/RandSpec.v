(** The Mersenne Twister as it is defined in the C++ standard and in the comment
    MT19937_32.h:77-107, independently of the model. *)
From Coq Require Import NArith List Bool.
Import ListNotations.
Open Scope N_scope.

(** The parameters (w, n, m, r), a, (u, d), (s, b), (t, c), l and f. *)
Record twister := Twister {
  tw : N; tn : nat; tm : nat; tr : N; ta : N;
  tu : N; td : N; ts : N; tb : N; tt : N; tc : N; tl : N; tf : N }.

Definition mt19937 : twister :=
  Twister 32 624 397 31 0x9908B0DF 11 0xFFFFFFFF 7 0x9D2C5680 15 0xEFC60000 18 1812433253.

Definition mt19937_64 : twister :=
  Twister 64 312 156 31 0xB5026F5AA96619E9 29 0x5555555555555555 17 0x71D67FFFEDA60000 37 0xFFF7EEE000000000 43
          6364136223846793005.

(** The first n terms after seeding. *)
Definition seeded (T : twister) (seed : N) (x : nat -> N) : Prop :=
  x O = seed mod 2 ^ tw T /\
  forall i, (S i < tn T)%nat ->
    x (S i) = (tf T * N.lxor (x i) (x i / 2 ^ (tw T - 2)) + N.of_nat (S i)) mod 2 ^ tw T.

(** The w - r upper bits of [u] and the r lower bits of [v], times the matrix. *)
Definition joined (T : twister) (u v : N) : N := (u / 2 ^ tr T) * 2 ^ tr T + v mod 2 ^ tr T.
Definition twisted (T : twister) (u v : N) : N :=
  N.lxor (joined T u v / 2) (if N.odd (joined T u v) then ta T else 0).

(** The recurrence. *)
Definition recurrence (T : twister) (x : nat -> N) : Prop :=
  forall i, x (i + tn T)%nat = N.lxor (x (i + tm T)%nat) (twisted T (x i) (x (S i))).

(** The tempering of one word. *)
Definition tempered (T : twister) (y : N) : N :=
  let z1 := N.lxor y (N.land (y / 2 ^ tu T) (td T)) in
  let z2 := N.lxor z1 (N.land (z1 * 2 ^ ts T mod 2 ^ tw T) (tb T)) in
  let z3 := N.lxor z2 (N.land (z2 * 2 ^ tt T mod 2 ^ tw T) (tc T)) in
  N.lxor z3 (z3 / 2 ^ tl T).
