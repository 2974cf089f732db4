(** Strings as lists of characters, and their order. *)
From Coq Require Import NArith ZArith List Bool.
Import ListNotations.
Open Scope N_scope.

(** The bytes of a number, lowest first. *)
Fixpoint enc1 (n : nat) (c : N) : list N :=
  match n with O => [] | S n' => c mod 256 :: enc1 n' (c / 256) end.

(** The bytes of a string of characters of [sz] bytes. *)
Definition encode (sz : N) (s : list N) : list N := flat_map (enc1 (N.to_nat sz)) s.

(** Characters of [sz] bytes. *)
Definition is_string (sz : N) (s : list N) : Prop := Forall (fun c => c < 2 ^ (8 * sz)) s.

(** The lexicographic order of std::string_view, given the value of a character. *)
Fixpoint lex (value : N -> Z) (s1 s2 : list N) : comparison :=
  match s1, s2 with
  | [], [] => Eq
  | [], _ => Lt
  | _, [] => Gt
  | c1 :: r1, c2 :: r2 =>
      match (value c1 ?= value c2)%Z with Eq => lex value r1 r2 | o => o end
  end.

(** A number that says the same as a comparison. *)
Definition tells (r : Z) (o : comparison) : Prop := Z.compare r 0 = o.

(** What the standard says of the comparison functions of the library. *)
Definition conforming (lib : Z -> Z -> Z) : Prop := forall x y, x <> y -> tells (lib x y) (Z.compare x y).

(** The value by which the strings of the standard library are ordered: char as unsigned char,
    the others as they are. *)
Definition order_of (sz : N) (signed : bool) (c : N) : Z :=
  if (signed && (1 <? sz) && (2 ^ (8 * sz - 1) <=? c))%bool
  then (Z.of_N c - 2 ^ (8 * Z.of_N sz))%Z else Z.of_N c.

(** substr(pos, count) of the standard library. *)
Definition sub (s : list N) (pos count : N) : list N :=
  let r := skipn (N.to_nat pos) s in
  firstn (N.to_nat (N.min count (N.of_nat (length r)))) r.
