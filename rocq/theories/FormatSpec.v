(** What a decimal numeral is and what a format with arguments stands for; stated without the
    functions of FormatModel.v. *)
From Coq Require Import NArith ZArith List.
From Verif Require Import Base FormatModel.
Import ListNotations.
Open Scope N_scope.

(** The number that a text of digits denotes, read from the left. *)
Definition value (s : list N) : N := fold_left (fun acc c => acc * 10 + (c - 48)) s 0.

(** [s] is the decimal numeral of [n]: digits only, at least one, no leading zero. *)
Definition numeral (s : list N) (n : N) : Prop :=
  s <> [] /\ Forall (fun c => 48 <= c <= 57) s /\ value s = n /\ (nth 0 s 0 = 48 -> length s = 1%nat).

(** With a sign. *)
Definition numeralZ (s : list N) (z : Z) : Prop :=
  ((0 <= z)%Z -> numeral s (Z.to_N z)) /\
  ((z < 0)%Z -> exists t, s = 45 :: t /\ numeral t (Z.to_N (- z))).

(** The parts of a format: a character that stands for itself, ["%%"], ["%d"] and ["%u"] with an
    argument of the given type and value. *)
Inductive item := Text (c : N) | Percent | Dec (t : atype) (z : Z) | Uns (t : atype) (z : Z).

Definition item_format (i : item) : list N :=
  match i with
  | Text c => [c] | Percent => [37; 37] | Dec _ _ => [37; 100] | Uns _ _ => [37; 117]
  end.
Definition item_args (i : item) : list arg :=
  match i with Dec t z | Uns t z => [Arg t z] | _ => [] end.

Definition format_of (l : list item) : list N := flat_map item_format l.
Definition args_of (l : list item) : list arg := flat_map item_args l.

(** What printf prints for it. *)
Definition item_prints (i : item) (s : list N) : Prop :=
  match i with
  | Text c => s = [c]
  | Percent => s = [37]
  | Dec _ z | Uns _ z => numeralZ s z
  end.
Definition prints (l : list item) (s : list N) : Prop :=
  exists parts, Forall2 item_prints l parts /\ s = concat parts.

(** An item that can be written down: a text character is not zero and not ['%'], a number is
    one of its specifier and its argument is of an integral type. *)
Definition item_ok (i : item) : Prop :=
  match i with
  | Text c => c <> 0 /\ c <> 37
  | Percent => True
  | Dec t z => t <> A_float /\ (- 2 ^ 31 < z < 2 ^ 31)%Z
  | Uns t z => t <> A_float /\ (0 <= z < 2 ^ 32)%Z
  end.

(** Moreover no ["%%"], and the arguments have the types int and unsigned. *)
Definition item_plain (i : item) : Prop :=
  item_ok i /\
  match i with
  | Text _ => True | Percent => False | Dec t _ => t = A_int | Uns t _ => t = A_uint
  end.
