(** Model of /repo/src/jstd/string/string_helper.h ([SHL] below) for string_view_helper: a
    helper refers to characters that belong to somebody else, replaces the character
    behind the last one by a terminator, and puts it back later.  The characters are a list;
    writing outside is undefined. *)
From Coq Require Import NArith List Bool.
From Verif Require Import Base.
Import ListNotations.
Open Scope N_scope.

(** Members, SHL:34-36; str_ is a pointer, here a position or null, and a length. *)
Record helper := mkHelper { h_data : option N; h_size : N; h_trunc : bool; h_save : N }.

(** Default constructor, SHL:39-43, with an empty string_view. *)
Definition h_new : helper := mkHelper None 0 false 0.

(** attach, SHL:58-65. *)
Definition h_attach (h : helper) (data size : N) : helper * bool :=
  if h_trunc h then (h, false)
  else (mkHelper (Some data) size (h_trunc h) (h_save h), true).

(** truncate, SHL:76-85. *)
Definition h_truncate (mem : list N) (h : helper) : res (list N * helper) :=
  if h_trunc h then Ok (mem, h)
  else match h_data h with
       | None => Err EUndef
       | Some d =>
           match geti mem (d + h_size h) with
           | None => Err EUndef
           | Some c => Ok (seti mem (d + h_size h) 0, mkHelper (h_data h) (h_size h) true c)
           end
       end.

(** recover, SHL:87-95. *)
Definition h_recover (mem : list N) (h : helper) : res (list N * helper) :=
  if h_trunc h then
    match h_data h with
    | None => Err EUndef
    | Some d =>
        if d + h_size h <? N.of_nat (length mem)
        then Ok (seti mem (d + h_size h) (h_save h), mkHelper (h_data h) (h_size h) false (h_save h))
        else Err EUndef
    end
  else Ok (mem, h).

(** detach and the destructor, SHL:54-56 and SHL:67-74. *)
Definition h_detach (mem : list N) (h : helper) : res (list N * helper) :=
  if h_trunc h then
    rbind (h_recover mem h) (fun '(mem', h') =>
    Ok (mem', mkHelper None 0 (h_trunc h') (h_save h')))
  else Ok (mem, h).

(** Copy constructor, SHL:44-48. *)
Definition h_copy (h : helper) : helper := mkHelper (h_data h) (h_size h) (h_trunc h) (h_save h).

(** Move constructor, SHL:49-53, by swap, SHL:97-103: the new helper and its source. *)
Definition h_move (h : helper) : helper * helper := (h, h_new).
