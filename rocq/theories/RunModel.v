(** Sequences of calls on one map. *)
From Coq Require Import NArith List Bool.
From Verif Require Import Base GroupModel TableModel.
Import ListNotations.
Open Scope N_scope.

Section Run.

Variables K V : Type.
Variable hash : K -> N.
Variable keq : K -> K -> bool.
Variable kd : kind.

(** A call together with the answers of the allocator during the call. *)
Definition call : Type := ((N -> bool) * op K V)%type.

(** Calls in sequence.  The result of a call that throws is [None]; the sequence
    goes on from the state in which the exception left the map.  A call that does
    not come back (undefined behaviour, endless loop, leak) ends everything. *)
Fixpoint run (calls : list call) (t : table K V)
  : res (list (option (obs K V)) * table K V) :=
  match calls with
  | [] => Ok ([], t)
  | (alloc, o) :: rest =>
      match step K V hash keq kd alloc o t with
      | Ret t' r => rbind (run rest t') (fun '(rs, t'') => Ok (Some r :: rs, t''))
      | Throw t' => rbind (run rest t') (fun '(rs, t'') => Ok (None :: rs, t''))
      | Fail e => Err e
      end
  end.

(** Calls that a client can make without running into one of the defects
    that are recorded as properties of their own:
    - clear() of a group15 map without storage writes to a constant (C15);
    - reserve(0) destroys the elements (C32);
    - rehash(n) with n > 2^63 shifts by the word width. *)
Definition client_ok (o : op K V) (t : table K V) : Prop :=
  match o with
  | OClear _ _ false => kd_sent kd = true -> capacity _ _ kd t <> 0
  | OReserve _ _ n => n <> 0
  | ORehash _ _ n => n <= 2 ^ 63
  | _ => True
  end.

(** The same, without shrink_to_fit (C08). *)
Definition client_noshrink (o : op K V) (t : table K V) : Prop :=
  match o with OShrink _ _ _ => False | _ => client_ok o t end.

(** Without erase; shrink_to_fit(true) of a group15 map is left out because it may
    ask for less storage than the elements need. *)
Definition erase_free (o : op K V) (t : table K V) : Prop :=
  match o with
  | OErase _ _ _ => False
  | OShrink _ _ true => kd_sent kd = false
  | _ => client_ok o t
  end.

(** Every call satisfies [ok] in the state in which it is made. *)
Fixpoint obeys (ok : op K V -> table K V -> Prop) (calls : list call) (t : table K V) : Prop :=
  match calls with
  | [] => True
  | (alloc, o) :: rest =>
      ok o t /\ match step K V hash keq kd alloc o t with
                | Ret t' _ | Throw t' => obeys ok rest t'
                | Fail _ => True
                end
  end.

(** The map right after construction without an initial capacity. *)
Definition new_map : table K V := empty_table K V kd kDefaultMaxLoadFactor.

Definition threw {A} (o : option A) : bool := is_none o.

End Run.
