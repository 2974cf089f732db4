(** Maps together with the two function objects that they hold, hasher_ and key_equal_,
    and what copying, moving and swapping do with these.  A function object with state
    is a function; the default-constructed ones are [hash0] and [keq0].  Moving a
    function object is taken to leave the source as it was.
    [F16] is flat16_hash_map.h, [Q] robin16_hash_map.h, [RH] robin_hash_map.h, [T15] and
    [T16] the tables as in TableModel.v. *)
From Coq Require Import NArith List Bool.
From Verif Require Import Base GroupModel TableModel CopyModel RobinModel Flat16Model Robin16Model.
Import ListNotations.
Open Scope N_scope.

Section Held.

Variables K V : Type.
Variable mix : N -> N.
Variables wide trivial : bool.
Variable kd : kind.

(** The members hasher_ and key_equal_ and the others: F16:908-920, Q:1279-1294,
    RH:3031-3046, T15:250-270, T16:247-265. *)
Record held (T : Type) : Type := mkHeld {
  h_hash : K -> N;
  h_eq : K -> K -> bool;
  h_map : T
}.

Notation oracle := (bool -> N -> bool).

(** A constructor that gives the new object the function objects [hash] and [keq]. *)
Definition holding {T} (hash : K -> N) (keq : K -> K -> bool) (r : out T unit) : out (held T) unit :=
  match r with
  | Ret t u => Ret (mkHeld T hash keq t) u
  | Throw t => Throw (mkHeld T hash keq t)
  | Fail e => Fail e
  end.

(** ** flat16 and robin16 *)

(** F16:989-1010: "hasher_(hasher()), key_equal_(key_equal())"; the elements are inserted
    with these. *)
Definition f_copy_held (hash0 : K -> N) (keq0 : K -> K -> bool) (alloc : oracle)
    (x : held (fmap K V)) : out (held (fmap K V)) unit :=
  holding hash0 keq0 (f_copy K V hash0 mix alloc (h_map _ x)).

(** Q:1363-1386, likewise (Q:1371). *)
Definition q_copy_held (hash0 : K -> N) (keq0 : K -> K -> bool) (alloc : oracle)
    (x : held (qmap K V)) : out (held (qmap K V)) unit :=
  holding hash0 keq0 (q_copy K V hash0 keq0 wide trivial alloc (h_map _ x)).

(** The move constructors, Q:1388-1422: hash_function_ref() and key_eq_ref() are moved. *)
Definition q_move_held (x : held (qmap K V)) : held (qmap K V) * held (qmap K V) :=
  let '(t, s) := q_move K V (h_map _ x) in
  (mkHeld _ (h_hash _ x) (h_eq _ x) t, mkHeld _ (h_hash _ x) (h_eq _ x) s).

(** swap, Q:1702-1706, with swap_policy, Q:3610-3626. *)
Definition q_swap_held (x y : held (qmap K V)) : held (qmap K V) * held (qmap K V) :=
  let '(s, t) := q_swap K V (h_map _ x) (h_map _ y) in
  (mkHeld _ (h_hash _ y) (h_eq _ y) s, mkHeld _ (h_hash _ x) (h_eq _ x) t).

(** ** robin *)

(** RH:3118-3143: "hasher_(other.hash_function_ref())" and the same for key_equal_
    (RH:3127). *)
Definition r_copy_held (alloc : N -> bool) (x : held (rmap K V)) : out (held (rmap K V)) unit :=
  holding (h_hash _ x) (h_eq _ x) (r_copy K V (h_hash _ x) (h_eq _ x) alloc (h_map _ x)).

(** RH:3145-3169. *)
Definition r_move_held (x : held (rmap K V)) : held (rmap K V) * held (rmap K V) :=
  let '(t, s) := r_move K V (h_map _ x) in
  (mkHeld _ (h_hash _ x) (h_eq _ x) t, mkHeld _ (h_hash _ x) (h_eq _ x) s).

(** ** group15 and group16 *)

(** T15:315-342, T16:302-330. *)
Definition copy_held (alloc : N -> bool) (past : N) (x : held (table K V)) : out (held (table K V)) unit :=
  holding (h_hash _ x) (h_eq _ x) (copy_construct K V (h_hash _ x) kd alloc past (h_map _ x)).

(** swap_impl, T15:2877-2880, T16:2687-2690: swap_content and swap_policy (T15:2858-2874,
    T16:2668-2684). *)
Definition swap_held (x y : held (table K V)) : held (table K V) * held (table K V) :=
  let '(s, t) := swap_content K V (h_map _ x) (h_map _ y) in
  (mkHeld _ (h_hash _ y) (h_eq _ y) s, mkHeld _ (h_hash _ x) (h_eq _ x) t).

(** Copy assignment, T15:414-421, T16:401-408: a copy of [y] is exchanged with [x] and
    destroyed. *)
Definition assign_held (alloc : N -> bool) (past : N) (x y : held (table K V)) : out (held (table K V)) unit :=
  match copy_held alloc past y with
  | Ret tmp _ =>
      let '(x', tmp') := swap_held x tmp in
      match destroy K V kd (h_map _ tmp') with Ok _ => Ret x' tt | Err e => Fail e end
  | Throw _ => Throw x
  | Fail e => Fail e
  end.

(** Move assignment, T15:2818-2835, T16:2631-2648, of another object; the results are the
    object assigned to and the source. *)
Definition move_assign_held (x y : held (table K V)) : res (held (table K V) * held (table K V)) :=
  let '(t, s) := move_construct K V kd (h_map _ y) in
  let '(x', tmp') := swap_held x (mkHeld _ (h_hash _ y) (h_eq _ y) t) in
  match destroy K V kd (h_map _ tmp') with
  | Ok _ => Ok (x', mkHeld _ (h_hash _ y) (h_eq _ y) s)
  | Err e => Err e
  end.

End Held.

Arguments mkHeld {K T}.
Arguments h_hash {K T}.
Arguments h_eq {K T}.
Arguments h_map {K T}.
