(** The constructors of the flat16, robin16 and robin maps from a range and from an
    initializer list, and insert(first, last).

    [F16] is src/jstd/hashmap/flat16_hash_map.h, [Q] robin16_hash_map.h and [RH]
    robin_hash_map.h.  Simplified: the range is the list of its elements; it can be
    walked twice (distance and insert).  The first allocator argument answers the
    requests of reserve_for_insert, the second one those of the insertions, so that it
    is visible which of the two asks.

    In the second part the key equality may throw, as in CompareModel.v; every element
    of the list comes with the answers of the key equality during its insertion.  No
    constructor has a try block, and the destructor of an object that was never complete
    does not run: the result [Ret t Escaped] is the object as it is left behind. *)
From Coq Require Import NArith List Bool.
From Verif Require Import Base TableModel RobinModel Flat16Model Robin16Model
  CompareModel Compare2Model Compare3Model Compare4Model.
Import ListNotations.
Open Scope N_scope.

Section From.

Variables K V : Type.
Variable hash : K -> N.
Variable keq : K -> K -> bool.

(** reserve_capacity, F16:964 and 1056, Q:1338 and 1440, RH:3093 and 3225. *)
Definition from_capacity (cap : N) (l : list (K * V)) : N :=
  if N.of_nat (length l) <=? cap then cap else N.of_nat (length l).

(** ** flat16 *)

(** insert(first, last), F16:1403-1407. *)
Fixpoint f_insert_range (mix : N -> N) (alloc : bool -> N -> bool) (l : list (K * V)) (t : fmap K V)
  : out (fmap K V) unit :=
  match l with
  | [] => Ret t tt
  | e :: l' =>
      obind (f_emplace K V hash keq mix alloc false (fst e) (snd e) t) (fun t' _ =>
      f_insert_range mix alloc l' t')
  end.

(** The constructors, F16:949-967 and 1042-1059, with reserve_for_insert, F16:1868-1872. *)
Definition f_from (mix : N -> N) (alloc alloc' : bool -> N -> bool) (cap : N) (l : list (K * V))
  : out (fmap K V) unit :=
  obind (f_create_init K V alloc (f_blank K V) (f_min_require fDefaultRev (from_capacity cap l))) (fun t _ =>
  f_insert_range mix alloc' l t).

(** ** robin16 *)

(** insert(first, last), Q:1806-1810. *)
Fixpoint q_insert_range (wide trivial : bool) (alloc : bool -> N -> bool) (l : list (K * V)) (t : qmap K V)
  : out (qmap K V) unit :=
  match l with
  | [] => Ret t tt
  | e :: l' =>
      obind (q_emplace K V hash keq wide trivial 64 alloc false (fst e) (snd e) t) (fun t' _ =>
      q_insert_range wide trivial alloc l' t')
  end.

(** The constructors, Q:1323-1341 and 1425-1443, with reserve_for_insert, Q:2327-2331. *)
Definition q_from (wide trivial : bool) (alloc alloc' : bool -> N -> bool) (cap : N) (l : list (K * V))
  : out (qmap K V) unit :=
  obind (q_create_init K V alloc (q_blank K V) (q_min_require qDefaultRev (from_capacity cap l))) (fun t _ =>
  q_insert_range wide trivial alloc' l t).

(** ** robin *)

(** insert(first, last), RH:3610-3615. *)
Fixpoint r_insert_range (alloc : N -> bool) (l : list (K * V)) (t : rmap K V) : out (rmap K V) unit :=
  match l with
  | [] => Ret t tt
  | e :: l' =>
      obind (r_emplace K V hash keq 64 alloc false (fst e) (snd e) t) (fun t' _ =>
      r_insert_range alloc l' t')
  end.

(** The constructors, RH:3077-3096 and 3206-3228; r_reserve_for_insert is RH:4275-4279. *)
Definition r_from (alloc alloc' : N -> bool) (cap : N) (l : list (K * V)) : out (rmap K V) unit :=
  obind (r_reserve_for_insert K V alloc (from_capacity cap l) (rnew K V)) (fun t _ =>
  r_insert_range alloc' l t).

(** ** With a key equality that may throw *)

Fixpoint f_insert_range_c (mix : N -> N) (alloc : bool -> N -> bool) (l : list (comparison K * (K * V)))
  (t : fmap K V) : out (fmap K V) (looked unit) :=
  match l with
  | [] => Ret t (Done tt)
  | (cmp, e) :: l' =>
      obind (f_emplace_c K V hash mix cmp alloc false (fst e) (snd e) t) (fun t' r =>
      match r with Escaped => Ret t' Escaped | Done _ => f_insert_range_c mix alloc l' t' end)
  end.

(** F16:949-967 and 1042-1059. *)
Definition f_from_c (mix : N -> N) (alloc : bool -> N -> bool) (cap : N) (l : list (comparison K * (K * V)))
  : out (fmap K V) (looked unit) :=
  obind (f_create_init K V alloc (f_blank K V) (f_min_require fDefaultRev (from_capacity cap (map snd l)))) (fun t _ =>
  f_insert_range_c mix alloc l t).

Fixpoint q_insert_range_c (wide trivial : bool) (alloc : bool -> N -> bool) (l : list (comparison K * (K * V)))
  (t : qmap K V) : out (qmap K V) (looked unit) :=
  match l with
  | [] => Ret t (Done tt)
  | (cmp, e) :: l' =>
      obind (q_emplace_c K V hash cmp wide trivial 64 alloc false (fst e) (snd e) [] t) (fun t' r =>
      match r with Escaped => Ret t' Escaped | Done _ => q_insert_range_c wide trivial alloc l' t' end)
  end.

(** Q:1323-1341 and 1425-1443. *)
Definition q_from_c (wide trivial : bool) (alloc : bool -> N -> bool) (cap : N) (l : list (comparison K * (K * V)))
  : out (qmap K V) (looked unit) :=
  obind (q_create_init K V alloc (q_blank K V) (q_min_require qDefaultRev (from_capacity cap (map snd l)))) (fun t _ =>
  q_insert_range_c wide trivial alloc l t).

Fixpoint r_insert_range_c (alloc : N -> bool) (l : list (comparison K * (K * V))) (t : rmap K V)
  : out (rmap K V) (looked unit) :=
  match l with
  | [] => Ret t (Done tt)
  | (cmp, e) :: l' =>
      obind (r_emplace_c K V hash cmp 64 alloc false (fst e) (snd e) [] t) (fun t' r =>
      match r with Escaped => Ret t' Escaped | Done _ => r_insert_range_c alloc l' t' end)
  end.

(** RH:3077-3096 and 3206-3228. *)
Definition r_from_c (alloc : N -> bool) (cap : N) (l : list (comparison K * (K * V)))
  : out (rmap K V) (looked unit) :=
  obind (r_reserve_for_insert K V alloc (from_capacity cap (map snd l)) (rnew K V)) (fun t _ =>
  r_insert_range_c alloc l t).

End From.
