(** Insertion and rehashing in robin_hash_map, flat16_hash_map and robin16_hash_map when the
    hasher throws.
    [RH] = /repo/src/jstd/hashmap/robin_hash_map.h (the layout with elements in the slots,
    no stored hashes), [F16] = /repo/src/jstd/hashmap/flat16_hash_map.h,
    [Q] = /repo/src/jstd/hashmap/robin16_hash_map.h.
    As in HasherModel.v the argument [more] is the number of calls of the hasher that still
    succeed: the next one after them throws.  Without an exception the functions are those of
    RobinModel, Flat16Model and Robin16Model.
    get_hash of robin_hash_map.h (RH:3960-3974) is noexcept only if the hasher is.  No
    handler surrounds the code: what the local variables of rehash_impl point to is lost,
    the second component of the results.
    get_hash of the other two maps (F16:1532-1535, Q:1946-1949) is noexcept: an exception
    of the hasher calls std::terminate.  This is the result [None]. *)
From Coq Require Import NArith List Bool.
From Verif Require Import Base BitsModel GroupModel TableModel RobinModel Flat16Model Robin16Model.
Import ListNotations.
Open Scope N_scope.

(** ** robin_hash_map *)

Section Robin.

Variables K V : Type.
Variable hash : K -> N.
Variable keq : K -> K -> bool.

Notation rmap := (rmap K V).
Notation lost := (list (K * V)).

(** The loops of rehash_impl, RH:4555-4571 and RH:4575-4588, with insert_no_grow,
    RH:6147-6172 and RH:6269-6275, which begins with the hash of the key.  Result: the map,
    the elements not visited, and [None] if the hasher has thrown. *)
Fixpoint r_insert_all_h (more : nat) (l : lost) (t : rmap) : res (rmap * lost * option nat) :=
  match l, more with
  | [], _ => Ok (t, [], Some more)
  | _, O => Ok (t, l, None)
  | kv :: l', S n => rbind (r_insert_no_grow K V hash keq t kv) (r_insert_all_h n l')
  end.

(** rehash_impl, RH:4400-4644: the members are set for the new arrays before the first
    element is moved.  The number returned is that of the calls left. *)
Definition r_rehash_impl_h (more : nat) (allow_shrink always : bool) (alloc : N -> bool)
    (t : rmap) (n : N) : out (rmap * lost) nat :=
  match r_calc_capacity n with
  | Err e => Fail e
  | Ok cap =>
      if always || (negb allow_shrink && (r_slot_capacity K V t <? cap))
         || (allow_shrink && negb (cap =? r_slot_capacity K V t))
      then
        match r_create K V alloc t cap with
        | Ret t0 _ =>
            match rbind (r_elements K V t) (fun l => r_insert_all_h more l t0) with
            | Ok (t', _, Some n) => Ret (t', []) n
            | Ok (t', l, None) => Throw (t', l)
            | Err e => Fail e
            end
        | Throw t' => Throw (t', [])
        | Fail e => Fail e
        end
      else Ret (t, []) more
  end.

(** grow_if_necessary, RH:4270-4273. *)
Definition r_grow_h (more : nat) (alloc : N -> bool) (t : rmap) : out (rmap * lost) nat :=
  r_rehash_impl_h more false true alloc t (wmul (wadd (r_mask K V t) 1) 2).

(** emplace_impl<AlwaysUpdate>, RH:5870-5893, with direct_find_and_insert, RH:5471-5616:
    the key is hashed at the beginning; find_failed, RH:5667-5684, is given the hash. *)
Fixpoint r_emplace_h (fuel : nat) (more : nat) (alloc : N -> bool) (update : bool) (k : K) (v : V)
    (t : rmap) : out (rmap * lost) (N * bool) :=
  match fuel, more with
  | O, _ => Fail ELoop
  | _, O => Throw (t, [])
  | S fuel', S more' =>
      match r_search K V hash keq t true k with
      | Err e => Fail e
      | Ok (Found i) =>
          match geti (r_slots K V t) i with
          | Some (Some kv) =>
              Ret (if update
                   then r_with K V t (r_ctrls K V t) (seti (r_slots K V t) i (Some (fst kv, v)))
                               (r_size K V t)
                   else t, []) (i, false)
          | _ => Fail EUndef
          end
      | Ok (Stop i d) =>
          let grow := r_need_grow K V t || (r_max_distance K V t <=? d) in
          obind (if grow then r_grow_h more' alloc t else Ret (t, []) more') (fun s more1 =>
          match (if grow then r_search K V hash keq (fst s) false k else Ok (Stop i d)) with
          | Err e => Fail e
          | Ok (Found _) => Fail EUndef
          | Ok (Stop i d) =>
              match r_insert_at K V false (fst s) i i d (k, v) with
              | Err e => Fail e
              | Ok (t2, true) => Ret (t2, []) (i, true)
              | Ok (t2, false) =>
                  obind (r_grow_h more1 alloc t2) (fun s3 more3 =>
                  r_emplace_h fuel' more3 alloc update k v (fst s3))
              end
          end)
      end
  end.

(** rehash / reserve / resize, RH:3517-3531, with read_only = false. *)
Definition r_rehash_h (more : nat) (alloc : N -> bool) (n : N) (t : rmap) : out (rmap * lost) nat :=
  r_rehash_impl_h more true false alloc t (N.max (r_min_require K V t n) (r_size K V t)).

(** shrink_to_fit, RH:3533-3540. *)
Definition r_shrink_h (more : nat) (alloc : N -> bool) (read_only : bool) (t : rmap)
  : out (rmap * lost) nat :=
  r_rehash_impl_h more true false alloc t
    (if read_only then r_size K V t else r_min_require K V t (r_size K V t)).

End Robin.

(** ** flat16_hash_map *)

Section Flat16.

Variables K V : Type.
Variable hash : K -> N.
Variable keq : K -> K -> bool.
Variable mix : N -> N.

Notation fmap := (fmap K V).
Notation oracle := (bool -> N -> bool).
Notation slots := (list (option (K * V))).

(** The loops of rehash_impl, F16:1968-1985 and 2003-2013, with move_insert_unique,
    F16:2290-2309, which begins with the hash of the key.  The number returned is that of
    the calls left. *)
Fixpoint f_transfer_h (more : nat) (old : slots) (is : list N) (t : fmap) {struct is}
  : option (res (slots * fmap * nat)) :=
  match is with
  | [] => Some (Ok (old, t, more))
  | i :: is' =>
      match geti old i with
      | Some (Some kv) =>
          match more with
          | O => None
          | S n =>
              match f_insert_unique K V hash mix t kv with
              | Ok t' => f_transfer_h n (seti old i None) is' t'
              | Err e => Some (Err e)
              end
          end
      | _ => Some (Err EUndef)
      end
  end.

(** rehash_impl, F16:1923-2021. *)
Definition f_rehash_impl_h (more : nat) (allow_shrink always : bool) (alloc : oracle)
    (t : fmap) (n : N) : option (out fmap nat) :=
  match f_calc_capacity n with
  | Err e => Some (Fail e)
  | Ok cap =>
      if always || (negb allow_shrink && (f_cap K V t <? cap))
         || (allow_shrink && negb (cap =? f_cap K V t)) then
        match f_create K V alloc t cap with
        | Ret nt _ =>
            match f_used_positions K V t with
            | Err e => Some (Fail e)
            | Ok is =>
                match f_transfer_h more (f_slots K V t) is nt with
                | None => None
                | Some (Err e) => Some (Fail e)
                | Some (Ok (old, nt', more')) =>
                    Some (if forallb is_none old
                          then Ret (f_with K V nt' (f_ctrls K V nt') (f_slots K V nt') (f_size K V nt')
                                           (wsub (f_left K V nt') (f_size K V nt'))) more'
                          else Fail ELeak)
                end
            end
        | Throw t' => Some (Throw t')
        | Fail e => Some (Fail e)
        end
      else Some (Ret t more)
  end.

(** reorder_or_grow_if_necessary, F16:1856-1866.  drop_deleted_no_grow hashes the key of a
    slot whose byte is not kDeletedEntry: no element has one after convent_all_slots
    (F16:2023-2035), so that the first key hashed is read from an empty slot. *)
Definition f_grow_h (more : nat) (alloc : oracle) (t : fmap) : option (out fmap nat) :=
  if (32 <? f_cap K V t) && (f_cap K V t / 8 <=? f_slot_deleted K V t)
  then Some (match f_drop_deleted K V hash mix t with Ok t' => Ret t' more | Err e => Fail e end)
  else f_rehash_impl_h more false true alloc t (wmul (f_cap K V t) 2).

(** find_and_prepare_insert, F16:2363-2445: each turn begins with the hash of the key. *)
Fixpoint f_prepare_h (fuel : nat) (more : nat) (alloc : oracle) (k : K) (t : fmap)
  : option (out fmap (N * bool)) :=
  match fuel, more with
  | O, _ => Some (Fail ELoop)
  | _, O => None
  | S fuel', S more' =>
      let grow :=
        match f_grow_h more' alloc t with
        | None => None
        | Some (Ret t' more1) => f_prepare_h fuel' more1 alloc k t'
        | Some (Throw t') => Some (Throw t')
        | Some (Fail e) => Some (Fail e)
        end in
      match f_search K V hash keq mix t k with
      | Err e => Some (Fail e)
      | Ok (FHit i) => Some (Ret t (i, true))
      | Ok FFull => grow
      | Ok (FStop last m) =>
          if f_need_grow K V t then grow
          else
            let first := f_home K V hash t k in
            Some (if negb (last =? first) then
              match f_deleted_loop K V (f_fuel K V t) t first last first with
              | Err e => Fail e
              | Ok (Some i) => Ret t (i, false)
              | Ok None => Ret (f_use_empty K V t) (f_round K V t (wadd last (bsf m)), false)
              end
            else
              match f_group (f_ctrls K V t) last with
              | Err e => Fail e
              | Ok g =>
                  let d := match_deleted g in
                  if negb (d =? 0) then Ret t (f_round K V t (wadd last (bsf d)), false)
                  else Ret (f_use_empty K V t) (f_round K V t (wadd last (bsf m)), false)
              end)
      end
  end.

(** The part of emplace_impl, F16:2447-2705, behind find_and_prepare_insert: the hasher is
    not called. *)
Definition f_place_h (update : bool) (k : K) (v : V) (t1 : fmap) (x : N * bool)
  : out fmap (N * bool) :=
  let '(i, exists_) := x in
  if exists_ : bool then
    match geti (f_slots K V t1) i with
    | Some (Some kv) =>
        if update
        then Ret (f_with K V t1 (f_ctrls K V t1) (seti (f_slots K V t1) i (Some (fst kv, v)))
                         (f_size K V t1) (f_left K V t1)) (i, false)
        else Ret t1 (i, false)
    | _ => Fail EUndef
    end
  else
    match f_construct K V hash mix t1 i (k, v) with
    | Ok t2 => Ret t2 (i, true)
    | Err e => Fail e
    end.

(** emplace_impl, F16:2447-2705. *)
Definition f_emplace_h (more : nat) (alloc : oracle) (update : bool) (k : K) (v : V) (t : fmap)
  : option (out fmap (N * bool)) :=
  match f_prepare_h 64 more alloc k t with
  | None => None
  | Some r => Some (obind r (f_place_h update k v))
  end.

(** rehash, reserve, resize, F16:1271-1285, with read_only = false. *)
Definition f_rehash_h (more : nat) (alloc : oracle) (n : N) (t : fmap) : option (out fmap nat) :=
  f_rehash_impl_h more true false alloc t (N.max (f_min_require (f_rev K V t) n) (f_size K V t)).

End Flat16.

(** ** robin16_hash_map *)

Section Robin16.

Variables K V : Type.
Variable hash : K -> N.
Variable keq : K -> K -> bool.
Variable wide : bool.
Variable trivial : bool.

Notation qmap := (qmap K V).
Notation oracle := (bool -> N -> bool).
Notation slots := (list (option (K * V))).

(** The loops of rehash_impl, Q:2410-2458, with move_insert_unique, Q:3442-3473, and
    unique_prepare_insert, Q:3371-3374, which begins with the hash of the key. *)
Fixpoint q_transfer_h (more : nat) (old : slots) (is : list N) (t : qmap) {struct is}
  : option (res (slots * qmap * nat)) :=
  match is with
  | [] => Some (Ok (old, t, more))
  | i :: is' =>
      match q_read K V old i with
      | Err e => Some (Err e)
      | Ok kv =>
          match more with
          | O => None
          | S n =>
              match rbind (q_move_insert K V hash keq wide trivial t kv)
                          (fun t' => rbind (q_drop K V trivial old i) (fun old' => Ok (old', t'))) with
              | Ok (old', t') => q_transfer_h n old' is' t'
              | Err e => Some (Err e)
              end
          end
      end
  end.

(** rehash_impl, Q:2378-2467. *)
Definition q_rehash_impl_h (more : nat) (allow_shrink always : bool) (alloc : oracle)
    (t : qmap) (n : N) : option (out qmap nat) :=
  match q_calc_capacity n with
  | Err e => Some (Fail e)
  | Ok cap =>
      if always || (negb allow_shrink && (q_cap K V t <? cap))
         || (allow_shrink && negb (cap =? q_cap K V t)) then
        match q_create K V alloc t cap with
        | Ret nt _ =>
            match q_used_positions K V wide t with
            | Err e => Some (Fail e)
            | Ok is =>
                match q_transfer_h more (q_slots K V t) is nt with
                | None => None
                | Some (Err e) => Some (Fail e)
                | Some (Ok (old, nt', more')) =>
                    Some (if q_no_leak K V trivial old then Ret nt' more' else Fail ELeak)
                end
            end
        | Throw t' => Some (Throw t')
        | Fail e => Some (Fail e)
        end
      else Some (Ret t more)
  end.

(** grow_if_necessary, Q:2322-2325. *)
Definition q_grow_h (more : nat) (alloc : oracle) (t : qmap) : option (out qmap nat) :=
  q_rehash_impl_h more false true alloc t (wmul (wadd (q_mask K V t) 1) 2).

(** find_or_prepare_insert, Q:2828-2960: each turn begins with the hash of the key. *)
Fixpoint q_prepare_h (fuel : nat) (more : nat) (alloc : oracle) (k : K) (t : qmap)
  : option (out qmap (N * N * bool * nat)) :=
  match fuel, more with
  | O, _ => Some (Fail ELoop)
  | _, O => None
  | S fuel', S more' =>
      let grow :=
        match q_grow_h more' alloc t with
        | None => None
        | Some (Ret t' more1) => q_prepare_h fuel' more1 alloc k t'
        | Some (Throw t') => Some (Throw t')
        | Some (Fail e) => Some (Fail e)
        end in
      match q_search K V hash keq wide 4 t (Some k) k with
      | Err e => Some (Fail e)
      | Ok (QHit i) => Some (Ret t (i, 0, true, more'))
      | Ok QFull => grow
      | Ok (QStop i d) =>
          if q_need_grow K V t then grow else Some (Ret t (i, d, false, more'))
      end
  end.

(** emplace_impl, Q:3040-3369. *)
Fixpoint q_emplace_h (fuel : nat) (more : nat) (alloc : oracle) (update : bool) (k : K) (v : V)
    (t : qmap) : option (out qmap (N * bool)) :=
  match fuel with
  | O => Some (Fail ELoop)
  | S fuel' =>
      match q_prepare_h 64 more alloc k t with
      | None => None
      | Some (Throw t') => Some (Throw t')
      | Some (Fail e) => Some (Fail e)
      | Some (Ret t1 (i, d, exists_, more1)) =>
          if exists_ : bool then
            Some (match q_read K V (q_slots K V t1) i with
            | Ok kv =>
                if update
                then Ret (q_with K V t1 (q_ctrls K V t1) (seti (q_slots K V t1) i (Some (fst kv, v)))
                                 (q_size K V t1)) (i, false)
                else Ret t1 (i, false)
            | Err _ => if update then Fail EUndef else Ret t1 (i, false)
            end)
          else
            match q_insert_at K V hash trivial false t1 i d (k, v) with
            | Err e => Some (Fail e)
            | Ok (t2, false) => Some (Ret t2 (i, true))
            | Ok (t2, true) =>
                match q_grow_h more1 alloc t2 with
                | None => None
                | Some (Throw t') => Some (Throw t')
                | Some (Fail e) => Some (Fail e)
                | Some (Ret t3 more3) => q_emplace_h fuel' more3 alloc update k v t3
                end
            end
      end
  end.

(** rehash, reserve, resize, Q:1677-1691, with read_only = false. *)
Definition q_rehash_h (more : nat) (alloc : oracle) (n : N) (t : qmap) : option (out qmap nat) :=
  q_rehash_impl_h more true false alloc t (N.max (q_min_require (q_rev K V t) n) (q_size K V t)).

End Robin16.
