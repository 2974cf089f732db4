(** Insertion, rehashing and copying when the hasher throws.
    [T15] = /repo/src/jstd/hashmap/group15_flat_table.hpp,
    [T16] = /repo/src/jstd/hashmap/group16_flat_table.hpp.
    The argument [more] of the functions is the number of calls of the hasher that still
    succeed: the next one after them throws.  Without an exception the functions are
    those of TableModel and CopyModel.  Exceptions of the key
    equality are in CompareModel.v.

    Last, the insertion that makes its element in a temporary slot. *)
From Coq Require Import NArith List Bool.
From Verif Require Import Base BitsModel ProberModel GroupModel TableModel IterModel CopyModel.
Import ListNotations.
Open Scope N_scope.

Section Hasher.

Variables K V : Type.
Variable hash : K -> N.
Variable keq : K -> K -> bool.
Variable kd : kind.

Notation table := (table K V).

(** no_grow_unique_transfer_insert, T15:2443-2454, T16:2267-2278, with
    no_grow_unique_insert, T15:2430-2438, T16:2254-2262: the key in the old slot is hashed
    before anything else happens.  [None]: the hasher has thrown. *)
Definition transfer_h (gi p : N) (st : table * list (option (K * V)) * option nat)
  : res (table * list (option (K * V)) * option nat) :=
  let '(nt, os, r) := st in
  match r with
  | None => Ok st
  | Some more =>
      match geti os (slot_index kd gi p) with
      | Some (Some kv) =>
          match more with
          | O => Ok (nt, os, None)
          | S n => rbind (no_grow_unique_insert K V hash kd nt kv) (fun nt' =>
                   Ok (nt', seti os (slot_index kd gi p) None, Some n))
          end
      | _ => Err EUndef
      end
  end.

(** rehash_impl<AllowShrink>, T15:2109-2182, T16:1984-2046.  There is no handler: the
    members already point to the new arrays, and the local variables holding the old
    ones disappear.  Result: the map and, after an exception, the old slots, which
    nobody can reach any more. *)
Definition rehash_impl_h (more : nat) (alloc : N -> bool) (allow_shrink : bool) (t : table) (n : N)
  : out (table * list (option (K * V))) unit :=
  match calc_capacity K V kd t n with
  | Err e => Fail e
  | Ok cap =>
      if (if allow_shrink then negb (cap =? ctrl_capacity K V kd t) else ctrl_capacity K V kd t <? cap) then
        match create_slots K V kd alloc t cap with
        | Ret nt _ =>
            if t_alloc _ _ t then
              match each_group kd _ transfer_h (t_groups _ _ t) 0 (nt, t_slots _ _ t, Some more) with
              | Ok (nt', os, Some _) => if forallb is_none os then Ret (nt', []) tt else Fail ELeak
              | Ok (nt', os, None) => Throw (nt', os)
              | Err e => Fail e
              end
            else Ret (nt, []) tt
        | Throw t' => Throw (t', [])
        | Fail e => Fail e
        end
      else Ret (t, []) tt
  end.

(** emplace_impl and try_emplace_impl, T15:2507-2719 and 2725-2761, T16:2319-2560 and
    2563-2586, with find_or_insert, T15:2393-2427, T16:2217-2251: the key is hashed once,
    then those of the elements if the map grows. *)
Definition emplace_h (more : nat) (alloc : N -> bool) (always_update : bool)
           (t : table) (k : K) (v : V) : out (table * list (option (K * V))) (N * bool) :=
  match more with
  | O => Throw (t, [])
  | S n =>
      match find K V hash keq kd t k with
      | Err e => Fail e
      | Ok (Some (gi, p)) =>
          let i := slot_index kd gi p in
          if always_update then
            match geti (t_slots _ _ t) i with
            | Some (Some (k', _)) =>
                Ret (mkT _ _ (t_alloc _ _ t) (t_groups _ _ t) (seti (t_slots _ _ t) i (Some (k', v)))
                         (t_size _ _ t) (t_thr _ _ t) (t_gmask _ _ t) (t_shift _ _ t) (t_mlf _ _ t), [])
                    (i, false)
            | _ => Fail EUndef
            end
          else Ret (t, []) (i, false)
      | Ok None =>
          obind (if need_grow K V t
                 then rehash_impl_h n alloc false t (wmul (ctrl_capacity K V kd t) 2)
                 else Ret (t, []) tt)
            (fun s _ =>
               match find_empty_to_insert K V kd true (fst s) (hash k) with
               | Ok (t2, (gi, p)) =>
                   match construct_at K V t2 (slot_index kd gi p) (k, v) with
                   | Ok t3 => Ret (t3, []) (slot_index kd gi p, true)
                   | Err e => Fail e
                   end
               | Err e => Fail e
               end)
      end
  end.

(** unique_insert(first, last), T15:2484-2489, T16:2308-2316.  [None]: the hasher has
    thrown. *)
Fixpoint unique_insert_h (l : list (K * V)) (t : table) (more : nat) : res (table * option nat) :=
  match l with
  | [] => Ok (t, Some more)
  | kv :: l' =>
      match more with
      | O => Ok (t, None)
      | S n => rbind (no_grow_unique_insert K V hash kd t kv) (fun t' => unique_insert_h l' t' n)
      end
  end.

(** Copy constructor, T15:315-342, T16:302-330, with copy_slots_from, T15:1653-1671,
    T16:1598-1616.  A copy with the capacity of its source does not hash; the other branch
    is protected by a handler that calls destroy<true>(). *)
Definition copy_construct_h (more : nat) (alloc : N -> bool) (past : N) (other : table)
  : out table unit :=
  let t := empty_table K V kd (t_mlf _ _ other) in
  if negb (t_size _ _ other =? 0) then
    obind (reserve_for_insert K V kd alloc (t_size _ _ other) t) (fun t1 _ =>
      if ctrl_capacity K V kd t1 =? ctrl_capacity K V kd other
      then lift _ _ (fast_copy K V kd t1 other)
      else
        match rbind (traverse K V kd past other) (fun l => unique_insert_h l t1 more) with
        | Err e => Fail e
        | Ok (t2, Some _) => Ret t2 tt
        | Ok (t2, None) =>
            match destroy K V kd t2 with
            | Ok t3 => Throw t3
            | Err e => Fail e
            end
        end)
  else Ret t tt.

(** emplace_impl(First, Args...), T15:2691-2719, T16:2516-2546, for a first argument that
    is neither a pair nor a key, with an allocator whose construct() makes an element
    [kv] of such arguments.  [tmp] is the temporary slot: [None] is raw memory.
    SlotPolicyTraits::transfer, map_slot_policy.h:209-236, moves the element to the new slot and
    destroys the old one; destroy, map_slot_policy.h:171-178, is called afterwards
    in both cases.  An exception does not run it: the element in [raw] is never destroyed
    ([ELeak]). *)
Definition emplace_tmp (alloc : N -> bool) (always_update : bool) (t : table) (kv : K * V)
  : out table (N * bool) :=
  let tmp : option (K * V) := Some kv in
  match find_or_insert K V hash keq kd alloc t (fst kv) with
  | Throw _ => Fail ELeak
  | Fail e => Fail e
  | Ret t1 ((gi, p), need_insert) =>
      let i := slot_index kd gi p in
      match
        (if need_insert then
           match tmp with
           | Some e => rbind (construct_at K V t1 i e) (fun t2 => Ok (t2, None))
           | None => Err EUndef
           end
         else if always_update then
           match tmp, geti (t_slots _ _ t1) i with
           | Some e, Some (Some (k', _)) =>
               Ok (mkT _ _ (t_alloc _ _ t1) (t_groups _ _ t1) (seti (t_slots _ _ t1) i (Some (k', snd e)))
                       (t_size _ _ t1) (t_thr _ _ t1) (t_gmask _ _ t1) (t_shift _ _ t1) (t_mlf _ _ t1), tmp)
           | _, _ => Err EUndef
           end
         else Ok (t1, tmp))
      with
      | Err e => Fail e
      | Ok (t2, Some _) => Ret t2 (i, need_insert)
      | Ok (_, None) => Fail EUndef
      end
  end.

End Hasher.
