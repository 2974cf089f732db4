(** Copying and rehashing when an element's constructor throws.
    [T15] = /repo/src/jstd/hashmap/group15_flat_table.hpp,
    [T16] = /repo/src/jstd/hashmap/group16_flat_table.hpp.
    The argument [more] of the functions is the number of constructions that still
    succeed: the next one after them throws.  Without an exception the functions are
    those of TableModel and CopyModel. *)
From Coq Require Import NArith List Bool.
From Verif Require Import Base BitsModel ProberModel GroupModel TableModel IterModel CopyModel.
Import ListNotations.
Open Scope N_scope.

Section Throw.

Variables K V : Type.
Variable hash : K -> N.
Variable kd : kind.

Notation table := (table K V).

(** no_grow_unique_insert(slot), T15:2471-2481, T16:2295-2305: the control byte is
    written by find_empty_to_insert, then the element is constructed.  [None]: the
    constructor has thrown. *)
Definition insert_t (t : table) (kv : K * V) (more : nat) : res (table * option nat) :=
  match find_empty_to_insert K V kd false t (hash (fst kv)) with
  | Err e => Err e
  | Ok (t', (gi, p)) =>
      match more with
      | O => Ok (t', None)
      | S n => rbind (construct_at K V t' (slot_index kd gi p) kv) (fun t2 => Ok (t2, Some n))
      end
  end.

(** unique_insert(first, last), T15:2484-2489, T16:2308-2316. *)
Fixpoint unique_insert_t (l : list (K * V)) (t : table) (more : nat) : res (table * option nat) :=
  match l with
  | [] => Ok (t, Some more)
  | kv :: l' =>
      rbind (insert_t t kv more) (fun '(t', r) =>
      match r with
      | Some n => unique_insert_t l' t' n
      | None => Ok (t', None)
      end)
  end.

(** The loop of copy_slots_array_from, T15:1737-1752, T16:1680-1688, for one control
    byte.  [inr i]: the construction at index [i] has thrown; nothing more is done. *)
Definition copy_one_t (src : list (option (K * V))) (gi p : N)
    (st : list (option (K * V)) * (nat + N)) : res (list (option (K * V)) * (nat + N)) :=
  match snd st with
  | inr _ => Ok st
  | inl more =>
      match geti src (slot_index kd gi p), geti (fst st) (slot_index kd gi p) with
      | Some (Some kv), Some None =>
          match more with
          | O => Ok (fst st, inr (slot_index kd gi p))
          | S n => Ok (seti (fst st) (slot_index kd gi p) (Some kv), inl n)
          end
      | _, _ => Err EUndef
      end
  end.

(** The do/while of its handlers, T15:1756-1775 and 1777-1796, T16:1691-1701 and
    1703-1712: [ctrl] and [index] still stand at the slot whose construction threw, and
    go down to 0 from there. *)
Fixpoint unwind (j : nat) (gs : list group) (os : list (option (K * V)))
  : res (list (option (K * V))) :=
  let i := N.of_nat j in
  match geti gs (i / kd_S kd) with
  | None => Err EUndef
  | Some g =>
      let p := i mod kd_S kd in
      let next os := match j with O => Ok os | S j' => unwind j' gs os end in
      if N.testbit (kd_match_used kd g) p then
        if kd_is_sentinel kd g p then Ok os
        else match geti os i with
             | Some (Some _) => next (seti os i None)
             | _ => Err EUndef
             end
      else next os
  end.

(** Copy constructor, T15:315-342, T16:302-330, with copy_slots_from, T15:1653-1671,
    T16:1598-1616.  An exception that leaves the constructor's body does not run the
    destructor: if copy_slots_array_from throws, nobody releases the arrays ([ELeak], here
    without elements in them).
    In the other branch destroy<true>() is called by the handler. *)
Definition copy_construct_t (more : nat) (alloc : N -> bool) (past : N) (other : table)
  : out table unit :=
  let t := empty_table K V kd (t_mlf _ _ other) in
  if negb (t_size _ _ other =? 0) then
    obind (reserve_for_insert K V kd alloc (t_size _ _ other) t) (fun t1 _ =>
      if ctrl_capacity K V kd t1 =? ctrl_capacity K V kd other then
        match each_group kd _ (copy_one_t (t_slots _ _ other)) (t_groups _ _ other) 0
                         (t_slots _ _ t1, inl more) with
        | Err e => Fail e
        | Ok (sl, inl _) =>
            Ret (mkT _ _ (t_alloc _ _ t1) (t_groups _ _ other) sl (t_size _ _ t1) (t_thr _ _ t1)
                     (t_gmask _ _ t1) (t_shift _ _ t1) (t_mlf _ _ t1)) tt
        | Ok (sl, inr i) =>
            match (if i =? 0 then Ok sl else unwind (N.to_nat i) (t_groups _ _ other) sl) with
            | Ok _ => Fail ELeak
            | Err e => Fail e
            end
        end
      else
        match rbind (traverse K V kd past other) (fun l => unique_insert_t l t1 more) with
        | Err e => Fail e
        | Ok (t2, Some _) => Ret t2 tt
        | Ok (t2, None) =>
            match destroy K V kd t2 with
            | Ok t3 => Throw t3
            | Err e => Fail e
            end
        end)
  else Ret t tt.

(** no_grow_unique_transfer_insert, T15:2443-2454, T16:2267-2278: insert into the new
    arrays, destroy the old element. *)
Definition transfer_t (gi p : N) (st : table * list (option (K * V)) * option nat)
  : res (table * list (option (K * V)) * option nat) :=
  let '(nt, os, r) := st in
  match r with
  | None => Ok st
  | Some more =>
      match geti os (slot_index kd gi p) with
      | Some (Some kv) =>
          rbind (insert_t nt kv more) (fun '(nt', r') =>
          Ok (nt', match r' with Some _ => seti os (slot_index kd gi p) None | None => os end, r'))
      | _ => Err EUndef
      end
  end.

(** rehash_impl<AllowShrink>, T15:2109-2182, T16:1984-2046.  There is no handler: the
    members already point to the new arrays, and the local variables holding the old
    ones disappear.  Result: the map and, after an exception, the old slots, which
    nobody can reach any more. *)
Definition rehash_impl_t (more : nat) (alloc : N -> bool) (allow_shrink : bool) (t : table) (n : N)
  : out (table * list (option (K * V))) unit :=
  match calc_capacity K V kd t n with
  | Err e => Fail e
  | Ok cap =>
      if (if allow_shrink then negb (cap =? ctrl_capacity K V kd t) else ctrl_capacity K V kd t <? cap) then
        match create_slots K V kd alloc t cap with
        | Ret nt _ =>
            if t_alloc _ _ t then
              match each_group kd _ transfer_t (t_groups _ _ t) 0 (nt, t_slots _ _ t, Some more) with
              | Ok (nt', os, Some _) => if forallb is_none os then Ret (nt', []) tt else Fail ELeak
              | Ok (nt', os, None) => Throw (nt', os)
              | Err e => Fail e
              end
            else Ret (nt, []) tt
        | Throw t' => Throw (t', [])
        | Fail e => Fail e
        end
      else Ret (t, []) tt
  end.

End Throw.
