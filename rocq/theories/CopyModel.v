(** Copying, moving and swapping whole maps, and insertion of ranges.
    [T15] = /repo/src/jstd/hashmap/group15_flat_table.hpp,
    [T16] = /repo/src/jstd/hashmap/group16_flat_table.hpp,
    [M15], [M16] = group15_flat_map.hpp and group16_flat_map.hpp beside them.
    Element constructors do not throw in this file. *)
From Coq Require Import NArith List Bool.
From Verif Require Import Base BitsModel ProberModel GroupModel TableModel IterModel.
Import ListNotations.
Open Scope N_scope.

Section Copy.

Variables K V : Type.
Variable hash : K -> N.
Variable keq : K -> K -> bool.
Variable kd : kind.

Notation table := (table K V).

(** Reading a container through its iterators.  [past]: see IterModel.incr16. *)
Definition traverse (past : N) (t : table) : res (list (K * V)) :=
  if kd_sent kd then traverse15 K V kd t else traverse16 K V kd past t.

(** unique_insert(first, last), T15:2484-2489, T16:2308-2316. *)
Fixpoint unique_insert (l : list (K * V)) (t : table) : res table :=
  match l with
  | [] => Ok t
  | kv :: l' => rbind (no_grow_unique_insert K V hash kd t kv) (unique_insert l')
  end.

(** One step of copy_slots_array_from (construct, T15:1741, T16:1663). *)
Definition copy_one (src : list (option (K * V))) (gi p : N) (os : list (option (K * V)))
  : res (list (option (K * V))) :=
  match geti src (slot_index kd gi p), geti os (slot_index kd gi p) with
  | Some (Some kv), Some None => Ok (seti os (slot_index kd gi p) (Some kv))
  | _, _ => Err EUndef
  end.

(** fast_copy_slots_from, T15:1675-1682, T16:1618-1623: copy_groups_array_from
    (T15:1685-1706, T16:1626-1647) and the element-wise copy_slots_array_from
    (T15:1731-1752, T16:1674-1688).  slot_size_ is not written. *)
Definition fast_copy (t other : table) : res table :=
  match each_group kd _ (copy_one (t_slots _ _ other)) (t_groups _ _ other) 0 (t_slots _ _ t) with
  | Ok sl => Ok (mkT _ _ (t_alloc _ _ t) (t_groups _ _ other) sl (t_size _ _ t) (t_thr _ _ t)
                     (t_gmask _ _ t) (t_shift _ _ t) (t_mlf _ _ t))
  | Err e => Err e
  end.

(** Copy constructor, T15:315-342, T16:302-330, with copy_slots_from, T15:1653-1671,
    T16:1598-1616.  The comparison of slot_capacity() in T16 is the same as the
    comparison of the number of groups. *)
Definition copy_construct (alloc : N -> bool) (past : N) (other : table) : out table unit :=
  let t := empty_table K V kd (t_mlf _ _ other) in
  if negb (t_size _ _ other =? 0) then
    obind (reserve_for_insert K V kd alloc (t_size _ _ other) t) (fun t1 _ =>
      if ctrl_capacity K V kd t1 =? ctrl_capacity K V kd other
      then lift _ _ (fast_copy t1 other)
      else lift _ _ (rbind (traverse past other) (fun l => unique_insert l t1)))
  else Ret t tt.

(** swap_content, T15:2838-2855, T16:2650-2668: member by member. *)
Definition swap_content (a b : table) : table * table :=
  (mkT _ _ (t_alloc _ _ b) (t_groups _ _ b) (t_slots _ _ b) (t_size _ _ b) (t_thr _ _ b)
       (t_gmask _ _ b) (t_shift _ _ b) (t_mlf _ _ b),
   mkT _ _ (t_alloc _ _ a) (t_groups _ _ a) (t_slots _ _ a) (t_size _ _ a) (t_thr _ _ a)
       (t_gmask _ _ a) (t_shift _ _ a) (t_mlf _ _ a)).

(** Copy assignment, T15:413-421, T16:402-410: copy, swap, destroy the old content. *)
Definition copy_assign (alloc : N -> bool) (past : N) (t other : table) : out table unit :=
  match copy_construct alloc past other with
  | Ret tmp _ =>
      let '(t', tmp') := swap_content t tmp in
      match destroy K V kd tmp' with Ok _ => Ret t' tt | Err e => Fail e end
  | Throw _ => Throw t
  | Fail e => Fail e
  end.

(** Move constructor, T15:344-371, T16:332-360: jstd::exchange on each member.
    Result: the new map and the moved-from map. *)
Definition move_construct (other : table) : table * table :=
  (mkT _ _ (t_alloc _ _ other) (t_groups _ _ other) (t_slots _ _ other) (t_size _ _ other)
       (t_thr _ _ other) (t_gmask _ _ other) (t_shift _ _ other) (t_mlf _ _ other),
   mkT _ _ false (kd_static kd) [] 0 0 0 63 kDefaultMaxLoadFactor).

(** Move assignment, T15:2818-2835, T16:2631-2648 with equal allocators: move into
    a temporary, swap, destroy the temporary.  Result: the assigned map and the
    moved-from map. *)
Definition move_assign (t other : table) : res (table * table) :=
  let '(tmp, other') := move_construct other in
  let '(t', tmp') := swap_content t tmp in
  match destroy K V kd tmp' with Ok _ => Ok (t', other') | Err e => Err e end.

(** Move constructor with an allocator that differs from the source's,
    T15:373-407, T16:362-396, with move_slots_from, T15:1800-1817, T16:1719-1736.
    Equal capacities: fast_move_slots_from (T15:1820-1827, T16:1739-1744), where
    the source's groups are copied, not reset (T15:1830-1832, T16:1747-1749), and
    slot_size_ is not written.  Result: the new map and the source after
    destroy<false>. *)
Definition move_one (gi p : N) (st : list (option (K * V)) * list (option (K * V)))
  : res (list (option (K * V)) * list (option (K * V))) :=
  let '(os, src) := st in
  match geti src (slot_index kd gi p), geti os (slot_index kd gi p) with
  | Some (Some kv), Some None =>
      Ok (seti os (slot_index kd gi p) (Some kv), seti src (slot_index kd gi p) None)
  | _, _ => Err EUndef
  end.

Definition move_construct_alloc (alloc : N -> bool) (other : table)
  : out (table * table) unit :=
  let t := empty_table K V kd kDefaultMaxLoadFactor in
  let gone := empty_table K V kd (t_mlf _ _ other) in
  if negb (t_size _ _ other =? 0) then
    match reserve_for_insert K V kd alloc (t_size _ _ other) t with
    | Ret t1 _ =>
        if ctrl_capacity K V kd t1 =? ctrl_capacity K V kd other then
          match each_group kd _ move_one (t_groups _ _ other) 0 (t_slots _ _ t1, t_slots _ _ other) with
          | Ok (sl, src) =>
              if forallb is_none src then
                Ret (mkT _ _ (t_alloc _ _ t1) (t_groups _ _ other) sl (t_size _ _ t1) (t_thr _ _ t1)
                         (t_gmask _ _ t1) (t_shift _ _ t1) (t_mlf _ _ t1), gone) tt
              else Fail ELeak
          | Err e => Fail e
          end
        else
          match each_group kd _ (transfer K V hash kd) (t_groups _ _ other) 0 (t1, t_slots _ _ other) with
          | Ok (t2, src) => if forallb is_none src then Ret (t2, gone) tt else Fail ELeak
          | Err e => Fail e
          end
    | Throw _ => Throw (t, other)
    | Fail e => Fail e
    end
  else Ret (t, gone) tt.

(** insert(first, last), M15:457-463, M16 the same: the loop runs over the range but
    emplaces what [first] points to. *)
Fixpoint range_insert_loop (alloc : N -> bool) (first : K * V) (rest : list (K * V)) (t : table)
  : out table unit :=
  match rest with
  | [] => Ret t tt
  | _ :: rest' =>
      obind (emplace_impl K V hash keq kd alloc false true t (fst first) (snd first))
            (fun t' _ => range_insert_loop alloc first rest' t')
  end.

Definition range_insert (alloc : N -> bool) (l : list (K * V)) (t : table) : out table unit :=
  match l with
  | [] => Ret t tt
  | first :: _ => range_insert_loop alloc first l t
  end.

(** std::erase_if, M15:717-732, M16 the same: from end() back to begin(), on a
    group16 table.  [fuel] bounds the number of rounds. *)
Fixpoint erase_if_loop16 (fuel : nat) (past : N) (pred : K * V -> bool) (first : iter16)
         (t : table) (it : iter16) : res table :=
  if it =? first then Ok t
  else
    match fuel with
    | O => Err ELoop
    | S f =>
        rbind (decr16 K V kd t it) (fun it' =>
        rbind (deref16 K V t it') (fun kv =>
        if pred kv then
          rbind (erase_iter16 K V kd past t it') (fun r => erase_if_loop16 f past pred first (fst r) it')
        else erase_if_loop16 f past pred first t it'))
    end.

Definition erase_if16 (past : N) (pred : K * V -> bool) (t : table) : res table :=
  rbind (begin16 K V kd t) (fun first =>
    erase_if_loop16 (N.to_nat (t_size _ _ t)) past pred first t (end16 K V kd t)).

(** The same function on a group15 table starts by decrementing end(), whose
    control pointer is null (flat_map_iterator15.hpp:587-627). *)
Definition erase_if15 (pred : K * V -> bool) (t : table) : res table :=
  match begin15 K V kd t with
  | None => Ok t
  | Some _ => rbind (decr15 K V kd t None) (fun _ => Err EUndef)
  end.

End Copy.
