(** Iterators.
    group15: /repo/src/jstd/hashmap/flat_map_iterator15.hpp, the class of lines
    400-628 (ITERATOR15_USE_LOCATOR is 0); group16:
    /repo/src/jstd/hashmap/flat_map_iterator.hpp, lines 64-246
    (ITERATOR_USE_GROUP_SCAN is 0).  Direct key/value storage (IsIndirectKV =
    false). *)
From Coq Require Import NArith List Bool.
From Verif Require Import Base BitsModel GroupModel TableModel.
Import ListNotations.
Open Scope N_scope.

Section Iter.

Variables K V : Type.
Variable kd : kind.

Notation table := (table K V).

(** The control byte at offset [c] from groups_; [None] outside the array. *)
Definition ctrl_byte (gs : list group) (c : N) : option N :=
  match geti gs (c / kd_W kd) with
  | Some g => geti g (c mod kd_W kd)
  | None => None
  end.

(** ** group15 *)

(** ctrl_ (as an offset from groups_) and slot_ (as an index); end() has a null
    slot_, and operator== compares slot_ only (flat_map_iterator15.hpp:473-483). *)
Definition iter15 : Type := option (N * N).

(** begin(), group15_flat_table.hpp:513-516, through find_first_used_index,
    1114-1136: the loop over the groups. *)
Fixpoint first_used (gs : list group) (gi : N) : iter15 :=
  match gs with
  | [] => None
  | g :: gs' =>
      let m := kd_match_used kd g in
      if negb (m =? 0) then
        let p := bsf m in
        if negb (kd_is_sentinel kd g p)
        then Some (gi * kd_W kd + p, gi * kd_S kd + p)
        else None
      else first_used gs' (gi + 1)
  end.

Definition begin15 (t : table) : iter15 :=
  if negb (t_size _ _ t =? 0) then first_used (t_groups _ _ t) 0 else None.

(** increment, second loop, flat_map_iterator15.hpp:566-583. *)
Fixpoint inc_groups (fuel : nat) (gs : list group) (c s : N) : res iter15 :=
  match fuel with
  | O => Err ELoop
  | S f =>
      match geti gs (c / kd_W kd) with
      | None => Err EUndef
      | Some g =>
          let m := kd_match_used kd g in
          if negb (m =? 0) then
            let p := bsf m in
            if negb (kd_is_sentinel kd g p) then Ok (Some (c + p, s + p)) else Ok None
          else inc_groups f gs (c + kd_W kd) (s + kd_S kd)
      end
  end.

(** increment, first loop, flat_map_iterator15.hpp:550-564.  The pointer ctrl_
    is aligned like its offset because groups_ is aligned to the group width. *)
Fixpoint inc_ctrls (fuel : nat) (gs : list group) (c s : N) : res iter15 :=
  match fuel with
  | O => Err ELoop
  | S f =>
      let s := s + 1 in
      if c mod kd_W kd =? kd_S kd - 1 then
        inc_groups (length gs) gs (c + (kd_W kd - (kd_S kd - 1))) s
      else
        match geti gs ((c + 1) / kd_W kd), ctrl_byte gs (c + 1) with
        | Some g, Some b =>
            if b =? 0 then inc_ctrls f gs (c + 1) s
            else if negb (kd_is_sentinel kd g ((c + 1) mod kd_W kd))
            then Ok (Some (c + 1, s)) else Ok None
        | _, _ => Err EUndef
        end
  end.

(** operator++, flat_map_iterator15.hpp:489-493; incrementing end() is undefined. *)
Definition incr15 (t : table) (it : iter15) : res iter15 :=
  match it with
  | None => Err EUndef
  | Some (c, s) => inc_ctrls (N.to_nat (kd_W kd)) (t_groups _ _ t) c s
  end.

(** decrement, second loop, flat_map_iterator15.hpp:606-626. *)
Fixpoint dec_groups (fuel : nat) (gs : list group) (c s : N) : res iter15 :=
  match fuel with
  | O => Err ELoop
  | S f =>
      match geti gs (c / kd_W kd) with
      | None => Err EUndef
      | Some g =>
          let m := kd_match_used kd g in
          if negb (m =? 0) then
            let p := bsr m in
            if negb (kd_is_sentinel kd g p)
            then Ok (Some (c - (kd_S kd - 1 - p), s - (kd_S kd - 1 - p)))
            else Ok None
          else if c <? kd_W kd then Err EUndef
          else dec_groups f gs (c - kd_W kd) (s - kd_S kd)
      end
  end.

(** decrement, first loop, flat_map_iterator15.hpp:588-604.  Going below the first
    control byte is undefined. *)
Fixpoint dec_ctrls (fuel : nat) (gs : list group) (c s : N) : res iter15 :=
  match fuel with
  | O => Err ELoop
  | S f =>
      if c =? 0 then Err EUndef
      else
        let s := s - 1 in
        if c mod kd_W kd =? 0 then
          dec_groups (length gs) gs (c - (kd_W kd - (kd_S kd - 1))) s
        else
          match geti gs ((c - 1) / kd_W kd), ctrl_byte gs (c - 1) with
          | Some g, Some b =>
              if b =? 0 then dec_ctrls f gs (c - 1) s
              else if negb (kd_is_sentinel kd g ((c - 1) mod kd_W kd))
              then Ok (Some (c - 1, s)) else Ok None
          | _, _ => Err EUndef
          end
  end.

(** operator--, flat_map_iterator15.hpp:502-506; decrementing the null iterator
    end() is undefined. *)
Definition decr15 (t : table) (it : iter15) : res iter15 :=
  match it with
  | None => Err EUndef
  | Some (c, s) => dec_ctrls (N.to_nat (kd_W kd)) (t_groups _ _ t) c s
  end.

(** operator*, flat_map_iterator15.hpp:515-518. *)
Definition deref15 (t : table) (it : iter15) : res (K * V) :=
  match it with
  | None => Err EUndef
  | Some (_, s) =>
      match geti (t_slots _ _ t) s with
      | Some (Some kv) => Ok kv
      | _ => Err EUndef
      end
  end.

(** for (it = from; it != end(); ++it) out.push_back( *it ), at most [fuel] rounds. *)
Fixpoint walk15 (fuel : nat) (t : table) (it : iter15) : res (list (K * V)) :=
  match it with
  | None => Ok []
  | Some _ =>
      match fuel with
      | O => Err ELoop
      | S f =>
          rbind (deref15 t it) (fun kv =>
          rbind (incr15 t it) (fun it' =>
          rbind (walk15 f t it') (fun l => Ok (kv :: l))))
      end
  end.

(** A whole traversal that may take no more than size() rounds. *)
Definition traverse15 (t : table) : res (list (K * V)) :=
  walk15 (N.to_nat (t_size _ _ t)) t (begin15 t).

(** ** group16 *)

(** index_; the container pointer is the table at hand. *)
Definition iter16 : Type := N.

(** flat_map_ctrl16::is_empty, flat_map_group16.hpp:198-201. *)
Definition ctrl_empty16 (b : N) : bool := N.land b 127 =? 0.

(** end(), group16_flat_table.hpp:505-507. *)
Definition end16 (t : table) : iter16 := capacity K V kd t.

(** find_first_used_index, group16_flat_table.hpp:1052-1082 (the branch in use scans
    the control bytes one by one). *)
Fixpoint scan_used (fuel : nat) (gs : list group) (c last : N) : res N :=
  match fuel with
  | O => Err ELoop
  | S f =>
      if c <? last then
        match ctrl_byte gs c with
        | None => Err EUndef
        | Some b => if negb (ctrl_empty16 b) then Ok c else scan_used f gs (c + 1) last
        end
      else Ok last
  end.

(** begin(), group16_flat_table.hpp:500-503. *)
Definition begin16 (t : table) : res iter16 :=
  if negb (t_size _ _ t =? 0)
  then scan_used (S (N.to_nat (capacity K V kd t))) (t_groups _ _ t) 0 (capacity K V kd t)
  else Ok (capacity K V kd t).

(** operator++, flat_map_iterator.hpp:148-168.  The byte after the last control byte
    is read when the index reaches slot_capacity(); it belongs to the alignment
    slack of the block and its value [past] is not known. *)
Fixpoint inc_loop16 (fuel : nat) (gs : list group) (past c max : N) : res iter16 :=
  match fuel with
  | O => Err ELoop
  | S f =>
      if c <? max then
        let c := c + 1 in
        match (if c =? max then Some past else ctrl_byte gs c) with
        | None => Err EUndef
        | Some b => if negb (ctrl_empty16 b) then Ok c else inc_loop16 f gs past c max
        end
      else Ok c
  end.

Definition incr16 (past : N) (t : table) (it : iter16) : res iter16 :=
  inc_loop16 (S (N.to_nat (capacity K V kd t))) (t_groups _ _ t) past it (capacity K V kd t).

(** operator--, flat_map_iterator.hpp:178-191. *)
Fixpoint dec_loop16 (fuel : nat) (gs : list group) (c : N) : res iter16 :=
  match fuel with
  | O => Err ELoop
  | S f =>
      if 0 <? c then
        let c := c - 1 in
        match ctrl_byte gs c with
        | None => Err EUndef
        | Some b => if negb (ctrl_empty16 b) then Ok c else dec_loop16 f gs c
        end
      else Ok c
  end.

Definition decr16 (t : table) (it : iter16) : res iter16 :=
  dec_loop16 (S (N.to_nat (capacity K V kd t))) (t_groups _ _ t) it.

(** operator*, flat_map_iterator.hpp:200-203. *)
Definition deref16 (t : table) (it : iter16) : res (K * V) :=
  match geti (t_slots _ _ t) it with
  | Some (Some kv) => Ok kv
  | _ => Err EUndef
  end.

(** for (it = from; it != end(); ++it) out.push_back( *it ), at most [fuel] rounds. *)
Fixpoint walk16 (fuel : nat) (past : N) (t : table) (it : iter16) : res (list (K * V)) :=
  if it =? end16 t then Ok []
  else
    match fuel with
    | O => Err ELoop
    | S f =>
        rbind (deref16 t it) (fun kv =>
        rbind (incr16 past t it) (fun it' =>
        rbind (walk16 f past t it') (fun l => Ok (kv :: l))))
    end.

Definition traverse16 (past : N) (t : table) : res (list (K * V)) :=
  rbind (begin16 t) (walk16 (N.to_nat (t_size _ _ t)) past t).

(** erase(iterator), group16_flat_table.hpp:959-964, with next_valid_iterator,
    1274-1279. *)
Definition erase_iter16 (past : N) (t : table) (it : iter16) : res (table * iter16) :=
  rbind (erase_slot K V kd t (it / kd_S kd) (it mod kd_S kd)) (fun t' =>
  match ctrl_byte (t_groups _ _ t') it with
  | None => Err EUndef
  | Some b =>
      if negb (ctrl_empty16 b) then Ok (t', it)
      else rbind (incr16 past t' it) (fun it' => Ok (t', it'))
  end).

End Iter.
