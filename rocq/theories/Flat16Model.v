(** Model of /repo/src/jstd/hashmap/flat16_hash_map.h ([F16] below): open addressing
    with one control byte per slot, scanned sixteen at a time from an arbitrary
    position, on a target with SSE2 and SSSE3.

    A control byte is 0..127 for a slot in use (seven bits of a second hash), 128 for
    kEmptyEntry, 254 for kDeletedEntry, 255 for kEndOfMark (F16:173-177).  Behind the
    control bytes of the slots follows a copy of the first sixteen, so that a scan may
    run over the end.

    Not modelled because they do not compile when used: the move constructors and swap
    (F16:2777-2787 swap with the results of functions), at() (F16:1318 and 1329,
    [slot->second]), erase(iterator) (F16:1486) and erase_if, erase(first, last)
    (F16:1501), the portable BitMask128_u64 (F16:546, 561 and 626-633).  Nor is
    bucket(), load_factor() and equal_range(). *)
From Coq Require Import NArith ZArith List Bool.
From Verif Require Import Base BitsModel GroupModel TableModel.
Import ListNotations.
Open Scope N_scope.

(** F16:119-142 and 173-177; the load factors are kept multiplied by 65536. *)
Definition fGroupWidth : N := 16.
Definition fMinCapacity : N := 4.
Definition fDefaultCapacity : N := 4.
Definition fAmplify : N := 65536.
Definition fDefaultMlf : N := 32768.
Definition fDefaultRev : N := 131072.
Definition fEmpty : N := 128.
Definition fDeleted : N := 254.
Definition fEndOf : N := 255.

(** isEmptyOrDeleted, isUsed, isEmpty, isDeleted; F16:194-226. *)
Definition is_free (c : N) : bool := (s8 c <? s8 fEndOf)%Z.
Definition is_used (c : N) : bool := (0 <=? s8 c)%Z.

(** ** Scans of sixteen control bytes *)

(** matchControlTag and matchHash, F16:288-298. *)
Definition match_tag (g : list N) (tag : N) : N := movemask (cmpeq_epi8 g (repeat tag 16)).

(** One byte of _mm_sign_epi8: a negated, zero or unchanged by the sign of b. *)
Definition sign_epi8 (a b : N) : N :=
  if (s8 b <? 0)%Z then (256 - a) mod 256 else if b =? 0 then 0 else a.

(** _mm_movemask_epi8 of a vector of bytes: the top bits. *)
Definition top_bits (g : list N) : N := movemask (map (fun c => 128 <=? c) g).

(** matchEmpty with SSSE3, F16:301-308. *)
Definition match_empty (g : list N) : N := top_bits (map2 sign_epi8 g g).

(** matchDeleted, F16:316-318. *)
Definition match_deleted (g : list N) : N := match_tag g fDeleted.

(** matchUnused, F16:340-344. *)
Definition match_unused (g : list N) : N := top_bits g.

(** matchEmptyOrDeleted, F16:320-326: compares with kEndOfMark but returns the top
    bits of the control bytes themselves. *)
Definition match_empty_or_deleted (g : list N) : N := top_bits g.

(** matchUsed, F16:334-338. *)
Definition match_used (g : list N) : N := N.lxor (match_unused g) 65535.

(** conventSpecialToEmptyAndUsedToDeleted, F16:346-359: one byte. *)
Definition convent (c : N) : N := N.lor (if 128 <=? c then 0 else 126) 128.

Section Flat16.

Variables K V : Type.
Variable hash : K -> N.
Variable keq : K -> K -> bool.
(** get_second_hash, F16:1537-1548: some function of the hash (CRC32 where SSE4.2 is
    available, Crc32Model.v). *)
Variable mix : N -> N.

(** Members, F16:908-918.  [f_ctrls] are the bytes of groups_, [f_slots] the slots,
    [None] where no element lives. *)
Record fmap := mkF {
  f_ctrls : list N;
  f_gmask : N;
  f_slots : list (option (K * V));
  f_size : N;
  f_mask : N;
  f_left : N;
  f_mlf : N;
  f_rev : N
}.

(** Requests to the allocators: [alloc true n] for n groups of control bytes (operator
    new[]), [alloc false n] for n slots. *)
Notation oracle := (bool -> N -> bool).

(** slot_capacity, group_count, F16:1092-1100. *)
Definition f_cap (t : fmap) : N := wadd (f_mask t) 1.
Definition f_group_count (t : fmap) : N := wadd (f_gmask t) 1.

(** slot_threshold, slot_used, slot_deleted, F16:1105-1113. *)
Definition f_threshold (t : fmap) : N := wmul (f_cap t) (f_mlf t) / fAmplify.
Definition f_slot_used (t : fmap) : N := wsub (f_threshold t) (f_left t).
Definition f_slot_deleted (t : fmap) : N := wsub (f_slot_used t) (f_size t).

(** calc_capacity, F16:1506-1512. *)
Definition f_calc_capacity (n : N) : res N :=
  let n := N.max n fMinCapacity in
  if is_pow2 n then Ok n else round_up fMinCapacity n.

(** min_require_capacity, F16:1515-1518. *)
Definition f_min_require (rev n : N) : N := wmul n rev / fAmplify.

(** get_ctrl_hash of get_second_hash, F16:1537-1552. *)
Definition f_tag (k : K) : N := N.land (mix (hash k)) 127.

(** round_index and index_for, F16:1554-1572; slot_next_group, F16:1602-1604. *)
Definition f_round (t : fmap) (i : N) : N := N.land i (f_mask t).
Definition f_home (t : fmap) (k : K) : N := f_round t (hash k).
Definition f_next (t : fmap) (i : N) : N := f_round t (wadd i fGroupWidth).

(** get_group, F16:1668-1676: sixteen bytes from any position. *)
Definition f_group (ctrls : list N) (i : N) : res (list N) :=
  if i + 16 <=? N.of_nat (length ctrls) then Ok (firstn 16 (skipn (N.to_nat i) ctrls))
  else Err EUndef.

(** A control byte is written. *)
Definition f_put (ctrls : list N) (i c : N) : res (list N) :=
  if i <? N.of_nat (length ctrls) then Ok (seti ctrls i c) else Err EUndef.

(** setUsed with setUsedMirrorCtrl, F16:246-249 and 1832-1838. *)
Definition f_set_used (cap : N) (ctrls : list N) (i tag : N) : res (list N) :=
  rbind (f_put ctrls i tag) (fun cs =>
  if i <? fGroupWidth then f_put cs (wadd i cap) tag else Ok cs).

(** setEmpty or setDeleted with setUnusedMirrorCtrl, F16:234-240 and 1841-1850. *)
Definition f_set_unused (cap : N) (ctrls : list N) (i tag : N) : res (list N) :=
  rbind (f_put ctrls i tag) (fun cs =>
  if i <? fGroupWidth then f_put cs (wadd i cap) (if i =? 0 then fEndOf else tag) else Ok cs).

(** ** create_group, F16:1874-1921 *)

(** The control bytes of new groups, F16:1889-1909. *)
Definition f_fresh (cap gc : N) : list N :=
  let cs := repeat fEmpty (N.to_nat (gc * 16)) in
  let cs := if fGroupWidth <=? cap then cs ++ repeat fEmpty 16
            else firstn (N.to_nat (cap * 2)) cs ++ repeat fEndOf (N.to_nat ((gc + 1) * 16 - cap * 2)) in
  seti cs cap fEndOf.

(** The groups are replaced before the slots are requested: when that request throws,
    the map has the new groups and the old slots (the old groups are lost). *)
Definition f_create (alloc : oracle) (t : fmap) (cap : N) : out fmap unit :=
  let gc := wadd cap (fGroupWidth - 1) / fGroupWidth in
  if alloc true (gc + 1) then
    if alloc false cap then
      Ret (mkF (f_fresh cap gc) (wsub gc 1) (repeat None (N.to_nat cap)) 0 (wsub cap 1)
               (wmul cap (f_mlf t) / fAmplify) (f_mlf t) (f_rev t)) tt
    else Throw (mkF (f_fresh cap gc) (wsub gc 1) (f_slots t) (f_size t) (f_mask t) (f_left t)
                    (f_mlf t) (f_rev t))
  else Throw t.

(** create_group<true>, F16:1875-1882. *)
Definition f_create_init (alloc : oracle) (t : fmap) (n : N) : out fmap unit :=
  match f_calc_capacity n with
  | Err e => Fail e
  | Ok cap => f_create alloc t cap
  end.

(** The member initializers of every constructor, for example F16:935-941. *)
Definition f_blank : fmap := mkF [] 0 [] 0 0 0 fDefaultMlf fDefaultRev.

(** flat16_hash_map(init_capacity), F16:928-943. *)
Definition f_new (alloc : oracle) (n : N) : out fmap unit := f_create_init alloc f_blank n.

(** ** Lookup *)

(** The loop over the positions with equal control bytes, F16:2184-2192: the slot
    with an equal key. *)
Fixpoint f_match (t : fmap) (k : K) (start : N) (ps : list N) : res (option N) :=
  match ps with
  | [] => Ok None
  | p :: ps' =>
      let i := f_round t (wadd start p) in
      match geti (f_slots t) i with
      | Some (Some kv) => if keq (fst kv) k then Ok (Some i) else f_match t k start ps'
      | _ => Err EUndef
      end
  end.

(** The loop over groups of find_impl (F16:2174-2200 and 2203-2235), of the first
    half of find_and_prepare_insert (F16:2375-2393) and of find_and_erase
    (F16:2709-2736).  It finds the key, or stops at a group with an empty slot (whose
    scan result is kept), or returns to its first position.  It leaves each position
    behind, so it takes at most one turn for each group; [fuel] is one more. *)
Inductive fscan := FHit (i : N) | FStop (i mask : N) | FFull.

Fixpoint f_scan (fuel : nat) (t : fmap) (k : K) (start i : N) : res fscan :=
  match fuel with
  | O => Err ELoop
  | S fuel' =>
      rbind (f_group (f_ctrls t) i) (fun g =>
      rbind (f_match t k i (positions (match_tag g (f_tag k)))) (fun r =>
      match r with
      | Some j => Ok (FHit j)
      | None =>
          let m := match_empty g in
          if negb (m =? 0) then Ok (FStop i m)
          else let i' := f_next t i in
               if i' =? start then Ok FFull else f_scan fuel' t k start i'
      end))
  end.

Definition f_fuel (t : fmap) : nat := S (length (f_ctrls t)).

Definition f_search (t : fmap) (k : K) : res fscan :=
  f_scan (f_fuel t) t k (f_home t k) (f_home t k).

(** find_impl, F16:2174-2200. *)
Definition f_find_index (t : fmap) (k : K) : res (option N) :=
  rbind (f_search t k) (fun s => Ok match s with FHit i => Some i | _ => None end).

(** ** Search for a free slot *)

(** The endless loops of find_first_empty_slot (F16:2264-2287, [sel] = matchEmpty) and
    find_first_non_used_slot (F16:2238-2261, [sel] = matchEmptyOrDeleted).  They have
    no exit but a free slot; since the positions repeat after one round, running out of
    [fuel] means an endless loop. *)
Fixpoint f_free_loop (fuel : nat) (sel : list N -> N) (t : fmap) (i : N) : res N :=
  match fuel with
  | O => Err ELoop
  | S fuel' =>
      rbind (f_group (f_ctrls t) i) (fun g =>
      let m := sel g in
      if negb (m =? 0) then Ok (f_round t (wadd i (bsf m)))
      else f_free_loop fuel' sel t (f_next t i))
  end.

Definition f_first_empty (t : fmap) (k : K) : res N :=
  f_free_loop (f_fuel t) match_empty t (f_home t k).

Definition f_first_non_used (t : fmap) (k : K) : res N :=
  f_free_loop (f_fuel t) match_empty_or_deleted t (f_home t k).

Definition f_with (t : fmap) (ctrls : list N) (slots : list (option (K * V))) (size left : N)
  : fmap :=
  mkF ctrls (f_gmask t) slots size (f_mask t) left (f_mlf t) (f_rev t).

(** A slot is marked as used and the element constructed in it, for example
    F16:2294-2308, 2316-2329 and 2455-2468. *)
Definition f_construct (t : fmap) (i : N) (kv : K * V) : res fmap :=
  rbind (f_set_used (f_cap t) (f_ctrls t) i (f_tag (fst kv))) (fun cs =>
  match geti (f_slots t) i with
  | Some None => Ok (f_with t cs (seti (f_slots t) i (Some kv)) (wadd (f_size t) 1) (f_left t))
  | _ => Err EUndef
  end).

(** move_insert_unique (F16:2290-2309) and insert_unique (F16:2312-2352). *)
Definition f_insert_unique (t : fmap) (kv : K * V) : res fmap :=
  rbind (f_first_empty t (fst kv)) (fun i => f_construct t i kv).

(** ** rehash_impl, F16:1923-2021 *)

(** The positions of used slots that a loop over groups visits (F16:1968-1985, and
    begin(), F16:1181-1192). *)
Fixpoint f_used_in_groups (n : nat) (ctrls : list N) (base : N) : res (list N) :=
  match n with
  | O => Ok []
  | S n' =>
      rbind (f_group ctrls base) (fun g =>
      rbind (f_used_in_groups n' ctrls (base + 16)) (fun r =>
      Ok (map (fun p => base + p) (positions (match_used g)) ++ r)))
  end.

(** The loop over single control bytes, F16:2003-2013. *)
Fixpoint f_used_in (ctrls : list N) (is : list N) : res (list N) :=
  match is with
  | [] => Ok []
  | i :: is' =>
      match geti ctrls i with
      | None => Err EUndef
      | Some c => rbind (f_used_in ctrls is') (fun r => Ok (if is_used c then i :: r else r))
      end
  end.

Definition f_used_positions (t : fmap) : res (list N) :=
  if fGroupWidth <=? f_cap t then f_used_in_groups (N.to_nat (f_group_count t)) (f_ctrls t) 0
  else f_used_in (f_ctrls t) (seqN (f_cap t)).

(** Each visited element is moved to the new table and destroyed in the old slots. *)
Fixpoint f_transfer (old : list (option (K * V))) (is : list N) (t : fmap)
  : res (list (option (K * V)) * fmap) :=
  match is with
  | [] => Ok (old, t)
  | i :: is' =>
      match geti old i with
      | Some (Some kv) =>
          rbind (f_insert_unique t kv) (fun t' => f_transfer (seti old i None) is' t')
      | _ => Err EUndef
      end
  end.

Definition f_rehash_impl (allow_shrink always : bool) (alloc : oracle) (t : fmap) (n : N)
  : out fmap unit :=
  match f_calc_capacity n with
  | Err e => Fail e
  | Ok cap =>
      if always || (negb allow_shrink && (f_cap t <? cap))
         || (allow_shrink && negb (cap =? f_cap t)) then
        match f_create alloc t cap with
        | Ret nt _ =>
            match rbind (f_used_positions t) (fun is => f_transfer (f_slots t) is nt) with
            | Ok (old, nt') =>
                if forallb is_none old
                then Ret (f_with nt' (f_ctrls nt') (f_slots nt') (f_size nt')
                                 (wsub (f_left nt') (f_size nt'))) tt
                else Fail ELeak
            | Err e => Fail e
            end
        | Throw t' => Throw t'
        | Fail e => Fail e
        end
      else Ret t tt
  end.

(** ** drop_deleted_no_grow, F16:2105-2172 *)

(** copy_and_mirror_controls<false>, F16:1797-1804. *)
Definition f_mirror (cap : N) (ctrls : list N) : list N :=
  let n := N.to_nat (N.min cap fGroupWidth) in
  firstn (N.to_nat cap) ctrls ++ firstn n ctrls ++ skipn (N.to_nat cap + n) ctrls.

(** convent_all_slots, F16:2023-2035. *)
Definition f_convent (t : fmap) : list N :=
  let n := N.to_nat (f_group_count t * 16) in
  f_mirror (f_cap t) (map convent (firstn n (f_ctrls t)) ++ skipn n (f_ctrls t)).

(** The loop, F16:2131-2169: an element slot is skipped when its byte is kDeletedEntry
    (which now marks the elements), and worked on otherwise. *)
Fixpoint f_drop_loop (fuel : nat) (t : fmap) (i : N) : res fmap :=
  match fuel with
  | O => Err ELoop
  | S fuel' =>
      if f_cap t <=? i then Ok t
      else
        match geti (f_ctrls t) i with
        | None => Err EUndef
        | Some c =>
            if c =? fDeleted then f_drop_loop fuel' t (i + 1)
            else
              match geti (f_slots t) i with
              | Some (Some kv) =>
                  let tag := f_tag (fst kv) in
                  rbind (f_first_non_used t (fst kv)) (fun target =>
                  if (target <=? i) && (i - target <? fGroupWidth) then
                    rbind (f_set_used (f_cap t) (f_ctrls t) i tag) (fun cs =>
                    f_drop_loop fuel' (f_with t cs (f_slots t) (f_size t) (f_left t)) (i + 1))
                  else
                    match geti (f_ctrls t) target, geti (f_slots t) target with
                    | Some c', Some s' =>
                        rbind (f_set_used (f_cap t) (f_ctrls t) target tag) (fun cs =>
                        if c' =? fEmpty then
                          rbind (f_set_unused (f_cap t) cs i fEmpty) (fun cs' =>
                          match s' with
                          | None =>
                              f_drop_loop fuel'
                                (f_with t cs' (seti (seti (f_slots t) target (Some kv)) i None)
                                        (f_size t) (f_left t)) (i + 1)
                          | Some _ => Err EUndef
                          end)
                        else
                          match s' with
                          | Some _ =>
                              f_drop_loop fuel'
                                (f_with t cs (seti (seti (f_slots t) target (Some kv)) i s')
                                        (f_size t) (f_left t)) i
                          | None => Err EUndef
                          end)
                    | _, _ => Err EUndef
                    end)
              | _ => Err EUndef
              end
        end
  end.

Definition f_drop_deleted (t : fmap) : res fmap :=
  let t0 := f_with t (f_convent t) (f_slots t) (f_size t) (f_left t) in
  rbind (f_drop_loop (2 * f_fuel t) t0 0) (fun t' =>
  Ok (f_with t' (f_ctrls t') (f_slots t') (f_size t') (wsub (f_threshold t') (f_size t')))).

Definition f_lift_unit (r : res fmap) : out fmap unit :=
  match r with Ok t => Ret t tt | Err e => Fail e end.

(** need_grow, F16:1852-1854; reorder_or_grow_if_necessary, F16:1856-1866. *)
Definition f_need_grow (t : fmap) : bool := f_left t <=? 0.

Definition f_grow (alloc : oracle) (t : fmap) : out fmap unit :=
  if (32 <? f_cap t) && (f_cap t / 8 <=? f_slot_deleted t) then f_lift_unit (f_drop_deleted t)
  else f_rehash_impl false true alloc t (wmul (f_cap t) 2).

(** ** Insertion *)

(** The loop for the first kDeletedEntry from the first group to the last, F16:2405-2418.
    At most one turn for each group. *)
Fixpoint f_deleted_loop (fuel : nat) (t : fmap) (first last i : N) : res (option N) :=
  match fuel with
  | O => Err ELoop
  | S fuel' =>
      rbind (f_group (f_ctrls t) i) (fun g =>
      let m := match_deleted g in
      if negb (m =? 0) then Ok (Some (f_round t (wadd i (bsf m))))
      else if i =? last then Ok None
      else let i' := f_next t i in
           if i' =? first then Ok None else f_deleted_loop fuel' t first last i')
  end.

Definition f_use_empty (t : fmap) : fmap :=
  f_with t (f_ctrls t) (f_slots t) (f_size t) (wsub (f_left t) 1).

(** find_and_prepare_insert, F16:2363-2445.  It calls itself after growing; [fuel]
    bounds the depth of that recursion. *)
Fixpoint f_prepare (fuel : nat) (alloc : oracle) (k : K) (t : fmap) : out fmap (N * bool) :=
  match fuel with
  | O => Fail ELoop
  | S fuel' =>
      match f_search t k with
      | Err e => Fail e
      | Ok (FHit i) => Ret t (i, true)
      | Ok FFull => obind (f_grow alloc t) (fun t' _ => f_prepare fuel' alloc k t')
      | Ok (FStop last m) =>
          if f_need_grow t then obind (f_grow alloc t) (fun t' _ => f_prepare fuel' alloc k t')
          else
            let first := f_home t k in
            if negb (last =? first) then
              match f_deleted_loop (f_fuel t) t first last first with
              | Err e => Fail e
              | Ok (Some i) => Ret t (i, false)
              | Ok None => Ret (f_use_empty t) (f_round t (wadd last (bsf m)), false)
              end
            else
              match f_group (f_ctrls t) last with
              | Err e => Fail e
              | Ok g =>
                  let d := match_deleted g in
                  if negb (d =? 0) then Ret t (f_round t (wadd last (bsf d)), false)
                  else Ret (f_use_empty t) (f_round t (wadd last (bsf m)), false)
              end
      end
  end.

(** emplace_impl, F16:2447-2705 (the six overloads differ in how the element is
    built); [update] is AlwaysUpdate. *)
Definition f_emplace (alloc : oracle) (update : bool) (k : K) (v : V) (t : fmap)
  : out fmap (N * bool) :=
  obind (f_prepare 64 alloc k t) (fun t1 '(i, exists_) =>
  if exists_ : bool then
    match geti (f_slots t1) i with
    | Some (Some kv) =>
        if update
        then Ret (f_with t1 (f_ctrls t1) (seti (f_slots t1) i (Some (fst kv, v))) (f_size t1) (f_left t1))
                 (i, false)
        else Ret t1 (i, false)
    | _ => Fail EUndef
    end
  else
    match f_construct t1 i (k, v) with
    | Ok t2 => Ret t2 (i, true)
    | Err e => Fail e
    end).

(** ** Erasure *)

(** erase_slot, F16:2738-2775. *)
Definition f_erase_slot (t : fmap) (i : N) : res fmap :=
  let left1 := wadd (f_left t) 1 in
  rbind (f_group (f_ctrls t) i) (fun g =>
  rbind (if negb (match_empty g =? 0) then Ok (fEmpty, left1)
         else
           let j := f_next t i in
           if negb (j =? i) then
             rbind (f_group (f_ctrls t) j) (fun g' =>
             if negb (match_empty g' =? 65535) then Ok (fDeleted, wsub left1 1)
             else Ok (fEmpty, left1))
           else Ok (fEmpty, left1)) (fun '(tag, left') =>
  rbind (f_set_unused (f_cap t) (f_ctrls t) i tag) (fun cs =>
  match geti (f_slots t) i with
  | Some (Some _) => Ok (f_with t cs (seti (f_slots t) i None) (wsub (f_size t) 1) left')
  | _ => Err EUndef
  end))).

(** erase(key), F16:1479-1482, and find_and_erase, F16:2709-2736. *)
Definition f_erase (k : K) (t : fmap) : res (fmap * N) :=
  rbind (f_find_index t k) (fun r =>
  match r with
  | Some i => rbind (f_erase_slot t i) (fun t' => Ok (t', 1))
  | None => Ok (t, 0)
  end).

(** ** Iteration *)

(** end(), F16:1217-1219; begin(), F16:1179-1195; an iterator is its position. *)
Definition f_end (t : fmap) : N := f_cap t.

Definition f_begin (t : fmap) : res N :=
  rbind (f_used_in_groups (N.to_nat (f_group_count t)) (f_ctrls t) 0) (fun l =>
  Ok (match l with [] => f_end t | i :: _ => i end)).

(** operator++, F16:862-868. *)
Fixpoint f_incr (fuel : nat) (ctrls : list N) (i : N) : res N :=
  match fuel with
  | O => Err ELoop
  | S fuel' =>
      match geti ctrls (i + 1) with
      | None => Err EUndef
      | Some c => if is_free c then f_incr fuel' ctrls (i + 1) else Ok (i + 1)
      end
  end.

Definition f_deref (t : fmap) (i : N) : res (K * V) :=
  match geti (f_slots t) i with Some (Some kv) => Ok kv | _ => Err EUndef end.

Fixpoint f_walk (fuel : nat) (t : fmap) (i : N) : res (list (K * V)) :=
  if i =? f_end t then Ok []
  else match fuel with
       | O => Err ELoop
       | S fuel' =>
           rbind (f_deref t i) (fun kv =>
           rbind (f_incr (f_fuel t) (f_ctrls t) i) (fun j =>
           rbind (f_walk fuel' t j) (fun l => Ok (kv :: l))))
       end.

(** The loop [for (it = begin(); it != end(); ++it)]. *)
Definition f_traverse (t : fmap) : res (list (K * V)) :=
  rbind (f_begin t) (fun i => f_walk (f_fuel t) t i).

(** erase(const_iterator), F16:1490-1494: the next position. *)
Definition f_erase_at (t : fmap) (i : N) : res (fmap * N) :=
  rbind (f_erase_slot t i) (fun t' =>
  rbind (f_incr (f_fuel t') (f_ctrls t') i) (fun j => Ok (t', j))).

(** ** Destruction and clear *)

(** destroy_slots, F16:1749-1769: an element in every used slot is destroyed.  When
    the elements have trivial destructors ([trivial]) the loop is left out and they
    stay. *)
Fixpoint f_destroy_loop (ctrls : list N) (is : list N) (slots : list (option (K * V)))
  : res (list (option (K * V))) :=
  match is with
  | [] => Ok slots
  | i :: is' =>
      match geti ctrls i, geti slots i with
      | Some c, Some s =>
          if is_used c then
            match s with
            | Some _ => f_destroy_loop ctrls is' (seti slots i None)
            | None => Err EUndef
            end
          else f_destroy_loop ctrls is' slots
      | _, _ => Err EUndef
      end
  end.

Definition f_destroy_slots (t : fmap) : res (list (option (K * V))) :=
  f_destroy_loop (f_ctrls t) (seqN (f_cap t)) (f_slots t).

(** The destructor, F16:1072-1074: everything is destroyed, or some element is
    forgotten. *)
Definition f_destroy (t : fmap) : res unit :=
  rbind (f_destroy_slots t) (fun sl => if forallb is_none sl then Ok tt else Err ELeak).

(** destroy_group<false>, F16:1733-1741: "group_at(group_index)" is the group that
    starts at the control byte group_index. *)
Fixpoint f_clear_groups (is : list N) (ctrls : list N) : res (list N) :=
  match is with
  | [] => Ok ctrls
  | i :: is' =>
      if i + 16 <=? N.of_nat (length ctrls) then
        f_clear_groups is' (firstn (N.to_nat i) ctrls ++ repeat fEmpty 16
                            ++ skipn (N.to_nat i + 16) ctrls)
      else Err EUndef
  end.

(** Elements with trivial destructors after destroy_group<false>: an element whose
    control byte still says "used" can still be read; the other slots may be
    constructed in again. *)
Fixpoint f_leftover (ctrls : list N) (slots : list (option (K * V))) : list (option (K * V)) :=
  match ctrls, slots with
  | c :: ctrls', s :: slots' => (if is_used c then s else None) :: f_leftover ctrls' slots'
  | _, _ => []
  end.

(** clear, F16:1257-1269.  It is noexcept: when the allocation fails the program ends
    with std::terminate; here, an exception from a map without storage. *)
Definition f_clear (trivial : bool) (alloc : oracle) (need_destroy : bool) (t : fmap) : out fmap unit :=
  if (fDefaultCapacity <? f_cap t) && need_destroy then
    match f_destroy t with
    | Ok _ =>
        match f_create alloc t fDefaultCapacity with
        | Throw _ => Throw (f_with t [] [] 0 (f_left t))
        | r => r
        end
    | Err e => Fail e
    end
  else
    match (if trivial then Ok (f_slots t) else f_destroy_slots t) with
    | Err e => Fail e
    | Ok sl =>
        match f_clear_groups (seqN (f_group_count t)) (f_ctrls t) with
        | Err e => Fail e
        | Ok cs => Ret (f_with t cs (if trivial then f_leftover cs sl else sl) 0 (f_threshold t)) tt
        end
    end.

(** ** Capacity and load factor *)

(** rehash, reserve, resize, F16:1271-1285. *)
Definition f_rehash (alloc : oracle) (read_only : bool) (n : N) (t : fmap) : out fmap unit :=
  f_rehash_impl true false alloc t
    (N.max (if read_only then n else f_min_require (f_rev t) n) (f_size t)).

(** shrink_to_fit, F16:1287-1294. *)
Definition f_shrink (alloc : oracle) (read_only : bool) (t : fmap) : out fmap unit :=
  f_rehash_impl true false alloc t
    (if read_only then f_size t else f_min_require (f_rev t) (f_size t)).

(** max_load_factor(mlf), F16:1128-1155.  A float between 0.2f and 0.8f is a multiple of
    2^-26, and [x] is mlf * 2^26; other arguments are replaced by the bounds.  n_mlf is
    exact; 1.0f / mlf is the quotient rounded to 24 bits, to even in the middle. *)
Definition rne (a b : N) : N :=
  let q := a / b in let r := a mod b in
  if 2 * r <? b then q else if b <? 2 * r then q + 1 else q + q mod 2.

Definition cdiv (a b : N) : N := (a + (b - 1)) / b.

Definition f_clamp (x : N) : N := N.min (N.max x 13421773) 53687092.

Definition f_mlf_of (x : N) : N := cdiv (f_clamp x) 1024.

Definition f_rev_of (x : N) : N :=
  let x := f_clamp x in
  let s := if 2 ^ 26 <? 2 * x then 23 else if 2 ^ 26 <? 4 * x then 22 else 21 in
  cdiv (rne (2 ^ (26 + s)) x) (2 ^ (s - 16)).

Definition f_set_mlf (alloc : oracle) (x : N) (t : fmap) : out fmap unit :=
  let used := f_slot_used t in
  let t' := mkF (f_ctrls t) (f_gmask t) (f_slots t) (f_size t) (f_mask t) (f_left t)
                (f_mlf_of x) (f_rev_of x) in
  if f_threshold t' <? used then
    if (f_cap t' <=? 32) || (wsub used (f_size t') <? f_cap t' / 8)
       || (f_cap t' <? f_min_require (f_rev t') (f_size t'))
    then f_rehash alloc false (f_size t') t'
    else f_lift_unit (f_drop_deleted t')
  else Ret t' tt.

(** ** Copy *)

Fixpoint f_insert_unique_all (l : list (K * V)) (t : fmap) : res fmap :=
  match l with
  | [] => Ok t
  | kv :: l' => rbind (f_insert_unique t kv) (f_insert_unique_all l')
  end.

(** The copy constructor, F16:989-1010, with reserve_for_insert (F16:1869-1872) and
    insert_unique (F16:2357-2361).  The load factor is not copied. *)
Definition f_copy (alloc : oracle) (other : fmap) : out fmap unit :=
  obind (f_create_init alloc f_blank (f_min_require fDefaultRev (f_size other))) (fun t _ =>
  match f_traverse other with
  | Err e => Fail e
  | Ok l => match f_insert_unique_all l t with Ok t' => Ret t' tt | Err e => Fail e end
  end).

(** ** One call; the calls and observations are those of TableModel.v.  [OMlf x] is
    max_load_factor(x * 2^-26). *)
Definition f_lift {A} (t : fmap) (f : A -> obs K V) (r : res A) : out fmap (obs K V) :=
  match r with Ok a => Ret t (f a) | Err e => Fail e end.

Definition f_unit (r : out fmap unit) : out fmap (obs K V) :=
  obind r (fun t _ => Ret t (RUnit K V)).

Definition f_ins (r : out fmap (N * bool)) : out fmap (obs K V) :=
  obind r (fun t '(i, b) => f_lift t (fun kv => RIns K V kv b) (f_deref t i)).

(** find, F16:1342-1348, and what it points to. *)
Definition f_find_obs (t : fmap) (k : K) : res (option (K * V)) :=
  rbind (f_find_index t k) (fun r =>
  match r with None => Ok None | Some i => rbind (f_deref t i) (fun kv => Ok (Some kv)) end).

Definition f_step (trivial : bool) (alloc : oracle) (o : op K V) (t : fmap) : out fmap (obs K V) :=
  match o with
  | OInsert _ _ k v => f_ins (f_emplace alloc false k v t)
  | OAssign _ _ k v => f_ins (f_emplace alloc true k v t)
  | OErase _ _ k => match f_erase k t with
                    | Ok (t', n) => Ret t' (RNum K V n)
                    | Err e => Fail e
                    end
  | OFind _ _ k => f_lift t (REntry K V) (f_find_obs t k)
  | OContains _ _ k => f_lift t (fun r => RBool K V match r with Some _ => true | None => false end)
                              (f_find_index t k)
  | OSize _ _ => Ret t (RNum K V (f_size t))
  | OClear _ _ b => f_unit (f_clear trivial alloc b t)
  | OReserve _ _ n => f_unit (f_rehash alloc false n t)
  | ORehash _ _ n => f_unit (f_rehash alloc false n t)
  | OShrink _ _ b => f_unit (f_shrink alloc b t)
  | OMlf _ _ x => f_unit (f_set_mlf alloc x t)
  end.

(** Calls in sequence, as [run] in RunModel.v. *)
Fixpoint f_run (trivial : bool) (calls : list (oracle * op K V)) (t : fmap)
  : res (list (option (obs K V)) * fmap) :=
  match calls with
  | [] => Ok ([], t)
  | (alloc, o) :: rest =>
      match f_step trivial alloc o t with
      | Ret t' r => rbind (f_run trivial rest t') (fun '(rs, t'') => Ok (Some r :: rs, t''))
      | Throw t' => rbind (f_run trivial rest t') (fun '(rs, t'') => Ok (None :: rs, t''))
      | Fail e => Err e
      end
  end.

End Flat16.
