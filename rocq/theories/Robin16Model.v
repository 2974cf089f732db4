(** Model of /repo/src/jstd/hashmap/robin16_hash_map.h ([Q] below): robin hood hashing
    in a ring, with a control word of sixteen bits for each slot, scanned sixteen words
    at a time with AVX2 or AVX-512 instructions.

    A control word (ctrl_data, Q:206-309) is the pair of its two bytes: the distance of
    the element from its home position, or 255 for kEmptySlot, 254 for kEndOfMark
    (Q:189-190), and eight bits of a second hash.  Behind the control words of the slots
    follows a copy of the first sixteen of them, so that a scan may run over the end.

    [trivial] is is_slot_trivial_destructor (Q:182-187): the elements have no
    destructor, so an element that is "destroyed" stays in its slot and can still be
    read.  assert() is compiled out.

    Not modelled because they do not compile when used: erase(iterator),
    erase(const_iterator), erase(first, last) and erase_if (Q:1179-1187 name the member
    function [index] without calling it; Q:1887-1906, 3634-3648), insert_or_assign with a
    hint ([->first] on a pair, Q:1826-1834).  Nor are bucket(), load_factor(),
    equal_range(), at() and the functions between "#if 0" and "#endif". *)
From Coq Require Import NArith ZArith List Bool.
From Verif Require Import Base BitsModel GroupModel TableModel HashModel Flat16Model.
Import ListNotations.
Open Scope N_scope.

(** Q:142-164; the load factors are kept multiplied by 65536. *)
Definition qGroupWidth : N := 16.
Definition qMinCapacity : N := 4.
Definition qDefaultCapacity : N := 4.
Definition qAmplify : N := 65536.
Definition qDefaultMlf : N := 32768.
Definition qDefaultRev : N := 131072.

(** Q:189-194. *)
Definition qEmpty : N := 255.
Definition qEndOf : N := 254.
Definition qDistLimit : N := 128.

(** One control word: distance and hash, Q:206-213. *)
Definition ctrl : Type := (N * N)%type.

(** isEmpty, isUsed, isEmptyOrZero; Q:232-274. *)
Definition is_empty16 (c : ctrl) : bool := fst c =? qEmpty.
Definition is_used16 (c : ctrl) : bool := fst c <? qEmpty.
Definition is_empty_or_zero (c : ctrl) : bool := u8 (fst c + 1) <? 2.

(** The merged comparison [uint8_t(ctrl->distance + 1) > n], Q:2644, 2865, 2889; for
    n = 0 it says the same as isUsed (Q:2630, 2844). *)
Definition holds (n : N) (c : ctrl) : bool := n <? u8 (fst c + 1).

(** ** Scans of sixteen control words.  [wide] selects BitMask256_AVX2Ex (Q:458-680)
    instead of BitMask256_AVX2 (Q:687-966). *)

(** _mm256_movepi16_mask (Q:505 for example), or _mm256_movemask_epi8 after
    _mm256_srli_epi16(.., 8) (Q:734-735): one bit, or two bits, for each word. *)
Definition word_mask (wide : bool) (l : list bool) : N :=
  if wide then movemask l else movemask (flat_map (fun b => [b; false]) l).

(** The same without the shift (matchEmptyAndDistance of AVX2, Q:915-917). *)
Definition word_mask2 (wide : bool) (l : list bool) : N :=
  if wide then movemask l else movemask (flat_map (fun b => [b; b]) l).

(** bitPos, Q:677-679 and 963-965. *)
Definition bit_pos (wide : bool) (p : N) : N := if wide then p else N.shiftr p 1.

(** _mm256_adds_epi16(dist_value, kDistanceBase), Q:776-778 and 790: the sixteen
    distances to compare with.  They are at most 270, so that the additions do not
    saturate and the signed comparisons are those of the numbers. *)
Definition lane_dists (d : N) : list N := map (fun i => d + i) (seqN 16).

(** [empty_mask] of matchHashAndDistance (Q:541-563, 774-804) and the result of
    matchEmptyAndDistance (Q:615-647, 899-933). *)
Definition stop_lanes (g : list ctrl) (d : N) : list bool :=
  map2 (fun (c : ctrl) n => (fst c =? qEmpty) || (fst c <? n)) g (lane_dists d).

(** [result_mask] of matchHashAndDistance. *)
Definition hash_lanes (g : list ctrl) (tag d : N) : list bool :=
  map2 (fun (c : ctrl) (s : bool) => (snd c =? tag) && negb s) g (stop_lanes g d).

(** matchUsed, Q:526-535 and 758-768: the distance is less than kEndOfMark. *)
Definition used_lanes (g : list ctrl) : list bool := map (fun c : ctrl => fst c <? qEndOf) g.

Section Robin16.

Variables K V : Type.
Variable hash : K -> N.
Variable keq : K -> K -> bool.
Variable wide : bool.
Variable trivial : bool.

(** Members, Q:1280-1289.  A slot without an element is [None]; null pointers are empty
    lists. *)
Record qmap := mkQ {
  q_ctrls : list ctrl;
  q_gmask : N;
  q_slots : list (option (K * V));
  q_size : N;
  q_mask : N;
  q_thr : N;
  q_mlf : N;
  q_rev : N
}.

(** Requests to the allocators: [alloc true n] for n groups of control words (operator
    new[]), [alloc false n] for n slots. *)
Notation oracle := (bool -> N -> bool).

(** slot_capacity, group_count, Q:1478-1486. *)
Definition q_cap (t : qmap) : N := wadd (q_mask t) 1.
Definition q_group_count (t : qmap) : N := wadd (q_gmask t) 1.

(** need_grow, Q:2318-2320. *)
Definition q_need_grow (t : qmap) : bool := q_thr t <=? q_size t.

(** calc_capacity, Q:1910-1916. *)
Definition q_calc_capacity (n : N) : res N :=
  let n := N.max n qMinCapacity in
  if is_pow2 n then Ok n else round_up qMinCapacity n.

(** min_require_capacity, Q:1919-1922. *)
Definition q_min_require (rev n : N) : N := wmul n rev / qAmplify.

(** get_ctrl_hash of get_third_hash, Q:1968-1976 and 2001-2005. *)
Definition q_tag (k : K) : N := N.land (fibonacci_hash64 (hash k)) 255.

(** round_index, index_for_hash, next_index, slot_next_group; Q:1982-2014, 2038-2040. *)
Definition q_round (t : qmap) (i : N) : N := N.land i (q_mask t).
Definition q_home (t : qmap) (k : K) : N := q_round t (hash k).
Definition q_succ (t : qmap) (i : N) : N := q_round t (wadd i 1).
Definition q_next (t : qmap) (i : N) : N := q_round t (wadd i qGroupWidth).

(** round_dist, Q:2016-2024. *)
Definition q_dist (t : qmap) (last first : N) : N :=
  u8 (q_round t (wsub (wadd last (q_cap t)) first)).

(** get_group, Q:2119-2122: sixteen words from any position. *)
Definition q_group (cs : list ctrl) (i : N) : res (list ctrl) :=
  if i + 16 <=? N.of_nat (length cs) then Ok (firstn 16 (skipn (N.to_nat i) cs))
  else Err EUndef.

(** A control word is written. *)
Definition q_put (cs : list ctrl) (i : N) (c : ctrl) : res (list ctrl) :=
  if i <? N.of_nat (length cs) then Ok (seti cs i c) else Err EUndef.

(** The distance of a control word is written (setDistance, Q:296-298). *)
Definition q_put_dist (cs : list ctrl) (i d : N) : res (list ctrl) :=
  match geti cs i with Some c => Ok (seti cs i (d, snd c)) | None => Err EUndef end.

(** setUsedMirrorCtrl, Q:2287-2302. *)
Definition q_mirror (cap : N) (cs : list ctrl) (i : N) (c : ctrl) : res (list ctrl) :=
  if i <? qGroupWidth then q_put cs (wadd i cap) c else Ok cs.

(** setUsedCtrl, Q:2265-2277. *)
Definition q_set (cap : N) (cs : list ctrl) (i : N) (c : ctrl) : res (list ctrl) :=
  rbind (q_put cs i c) (fun cs => q_mirror cap cs i c).

(** setUnusedCtrl with setUnusedMirrorCtrl, Q:2279-2285 and 2304-2316: the hash stays. *)
Definition q_unset (cap : N) (cs : list ctrl) (i : N) : res (list ctrl) :=
  rbind (q_put_dist cs i qEmpty) (fun cs =>
  if i <? qGroupWidth then q_put_dist cs (wadd i cap) qEmpty else Ok cs).

(** The element in a slot is read. *)
Definition q_read (slots : list (option (K * V))) (i : N) : res (K * V) :=
  match geti slots i with Some (Some kv) => Ok kv | _ => Err EUndef end.

(** An element is constructed in a slot.  Without a destructor an older element may be
    overwritten. *)
Definition q_build (slots : list (option (K * V))) (i : N) (kv : K * V)
  : res (list (option (K * V))) :=
  match geti slots i with
  | Some None => Ok (seti slots i (Some kv))
  | Some (Some _) => if trivial then Ok (seti slots i (Some kv)) else Err EUndef
  | None => Err EUndef
  end.

(** destroy_slot, Q:2235-2244. *)
Definition q_drop (slots : list (option (K * V))) (i : N) : res (list (option (K * V))) :=
  match geti slots i with
  | Some (Some _) => Ok (if trivial then slots else seti slots i None)
  | Some None => if trivial then Ok slots else Err EUndef
  | None => if trivial then Ok slots else Err EUndef
  end.

(** ** create_group, Q:2333-2376 *)

(** The control words of new groups, Q:2354-2365. *)
Definition q_fresh (cap gc : N) : list ctrl :=
  if qGroupWidth <=? cap then repeat (qEmpty, 0) (N.to_nat ((gc + 1) * 16))
  else repeat (qEmpty, 0) (N.to_nat (cap * 2))
       ++ repeat (qEndOf, 0) (N.to_nat ((gc + 1) * 16 - cap * 2)).

(** The groups are replaced before the slots are requested: when that request throws,
    the map has the new groups and the old slots (the old groups are lost). *)
Definition q_create (alloc : oracle) (t : qmap) (cap : N) : out qmap unit :=
  let gc := wadd cap (qGroupWidth - 1) / qGroupWidth in
  if alloc true (gc + 1) then
    if alloc false cap then
      Ret (mkQ (q_fresh cap gc) (wsub gc 1) (repeat None (N.to_nat cap)) 0 (wsub cap 1)
               (wmul cap (q_mlf t) / qAmplify) (q_mlf t) (q_rev t)) tt
    else Throw (mkQ (q_fresh cap gc) (wsub gc 1) (q_slots t) (q_size t) (q_mask t) (q_thr t)
                    (q_mlf t) (q_rev t))
  else Throw t.

(** create_group<true>, Q:2336-2339. *)
Definition q_create_init (alloc : oracle) (t : qmap) (n : N) : out qmap unit :=
  match q_calc_capacity n with
  | Err e => Fail e
  | Ok cap => q_create alloc t cap
  end.

(** The member initializers of every constructor, for example Q:1308-1311. *)
Definition q_blank : qmap := mkQ [] 0 [] 0 0 0 qDefaultMlf qDefaultRev.

(** robin16_hash_map(init_capacity), Q:1304-1316; the default constructor, Q:1301-1302,
    passes 4. *)
Definition q_new (alloc : oracle) (n : N) : out qmap unit := q_create_init alloc q_blank n.

(** ** Search *)

(** Where a search ends: at an equal key (position), at the place where the key would
    be inserted (position and distance), or nowhere (the loop has come back). *)
Inductive qscan := QHit (i : N) | QStop (i d : N) | QFull.

(** The first comparisons, one word at a time: two of them in find_impl (Q:2626-2678),
    four in find_or_prepare_insert (Q:2841-2914) and, without comparing keys, in
    unique_prepare_insert (Q:3381-3415).  [key] is [Some k] where keys are compared.
    The result [inr (i, d)] is the position and distance to go on with. *)
Fixpoint q_singles (todo : nat) (t : qmap) (key : option K) (tag i d : N)
  : res (qscan + N * N) :=
  match todo with
  | O => Ok (inr (i, d))
  | S todo' =>
      match geti (q_ctrls t) i with
      | None => Err EUndef
      | Some c =>
          if holds d c then
            match key with
            | Some k =>
                if snd c =? tag then
                  rbind (q_read (q_slots t) i) (fun kv =>
                  if keq (fst kv) k then Ok (inl (QHit i))
                  else q_singles todo' t key tag (q_succ t i) (d + 1))
                else q_singles todo' t key tag (q_succ t i) (d + 1)
            | None => q_singles todo' t key tag (q_succ t i) (d + 1)
            end
          else Ok (inl (QStop i d))
      end
  end.

(** The loop over the words with an equal hash, Q:2684-2694 and 2919-2931. *)
Fixpoint q_match (t : qmap) (k : K) (start : N) (ps : list N) : res (option N) :=
  match ps with
  | [] => Ok None
  | p :: ps' =>
      let i := q_round t (wadd start (bit_pos wide p)) in
      rbind (q_read (q_slots t) i) (fun kv =>
      if keq (fst kv) k then Ok (Some i) else q_match t k start ps')
  end.

(** The loops over groups: find_impl (Q:2680-2700) and find_or_prepare_insert
    (Q:2916-2943, 2952-2959) with [Some k], unique_prepare_insert (Q:3417-3436) without
    a key; that one has no other exit than a place to insert ([endless]).  The
    positions and the distances (modulo 256) repeat, so a loop that is still running
    after as many turns as there are control words, or sixteen, never ends. *)
Fixpoint q_groups (fuel : nat) (t : qmap) (key : option K) (tag home i d : N) : res qscan :=
  match fuel with
  | O => Err ELoop
  | S fuel' =>
      rbind (q_group (q_ctrls t) i) (fun g =>
      rbind (match key with
             | Some k => q_match t k i (positions (word_mask wide (hash_lanes g tag d)))
             | None => Ok None
             end) (fun r =>
      match r with
      | Some j => Ok (QHit j)
      | None =>
          let m := match key with
                   | Some _ => word_mask wide (stop_lanes g d)
                   | None => word_mask2 wide (stop_lanes g d)
                   end in
          if negb (m =? 0) then
            let j := wadd i (bit_pos wide (bsf m)) in
            Ok (QStop (q_round t j) (q_dist t j home))
          else
            let i' := q_next t i in
            if match key with Some _ => i' =? home | None => false end then Ok QFull
            else q_groups fuel' t key tag home i' (u8 (d + qGroupWidth))
      end))
  end.

Definition q_fuel (t : qmap) : nat := (16 + length (q_ctrls t))%nat.

Definition q_search (singles : nat) (t : qmap) (key : option K) (k : K) : res qscan :=
  rbind (q_singles singles t key (q_tag k) (q_home t k) 0) (fun r =>
  match r with
  | inl s => Ok s
  | inr (i, d) => q_groups (q_fuel t) t key (q_tag k) (q_home t k) i d
  end).

(** find_impl, Q:2620-2703: [None] stands for slot_capacity(). *)
Definition q_find_index (t : qmap) (k : K) : res (option N) :=
  rbind (q_search 2 t (Some k) k) (fun s =>
  Ok match s with QHit i => Some i | _ => None end).

(** ** Insertion *)

Definition q_with (t : qmap) (cs : list ctrl) (slots : list (option (K * V))) (size : N) : qmap :=
  mkQ cs (q_gmask t) slots size (q_mask t) (q_thr t) (q_mlf t) (q_rev t).

(** emplace_rich_slot, Q:3025-3038. *)
Definition q_emplace_rich (t : qmap) (cs : list ctrl) (slots : list (option (K * V))) (i : N)
    (rich : ctrl) (car : K * V) : res (list ctrl * list (option (K * V))) :=
  rbind (q_set (q_cap t) cs i rich) (fun cs =>
  rbind (q_build slots i car) (fun sl => Ok (cs, sl))).

(** The loop of insert_to_place, Q:2988-3022.  [car] is to_insert, [rich] is insert_ctrl.
    The answer says whether the caller has to grow the map.  The loop visits every
    slot at most once. *)
Fixpoint q_place (fuel : nat) (rehashing : bool) (t : qmap) (target : N)
    (cs : list ctrl) (slots : list (option (K * V))) (i : N) (rich : ctrl) (car : K * V)
  : res (list ctrl * list (option (K * V)) * bool) :=
  match fuel with
  | O => Err ELoop
  | S fuel' =>
      match geti cs i with
      | None => Err EUndef
      | Some c =>
          if is_empty16 c then
            rbind (q_emplace_rich t cs slots i rich car) (fun '(cs, sl) => Ok (cs, sl, false))
          else
            let step cs slots (rich : ctrl) car :=
              let i' := q_succ t i in
              let rich := (u8 (fst rich + 1), snd rich) in
              if (negb rehashing && (qDistLimit <? fst rich)) || (i' =? target) then
                rbind (q_emplace_rich t cs slots target rich car) (fun '(cs, sl) => Ok (cs, sl, true))
              else q_place fuel' rehashing t target cs slots i' rich car in
            if fst c <? fst rich then
              rbind (q_set (q_cap t) cs i rich) (fun cs =>
              rbind (q_read slots i) (fun kv => step cs (seti slots i (Some car)) c kv))
            else step cs slots rich car
      end
  end.

(** insert_to_place, Q:2962-3023: the slot [target] is free afterwards, unless the answer
    is true. *)
Definition q_insert_to_place (rehashing : bool) (t : qmap) (target d tag : N)
  : res (list ctrl * list (option (K * V)) * bool) :=
  match geti (q_ctrls t) target with
  | None => Err EUndef
  | Some c =>
      rbind (q_set (q_cap t) (q_ctrls t) target (d, tag)) (fun cs =>
      rbind (q_read (q_slots t) target) (fun kv =>
      rbind (q_drop (q_slots t) target) (fun sl =>
      q_place (S (length (q_slots t))) rehashing t target cs sl (q_succ t target)
              (u8 (fst c + 1), snd c) kv)))
  end.

(** The common end of the emplace_impl functions (Q:3047-3072 for example),
    move_insert_unique (Q:3449-3472) and insert_unique (Q:3481-3504).  The flag is true
    when insert_to_place asked to grow: then nothing is constructed, except in
    move_insert_unique ([rehashing]), which ignores the answer. *)
Definition q_insert_at (rehashing : bool) (t : qmap) (target d : N) (kv : K * V)
  : res (qmap * bool) :=
  match geti (q_ctrls t) target with
  | None => Err EUndef
  | Some c =>
      rbind (if is_empty16 c
             then rbind (q_set (q_cap t) (q_ctrls t) target (d, q_tag (fst kv)))
                        (fun cs => Ok (cs, q_slots t, false))
             else q_insert_to_place rehashing t target d (q_tag (fst kv)))
            (fun '(cs, sl, grow) =>
      if grow && negb rehashing then Ok (q_with t cs sl (q_size t), true)
      else rbind (q_build sl target kv) (fun sl =>
           Ok (q_with t cs sl (wadd (q_size t) 1), false)))
  end.

(** move_insert_unique, Q:3442-3473. *)
Definition q_move_insert (t : qmap) (kv : K * V) : res qmap :=
  rbind (q_search 4 t None (fst kv)) (fun s =>
  match s with
  | QStop i d => rbind (q_insert_at true t i d kv) (fun '(t', _) => Ok t')
  | _ => Err EUndef
  end).

(** ** rehash_impl, Q:2378-2467 *)

(** The positions of used slots that a loop over groups visits (Q:2416-2429, and begin(),
    Q:1553-1566). *)
Fixpoint q_used_in_groups (n : nat) (cs : list ctrl) (base : N) : res (list N) :=
  match n with
  | O => Ok []
  | S n' =>
      rbind (q_group cs base) (fun g =>
      rbind (q_used_in_groups n' cs (base + 16)) (fun r =>
      Ok (map (fun p => base + bit_pos wide p) (positions (word_mask wide (used_lanes g))) ++ r)))
  end.

(** The loop over single control words, Q:2447-2455. *)
Fixpoint q_used_in (cs : list ctrl) (is : list N) : res (list N) :=
  match is with
  | [] => Ok []
  | i :: is' =>
      match geti cs i with
      | None => Err EUndef
      | Some c => rbind (q_used_in cs is') (fun r => Ok (if is_used16 c then i :: r else r))
      end
  end.

Definition q_used_positions (t : qmap) : res (list N) :=
  if qGroupWidth <=? q_cap t then q_used_in_groups (N.to_nat (q_group_count t)) (q_ctrls t) 0
  else q_used_in (q_ctrls t) (seqN (q_cap t)).

(** Each visited element is moved to the new table and destroyed in the old slots. *)
Fixpoint q_transfer (old : list (option (K * V))) (is : list N) (t : qmap)
  : res (list (option (K * V)) * qmap) :=
  match is with
  | [] => Ok (old, t)
  | i :: is' =>
      rbind (q_read old i) (fun kv =>
      rbind (q_move_insert t kv) (fun t' =>
      rbind (q_drop old i) (fun old' => q_transfer old' is' t')))
  end.

Definition q_no_leak (slots : list (option (K * V))) : bool := trivial || forallb is_none slots.

Definition q_rehash_impl (allow_shrink always : bool) (alloc : oracle) (t : qmap) (n : N)
  : out qmap unit :=
  match q_calc_capacity n with
  | Err e => Fail e
  | Ok cap =>
      if always || (negb allow_shrink && (q_cap t <? cap))
         || (allow_shrink && negb (cap =? q_cap t)) then
        match q_create alloc t cap with
        | Ret nt _ =>
            match rbind (q_used_positions t) (fun is => q_transfer (q_slots t) is nt) with
            | Ok (old, nt') => if q_no_leak old then Ret nt' tt else Fail ELeak
            | Err e => Fail e
            end
        | Throw t' => Throw t'
        | Fail e => Fail e
        end
      else Ret t tt
  end.

(** grow_if_necessary, Q:2322-2325. *)
Definition q_grow (alloc : oracle) (t : qmap) : out qmap unit :=
  q_rehash_impl false true alloc t (wmul (wadd (q_mask t) 1) 2).

(** find_or_prepare_insert, Q:2828-2960: position, distance, and whether the key is
    there.  It calls itself after growing; [fuel] bounds the depth of that recursion. *)
Fixpoint q_prepare (fuel : nat) (alloc : oracle) (k : K) (t : qmap) : out qmap (N * N * bool) :=
  match fuel with
  | O => Fail ELoop
  | S fuel' =>
      match q_search 4 t (Some k) k with
      | Err e => Fail e
      | Ok (QHit i) => Ret t (i, 0, true)
      | Ok QFull => obind (q_grow alloc t) (fun t' _ => q_prepare fuel' alloc k t')
      | Ok (QStop i d) =>
          if q_need_grow t then obind (q_grow alloc t) (fun t' _ => q_prepare fuel' alloc k t')
          else Ret t (i, d, false)
      end
  end.

(** emplace_impl, Q:3040-3369 (the six overloads differ in how the element is built);
    [update] is AlwaysUpdate. *)
Fixpoint q_emplace (fuel : nat) (alloc : oracle) (update : bool) (k : K) (v : V) (t : qmap)
  : out qmap (N * bool) :=
  match fuel with
  | O => Fail ELoop
  | S fuel' =>
      obind (q_prepare 64 alloc k t) (fun t1 '(i, d, exists_) =>
      if exists_ : bool then
        match q_read (q_slots t1) i with
        | Ok kv =>
            if update
            then Ret (q_with t1 (q_ctrls t1) (seti (q_slots t1) i (Some (fst kv, v))) (q_size t1))
                     (i, false)
            else Ret t1 (i, false)
        | Err _ =>
            if update then Fail EUndef else Ret t1 (i, false)
        end
      else
        match q_insert_at false t1 i d (k, v) with
        | Err e => Fail e
        | Ok (t2, false) => Ret t2 (i, true)
        | Ok (t2, true) => obind (q_grow alloc t2) (fun t3 _ => q_emplace fuel' alloc update k v t3)
        end)
  end.

(** insert_unique, Q:3475-3538. *)
Fixpoint q_insert_unique (fuel : nat) (alloc : oracle) (kv : K * V) (t : qmap) : out qmap unit :=
  match fuel with
  | O => Fail ELoop
  | S fuel' =>
      match q_search 4 t None (fst kv) with
      | Err e => Fail e
      | Ok (QStop i d) =>
          match q_insert_at false t i d kv with
          | Err e => Fail e
          | Ok (t2, false) => Ret t2 tt
          | Ok (t2, true) => obind (q_grow alloc t2) (fun t3 _ => q_insert_unique fuel' alloc kv t3)
          end
      | Ok _ => Fail EUndef
      end
  end.

(** ** Erasure *)

(** The loop of erase_slot, Q:3572-3592: the slot [i] is free, the followers move up as
    long as they are not at home.  The next control word and slot are those behind in
    memory: there is no step from the last slot to the first. *)
Fixpoint q_shift (fuel : nat) (cap : N) (cs : list ctrl) (slots : list (option (K * V))) (i : N)
  : res (list ctrl * list (option (K * V))) :=
  match fuel with
  | O => Err ELoop
  | S fuel' =>
      match geti cs (i + 1) with
      | None => Err EUndef
      | Some c =>
          if is_empty_or_zero c then rbind (q_unset cap cs i) (fun cs => Ok (cs, slots))
          else
            rbind (q_set cap cs i (fst c - 1, snd c)) (fun cs =>
            rbind (q_read slots (i + 1)) (fun kv =>
            rbind (q_build slots i kv) (fun sl =>
            rbind (q_drop sl (i + 1)) (fun sl => q_shift fuel' cap cs sl (i + 1)))))
      end
  end.

(** erase_slot, Q:3559-3593. *)
Definition q_erase_slot (t : qmap) (i : N) : res qmap :=
  rbind (q_drop (q_slots t) i) (fun sl =>
  rbind (q_shift (S (length (q_ctrls t))) (q_cap t) (q_ctrls t) sl i) (fun '(cs, sl) =>
  Ok (q_with t cs sl (wsub (q_size t) 1)))).

(** erase(key), Q:1882-1885, and find_and_erase, Q:3548-3557. *)
Definition q_erase (k : K) (t : qmap) : res (qmap * N) :=
  rbind (q_find_index t k) (fun r =>
  match r with
  | Some i => rbind (q_erase_slot t i) (fun t' => Ok (t', 1))
  | None => Ok (t, 0)
  end).

(** ** Iteration *)

(** end(), Q:1588-1590; begin(), Q:1550-1578; an iterator is its position. *)
Definition q_end (t : qmap) : N := q_cap t.

Definition q_begin (t : qmap) : res N :=
  rbind (q_used_in_groups (N.to_nat (q_group_count t)) (q_ctrls t) 0) (fun l =>
  Ok (match l with [] => q_end t | i :: _ => i end)).

(** operator++, Q:1134-1141. *)
Fixpoint q_incr (fuel : nat) (t : qmap) (i : N) : res N :=
  match fuel with
  | O => Err ELoop
  | S fuel' =>
      match geti (q_ctrls t) (i + 1) with
      | None => Err EUndef
      | Some c => if is_empty16 c && (i + 1 <? q_cap t) then q_incr fuel' t (i + 1) else Ok (i + 1)
      end
  end.

Definition q_deref (t : qmap) (i : N) : res (K * V) := q_read (q_slots t) i.

Fixpoint q_walk (fuel : nat) (t : qmap) (i : N) : res (list (K * V)) :=
  if i =? q_end t then Ok []
  else match fuel with
       | O => Err ELoop
       | S fuel' =>
           rbind (q_deref t i) (fun kv =>
           rbind (q_incr (q_fuel t) t i) (fun j =>
           rbind (q_walk fuel' t j) (fun l => Ok (kv :: l))))
       end.

(** The loop [for (it = begin(); it != end(); ++it)]. *)
Definition q_traverse (t : qmap) : res (list (K * V)) :=
  rbind (q_begin t) (fun i => q_walk (q_fuel t) t i).

(** ** Destruction and clear *)

(** destroy_slots, Q:2206-2227: the element in every used slot is destroyed. *)
Fixpoint q_destroy_loop (cs : list ctrl) (is : list N) (slots : list (option (K * V)))
  : res (list (option (K * V))) :=
  match is with
  | [] => Ok slots
  | i :: is' =>
      match geti cs i with
      | None => Err EUndef
      | Some c =>
          if is_used16 c then rbind (q_drop slots i) (q_destroy_loop cs is')
          else q_destroy_loop cs is' slots
      end
  end.

Definition q_destroy_slots (t : qmap) : res (list (option (K * V))) :=
  match q_slots t with
  | [] => Ok []
  | sl => if trivial then Ok sl else q_destroy_loop (q_ctrls t) (seqN (q_cap t)) sl
  end.

(** The destructor, Q:1458-1460: everything is destroyed, or some element is
    forgotten. *)
Definition q_destroy (t : qmap) : res unit :=
  rbind (q_destroy_slots t) (fun sl => if q_no_leak sl then Ok tt else Err ELeak).

(** destroy_group<false>, Q:2190-2204: the groups of the slots, not the one behind
    them. *)
Definition q_clear_groups (t : qmap) : list ctrl :=
  match q_ctrls t with
  | [] => []
  | cs => let n := N.to_nat (q_group_count t * 16) in repeat (qEmpty, 0) n ++ skipn n cs
  end.

(** clear, Q:1664-1675.  It is noexcept: when the allocation fails the program ends
    with std::terminate; here, an exception from a map without storage. *)
Definition q_clear (alloc : oracle) (need_destroy : bool) (t : qmap) : out qmap unit :=
  if (qDefaultCapacity <? q_cap t) && need_destroy then
    match q_destroy t with
    | Ok _ =>
        match q_create alloc t qDefaultCapacity with
        | Throw _ => Throw (q_with t [] [] 0)
        | r => r
        end
    | Err e => Fail e
    end
  else
    match q_destroy_slots t with
    | Err e => Fail e
    | Ok sl => Ret (q_with t (q_clear_groups t) sl 0) tt
    end.

(** ** Capacity and load factor *)

(** rehash, reserve, resize, Q:1677-1691. *)
Definition q_rehash (alloc : oracle) (read_only : bool) (n : N) (t : qmap) : out qmap unit :=
  q_rehash_impl true false alloc t
    (N.max (if read_only then n else q_min_require (q_rev t) n) (q_size t)).

(** shrink_to_fit, Q:1693-1700. *)
Definition q_shrink (alloc : oracle) (read_only : bool) (t : qmap) : out qmap unit :=
  q_rehash_impl true false alloc t
    (if read_only then q_size t else q_min_require (q_rev t) (q_size t)).

(** max_load_factor(mlf), Q:1505-1524.  The two numbers kept are computed as in
    flat16_hash_map.h (F16:1128-1141, [f_mlf_of] and [f_rev_of]); [x] is mlf * 2^26.
    slot_threshold_ is read, not recomputed. *)
Definition q_set_mlf (alloc : oracle) (x : N) (t : qmap) : out qmap unit :=
  let t' := mkQ (q_ctrls t) (q_gmask t) (q_slots t) (q_size t) (q_mask t) (q_thr t)
                (f_mlf_of x) (f_rev_of x) in
  if (q_thr t' <? q_size t') && (q_cap t' <? q_min_require (q_rev t') (q_size t'))
  then q_rehash alloc false (q_size t') t'
  else Ret t' tt.

(** ** Copy, move, swap *)

Fixpoint q_insert_unique_all (alloc : oracle) (l : list (K * V)) (t : qmap) : out qmap unit :=
  match l with
  | [] => Ret t tt
  | kv :: l' => obind (q_insert_unique 64 alloc kv t) (fun t' _ => q_insert_unique_all alloc l' t')
  end.

(** The copy constructor, Q:1358-1386, with reserve_for_insert (Q:2327-2331) and
    insert_unique (Q:3540-3546).  The load factor is not copied. *)
Definition q_copy (alloc : oracle) (other : qmap) : out qmap unit :=
  obind (q_create_init alloc q_blank (q_min_require qDefaultRev (q_size other))) (fun t _ =>
  match q_traverse other with
  | Err e => Fail e
  | Ok l => q_insert_unique_all alloc l t
  end).

(** The move constructors, Q:1388-1422: the new map, and the source, which is left with
    null pointers. *)
Definition q_move (other : qmap) : qmap * qmap := (other, q_blank).

(** swap, Q:1702-1706 and 3595-3631. *)
Definition q_swap (a b : qmap) : qmap * qmap := (b, a).

(** ** One call; the calls and observations are those of TableModel.v.  [OMlf x] is
    max_load_factor(x * 2^-26). *)
Definition q_lift {A} (t : qmap) (f : A -> obs K V) (r : res A) : out qmap (obs K V) :=
  match r with Ok a => Ret t (f a) | Err e => Fail e end.

Definition q_unit (r : out qmap unit) : out qmap (obs K V) :=
  obind r (fun t _ => Ret t (RUnit K V)).

Definition q_ins (r : out qmap (N * bool)) : out qmap (obs K V) :=
  obind r (fun t '(i, b) => q_lift t (fun kv => RIns K V kv b) (q_deref t i)).

(** find, Q:1748-1751, and what it points to. *)
Definition q_find_obs (t : qmap) (k : K) : res (option (K * V)) :=
  rbind (q_find_index t k) (fun r =>
  match r with None => Ok None | Some i => rbind (q_deref t i) (fun kv => Ok (Some kv)) end).

(** count and contains, Q:1738-1746, say whether an index was found. *)
Definition q_step (alloc : oracle) (o : op K V) (t : qmap) : out qmap (obs K V) :=
  match o with
  | OInsert _ _ k v => q_ins (q_emplace 64 alloc false k v t)
  | OAssign _ _ k v => q_ins (q_emplace 64 alloc true k v t)
  | OErase _ _ k => match q_erase k t with
                    | Ok (t', n) => Ret t' (RNum K V n)
                    | Err e => Fail e
                    end
  | OFind _ _ k => q_lift t (REntry K V) (q_find_obs t k)
  | OContains _ _ k => q_lift t (fun r => RBool K V match r with Some _ => true | None => false end)
                              (q_find_index t k)
  | OSize _ _ => Ret t (RNum K V (q_size t))
  | OClear _ _ b => q_unit (q_clear alloc b t)
  | OReserve _ _ n => q_unit (q_rehash alloc false n t)
  | ORehash _ _ n => q_unit (q_rehash alloc false n t)
  | OShrink _ _ b => q_unit (q_shrink alloc b t)
  | OMlf _ _ x => q_unit (q_set_mlf alloc x t)
  end.

(** Calls in sequence, as [run] in RunModel.v. *)
Fixpoint q_run (calls : list (oracle * op K V)) (t : qmap)
  : res (list (option (obs K V)) * qmap) :=
  match calls with
  | [] => Ok ([], t)
  | (alloc, o) :: rest =>
      match q_step alloc o t with
      | Ret t' r => rbind (q_run rest t') (fun '(rs, t'') => Ok (Some r :: rs, t''))
      | Throw t' => rbind (q_run rest t') (fun '(rs, t'') => Ok (None :: rs, t''))
      | Fail e => Err e
      end
  end.

End Robin16.
