(** Model of /repo/src/jstd/hashmap/robin_hash_map.h ([RH] below): the robin hood map
    with the layout it selects for keys and values of at most eight bytes without
    destructors, such as robin_hash_map<int, int>: control bytes of type
    ctrl_data<void, false, false> (RH:457-660), elements stored in place
    (kIsIndirectKV = false, kNeedStoreHash = false), separate arrays for controls and
    slots (RH:100-102), index = hash & slot_mask (RH:3991-4006).

    A control byte is kept as the number 0..255 that uvalue reads; [s8] is the
    reading as signed char.  0..127 is the distance of an element from its home
    position, 255 is kEmptySlot, 254 is kEndOfMark (RH:360-363). *)
From Coq Require Import NArith ZArith List Bool.
From Verif Require Import Base BitsModel GroupModel TableModel.
Import ListNotations.
Open Scope N_scope.

(** RH:273-291. *)
Definition rMinCapacity : N := 4.
Definition rMinLookups : N := 4.
Definition rGroupWidth : N := 32.
Definition rDefaultMlf : N := 128.      (* 0.5 * 256 *)
Definition rDefaultRev : N := 512.      (* 1 / 0.5 * 256 *)
Definition cEmpty : N := 255.
Definition cEndOf : N := 254.

(** Where last_slot_ points: nowhere, to the n-th slot of the own slot array, or
    into the slot array of another map. *)
Inductive lastp := LNull | LEnd (n : N) | LOther.

Section Robin.

Variables K V : Type.
Variable hash : K -> N.
Variable keq : K -> K -> bool.

(** Members, RH:3031-3040.  [r_alloc] says whether ctrls_ and slots_ are allocated;
    otherwise ctrls_ is the constant array of RH:3796-3816 and slots_ is null.  A slot
    without an element is [None]. *)
Record rmap := mkR {
  r_alloc : bool;
  r_ctrls : list N;
  r_slots : list (option (K * V));
  r_last : lastp;
  r_size : N;
  r_mask : N;
  r_lookups : N;
  r_thr : N;
  r_mlf : N;
  r_rev : N
}.

(** s_empty_ctrls00, RH:3796-3816. *)
Definition empty_ctrls : list N := repeat cEmpty 4 ++ repeat cEndOf 60.

(** Default constructor, RH:3053-3071. *)
Definition rnew : rmap :=
  mkR false empty_ctrls [] LNull 0 0 rMinLookups 0 rDefaultMlf rDefaultRev.

(** slot_capacity and max_slot_capacity, RH:3291 and RH:3299-3301. *)
Definition r_slot_capacity (t : rmap) : N :=
  if r_mask t =? 0 then r_mask t else wadd (r_mask t) 1.

Definition r_max_slot_capacity (t : rmap) : N := wadd (r_slot_capacity t) (r_lookups t).

(** group_count, RH:3278-3280. *)
Definition r_group_count (t : rmap) : N :=
  wadd (r_max_slot_capacity t) (rGroupWidth - 1) / rGroupWidth.

(** max_distance, RH:3296-3298: a sixteen-bit number. *)
Definition r_max_distance (t : rmap) : N := (r_lookups t * 256) mod 65536.

(** need_grow, RH:4266-4268. *)
Definition r_need_grow (t : rmap) : bool := r_thr t <=? r_size t.

(** calc_capacity, RH:3844-3850. *)
Definition r_calc_capacity (n : N) : res N :=
  let n := N.max n rMinCapacity in
  if is_pow2 n then Ok n else round_up rMinCapacity n.

(** min_require_capacity, RH:3869-3872. *)
Definition r_min_require (t : rmap) (n : N) : N := wmul n (r_rev t) / 256.

(** calc_max_lookups, RH:3856-3867, and RH:4351-4355. *)
Definition r_calc_lookups (cap : N) : N :=
  let b := N.log2 cap in
  if b <? 16 then N.max (b * 2) rMinLookups else N.min (b * 4) 128.

(** clear_ctrls on an array of (group_count + 1) * kGroupWidth bytes,
    RH:4246-4264. *)
Definition r_fresh_ctrls (cap lookups gc : N) : list N :=
  if rGroupWidth <=? cap then repeat cEmpty (N.to_nat ((gc + 1) * rGroupWidth))
  else repeat cEmpty (N.to_nat (cap + lookups))
       ++ repeat cEndOf (N.to_nat ((gc + 1) * rGroupWidth - (cap + lookups))).

(** create_slots<false>, RH:4328-4398, for a capacity that is not 0.  [alloc] answers
    whether arrays for that many slots are available.  max_lookups_ is set before
    the arrays are requested, so it has its new value when the request throws. *)
Definition r_create (alloc : N -> bool) (t : rmap) (cap : N) : out rmap unit :=
  let lookups := r_calc_lookups cap in
  let total := wadd cap lookups in
  let gc := wadd total (rGroupWidth - 1) / rGroupWidth in
  if alloc total then
    Ret (mkR true (r_fresh_ctrls cap lookups gc) (repeat None (N.to_nat total)) (LEnd total)
             0 (wsub cap 1) lookups (wmul cap (r_mlf t) / 256) (r_mlf t) (r_rev t)) tt
  else Throw (mkR (r_alloc t) (r_ctrls t) (r_slots t) (r_last t) (r_size t) (r_mask t)
                  lookups (r_thr t) (r_mlf t) (r_rev t)).

(** index_for_hash, RH:3991-4006 (get_second_hash is the identity for the default
    configuration, kUseIndexSalt is false). *)
Definition r_home (t : rmap) (k : K) : N := N.land (hash k) (r_mask t).

(** incDist and decDist, RH:639-645. *)
Definition inc8 (d : N) : N := (d + 1) mod 256.
Definition dec8 (d : N) : N := (d + 255) mod 256.

(** The loop [while (dist_and_0.value <= ctrl->value)] of direct_find (RH:5152-5161),
    direct_find_index (RH:5353-5362), direct_find_and_insert (RH:5504-5515),
    find_failed (RH:5675-5679), find_and_insert_no_grow (RH:6155-6158) and
    unique_find_and_insert (RH:6324-6327).  [key] is [Some k] where the loop compares
    the keys.  Result: the position of the equal key, or the position and distance
    where the loop stops. *)
Inductive scanned := Found (i : N) | Stop (i d : N).

Fixpoint r_scan (fuel : nat) (ctrls : list N) (slots : list (option (K * V)))
    (key : option K) (i d : N) : res scanned :=
  match fuel with
  | O => Err ELoop
  | S fuel' =>
      match geti ctrls i with
      | None => Err EUndef
      | Some c =>
          if (s8 d <=? s8 c)%Z then
            match key with
            | None => r_scan fuel' ctrls slots key (i + 1) (inc8 d)
            | Some k =>
                match geti slots i with
                | Some (Some kv) =>
                    if keq (fst kv) k then Ok (Found i)
                    else r_scan fuel' ctrls slots key (i + 1) (inc8 d)
                | _ => Err EUndef
                end
            end
          else Ok (Stop i d)
      end
  end.

Definition r_search (t : rmap) (cmp : bool) (k : K) : res scanned :=
  r_scan (S (length (r_ctrls t))) (r_ctrls t) (r_slots t) (if cmp then Some k else None)
         (r_home t k) 0.

(** The loop of insert_to_place, RH:5736-5768.  [car] is the element that the slot
    [ins] holds while the loop runs, [rich] its control byte.  The result says
    whether a free place was found; if not the last element carried is in the slot
    [ins] again, with the distance that it had reached. *)
Fixpoint r_place (fuel : nat) (rehashing : bool) (maxd last ins : N)
    (ctrls : list N) (slots : list (option (K * V))) (i rich : N) (car : K * V)
  : res (list N * list (option (K * V)) * bool) :=
  match fuel with
  | O => Err ELoop
  | S fuel' =>
      if i <? last then
        match geti ctrls i with
        | None => Err EUndef
        | Some c =>
            if c =? cEmpty then
              match geti slots i with
              | Some None =>
                  Ok (seti ctrls i rich, seti (seti slots i (Some car)) ins None, true)
              | _ => Err EUndef
              end
            else
              let step ctrls' slots' rich' car' :=
                let r := inc8 rich' in
                if negb rehashing && (maxd <=? r)
                then Ok (seti ctrls' ins r, seti slots' ins (Some car'), false)
                else r_place fuel' rehashing maxd last ins ctrls' slots' (i + 1) r car' in
              if (s8 c <? s8 rich)%Z then
                match geti slots i with
                | Some (Some kv) => step (seti ctrls i rich) (seti slots i (Some car)) c kv
                | _ => Err EUndef
                end
              else step ctrls slots rich car
        end
      else Ok (seti ctrls ins rich, seti slots ins (Some car), false)
  end.

(** insert_to_place, RH:5704-5774, at the position [ins] with distance [d]. *)
Definition r_insert_to_place (rehashing : bool) (t : rmap) (ins d : N)
  : res (list N * list (option (K * V)) * bool) :=
  match r_last t, geti (r_ctrls t) ins, geti (r_slots t) ins with
  | LEnd last, Some c, Some (Some kv) =>
      r_place (S (length (r_ctrls t))) rehashing (r_max_distance t) last ins
              (seti (r_ctrls t) ins d) (r_slots t) (ins + 1) (inc8 c) kv
  | _, _, _ => Err EUndef
  end.

Definition r_with (t : rmap) (ctrls : list N) (slots : list (option (K * V))) (size : N)
  : rmap :=
  mkR (r_alloc t) ctrls slots (r_last t) size (r_mask t) (r_lookups t) (r_thr t)
      (r_mlf t) (r_rev t).

(** Construction of an element in a free slot; size_ + 1. *)
Definition r_construct (t : rmap) (ctrls : list N) (slots : list (option (K * V))) (i : N)
    (kv : K * V) : res rmap :=
  match geti slots i with
  | Some None => Ok (r_with t ctrls (seti slots i (Some kv)) (wadd (r_size t) 1))
  | _ => Err EUndef
  end.

(** The end of direct_find_and_insert (RH:5609-5615) and of unique_find_and_insert
    (RH:6368-6374), together with the construction by the caller (RH:5879-5880,
    RH:6388-6389).  [si] is the position of the slot.  The flag is false for
    kNeedGrow, where nothing is constructed. *)
Definition r_insert_at (rehashing : bool) (t : rmap) (i si d : N) (kv : K * V)
  : res (rmap * bool) :=
  if r_alloc t then
    match geti (r_ctrls t) i with
    | None => Err EUndef
    | Some c =>
        if c =? cEmpty then
          rbind (r_construct t (seti (r_ctrls t) i d) (r_slots t) si kv)
                (fun t' => Ok (t', true))
        else if i =? si then
          rbind (r_insert_to_place rehashing t i d)
                (fun '(ctrls, slots, ok) =>
                   if ok || rehashing
                   then rbind (r_construct t ctrls slots i kv) (fun t' => Ok (t', true))
                   else Ok (r_with t ctrls slots (r_size t), false))
        else Err EUndef
    end
  else Err EUndef.

(** [slot += dist_and_0.dist] with a signed distance, RH:6160 and RH:6337. *)
Definition slot_plus (i d : N) : res N :=
  let z := (Z.of_N i + s8 d)%Z in if (z <? 0)%Z then Err EUndef else Ok (Z.to_N z).

(** insert_no_grow, RH:6147-6172 and RH:6269-6275: the answer of insert_to_place is
    ignored. *)
Definition r_insert_no_grow (t : rmap) (kv : K * V) : res rmap :=
  rbind (r_search t false (fst kv)) (fun s =>
  match s with
  | Found _ => Err EUndef
  | Stop i d =>
      rbind (slot_plus (r_home t (fst kv)) d) (fun si =>
      rbind (r_insert_at true t i si d kv) (fun '(t', _) => Ok t'))
  end).

(** The elements that the loops of rehash_impl meet (RH:4555-4571 and
    RH:4575-4588), in order. *)
Fixpoint r_collect (ctrls : list N) (slots : list (option (K * V))) (is : list N)
  : res (list (K * V)) :=
  match is with
  | [] => Ok []
  | i :: is' =>
      match geti ctrls i with
      | None => Err EUndef
      | Some c =>
          if c <? 128 then
            match geti slots i with
            | Some (Some kv) => rbind (r_collect ctrls slots is') (fun l => Ok (kv :: l))
            | _ => Err EUndef
            end
          else r_collect ctrls slots is'
      end
  end.

Definition r_elements (t : rmap) : res (list (K * V)) :=
  if rGroupWidth <=? r_slot_capacity t
  then r_collect (r_ctrls t) (r_slots t) (seqN (r_group_count t * rGroupWidth))
  else if r_alloc t
  then r_collect (r_ctrls t) (r_slots t) (seqN (r_max_slot_capacity t))
  else Ok [].

Fixpoint r_insert_all (l : list (K * V)) (t : rmap) : res rmap :=
  match l with
  | [] => Ok t
  | kv :: l' => rbind (r_insert_no_grow t kv) (r_insert_all l')
  end.

(** rehash_impl, RH:4400-4644.  Reading the elements of the old arrays first is no
    different from reading them one by one, since the arrays are distinct. *)
Definition r_rehash_impl (allow_shrink always : bool) (alloc : N -> bool) (t : rmap) (n : N)
  : out rmap unit :=
  match r_calc_capacity n with
  | Err e => Fail e
  | Ok cap =>
      if always || (negb allow_shrink && (r_slot_capacity t <? cap))
         || (allow_shrink && negb (cap =? r_slot_capacity t))
      then
        obind (r_create alloc t cap) (fun t0 _ =>
        match rbind (r_elements t) (fun l => r_insert_all l t0) with
        | Ok t' => Ret t' tt
        | Err e => Fail e
        end)
      else Ret t tt
  end.

(** grow_if_necessary, RH:4270-4273. *)
Definition r_grow (alloc : N -> bool) (t : rmap) : out rmap unit :=
  r_rehash_impl false true alloc t (wmul (wadd (r_mask t) 1) 2).

(** emplace_impl<AlwaysUpdate>, RH:5870-5893, with direct_find_and_insert,
    RH:5471-5616.  The recursion after kNeedGrow is counted by [fuel]: each round
    at least doubles the capacity. *)
Fixpoint r_emplace (fuel : nat) (alloc : N -> bool) (update : bool) (k : K) (v : V) (t : rmap)
  : out rmap (N * bool) :=
  match fuel with
  | O => Fail ELoop
  | S fuel' =>
      match r_search t true k with
      | Err e => Fail e
      | Ok (Found i) =>
          match geti (r_slots t) i with
          | Some (Some kv) =>
              Ret (if update
                   then r_with t (r_ctrls t) (seti (r_slots t) i (Some (fst kv, v))) (r_size t)
                   else t) (i, false)
          | _ => Fail EUndef
          end
      | Ok (Stop i d) =>
          let grow := r_need_grow t || (r_max_distance t <=? d) in
          obind (if grow then r_grow alloc t else Ret t tt) (fun t1 _ =>
          match (if grow then r_search t1 false k else Ok (Stop i d)) with
          | Err e => Fail e
          | Ok (Found _) => Fail EUndef
          | Ok (Stop i d) =>
              match r_insert_at false t1 i i d (k, v) with
              | Err e => Fail e
              | Ok (t2, true) => Ret t2 (i, true)
              | Ok (t2, false) =>
                  obind (r_grow alloc t2) (fun t3 _ => r_emplace fuel' alloc update k v t3)
              end
          end)
      end
  end.

(** unique_insert, RH:6377-6391, with unique_find_and_insert, RH:6316-6375. *)
Fixpoint r_unique_insert (fuel : nat) (alloc : N -> bool) (kv : K * V) (t : rmap)
  : out rmap unit :=
  match fuel with
  | O => Fail ELoop
  | S fuel' =>
      match r_search t false (fst kv) with
      | Err e => Fail e
      | Ok (Found _) => Fail EUndef
      | Ok (Stop i d) =>
          let grow := r_need_grow t || (r_max_distance t <=? d) in
          obind (if grow then r_grow alloc t else Ret t tt) (fun t1 _ =>
          match (if grow then r_search t1 false (fst kv) else Ok (Stop i d)) with
          | Err e => Fail e
          | Ok (Found _) => Fail EUndef
          | Ok (Stop i d) =>
              match rbind (if grow then Ok i else slot_plus (r_home t (fst kv)) d)
                          (fun si => r_insert_at false t1 i si d kv) with
              | Err e => Fail e
              | Ok (t2, true) => Ret t2 tt
              | Ok (t2, false) =>
                  obind (r_grow alloc t2) (fun t3 _ => r_unique_insert fuel' alloc kv t3)
              end
          end)
      end
  end.

(** The loop of erase_slot, RH:6449-6467: the slot [i] is free, the followers move up
    as long as they are not at home. *)
Fixpoint r_shift (fuel : nat) (ctrls : list N) (slots : list (option (K * V))) (i : N)
  : res (list N * list (option (K * V))) :=
  match fuel with
  | O => Err ELoop
  | S fuel' =>
      match geti ctrls (i + 1) with
      | None => Err EUndef
      | Some c =>
          if (s8 c <=? 0)%Z then Ok (seti ctrls i cEmpty, slots)
          else match geti slots (i + 1) with
               | Some (Some kv) =>
                   r_shift fuel' (seti ctrls i (dec8 c))
                           (seti (seti slots i (Some kv)) (i + 1) None) (i + 1)
               | _ => Err EUndef
               end
      end
  end.

(** erase_slot, RH:6440-6471. *)
Definition r_erase_slot (t : rmap) (i : N) : res rmap :=
  match geti (r_slots t) i with
  | Some (Some _) =>
      rbind (r_shift (S (length (r_ctrls t))) (r_ctrls t) (seti (r_slots t) i None) i)
            (fun '(ctrls, slots) => Ok (r_with t ctrls slots (wsub (r_size t) 1)))
  | _ => Err EUndef
  end.

(** find_and_erase, RH:6424-6437. *)
Definition r_erase (k : K) (t : rmap) : out rmap N :=
  match r_search t true k with
  | Err e => Fail e
  | Ok (Stop _ _) => Ret t 0
  | Ok (Found i) =>
      if i =? r_max_slot_capacity t then Ret t 0
      else match r_erase_slot t i with Ok t' => Ret t' 1 | Err e => Fail e end
  end.

(** end(), RH:3406-3411. *)
Definition r_end (t : rmap) : N := r_max_slot_capacity t.

(** find, RH:3552-3562: the position in the iterator.  A miss gives
    index_of(last_slot()) (RH:5163, RH:4131-4137); the difference of two null
    pointers is 0, that of pointers into different arrays is undefined. *)
Definition r_find (t : rmap) (k : K) : res N :=
  rbind (r_search t true k) (fun s =>
  match s with
  | Found i => Ok i
  | Stop _ _ =>
      match r_last t with
      | LEnd n => Ok n
      | LNull => if r_alloc t then Err EUndef else Ok 0
      | LOther => Err EUndef
      end
  end).

(** contains, RH:3547-3550. *)
Definition r_contains (t : rmap) (k : K) : res bool :=
  rbind (r_search t true k) (fun s =>
  match s with Found _ => Ok true | Stop _ _ => Ok false end).

(** The element that an iterator refers to, RH:2850-2852. *)
Definition r_deref (t : rmap) (i : N) : res (K * V) :=
  match geti (r_slots t) i with Some (Some kv) => Ok kv | _ => Err EUndef end.

(** begin(), RH:3361-3378: the first used control of the groups. *)
Fixpoint r_first_used (ctrls : list N) (is : list N) : res (option N) :=
  match is with
  | [] => Ok None
  | i :: is' =>
      match geti ctrls i with
      | None => Err EUndef
      | Some c => if c <? 128 then Ok (Some i) else r_first_used ctrls is'
      end
  end.

Definition r_begin (t : rmap) : res N :=
  rbind (r_first_used (r_ctrls t) (seqN (r_group_count t * rGroupWidth)))
        (fun o => Ok (match o with Some i => i | None => r_end t end)).

(** operator ++ of the iterator, RH:2817-2825. *)
Fixpoint r_next (fuel : nat) (ctrls : list N) (max i : N) : res N :=
  match fuel with
  | O => Err ELoop
  | S fuel' =>
      match geti ctrls (i + 1) with
      | None => Err EUndef
      | Some c =>
          if (c =? cEmpty) && (i + 1 <? max) then r_next fuel' ctrls max (i + 1) else Ok (i + 1)
      end
  end.

(** for (it = begin(); it != end(); ++it) collect *it. *)
Fixpoint r_walk (fuel : nat) (t : rmap) (i : N) : res (list (K * V)) :=
  match fuel with
  | O => Err ELoop
  | S fuel' =>
      if i =? r_end t then Ok []
      else rbind (r_deref t i) (fun kv =>
           rbind (r_next (S (length (r_ctrls t))) (r_ctrls t) (r_max_slot_capacity t) i) (fun j =>
           rbind (r_walk fuel' t j) (fun l => Ok (kv :: l))))
  end.

Definition r_traverse (t : rmap) : res (list (K * V)) :=
  rbind (r_begin t) (r_walk (S (length (r_ctrls t))) t).

(** clear_data, RH:4210-4264; the elements have no destructor.  The controls of a map
    without storage are a constant.  The groups 0 .. group_count are filled; after a
    failed growth there may be fewer. *)
Definition r_clear_data (t : rmap) : out rmap unit :=
  let n := (r_group_count t + 1) * rGroupWidth in
  if r_alloc t && (n <=? N.of_nat (length (r_ctrls t))) then
    Ret (r_with t (r_fresh_ctrls (r_slot_capacity t) (r_lookups t) (r_group_count t)
                     ++ skipn (N.to_nat n) (r_ctrls t))
                (repeat None (length (r_slots t))) 0) tt
  else Fail EUndef.

(** reset<false> after destroy_data, RH:4175-4208 and RH:4281-4296. *)
Definition r_destroyed (t : rmap) : rmap :=
  mkR false empty_ctrls [] LNull 0 0 rMinLookups 0 (r_mlf t) (r_rev t).

(** clear, RH:3504-3515. *)
Definition r_clear (need_destroy : bool) (t : rmap) : out rmap unit :=
  if (0 <? r_slot_capacity t) && need_destroy then Ret (r_destroyed t) tt
  else r_clear_data t.

(** rehash / reserve / resize, RH:3517-3531, with read_only = false. *)
Definition r_rehash (alloc : N -> bool) (n : N) (t : rmap) : out rmap unit :=
  r_rehash_impl true false alloc t (N.max (r_min_require t n) (r_size t)).

(** shrink_to_fit, RH:3533-3540. *)
Definition r_shrink (alloc : N -> bool) (read_only : bool) (t : rmap) : out rmap unit :=
  r_rehash_impl true false alloc t
    (if read_only then r_size t else r_min_require t (r_size t)).

(** max_load_factor(m / 256), RH:3316-3335.  The bounds 0.3 and 0.6 are not multiples
    of 1 / 256: their two scaled values are written out. *)
Definition r_clamp (m : N) : N * N :=
  if m <? 77 then (77, 854) else if 153 <? m then (154, 427) else (m, (65536 + m - 1) / m).

Definition r_set_mlf (alloc : N -> bool) (m : N) (t : rmap) : out rmap unit :=
  let '(mlf, rev) := r_clamp m in
  let t' := mkR (r_alloc t) (r_ctrls t) (r_slots t) (r_last t) (r_size t) (r_mask t)
                (r_lookups t) (r_thr t) mlf rev in
  if (r_thr t' <? r_size t') && (r_slot_capacity t' <? r_min_require t' (r_size t'))
  then r_rehash alloc (r_size t') t'
  else Ret t' tt.

(** Copy constructor, RH:3118-3143: reserve_for_insert (RH:4276-4279) and an insertion
    for each element. *)
Fixpoint r_unique_insert_all (alloc : N -> bool) (l : list (K * V)) (t : rmap) : out rmap unit :=
  match l with
  | [] => Ret t tt
  | kv :: l' => obind (r_unique_insert 64 alloc kv t) (fun t' _ => r_unique_insert_all alloc l' t')
  end.

Definition r_reserve_for_insert (alloc : N -> bool) (n : N) (t : rmap) : out rmap unit :=
  if r_min_require t n =? 0 then Ret t tt
  else match r_calc_capacity (r_min_require t n) with
       | Err e => Fail e
       | Ok cap => r_create alloc t cap
       end.

Definition r_copy (alloc : N -> bool) (other : rmap) : out rmap unit :=
  obind (r_reserve_for_insert alloc (r_size other) rnew) (fun t _ =>
  match r_traverse other with
  | Err e => Fail e
  | Ok l => r_unique_insert_all alloc l t
  end).

(** Move constructor, RH:3145-3169: the new map and the source afterwards.
    slot_threshold_ is taken from other.slot_size_, which is 0 at that point, and
    other.slot_threshold_ stays. *)
Definition r_move (other : rmap) : rmap * rmap :=
  (mkR (r_alloc other) (r_ctrls other) (r_slots other) (r_last other) (r_size other)
       (r_mask other) (r_lookups other) 0 (r_mlf other) (r_rev other),
   mkR false empty_ctrls [] LNull 0 0 rMinLookups (r_thr other) rDefaultMlf rDefaultRev).

(** swap_content, RH:6555-6568: last_slot_ is not exchanged. *)
Definition r_take (a b : rmap) : rmap :=
  mkR (r_alloc b) (r_ctrls b) (r_slots b)
      (match r_last a with LNull => LNull | _ => LOther end)
      (r_size b) (r_mask b) (r_lookups b) (r_thr b) (r_mlf b) (r_rev b).

Definition r_swap (a b : rmap) : rmap * rmap := (r_take a b, r_take b a).

(** Copy assignment, RH:3245-3252. *)
Definition r_assign (alloc : N -> bool) (t other : rmap) : out rmap unit :=
  match r_copy alloc other with
  | Ret tmp _ => Ret (r_take t tmp) tt
  | Throw _ => Throw t
  | Fail e => Fail e
  end.

(** One call; the calls and observations are those of TableModel.v. *)
Definition r_lift {A} (t : rmap) (f : A -> obs K V) (r : res A) : out rmap (obs K V) :=
  match r with Ok a => Ret t (f a) | Err e => Fail e end.

Definition r_find_obs (t : rmap) (k : K) : res (option (K * V)) :=
  rbind (r_find t k) (fun i =>
  if i =? r_end t then Ok None else rbind (r_deref t i) (fun kv => Ok (Some kv))).

Definition r_unit (r : out rmap unit) : out rmap (obs K V) :=
  obind r (fun t _ => Ret t (RUnit K V)).

Definition r_ins (r : out rmap (N * bool)) : out rmap (obs K V) :=
  obind r (fun t '(i, b) => r_lift t (fun kv => RIns K V kv b) (r_deref t i)).

Definition r_step (alloc : N -> bool) (o : op K V) (t : rmap) : out rmap (obs K V) :=
  match o with
  | OInsert _ _ k v => r_ins (r_emplace 64 alloc false k v t)
  | OAssign _ _ k v => r_ins (r_emplace 64 alloc true k v t)
  | OErase _ _ k => obind (r_erase k t) (fun t n => Ret t (RNum K V n))
  | OFind _ _ k => r_lift t (REntry K V) (r_find_obs t k)
  | OContains _ _ k => r_lift t (RBool K V) (r_contains t k)
  | OSize _ _ => Ret t (RNum K V (r_size t))
  | OClear _ _ b => r_unit (r_clear b t)
  | OReserve _ _ n => r_unit (r_rehash alloc n t)
  | ORehash _ _ n => r_unit (r_rehash alloc n t)
  | OShrink _ _ b => r_unit (r_shrink alloc b t)
  | OMlf _ _ m => r_unit (r_set_mlf alloc m t)
  end.

(** Calls in sequence, as [run] in RunModel.v. *)
Fixpoint r_run (calls : list ((N -> bool) * op K V)) (t : rmap)
  : res (list (option (obs K V)) * rmap) :=
  match calls with
  | [] => Ok ([], t)
  | (alloc, o) :: rest =>
      match r_step alloc o t with
      | Ret t' r => rbind (r_run rest t') (fun '(rs, t'') => Ok (Some r :: rs, t''))
      | Throw t' => rbind (r_run rest t') (fun '(rs, t'') => Ok (None :: rs, t''))
      | Fail e => Err e
      end
  end.

End Robin.
