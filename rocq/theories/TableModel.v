(** Model of /repo/src/jstd/hashmap/group15_flat_table.hpp and
    group16_flat_table.hpp, with the thin wrappers group15_flat_map.hpp and
    group16_flat_map.hpp.  In the citations below [T15] and [T16] stand for the
    two table files.  Both files contain the same functions; the record [kind]
    (GroupModel.v) holds the points where they differ.

    Simplifications that hold for the whole file:
    - SEPARATE_SLOTS: the memory layout (one block or two) is not visible here;
      it is modelled in LayoutModel.v.
    - Elements have a non-trivial destructor (is_slot_trivial_destructor = false),
      which is the case in which destruction is observable.
    - A moved element is a copied element; move constructors do not throw.
    - slot_mask_ of group16 is recomputed from group_mask_. *)
From Coq Require Import NArith List Bool.
From Verif Require Import Base BitsModel ProberModel GroupModel.
Import ListNotations.
Open Scope N_scope.

(** T15:229-235, T16:226-232. *)
Definition kAmplify : N := 256.       (* kLoadFactorAmplify *)
Definition kMinLoadFactor : N := 128. (* 0.5 * 256 *)
Definition kMaxLoadFactor : N := 224. (* 0.875 * 256 *)
Definition kDefaultMaxLoadFactor : N := 224.

Section Table.

Variables K V : Type.
(** hash_for(key), T15:1353-1371, T16:1314-1330: the user's hasher, followed by
    mum_mul_mix when the hasher is not avalanching. *)
Variable hash : K -> N.
(** key_equal_. *)
Variable keq : K -> K -> bool.
Variable kd : kind.

(** Fields T15:249-274, T16:246-272.  [t_alloc] says that slots_ is not null
    (equivalently that groups_ is not default_empty_groups()). *)
Record table := mkT {
  t_alloc : bool;
  t_groups : list group;
  t_slots : list (option (K * V));
  t_size : N;
  t_thr : N;
  t_gmask : N;
  t_shift : N;
  t_mlf : N
}.

(** The state set by the constructors T15:282-303, T16:277-297 before any storage
    exists, and by destroy (T15:1497-1548, T16:1458-1514). *)
Definition empty_table (mlf : N) : table :=
  mkT false (kd_static kd) [] 0 0 0 63 mlf.

(** ** Capacity arithmetic *)

(** T15:222-227, T16:219-224: both are kGroupWidth * 2. *)
Definition kMinCapacity : N := kd_W kd * 2.
Definition kSmallCapacity : N := kd_W kd * 2.

(** group_capacity, T15:557-559, T16:539-545. *)
Definition group_capacity (t : table) : N := wadd (t_gmask t) 1.
(** ctrl_capacity, T15:543-548, T16:534. *)
Definition ctrl_capacity (t : table) : N :=
  if t_alloc t then wmul (group_capacity t) (kd_W kd) else kd_empty_cap kd.
(** calc_slot_capacity, T15:1237-1240; T16:1944 (new_slot_capacity = new_capacity). *)
Definition calc_slot_capacity (gcap : N) : N :=
  if kd_sent kd then wsub (wmul gcap (kd_S kd)) 1 else wmul gcap (kd_W kd).
(** capacity() = safe_slot_capacity, T15:537, 578-580; T16:524, 531. *)
Definition capacity (t : table) : N :=
  if t_alloc t then calc_slot_capacity (group_capacity t) else 0.
(** calc_slot_threshold, T15:1242-1245, T16:1177-1180. *)
Definition calc_slot_threshold (mlf sc : N) : N :=
  if kSmallCapacity <? sc then wmul sc mlf / kAmplify else sc.
(** calc_index_shift, T15:1247-1254, T16:1182-1189. *)
Definition calc_index_shift (cap : N) : N :=
  64 - (if cap / kd_W kd <=? 2 then 1 else bsr (cap / kd_W kd)).
(** calc_group_capacity, T15:1260-1265; T16:1195-1199 and 1941. *)
Definition calc_group_capacity (cap : N) : N := wadd cap (kd_W kd - 1) / kd_W kd.
(** shrink_to_fit_capacity, T15:1297-1300, T16:1222-1225. *)
Definition shrink_to_fit_capacity (t : table) (n : N) : N := wmul n kAmplify / t_mlf t.
(** calc_capacity, T15:1213-1220, T16:1161-1168. *)
Definition calc_capacity (t : table) (n : N) : res N :=
  let c := N.max (N.max n kMinCapacity) (t_size t) in
  if is_pow2 c then Ok c else round_up kMinCapacity c.
(** need_grow, T15:1953-1955, T16:1846-1848. *)
Definition need_grow (t : table) : bool := t_thr t <=? t_size t.

(** ** Storage *)

(** set_sentinel_mark, T15:2038-2045 (the last group). *)
Definition set_sentinel_mark (gs : list group) (gcap : N) : list group :=
  if kd_sent kd
  then match geti gs (gcap - 1) with
       | Some g => seti gs (gcap - 1) (kd_set_sentinel kd g)
       | None => gs
       end
  else gs.

(** The control bytes of a cleared table: clear_groups/init_groups (T15:1551-1582,
    T16:1516-1552) followed by set_sentinel_mark. *)
Definition fresh_groups (gcap : N) : list group :=
  set_sentinel_mark (repeat (kd_init kd) (N.to_nat gcap)) gcap.

(** create_slots, T15:2049-2105, T16:1933-1980.  [alloc cap] tells whether the
    allocations made for a control capacity of [cap] succeed.  Nothing has been
    modified when an allocation throws. *)
Definition create_slots (alloc : N -> bool) (t : table) (cap : N) : out table unit :=
  if alloc cap then
    let gcap := calc_group_capacity cap in
    let sc := calc_slot_capacity gcap in
    Ret (mkT true (fresh_groups gcap) (repeat None (N.to_nat sc)) 0
             (calc_slot_threshold (t_mlf t) sc) (wsub gcap 1)
             (calc_index_shift cap) (t_mlf t)) tt
  else Throw t.

(** ** Lookup *)

(** slot_base + pos with slot_base = slots + group_index * kGroupSize, T15:2286-2291;
    T16:2132-2138 with kGroupWidth. *)
Definition slot_index (gi p : N) : N := gi * kd_S kd + p.

(** index_for_hash, T15:1400-1417, T16:1361-1378 (index shift, no salt). *)
Definition index_for_hash (t : table) (h : N) : N := N.shiftr h (t_shift t).
(** ctrl_for_hash, T15:1420-1434, T16:1381-1398 (look-up table). *)
Definition ctrl_for_hash (h : N) : N := kd_reduce kd h.

(** The inner do/while of find_impl, T15:2293-2300, T16:2137-2144: compare the
    keys of the candidate positions. *)
Fixpoint scan_keys (slots : list (option (K * V))) (k : K) (gi : N) (ps : list N)
  : res (option N) :=
  match ps with
  | [] => Ok None
  | p :: ps' =>
      match geti slots (slot_index gi p) with
      | Some (Some (k', _)) => if keq k k' then Ok (Some p) else scan_keys slots k gi ps'
      | _ => Err EUndef
      end
  end.

(** The outer do/while of find_impl, T15:2278-2321; find_index, T16:2129-2164.
    [Some (gi, pos)]: found there. *)
Fixpoint find_loop (fuel : nat) (t : table) (k : K) (ch : N) (pr : prober)
  : res (option (N * N)) :=
  match fuel with
  | O => Err ELoop
  | S f =>
      match geti (t_groups t) (pr_index pr) with
      | None => Err EUndef
      | Some g =>
          match scan_keys (t_slots t) k (pr_index pr) (positions (kd_match_hash kd g ch)) with
          | Err e => Err e
          | Ok (Some p) => Ok (Some (pr_index pr, p))
          | Ok None =>
              if negb (kd_is_overflow kd g ch) then Ok None
              else
                let '(pr', more) := next_bucket (t_gmask t) pr in
                if more then find_loop f t k ch pr' else Ok None
          end
      end
  end.

(** find_impl(key), T15:2269-2274; find_index(key), T16:2116-2121.  The fuel is one
    more than the number of groups (the prober stops by itself). *)
Definition find (t : table) (k : K) : res (option (N * N)) :=
  let h := hash k in
  find_loop (S (N.to_nat (t_gmask t))) t k (ctrl_for_hash h)
            (prober_init (index_for_hash t h)).

(** ** Insertion *)

(** The loop of find_empty_to_insert, T15:2337-2386, T16:2177-2210 (IsNoGrow = true:
    it has no exit but an empty slot).  The fuel is the number of groups. *)
Fixpoint find_empty_loop (fuel : nat) (gs : list group) (gmask ch : N) (pr : prober)
  : res (list group * (N * N)) :=
  match fuel with
  | O => Err ELoop
  | S f =>
      match geti gs (pr_index pr) with
      | None => Err EUndef
      | Some g =>
          let m := kd_match_empty kd g in
          if m =? 0 then
            find_empty_loop f (seti gs (pr_index pr) (kd_set_overflow kd g ch)) gmask ch
                            (fst (next_bucket gmask pr))
          else
            let p := bsf m in
            Ok (seti gs (pr_index pr) (kd_set_used kd g p ch), (pr_index pr, p))
      end
  end.

(** find_empty_to_insert, T15:2332-2389, T16:2171-2213.  [check] is !IsNoCheck.
    Called on a table without storage it would write to the constant groups. *)
Definition find_empty_to_insert (check : bool) (t : table) (h : N)
  : res (table * (N * N)) :=
  if negb (t_alloc t) then Err EUndef
  else
    let ch := ctrl_for_hash h in
    match find_empty_loop (S (N.to_nat (t_gmask t))) (t_groups t) (t_gmask t) ch
                          (prober_init (index_for_hash t h)) with
    | Err e => Err e
    | Ok (gs, (gi, p)) =>
        let deleted :=
          match geti gs gi with
          | Some g => check && kd_count_deleted kd && kd_is_overflow kd g ch
          | None => false
          end in
        Ok (mkT (t_alloc t) gs (t_slots t) (t_size t)
                (if deleted then wadd (t_thr t) 1 else t_thr t)
                (t_gmask t) (t_shift t) (t_mlf t), (gi, p))
    end.

(** SlotPolicyTraits::construct(slot, value); slot_size_++ (for example
    T15:2519-2520, T16:2330-2331). *)
Definition construct_at (t : table) (i : N) (kv : K * V) : res table :=
  match geti (t_slots t) i with
  | Some None =>
      Ok (mkT (t_alloc t) (t_groups t) (seti (t_slots t) i (Some kv)) (wadd (t_size t) 1)
              (t_thr t) (t_gmask t) (t_shift t) (t_mlf t))
  | _ => Err EUndef
  end.

(** no_grow_unique_insert(slot), T15:2471-2481, T16:2295-2305 and the first half of
    no_grow_unique_transfer_insert. *)
Definition no_grow_unique_insert (t : table) (kv : K * V) : res table :=
  match find_empty_to_insert false t (hash (fst kv)) with
  | Err e => Err e
  | Ok (t', (gi, p)) => construct_at t' (slot_index gi p) kv
  end.

(** ** Loops over the used slots *)

Section Each.
  Variable St : Type.
  Variable f : N -> N -> St -> res St.

  (** Inner loop over one group, stopping at the sentinel (T15:2141-2154 and
      1609-1621; T16:2014-2021 and 1564-1570, without a sentinel). *)
  Fixpoint each_pos (g : group) (gi : N) (ps : list N) (st : St) : res St :=
    match ps with
    | [] => Ok st
    | p :: ps' =>
        if kd_is_sentinel kd g p then Ok st
        else rbind (f gi p st) (each_pos g gi ps')
    end.

  (** Outer loop over the groups (T15:2138-2157 and 1605-1624; T16:2012-2024 and
      1563-1572). *)
  Fixpoint each_group (gs : list group) (gi : N) (st : St) : res St :=
    match gs with
    | [] => Ok st
    | g :: gs' =>
        rbind (each_pos g gi (positions (kd_match_used kd g)) st)
              (each_group gs' (gi + 1))
    end.
End Each.

Definition is_none {A} (o : option A) : bool :=
  match o with None => true | Some _ => false end.

(** no_grow_unique_transfer_insert(old_slot), T15:2444-2454, T16:2268-2278: insert in
    the new arrays, destroy the old slot.  State: new table and old slots. *)
Definition transfer (gi p : N) (st : table * list (option (K * V)))
  : res (table * list (option (K * V))) :=
  let '(nt, os) := st in
  match geti os (slot_index gi p) with
  | Some (Some kv) =>
      match no_grow_unique_insert nt kv with
      | Ok nt' => Ok (nt', seti os (slot_index gi p) None)
      | Err e => Err e
      end
  | _ => Err EUndef
  end.

(** rehash_impl<AllowShrink>, T15:2109-2182, T16:1984-2046. *)
Definition rehash_impl (alloc : N -> bool) (allow_shrink : bool) (t : table) (n : N)
  : out table unit :=
  match calc_capacity t n with
  | Err e => Fail e
  | Ok cap =>
      if (if allow_shrink then negb (cap =? ctrl_capacity t) else ctrl_capacity t <? cap) then
        match create_slots alloc t cap with
        | Ret nt _ =>
            if t_alloc t then
              match each_group _ transfer (t_groups t) 0 (nt, t_slots t) with
              | Ok (nt', os) => if forallb is_none os then Ret nt' tt else Fail ELeak
              | Err e => Fail e
              end
            else Ret nt tt
        | Throw t' => Throw t'
        | Fail e => Fail e
        end
      else Ret t tt
  end.

(** grow_if_necessary, T15:1958-1962, T16:1851-1855. *)
Definition grow_if_necessary (alloc : N -> bool) (t : table) : out table unit :=
  rehash_impl alloc false t (wmul (ctrl_capacity t) 2).

(** find_or_insert, T15:2393-2427, T16:2217-2251: the position and whether a new
    element must be constructed there. *)
Definition find_or_insert (alloc : N -> bool) (t : table) (k : K)
  : out table ((N * N) * bool) :=
  match find t k with
  | Err e => Fail e
  | Ok (Some loc) => Ret t (loc, false)
  | Ok None =>
      obind (if need_grow t then grow_if_necessary alloc t else Ret t tt)
            (fun t1 _ =>
               match find_empty_to_insert true t1 (hash k) with
               | Ok (t2, loc) => Ret t2 (loc, true)
               | Err e => Fail e
               end)
  end.

(** emplace_impl<AlwaysUpdate>, T15:2507-2719, T16:2319-2560, and try_emplace_impl,
    T15:2725-2761, T16:2563-2586.  [ctor_ok]: the element's constructor does not
    throw.  Returns the slot of the resulting iterator and the inserted flag. *)
Definition emplace_impl (alloc : N -> bool) (always_update ctor_ok : bool)
           (t : table) (k : K) (v : V) : out table (N * bool) :=
  obind (find_or_insert alloc t k)
        (fun t1 r =>
           let '((gi, p), need_insert) := r in
           let i := slot_index gi p in
           if need_insert then
             if ctor_ok then
               match construct_at t1 i (k, v) with
               | Ok t2 => Ret t2 (i, true)
               | Err e => Fail e
               end
             else Throw t1
           else if always_update then
             match geti (t_slots t1) i with
             | Some (Some (k', _)) =>
                 Ret (mkT (t_alloc t1) (t_groups t1) (seti (t_slots t1) i (Some (k', v)))
                          (t_size t1) (t_thr t1) (t_gmask t1) (t_shift t1) (t_mlf t1))
                     (i, false)
             | _ => Fail EUndef
             end
           else Ret t1 (i, false)).

(** ** Erasure *)

(** erase_slot and reset_ctrl, T15:2780-2801, T16:2589-2613 (maybe_caused_overflow
    T15:2764-2767, T16:2589-2594). *)
Definition erase_slot (t : table) (gi p : N) : res table :=
  match geti (t_slots t) (slot_index gi p), geti (t_groups t) gi with
  | Some (Some _), Some g =>
      let overflow := kd_is_overflow kd g (byte g p) in
      Ok (mkT (t_alloc t) (seti (t_groups t) gi (kd_set_empty kd g p))
              (seti (t_slots t) (slot_index gi p) None)
              (wsub (t_size t) 1)
              (wsub (t_thr t) (N.b2n overflow))
              (t_gmask t) (t_shift t) (t_mlf t))
  | _, _ => Err EUndef
  end.

(** find_and_erase, T15:2804-2816, T16:2616-2628. *)
Definition find_and_erase (t : table) (k : K) : out table N :=
  match find t k with
  | Err e => Fail e
  | Ok None => Ret t 0
  | Ok (Some (gi, p)) =>
      match erase_slot t gi p with
      | Ok t' => Ret t' 1
      | Err e => Fail e
      end
  end.

(** destroy_slot of one position inside clear_slots. *)
Definition destroy_one (gi p : N) (os : list (option (K * V)))
  : res (list (option (K * V))) :=
  match geti os (slot_index gi p) with
  | Some (Some _) => Ok (seti os (slot_index gi p) None)
  | _ => Err EUndef
  end.

(** clear_slots, T15:1599-1647, T16:1555-1592. *)
Definition clear_slots (t : table) : res table :=
  match (if t_alloc t then each_group _ destroy_one (t_groups t) 0 (t_slots t)
         else Ok (t_slots t)) with
  | Err e => Err e
  | Ok os =>
      Ok (mkT (t_alloc t) (t_groups t) os 0 (t_thr t) (t_gmask t) (t_shift t) (t_mlf t))
  end.

(** clear_data, T15:1584-1591, T16:1543-1547.  T15 marks the sentinel even when the
    groups are the constant default groups. *)
Definition clear_data (t : table) : res table :=
  match clear_slots t with
  | Err e => Err e
  | Ok t' =>
      if t_alloc t' then
        Ok (mkT true (fresh_groups (group_capacity t')) (t_slots t') (t_size t')
                (t_thr t') (t_gmask t') (t_shift t') (t_mlf t'))
      else if kd_sent kd then Err EUndef else Ok t'
  end.

(** destroy<true>, T15:1491-1548, T16:1458-1514. *)
Definition destroy (t : table) : res table :=
  match clear_slots t with
  | Err e => Err e
  | Ok t' => if forallb is_none (t_slots t') then Ok (empty_table (t_mlf t')) else Err ELeak
  end.

Definition lift (r : res table) : out table unit :=
  match r with Ok t => Ret t tt | Err e => Fail e end.

(** clear(need_destroy), T15:823-830, T16:769-776. *)
Definition clear (need_destroy : bool) (t : table) : out table unit :=
  lift (if need_destroy then destroy t else clear_data t).

(** ** Capacity operations *)

(** reserve, T15:732-739, T16:668-675. *)
Definition reserve (alloc : N -> bool) (n : N) (t : table) : out table unit :=
  if negb (n =? 0) then rehash_impl alloc false t (shrink_to_fit_capacity t n)
  else lift (destroy t).

(** rehash, T15:750-758 (rehash_impl<false>), T16:696-704 (rehash_impl<true>). *)
Definition rehash (alloc : N -> bool) (n : N) (t : table) : out table unit :=
  let n' := N.max (shrink_to_fit_capacity t (t_size t)) n in
  if negb (n' =? 0) then rehash_impl alloc (kd_rehash_shrinks kd) t n'
  else lift (destroy t).

(** shrink_to_fit(read_only), T15:761-772, T16:707-718. *)
Definition shrink_to_fit (alloc : N -> bool) (read_only : bool) (t : table)
  : out table unit :=
  let n := if read_only then t_size t else shrink_to_fit_capacity t (t_size t) in
  if negb (n =? 0) then rehash_impl alloc true t n else lift (destroy t).

Definition set_mlf (t : table) (m : N) : table :=
  mkT (t_alloc t) (t_groups t) (t_slots t) (t_size t) (t_thr t) (t_gmask t) (t_shift t) m.

(** max_load_factor(float), T15:620-634, T16:579-593.  [m] is the argument times 256,
    rounded down (NaN excluded). *)
Definition max_load_factor (alloc : N -> bool) (m : N) (t : table) : out table unit :=
  let m := N.min kMaxLoadFactor (N.max kMinLoadFactor m) in
  let t1 := set_mlf t m in
  match calc_capacity t1 (shrink_to_fit_capacity t1 (ctrl_capacity t1)) with
  | Err e => Fail e
  | Ok cap => if ctrl_capacity t1 <? cap then rehash alloc cap t1 else Ret t1 tt
  end.

(** reserve_for_insert, T15:713-720, T16:678-685. *)
Definition reserve_for_insert (alloc : N -> bool) (n : N) (t : table) : out table unit :=
  match calc_capacity t (shrink_to_fit_capacity t n) with
  | Err e => Fail e
  | Ok cap => create_slots alloc t cap
  end.

(** Constructor with an initial capacity, T15:282-308, T16:277-301. *)
Definition construct (alloc : N -> bool) (n : N) : out table unit :=
  let t := empty_table kDefaultMaxLoadFactor in
  if negb (n =? 0) then reserve_for_insert alloc n t else Ret t tt.

(** ** Reading *)

(** find/at/contains/count, T15:778-817, T16:724-763: the stored entry. *)
Definition lookup (t : table) (k : K) : res (option (K * V)) :=
  match find t k with
  | Err e => Err e
  | Ok None => Ok None
  | Ok (Some (gi, p)) =>
      match geti (t_slots t) (slot_index gi p) with
      | Some (Some kv) => Ok (Some kv)
      | _ => Err EUndef
      end
  end.

(** ** Operations of the map as one type *)

Inductive op :=
| OInsert (k : K) (v : V)        (* insert / emplace / try_emplace, and operator[] with a default value *)
| OAssign (k : K) (v : V)        (* insert_or_assign *)
| OErase (k : K)                 (* erase(key) *)
| OFind (k : K)                  (* find / at / operator[] on a present key *)
| OContains (k : K)              (* contains / count *)
| OSize                          (* size *)
| OClear (need_destroy : bool)
| OReserve (n : N)
| ORehash (n : N)
| OShrink (read_only : bool)
| OMlf (m : N).

Inductive obs :=
| RIns (kv : K * V) (inserted : bool)   (* what the returned iterator points to *)
| RNum (n : N)
| REntry (e : option (K * V))
| RBool (b : bool)
| RUnit.

Definition entry_at (t : table) (i : N) : res (K * V) :=
  match geti (t_slots t) i with
  | Some (Some kv) => Ok kv
  | _ => Err EUndef
  end.

Definition observe_ins (r : out table (N * bool)) : out table obs :=
  obind r (fun t' r =>
             match entry_at t' (fst r) with
             | Ok kv => Ret t' (RIns kv (snd r))
             | Err e => Fail e
             end).

Definition observe_res {A} (t : table) (f : A -> obs) (r : res A) : out table obs :=
  match r with Ok a => Ret t (f a) | Err e => Fail e end.

(** One call.  group15_flat_map.hpp / group16_flat_map.hpp forward each member to
    the table; element constructors do not throw here. *)
Definition step (alloc : N -> bool) (o : op) (t : table) : out table obs :=
  match o with
  | OInsert k v => observe_ins (emplace_impl alloc false true t k v)
  | OAssign k v => observe_ins (emplace_impl alloc true true t k v)
  | OErase k => obind (find_and_erase t k) (fun t' n => Ret t' (RNum n))
  | OFind k => observe_res t REntry (lookup t k)
  | OContains k => observe_res t (fun e => RBool (negb (is_none e))) (lookup t k)
  | OSize => Ret t (RNum (t_size t))
  | OClear b => obind (clear b t) (fun t' _ => Ret t' RUnit)
  | OReserve n => obind (reserve alloc n t) (fun t' _ => Ret t' RUnit)
  | ORehash n => obind (rehash alloc n t) (fun t' _ => Ret t' RUnit)
  | OShrink b => obind (shrink_to_fit alloc b t) (fun t' _ => Ret t' RUnit)
  | OMlf m => obind (max_load_factor alloc m t) (fun t' _ => Ret t' RUnit)
  end.

End Table.
