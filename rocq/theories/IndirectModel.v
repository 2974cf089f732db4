(** Model of /repo/src/jstd/hashmap/robin_hash_map.h ([RH] below) with the layout that it
    selects for keys or values of more than eight bytes that have a destructor, such as
    robin_hash_map<std::string, std::string>, and for those of more than sixteen bytes
    without one (RH:328-348): kIsIndirectKV = kNeedStoreHash = true.  The elements are
    stored one after another in the slots 0 .. size - 1; the controls, of type
    ctrl_data<void, true, true> (RH:1120-1470), are the hash table and hold the number
    of the slot.

    Shared with the other layout (RobinModel.v): capacities, load factors and the
    number of extra positions. *)
From Coq Require Import NArith ZArith List Bool.
From Verif Require Import Base BitsModel GroupModel HashModel TableModel RobinModel.
Import ListNotations.
Open Scope N_scope.

(** RH:2377: a group is four controls of eight bytes. *)
Definition iGroupWidth : N := 4.

(** One control, RH:1128-1155: the bytes dist and hash and the 32-bit index.  The sixteen
    bits in between (reserve) are 0 everywhere. *)
Record ictl := mkC { c_dist : N; c_hash : N; c_idx : N }.

(** setEmpty, RH:1268-1270, and kEmptySlot64, RH:386; the marks behind the end,
    RH:387. *)
Definition iEmpty : ictl := mkC cEmpty 0 0.
Definition iEndOf : ictl := mkC cEndOf 0 0.

(** getLow, RH:1260-1262: the low sixteen bits, signed. *)
Definition s16 (x : N) : Z := if x <? 32768 then Z.of_N x else (Z.of_N x - 65536)%Z.
Definition low16 (c : ictl) : Z := s16 (c_dist c * 256 + c_hash c).

(** The 64-bit number [value] of a control (RH:1153), whose sign bit is the top bit
    of the index. *)
Definition value64 (c : ictl) : Z :=
  let x := c_idx c * two32 + c_dist c * 256 + c_hash c in
  if x <? 2 ^ 63 then Z.of_N x else (Z.of_N x - 2 ^ 64)%Z.

(** incDist and decDist, RH:1322-1328, on the low sixteen bits. *)
Definition c_inc (c : ictl) : ictl := mkC (inc8 (c_dist c)) (c_hash c) (c_idx c).
Definition c_dec (c : ictl) : ictl := mkC (dec8 (c_dist c)) (c_hash c) (c_idx c).

(** What an iterator or a pointer to a slot refers to: nothing, a slot of the own
    array, or something in another array. *)
Inductive iptr := INull | ISlot (n : N) | IOther.

Section Indirect.

Variables K V : Type.
Variable hash : K -> N.
Variable keq : K -> K -> bool.

(** Members, RH:3031-3040. *)
Record imap := mkI {
  i_alloc : bool;
  i_ctrls : list ictl;
  i_slots : list (option (K * V));
  i_last : lastp;
  i_size : N;
  i_mask : N;
  i_lookups : N;
  i_thr : N;
  i_mlf : N;
  i_rev : N
}.

(** s_empty_ctrls11, RH:3830-3833. *)
Definition iempty_ctrls : list ictl := repeat iEmpty 4 ++ repeat iEndOf 4.

(** Default constructor, RH:3053-3071. *)
Definition inew : imap :=
  mkI false iempty_ctrls [] LNull 0 0 rMinLookups 0 rDefaultMlf rDefaultRev.

(** slot_capacity, max_slot_capacity and group_count, RH:3278-3301. *)
Definition i_slot_capacity (t : imap) : N :=
  if i_mask t =? 0 then i_mask t else wadd (i_mask t) 1.
Definition i_max_slot_capacity (t : imap) : N := wadd (i_slot_capacity t) (i_lookups t).
Definition i_group_count (t : imap) : N :=
  wadd (i_max_slot_capacity t) (iGroupWidth - 1) / iGroupWidth.

(** need_grow, RH:4266-4268; min_require_capacity, RH:3869-3872. *)
Definition i_need_grow (t : imap) : bool := i_thr t <=? i_size t.
Definition i_min_require (t : imap) (n : N) : N := wmul n (i_rev t) / 256.

(** clear_ctrls, RH:4246-4264, on an array of [len] controls, for a capacity of at
    least four: the groups 0 .. group_count are filled. *)
Definition i_clear_ctrls (ctrls : list ictl) (gc : N) : res (list ictl) :=
  let n := (gc + 1) * iGroupWidth in
  if n <=? N.of_nat (length ctrls)
  then Ok (repeat iEmpty (N.to_nat n) ++ skipn (N.to_nat n) ctrls)
  else Err EUndef.

(** create_slots<false>, RH:4328-4398, for a capacity that is not 0. *)
Definition i_create (alloc : N -> bool) (t : imap) (cap : N) : out imap unit :=
  let lookups := r_calc_lookups cap in
  let total := wadd cap lookups in
  let gc := wadd total (iGroupWidth - 1) / iGroupWidth in
  if alloc total then
    Ret (mkI true (repeat iEmpty (N.to_nat ((gc + 1) * iGroupWidth)))
             (repeat None (N.to_nat total)) (LEnd total)
             0 (wsub cap 1) lookups (wmul cap (i_mlf t) / 256) (i_mlf t) (i_rev t)) tt
  else Throw (mkI (i_alloc t) (i_ctrls t) (i_slots t) (i_last t) (i_size t) (i_mask t)
                  lookups (i_thr t) (i_mlf t) (i_rev t)).

(** index_for_hash, RH:3991-4006, and get_ctrl_hash, RH:4010-4033. *)
Definition i_home (t : imap) (k : K) : N := N.land (hash k) (i_mask t).
Definition ctrl_hash (k : K) : N := N.land (fibonacci_hash64 (hash k)) 255.

(** The loop [while (dist_and_0.getLow() <= ctrl->getLow())] of indirect_find
    (RH:5234-5245), indirect_find_index (RH:5440-5453), indirect_find_and_insert
    (RH:5631-5644), and, without comparing keys, of indirect_find_failed
    (RH:5693-5697) and indirect_find_and_insert_no_grow (RH:6213-6216).  Result: the
    position of the control with the equal key, or where the loop stops. *)
Fixpoint i_scan (fuel : nat) (ctrls : list ictl) (slots : list (option (K * V)))
    (key : option K) (i d : N) : res scanned :=
  match fuel with
  | O => Err ELoop
  | S fuel' =>
      match geti ctrls i with
      | None => Err EUndef
      | Some c =>
          if (s16 (d * 256) <=? low16 c)%Z then
            match key with
            | None => i_scan fuel' ctrls slots key (i + 1) (inc8 d)
            | Some k =>
                if c_hash c =? ctrl_hash k then
                  match geti slots (c_idx c) with
                  | Some (Some kv) =>
                      if keq (fst kv) k then Ok (Found i)
                      else i_scan fuel' ctrls slots key (i + 1) (inc8 d)
                  | _ => Err EUndef
                  end
                else i_scan fuel' ctrls slots key (i + 1) (inc8 d)
            end
          else Ok (Stop i d)
      end
  end.

Definition i_search (t : imap) (cmp : bool) (k : K) : res scanned :=
  i_scan (S (length (i_ctrls t))) (i_ctrls t) (i_slots t) (if cmp then Some k else None)
         (i_home t k) 0.

(** The loop of indirect_insert_to_place, RH:5793-5816: [rich] is the control that is
    looking for a place.  Without one it is left at [ins], whose control is lost. *)
Fixpoint i_place (fuel : nat) (rehashing : bool) (last ins : N) (ctrls : list ictl)
    (i : N) (rich : ictl) : res (list ictl * bool) :=
  match fuel with
  | O => Err ELoop
  | S fuel' =>
      if i <? last then
        match geti ctrls i with
        | None => Err EUndef
        | Some c =>
            if c_dist c =? cEmpty then Ok (seti ctrls i rich, true)
            else
              let step ctrls' rich' :=
                let r := c_inc rich' in
                if negb rehashing && (127 <? c_dist r)
                then Ok (seti ctrls' ins r, false)
                else i_place fuel' rehashing last ins ctrls' (i + 1) r in
              if (s8 (c_dist c) <? s8 (c_dist rich))%Z then step (seti ctrls i rich) c
              else step ctrls rich
        end
      else Ok (seti ctrls ins rich, false)
  end.

(** indirect_insert_to_place, RH:5780-5817. *)
Definition i_insert_to_place (rehashing : bool) (t : imap) (ins : N) (new : ictl)
  : res (list ictl * bool) :=
  match geti (i_ctrls t) ins with
  | Some c =>
      i_place (S (length (i_ctrls t))) rehashing (i_max_slot_capacity t) ins
              (seti (i_ctrls t) ins new) (ins + 1) (c_inc c)
  | None => Err EUndef
  end.

Definition i_with (t : imap) (ctrls : list ictl) (slots : list (option (K * V))) (size : N)
  : imap :=
  mkI (i_alloc t) ctrls slots (i_last t) size (i_mask t) (i_lookups t) (i_thr t)
      (i_mlf t) (i_rev t).

(** Construction of an element in the free slot [size]; size_ + 1. *)
Definition i_construct (t : imap) (ctrls : list ictl) (kv : K * V) : res imap :=
  match geti (i_slots t) (i_size t) with
  | Some None =>
      Ok (i_with t ctrls (seti (i_slots t) (i_size t) (Some kv)) (wadd (i_size t) 1))
  | _ => Err EUndef
  end.

(** The end of indirect_find_and_insert (RH:5653-5665) and of
    indirect_find_and_insert_no_grow (RH:6218-6231), with the construction by the
    caller.  The index is a 32-bit number.  Storing into the constant controls of a
    map without storage is undefined. *)
Definition i_insert_at (rehashing : bool) (t : imap) (i d : N) (kv : K * V)
  : res (imap * bool) :=
  if i_alloc t then
    let new := mkC d (ctrl_hash (fst kv)) (w32 (i_size t)) in
    match geti (i_ctrls t) i with
    | None => Err EUndef
    | Some c =>
        if c_dist c =? cEmpty then
          rbind (i_construct t (seti (i_ctrls t) i new) kv) (fun t' => Ok (t', true))
        else
          rbind (i_insert_to_place rehashing t i new) (fun '(ctrls, ok) =>
          if ok || rehashing
          then rbind (i_construct t ctrls kv) (fun t' => Ok (t', true))
          else Ok (i_with t ctrls (i_slots t) (i_size t), false))
    end
  else Err EUndef.

(** indirect_insert_no_grow, RH:6203-6232 and RH:6287-6293. *)
Definition i_insert_no_grow (t : imap) (kv : K * V) : res imap :=
  rbind (i_search t false (fst kv)) (fun s =>
  match s with
  | Found _ => Err EUndef
  | Stop i d => rbind (i_insert_at true t i d kv) (fun '(t', _) => Ok t')
  end).

Fixpoint i_insert_all (l : list (K * V)) (t : imap) : res imap :=
  match l with
  | [] => Ok t
  | kv :: l' => rbind (i_insert_no_grow t kv) (i_insert_all l')
  end.

(** The slots [is] in order. *)
Fixpoint i_read (slots : list (option (K * V))) (is : list N) : res (list (K * V)) :=
  match is with
  | [] => Ok []
  | i :: is' =>
      match geti slots i with
      | Some (Some kv) => rbind (i_read slots is') (fun l => Ok (kv :: l))
      | _ => Err EUndef
      end
  end.

(** The elements that rehash_impl moves, RH:4589-4598: all slots below the size. *)
Definition i_elements (t : imap) : res (list (K * V)) :=
  if i_alloc t then i_read (i_slots t) (seqN (i_size t)) else Ok [].

(** rehash_impl, RH:4400-4644.  Reading the elements of the old arrays first is no
    different from moving them one by one, since the arrays are distinct. *)
Definition i_rehash_impl (allow_shrink always : bool) (alloc : N -> bool) (t : imap) (n : N)
  : out imap unit :=
  match r_calc_capacity n with
  | Err e => Fail e
  | Ok cap =>
      if always || (negb allow_shrink && (i_slot_capacity t <? cap))
         || (allow_shrink && negb (cap =? i_slot_capacity t))
      then
        obind (i_create alloc t cap) (fun t0 _ =>
        match rbind (i_elements t) (fun l => i_insert_all l t0) with
        | Ok t' => Ret t' tt
        | Err e => Fail e
        end)
      else Ret t tt
  end.

(** grow_if_necessary, RH:4270-4273. *)
Definition i_grow (alloc : N -> bool) (t : imap) : out imap unit :=
  i_rehash_impl false true alloc t (wmul (wadd (i_mask t) 1) 2).

(** emplace_impl<AlwaysUpdate>, RH:5870-5893, with indirect_find_and_insert,
    RH:5618-5666: the number of the slot, and whether it is new.  The recursion after
    kNeedGrow is counted by [fuel]: each round doubles the capacity. *)
Fixpoint i_emplace (fuel : nat) (alloc : N -> bool) (update : bool) (k : K) (v : V) (t : imap)
  : out imap (N * bool) :=
  match fuel with
  | O => Fail ELoop
  | S fuel' =>
      match i_search t true k with
      | Err e => Fail e
      | Ok (Found i) =>
          match geti (i_ctrls t) i with
          | Some c =>
              match geti (i_slots t) (c_idx c) with
              | Some (Some kv) =>
                  Ret (if update
                       then i_with t (i_ctrls t) (seti (i_slots t) (c_idx c) (Some (fst kv, v)))
                                   (i_size t)
                       else t) (c_idx c, false)
              | _ => Fail EUndef
              end
          | None => Fail EUndef
          end
      | Ok (Stop i d) =>
          let grow := i_need_grow t || (127 <? d) in
          obind (if grow then i_grow alloc t else Ret t tt) (fun t1 _ =>
          match (if grow then i_search t1 false k else Ok (Stop i d)) with
          | Err e => Fail e
          | Ok (Found _) => Fail EUndef
          | Ok (Stop i d) =>
              match i_insert_at false t1 i d (k, v) with
              | Err e => Fail e
              | Ok (t2, true) => Ret t2 (i_size t1, true)
              | Ok (t2, false) =>
                  obind (i_grow alloc t2) (fun t3 _ => i_emplace fuel' alloc update k v t3)
              end
          end)
      end
  end.

(** The loop of indirect_erase_slot, RH:6506-6518: the followers of position [i] move
    up as long as they are not at home; then setUnusedCtrl. *)
Fixpoint i_shift (fuel : nat) (ctrls : list ictl) (i : N) : res (list ictl) :=
  match fuel with
  | O => Err ELoop
  | S fuel' =>
      match geti ctrls (i + 1) with
      | None => Err EUndef
      | Some c =>
          if (s8 (c_dist c) <=? 0)%Z then Ok (seti ctrls i iEmpty)
          else i_shift fuel' (seti ctrls i (c_dec c)) (i + 1)
      end
  end.

(** The loop of find_ctrl, RH:6486-6490. *)
Fixpoint i_find_ctrl (fuel : nat) (ctrls : list ictl) (target i : N) : res N :=
  match fuel with
  | O => Err ELoop
  | S fuel' =>
      match geti ctrls i with
      | None => Err EUndef
      | Some c => if c_idx c =? target then Ok i else i_find_ctrl fuel' ctrls target (i + 1)
      end
  end.

(** indirect_erase_slot, RH:6495-6535, for the control at position [i]. *)
Definition i_erase_slot (t : imap) (i : N) : res imap :=
  match geti (i_ctrls t) i with
  | None => Err EUndef
  | Some c0 =>
      rbind (i_shift (S (length (i_ctrls t))) (i_ctrls t) i) (fun ctrls =>
      let size := wsub (i_size t) 1 in
      match geti (i_slots t) size with
      | Some (Some lastkv) =>
          if c_idx c0 =? size then Ok (i_with t ctrls (seti (i_slots t) size None) size)
          else
            match geti (i_slots t) (c_idx c0) with
            | Some (Some _) =>
                rbind (i_find_ctrl (S (length ctrls)) ctrls size (i_home t (fst lastkv))) (fun p =>
                match geti ctrls p with
                | Some cl =>
                    Ok (i_with t (seti ctrls p (mkC (c_dist cl) (c_hash cl) (w32 (c_idx c0))))
                               (seti (seti (i_slots t) (c_idx c0) (Some lastkv)) size None) size)
                | None => Err EUndef
                end)
            | _ => Err EUndef
            end
      | _ => Err EUndef
      end)
  end.

(** find_and_erase, RH:6424-6437: max_slot_capacity stands for a miss. *)
Definition i_erase (k : K) (t : imap) : out imap N :=
  match i_search t true k with
  | Err e => Fail e
  | Ok (Stop _ _) => Ret t 0
  | Ok (Found i) =>
      if i =? i_max_slot_capacity t then Ret t 0
      else match i_erase_slot t i with Ok t' => Ret t' 1 | Err e => Fail e end
  end.

(** last_slot(), the pointer that stands for a miss. *)
Definition i_last_ptr (t : imap) : iptr :=
  match i_last t with LNull => INull | LEnd n => ISlot n | LOther => IOther end.

(** end(), RH:3406-3418: the slot behind the last element. *)
Definition i_end (t : imap) : iptr := if i_alloc t then ISlot (i_size t) else INull.

(** find, RH:3552-3562, with indirect_find, RH:5222-5247. *)
Definition i_find (t : imap) (k : K) : res iptr :=
  rbind (i_search t true k) (fun s =>
  match s with
  | Found i => match geti (i_ctrls t) i with
               | Some c => Ok (ISlot (c_idx c))
               | None => Err EUndef
               end
  | Stop _ _ => Ok (i_last_ptr t)
  end).

(** operator == of pointers. *)
Definition ptr_eq (p q : iptr) : bool :=
  match p, q with
  | INull, INull => true
  | ISlot a, ISlot b => a =? b
  | IOther, IOther => true
  | _, _ => false
  end.

(** contains, RH:3547-3550. *)
Definition i_contains (t : imap) (k : K) : res bool :=
  rbind (i_find t k) (fun p => Ok (negb (ptr_eq p (i_last_ptr t)))).

(** The element that an iterator refers to, RH:2994-2996. *)
Definition i_deref (t : imap) (p : iptr) : res (K * V) :=
  match p with
  | ISlot n => match geti (i_slots t) n with Some (Some kv) => Ok kv | _ => Err EUndef end
  | _ => Err EUndef
  end.

(** find as a caller uses it: compare with end(), else read the entry. *)
Definition i_find_obs (t : imap) (k : K) : res (option (K * V)) :=
  rbind (i_find t k) (fun p =>
  if ptr_eq p (i_end t) then Ok None else rbind (i_deref t p) (fun kv => Ok (Some kv))).

(** for (it = begin(); it != end(); ++it) collect *it: begin(), RH:3389-3394; the
    iterator is a pointer, RH:2972-2975. *)
Fixpoint i_walk (fuel : nat) (t : imap) (n : N) : res (list (K * V)) :=
  match fuel with
  | O => Err ELoop
  | S fuel' =>
      if n =? i_size t then Ok []
      else rbind (i_deref t (ISlot n)) (fun kv =>
           rbind (i_walk fuel' t (n + 1)) (fun l => Ok (kv :: l)))
  end.

Definition i_traverse (t : imap) : res (list (K * V)) :=
  i_walk (S (length (i_slots t))) t (if i_size t =? 0 then i_size t else 0).

(** clear_slots, RH:4233-4241: the slots below the size are destroyed. *)
Fixpoint i_destroy (slots : list (option (K * V))) (is : list N) : res (list (option (K * V))) :=
  match is with
  | [] => Ok slots
  | i :: is' =>
      match geti slots i with
      | Some (Some _) => i_destroy (seti slots i None) is'
      | _ => Err EUndef
      end
  end.

(** clear_data, RH:4210-4216.  The controls of a map without storage are a
    constant. *)
Definition i_clear_data (t : imap) : out imap unit :=
  if i_alloc t then
    match i_destroy (i_slots t) (seqN (i_size t)), i_clear_ctrls (i_ctrls t) (i_group_count t) with
    | Ok slots, Ok ctrls => Ret (i_with t ctrls slots 0) tt
    | Err e, _ | _, Err e => Fail e
    end
  else Fail EUndef.

(** destroy_data and reset<false>, RH:4175-4208 and RH:4281-4296. *)
Definition i_destroyed (t : imap) : imap :=
  mkI false iempty_ctrls [] LNull 0 0 rMinLookups 0 (i_mlf t) (i_rev t).

(** clear, RH:3504-3515. *)
Definition i_clear (need_destroy : bool) (t : imap) : out imap unit :=
  if (0 <? i_slot_capacity t) && need_destroy then
    match i_destroy (i_slots t) (seqN (i_size t)) with
    | Ok _ => Ret (i_destroyed t) tt
    | Err e => Fail e
    end
  else i_clear_data t.

(** rehash / reserve / resize, RH:3517-3531, with read_only = false;
    shrink_to_fit, RH:3533-3540. *)
Definition i_rehash (alloc : N -> bool) (n : N) (t : imap) : out imap unit :=
  i_rehash_impl true false alloc t (N.max (i_min_require t n) (i_size t)).

Definition i_shrink (alloc : N -> bool) (read_only : bool) (t : imap) : out imap unit :=
  i_rehash_impl true false alloc t
    (if read_only then i_size t else i_min_require t (i_size t)).

(** max_load_factor(m / 256), RH:3316-3335. *)
Definition i_set_mlf (alloc : N -> bool) (m : N) (t : imap) : out imap unit :=
  let '(mlf, rev) := r_clamp m in
  let t' := mkI (i_alloc t) (i_ctrls t) (i_slots t) (i_last t) (i_size t) (i_mask t)
                (i_lookups t) (i_thr t) mlf rev in
  if (i_thr t' <? i_size t') && (i_slot_capacity t' <? i_min_require t' (i_size t'))
  then i_rehash alloc (i_size t') t'
  else Ret t' tt.

(** The loop [while (dist_and_0.value <= ctrl->value)] of unique_find_and_insert,
    RH:6324-6327, which compares all 64 bits.  incDist changes the low sixteen
    bits only. *)
Fixpoint i_scan64 (fuel : nat) (ctrls : list ictl) (i d : N) : res scanned :=
  match fuel with
  | O => Err ELoop
  | S fuel' =>
      match geti ctrls i with
      | None => Err EUndef
      | Some c =>
          if (value64 (mkC d 0 0) <=? value64 c)%Z then i_scan64 fuel' ctrls (i + 1) (inc8 d)
          else Ok (Stop i d)
      end
  end.

(** Copy constructor, RH:3118-3143: reserve_for_insert (RH:4276-4279), then
    unique_insert (RH:6377-6391, RH:6414-6419) of the elements.  Only the loop of
    the first insertion is modelled, into controls that are all empty; [IndirectRefine]
    proves that it does not come to an end, so that what follows it is not needed
    ([EUndef] stands for it). *)
Definition i_copy (alloc : N -> bool) (other : imap) : out imap unit :=
  obind (if i_min_require inew (i_size other) =? 0 then Ret inew tt
         else match r_calc_capacity (i_min_require inew (i_size other)) with
              | Err e => Fail e
              | Ok cap => i_create alloc inew cap
              end) (fun t _ =>
  match i_traverse other with
  | Err e => Fail e
  | Ok [] => Ret t tt
  | Ok (kv :: _) =>
      match i_scan64 (S (length (i_ctrls t))) (i_ctrls t) (i_home t (fst kv)) 0 with
      | Err e => Fail e
      | Ok _ => Fail EUndef
      end
  end).

(** Move constructor, RH:3145-3169: the new map and the source afterwards. *)
Definition i_move (other : imap) : imap * imap :=
  (mkI (i_alloc other) (i_ctrls other) (i_slots other) (i_last other) (i_size other)
       (i_mask other) (i_lookups other) 0 (i_mlf other) (i_rev other),
   mkI false iempty_ctrls [] LNull 0 0 rMinLookups (i_thr other) rDefaultMlf rDefaultRev).

(** swap_content, RH:6555-6568: last_slot_ is not exchanged. *)
Definition i_take (a b : imap) : imap :=
  mkI (i_alloc b) (i_ctrls b) (i_slots b)
      (match i_last a with LNull => LNull | _ => LOther end)
      (i_size b) (i_mask b) (i_lookups b) (i_thr b) (i_mlf b) (i_rev b).

Definition i_swap (a b : imap) : imap * imap := (i_take a b, i_take b a).

(** One call; the calls and observations are those of TableModel.v. *)
Definition i_lift {A} (t : imap) (f : A -> obs K V) (r : res A) : out imap (obs K V) :=
  match r with Ok a => Ret t (f a) | Err e => Fail e end.

Definition i_unit (r : out imap unit) : out imap (obs K V) :=
  obind r (fun t _ => Ret t (RUnit K V)).

Definition i_ins (r : out imap (N * bool)) : out imap (obs K V) :=
  obind r (fun t '(n, b) => i_lift t (fun kv => RIns K V kv b) (i_deref t (ISlot n))).

Definition i_step (alloc : N -> bool) (o : op K V) (t : imap) : out imap (obs K V) :=
  match o with
  | OInsert _ _ k v => i_ins (i_emplace 64 alloc false k v t)
  | OAssign _ _ k v => i_ins (i_emplace 64 alloc true k v t)
  | OErase _ _ k => obind (i_erase k t) (fun t n => Ret t (RNum K V n))
  | OFind _ _ k => i_lift t (REntry K V) (i_find_obs t k)
  | OContains _ _ k => i_lift t (RBool K V) (i_contains t k)
  | OSize _ _ => Ret t (RNum K V (i_size t))
  | OClear _ _ b => i_unit (i_clear b t)
  | OReserve _ _ n => i_unit (i_rehash alloc n t)
  | ORehash _ _ n => i_unit (i_rehash alloc n t)
  | OShrink _ _ b => i_unit (i_shrink alloc b t)
  | OMlf _ _ m => i_unit (i_set_mlf alloc m t)
  end.

(** Calls in sequence, as [run] in RunModel.v. *)
Fixpoint i_run (calls : list ((N -> bool) * op K V)) (t : imap)
  : res (list (option (obs K V)) * imap) :=
  match calls with
  | [] => Ok ([], t)
  | (alloc, o) :: rest =>
      match i_step alloc o t with
      | Ret t' r => rbind (i_run rest t') (fun '(rs, t'') => Ok (Some r :: rs, t''))
      | Throw t' => rbind (i_run rest t') (fun '(rs, t'') => Ok (None :: rs, t''))
      | Fail e => Err e
      end
  end.

End Indirect.
