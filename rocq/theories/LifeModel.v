(** Objects in the slots of the robin hood map
    /repo/src/jstd/hashmap/robin_hash_map.h ([RH]), where they are constructed, moved
    from and destroyed, with the operations on slots of
    /repo/src/jstd/hashmap/map_slot_policy.h ([MP]).  The layout is that of
    RobinModel.v (elements in place, control bytes without hash), now for elements
    that may have a destructor, such as robin_hash_map<int, std::unique_ptr<T>>. *)
From Coq Require Import NArith ZArith List Bool.
From Verif Require Import Base BitsModel GroupModel TableModel RobinModel.
Import ListNotations.
Open Scope N_scope.

(** What the code asks about the types: kIsPlainKV (RH:302), kIsSwappableKV (RH:310),
    kIsSmallValueType (RH:260), is_slot_trivial_destructor (RH:323-328) and
    is_noexcept_move_assignable<mutable_value_type> (RH:5827-5828). *)
Record traits := mkTraits {
  tr_plain : bool;
  tr_swap : bool;
  tr_small : bool;
  tr_trivial : bool;
  tr_assign : bool
}.

(** The condition of construct_empty_slot (RH:5830-5842) and destroy_empty_slot
    (RH:5854-5865): the spare slot holds an object. *)
Definition owns_spare (tr : traits) : bool :=
  negb (tr_trivial tr) && negb (tr_plain tr) && negb (tr_swap tr) && negb (tr_small tr)
  && tr_assign tr.

Section Life.

Variables K V : Type.
Variable hash : K -> N.
Variable keq : K -> K -> bool.

Notation rmap := (rmap K V).

(** Memory for one element: no object; an object with an element; an object that was
    moved from or default constructed. *)
Inductive cell := Raw | Obj (e : option (K * V)).

(** A pointer to a slot: into the array, or to the local variable slot_raw
    (RH:5721-5723). *)
Inductive ptr := PSlot (i : N) | PBuf.

Record mem := mkM { m_slots : list cell; m_buf : cell }.

Definition ptr_eq (p p' : ptr) : bool :=
  match p, p' with
  | PSlot i, PSlot j => i =? j
  | PBuf, PBuf => true
  | _, _ => false
  end.

Definition load (m : mem) (p : ptr) : option cell :=
  match p with PSlot i => geti (m_slots m) i | PBuf => Some (m_buf m) end.

Definition store (m : mem) (p : ptr) (c : cell) : mem :=
  match p with
  | PSlot i => mkM (seti (m_slots m) i c) (m_buf m)
  | PBuf => mkM (m_slots m) c
  end.

(** construct(alloc, dst, src) that moves, MP:145-156: the source must be an object,
    the destination must be none, and they must differ. *)
Definition move_construct (dst src : ptr) (m : mem) : res mem :=
  if ptr_eq dst src then Err EUndef
  else match load m dst, load m src with
       | Some Raw, Some (Obj e) => Ok (store (store m dst (Obj e)) src (Obj None))
       | Some (Obj _), Some (Obj _) => Err ELeak
       | _, _ => Err EUndef
       end.

(** destroy, MP:172-179. *)
Definition destroy (p : ptr) (m : mem) : res mem :=
  match load m p with Some (Obj _) => Ok (store m p Raw) | _ => Err EUndef end.

(** transfer, MP:209-236.  Without destructor nothing depends on whether memory holds
    an object, and copying an element onto itself does nothing.  Types with a destructor
    that declare themselves trivially relocatable, for which MP:213-227 copies bytes,
    are not covered. *)
Definition transfer (tr : traits) (dst src : ptr) (m : mem) : res mem :=
  if tr_trivial tr then
    match load m dst, load m src with
    | Some _, Some (Obj e) =>
        Ok (if ptr_eq dst src then m else store (store m dst (Obj e)) src Raw)
    | _, _ => Err EUndef
    end
  else rbind (move_construct dst src m) (destroy src).

(** swap with a spare slot, MP:238-243 (swap_plain_slot, RH:5009-5019 and
    RH:4786-4794). *)
Definition swap_spare (tr : traits) (s1 s2 tmp : ptr) (m : mem) : res mem :=
  rbind (transfer tr tmp s2 m) (fun m =>
  rbind (transfer tr s2 s1 m) (transfer tr s1 tmp)).

(** exchange, MP:245-249 (exchange_slot, RH:4970-4980). *)
Definition exchange (tr : traits) (src dest empty : ptr) (m : mem) : res mem :=
  rbind (transfer tr empty dest m) (transfer tr dest src).

(** swap_slot of two slots, RH:4983-4993, with swap_traits (RH:4686-4748), for key and
    value at once: each of the four versions exchanges two existing objects. *)
Definition swap_objects (s1 s2 : ptr) (m : mem) : res mem :=
  match load m s1, load m s2 with
  | Some (Obj e1), Some (Obj e2) => Ok (store (store m s1 (Obj e2)) s2 (Obj e1))
  | _, _ => Err EUndef
  end.

(** destroy_empty_slot, RH:5850-5867, at the return of insert_to_place. *)
Definition l_leave (tr : traits) (ctrls : list N) (ok : bool) (empty : ptr) (m : mem)
  : res (list N * mem * bool) :=
  rbind (if owns_spare tr then destroy empty m else Ok m) (fun m => Ok (ctrls, m, ok)).

(** The displacement of RH:5747-5757: the pointers insert and empty afterwards. *)
Definition l_displace (tr : traits) (i : N) (insert empty : ptr) (m : mem)
  : res (mem * ptr * ptr) :=
  if tr_plain tr then
    rbind (swap_spare tr insert (PSlot i) empty m) (fun m => Ok (m, insert, empty))
  else if tr_swap tr || tr_small tr then
    rbind (swap_objects insert (PSlot i) m) (fun m => Ok (m, insert, empty))
  else
    rbind (exchange tr insert (PSlot i) empty m) (fun m => Ok (m, empty, insert)).

(** The loop of insert_to_place, RH:5741-5777, with emplace_rich_slot (RH:5819-5823). *)
Fixpoint l_place (fuel : nat) (tr : traits) (rehashing : bool) (maxd last ins : N)
    (ctrls : list N) (m : mem) (i rich : N) (insert empty : ptr)
  : res (list N * mem * bool) :=
  match fuel with
  | O => Err ELoop
  | S fuel' =>
      if i <? last then
        match geti ctrls i with
        | None => Err EUndef
        | Some c =>
            if c =? cEmpty then
              rbind (transfer tr (PSlot i) insert m) (l_leave tr (seti ctrls i rich) true empty)
            else
              let step ctrls' rich' m' insert' empty' :=
                let r := inc8 rich' in
                if negb rehashing && (maxd <=? r) then
                  rbind (transfer tr (PSlot ins) insert' m')
                        (l_leave tr (seti ctrls' ins r) false empty')
                else l_place fuel' tr rehashing maxd last ins ctrls' m' (i + 1) r insert' empty' in
              if (s8 c <? s8 rich)%Z then
                rbind (l_displace tr i insert empty m) (fun '(m', insert', empty') =>
                step (seti ctrls i rich) c m' insert' empty')
              else step ctrls rich m insert empty
        end
      else
        rbind (transfer tr (PSlot ins) insert m) (l_leave tr (seti ctrls ins rich) false empty)
  end.

Definition cell_of (o : option (K * V)) : cell :=
  match o with None => Raw | Some kv => Obj (Some kv) end.

(** Back to the slots of RobinModel.v; an object without an element is one that the map
    does not know of. *)
Fixpoint slots_of (l : list cell) : res (list (option (K * V))) :=
  match l with
  | [] => Ok []
  | Raw :: l' => rbind (slots_of l') (fun s => Ok (None :: s))
  | Obj (Some kv) :: l' => rbind (slots_of l') (fun s => Ok (Some kv :: s))
  | Obj None :: _ => Err ELeak
  end.

(** insert_to_place, RH:5704-5778.  A local variable that still holds an object at the
    return is never destroyed. *)
Definition l_insert_to_place (tr : traits) (rehashing : bool) (t : rmap) (ins d : N)
  : res (list N * list (option (K * V)) * bool) :=
  match r_last _ _ t, geti (r_ctrls _ _ t) ins, geti (r_slots _ _ t) ins with
  | LEnd last, Some c, Some (Some _) =>
      rbind (l_place (S (length (r_ctrls _ _ t))) tr rehashing (r_max_distance K V t) last ins
                     (seti (r_ctrls _ _ t) ins d)
                     (mkM (map cell_of (r_slots _ _ t)) (if owns_spare tr then Obj None else Raw))
                     (ins + 1) (inc8 c) (PSlot ins) PBuf)
            (fun '(ctrls, m, ok) =>
               match m_buf m with
               | Obj _ => if tr_trivial tr
                          then rbind (slots_of (m_slots m)) (fun s => Ok (ctrls, s, ok))
                          else Err ELeak
               | Raw => rbind (slots_of (m_slots m)) (fun s => Ok (ctrls, s, ok))
               end)
  | _, _, _ => Err EUndef
  end.

(** [r_insert_at] of RobinModel.v. *)
Definition l_insert_at (tr : traits) (rehashing : bool) (t : rmap) (i si d : N) (kv : K * V)
  : res (rmap * bool) :=
  if r_alloc _ _ t then
    match geti (r_ctrls _ _ t) i with
    | None => Err EUndef
    | Some c =>
        if c =? cEmpty then
          rbind (r_construct K V t (seti (r_ctrls _ _ t) i d) (r_slots _ _ t) si kv)
                (fun t' => Ok (t', true))
        else if i =? si then
          rbind (l_insert_to_place tr rehashing t i d)
                (fun '(ctrls, slots, ok) =>
                   if ok || rehashing
                   then rbind (r_construct K V t ctrls slots i kv) (fun t' => Ok (t', true))
                   else Ok (r_with K V t ctrls slots (r_size _ _ t), false))
        else Err EUndef
    end
  else Err EUndef.

(** insert_no_grow, RH:6147-6172 and RH:6269-6275. *)
Definition l_insert_no_grow (tr : traits) (t : rmap) (kv : K * V) : res rmap :=
  rbind (r_search K V hash keq t false (fst kv)) (fun s =>
  match s with
  | Found _ => Err EUndef
  | Stop i d =>
      rbind (slot_plus (r_home K V hash t (fst kv)) d) (fun si =>
      rbind (l_insert_at tr true t i si d kv) (fun '(t', _) => Ok t'))
  end).

Fixpoint l_insert_all (tr : traits) (l : list (K * V)) (t : rmap) : res rmap :=
  match l with
  | [] => Ok t
  | kv :: l' => rbind (l_insert_no_grow tr t kv) (l_insert_all tr l')
  end.

(** destroy_slot for the positions [is] whose control is used: the loops of clear_slots
    (RH:4222-4233) and of rehash_impl (RH:4555-4588), where the elements have been moved
    from before. *)
Fixpoint l_destroy_used (ctrls : list N) (is : list N) (m : mem) : res mem :=
  match is with
  | [] => Ok m
  | i :: is' =>
      match geti ctrls i with
      | None => Err EUndef
      | Some c =>
          if c <? 128 then rbind (destroy (PSlot i) m) (l_destroy_used ctrls is')
          else l_destroy_used ctrls is' m
      end
  end.

Definition all_raw (l : list cell) : bool :=
  forallb (fun c => match c with Raw => true | Obj _ => false end) l.

(** All objects of the array are destroyed, by destroying those at the positions [is]. *)
Definition l_emptied (tr : traits) (t : rmap) (is : list N) : res unit :=
  if tr_trivial tr then Ok tt
  else rbind (l_destroy_used (r_ctrls _ _ t) is (mkM (map cell_of (r_slots _ _ t)) Raw))
             (fun m => if all_raw (m_slots m) then Ok tt else Err ELeak).

(** The positions that rehash_impl visits, RH:4553-4588. *)
Definition l_visited (t : rmap) : list N :=
  if rGroupWidth <=? r_slot_capacity K V t then seqN (r_group_count K V t * rGroupWidth)
  else if r_alloc _ _ t then seqN (r_max_slot_capacity K V t)
  else [].

(** rehash_impl, RH:4400-4653. *)
Definition l_rehash_impl (tr : traits) (allow_shrink always : bool) (alloc : N -> bool)
    (t : rmap) (n : N) : out rmap unit :=
  match r_calc_capacity n with
  | Err e => Fail e
  | Ok cap =>
      if always || (negb allow_shrink && (r_slot_capacity K V t <? cap))
         || (allow_shrink && negb (cap =? r_slot_capacity K V t))
      then
        obind (r_create K V alloc t cap) (fun t0 _ =>
        match rbind (r_elements K V t) (fun l => l_insert_all tr l t0) with
        | Ok t' => match l_emptied tr t (l_visited t) with
                   | Ok _ => Ret t' tt
                   | Err e => Fail e
                   end
        | Err e => Fail e
        end)
      else Ret t tt
  end.

(** grow_if_necessary, RH:4270-4273. *)
Definition l_grow (tr : traits) (alloc : N -> bool) (t : rmap) : out rmap unit :=
  l_rehash_impl tr false true alloc t (wmul (wadd (r_mask _ _ t) 1) 2).

(** emplace_impl<AlwaysUpdate>, RH:5870-5893: [r_emplace] of RobinModel.v. *)
Fixpoint l_emplace (fuel : nat) (tr : traits) (alloc : N -> bool) (update : bool) (k : K) (v : V)
    (t : rmap) : out rmap (N * bool) :=
  match fuel with
  | O => Fail ELoop
  | S fuel' =>
      match r_search K V hash keq t true k with
      | Err e => Fail e
      | Ok (Found i) =>
          match geti (r_slots _ _ t) i with
          | Some (Some kv) =>
              Ret (if update
                   then r_with K V t (r_ctrls _ _ t) (seti (r_slots _ _ t) i (Some (fst kv, v)))
                               (r_size _ _ t)
                   else t) (i, false)
          | _ => Fail EUndef
          end
      | Ok (Stop i d) =>
          let grow := r_need_grow K V t || (r_max_distance K V t <=? d) in
          obind (if grow then l_grow tr alloc t else Ret t tt) (fun t1 _ =>
          match (if grow then r_search K V hash keq t1 false k else Ok (Stop i d)) with
          | Err e => Fail e
          | Ok (Found _) => Fail EUndef
          | Ok (Stop i d) =>
              match l_insert_at tr false t1 i i d (k, v) with
              | Err e => Fail e
              | Ok (t2, true) => Ret t2 (i, true)
              | Ok (t2, false) =>
                  obind (l_grow tr alloc t2) (fun t3 _ => l_emplace fuel' tr alloc update k v t3)
              end
          end)
      end
  end.

(** The loop of erase_slot, RH:6449-6467. *)
Fixpoint l_shift (fuel : nat) (tr : traits) (ctrls : list N) (m : mem) (i : N)
  : res (list N * mem) :=
  match fuel with
  | O => Err ELoop
  | S fuel' =>
      match geti ctrls (i + 1) with
      | None => Err EUndef
      | Some c =>
          if (s8 c <=? 0)%Z then Ok (seti ctrls i cEmpty, m)
          else rbind (transfer tr (PSlot i) (PSlot (i + 1)) m) (fun m' =>
               l_shift fuel' tr (seti ctrls i (dec8 c)) m' (i + 1))
      end
  end.

(** erase_slot, RH:6440-6471. *)
Definition l_erase_slot (tr : traits) (t : rmap) (i : N) : res rmap :=
  rbind (destroy (PSlot i) (mkM (map cell_of (r_slots _ _ t)) Raw)) (fun m =>
  rbind (l_shift (S (length (r_ctrls _ _ t))) tr (r_ctrls _ _ t) m i) (fun '(ctrls, m') =>
  rbind (slots_of (m_slots m')) (fun slots =>
  Ok (r_with K V t ctrls slots (wsub (r_size _ _ t) 1))))).

(** find_and_erase, RH:6424-6437. *)
Definition l_erase (tr : traits) (k : K) (t : rmap) : out rmap N :=
  match r_search K V hash keq t true k with
  | Err e => Fail e
  | Ok (Stop _ _) => Ret t 0
  | Ok (Found i) =>
      if i =? r_max_slot_capacity K V t then Ret t 0
      else match l_erase_slot tr t i with Ok t' => Ret t' 1 | Err e => Fail e end
  end.

(** clear_slots, RH:4218-4242: the positions below max_slot_capacity(). *)
Definition l_clear_slots (tr : traits) (t : rmap) : res unit :=
  l_emptied tr t (seqN (r_max_slot_capacity K V t)).

(** The destructor, RH:4171-4208, as far as elements are concerned. *)
Definition l_destroy (tr : traits) (t : rmap) : res unit := l_clear_slots tr t.

(** clear, RH:3504-3515. *)
Definition l_clear (tr : traits) (need_destroy : bool) (t : rmap) : out rmap unit :=
  match l_clear_slots tr t with
  | Ok _ => r_clear K V need_destroy t
  | Err e => Fail e
  end.

(** rehash, reserve, shrink_to_fit and max_load_factor, RH:3517-3540 and RH:3316-3335. *)
Definition l_rehash (tr : traits) (alloc : N -> bool) (n : N) (t : rmap) : out rmap unit :=
  l_rehash_impl tr true false alloc t (N.max (r_min_require K V t n) (r_size _ _ t)).

Definition l_shrink (tr : traits) (alloc : N -> bool) (read_only : bool) (t : rmap)
  : out rmap unit :=
  l_rehash_impl tr true false alloc t
    (if read_only then r_size _ _ t else r_min_require K V t (r_size _ _ t)).

Definition l_set_mlf (tr : traits) (alloc : N -> bool) (n : N) (t : rmap) : out rmap unit :=
  let '(mlf, rev) := r_clamp n in
  let t' := mkR K V (r_alloc _ _ t) (r_ctrls _ _ t) (r_slots _ _ t) (r_last _ _ t) (r_size _ _ t)
                (r_mask _ _ t) (r_lookups _ _ t) (r_thr _ _ t) mlf rev in
  if (r_thr _ _ t' <? r_size _ _ t')
     && (r_slot_capacity K V t' <? r_min_require K V t' (r_size _ _ t'))
  then l_rehash tr alloc (r_size _ _ t') t'
  else Ret t' tt.

(** One call, as [r_step] of RobinModel.v. *)
Definition l_step (tr : traits) (alloc : N -> bool) (o : op K V) (t : rmap)
  : out rmap (obs K V) :=
  match o with
  | OInsert _ _ k v => r_ins K V (l_emplace 64 tr alloc false k v t)
  | OAssign _ _ k v => r_ins K V (l_emplace 64 tr alloc true k v t)
  | OErase _ _ k => obind (l_erase tr k t) (fun t n => Ret t (RNum K V n))
  | OFind _ _ k => r_lift K V t (REntry K V) (r_find_obs K V hash keq t k)
  | OContains _ _ k => r_lift K V t (RBool K V) (r_contains K V hash keq t k)
  | OSize _ _ => Ret t (RNum K V (r_size _ _ t))
  | OClear _ _ b => r_unit K V (l_clear tr b t)
  | OReserve _ _ n => r_unit K V (l_rehash tr alloc n t)
  | ORehash _ _ n => r_unit K V (l_rehash tr alloc n t)
  | OShrink _ _ b => r_unit K V (l_shrink tr alloc b t)
  | OMlf _ _ n => r_unit K V (l_set_mlf tr alloc n t)
  end.

(** Calls in sequence, then the destructor. *)
Fixpoint l_run (tr : traits) (calls : list ((N -> bool) * op K V)) (t : rmap)
  : res (list (option (obs K V)) * rmap) :=
  match calls with
  | [] => Ok ([], t)
  | (alloc, o) :: rest =>
      match l_step tr alloc o t with
      | Ret t' r => rbind (l_run tr rest t') (fun '(rs, t'') => Ok (Some r :: rs, t''))
      | Throw t' => rbind (l_run tr rest t') (fun '(rs, t'') => Ok (None :: rs, t''))
      | Fail e => Err e
      end
  end.

Definition l_life (tr : traits) (calls : list ((N -> bool) * op K V)) : res (list (option (obs K V))) :=
  rbind (l_run tr calls (rnew K V)) (fun '(rs, t) => rbind (l_destroy tr t) (fun _ => Ok rs)).

End Life.
