(** The calls that robin_hash_map, flat16_hash_map and robin16_hash_map make to their
    allocators.  [RH] = /repo/src/jstd/hashmap/robin_hash_map.h,
    [F16] = /repo/src/jstd/hashmap/flat16_hash_map.h,
    [Q] = /repo/src/jstd/hashmap/robin16_hash_map.h.
    Each function accompanies one of RobinModel.v, Flat16Model.v or Robin16Model.v, whose
    result it repeats, and writes down the calls of allocate and deallocate, new[] and
    delete[] in order. *)
From Coq Require Import NArith List Bool.
From Verif Require Import Base GroupModel TableModel LedgerModel RobinModel Flat16Model Robin16Model.
Import ListNotations.
Open Scope N_scope.

(** The calls so far, the addresses of the control array and of the slot array that the
    map points to (0 is the null pointer), and the next unused address. *)
Record book := mkBook { bk_events : list event; bk_g : N; bk_s : N; bk_next : N }.

Definition new_book : book := mkBook [] 0 0 1.

Definition note (e : event) (b : book) : book :=
  mkBook (bk_events b ++ [e]) (bk_g b) (bk_s b) (bk_next b).

(** A block of [n] objects is handed out. *)
Definition note_alloc (p : pool) (n : N) (b : book) : book :=
  mkBook (bk_events b ++ [EAlloc (mkBlock p (bk_next b) n)]) (bk_g b) (bk_s b) (bk_next b + 1).

Definition note_free (p : pool) (addr n : N) (b : book) : book := note (EFree (mkBlock p addr n)) b.

Definition point_g (addr : N) (b : book) : book := mkBook (bk_events b) addr (bk_s b) (bk_next b).
Definition point_s (addr : N) (b : book) : book := mkBook (bk_events b) (bk_g b) addr (bk_next b).

Section Robin.

Variables K V : Type.
Variable hash : K -> N.
Variable keq : K -> K -> bool.

Notation rmap := (rmap K V).
Notation rbook := (rmap * book)%type.

(** Both requests of create_slots are granted (ROBIN_USE_SEPARATE_SLOTS is 1, RH:102). *)
Definition rl_granted (a : answers) (n : N) : bool := a_group a n && a_slot a n.

(** ctrl_alloc_size, RH:4361, and max_ctrl_capacity, RH:4198 and RH:4637. *)
Definition ctrl_words (gc : N) : N := wmul (wadd gc 1) rGroupWidth.

(** create_slots, RH:4358-4388: the controls, then the slots; the members are set after
    both. *)
Definition rl_create_book (a : answers) (cap : N) (b : book) : book :=
  let total := wadd cap (r_calc_lookups cap) in
  let gc := wadd total (rGroupWidth - 1) / rGroupWidth in
  if a_group a total then
    let b1 := note_alloc PGroup (ctrl_words gc) b in
    if a_slot a total then
      let b2 := note_alloc PSlot total b1 in
      point_s (bk_next b1) (point_g (bk_next b) b2)
    else b1
  else b.

(** rehash_impl, RH:4400-4653, with the calls of RH:4635-4651. *)
Definition rl_rehash_impl (a : answers) (allow_shrink always : bool) (t : rmap) (b : book) (n : N)
  : out rbook unit :=
  match r_calc_capacity n with
  | Err e => Fail e
  | Ok cap =>
      let b' :=
        if always || (negb allow_shrink && (r_slot_capacity K V t <? cap))
           || (allow_shrink && negb (cap =? r_slot_capacity K V t))
        then
          let b1 := rl_create_book a cap b in
          if rl_granted a (wadd cap (r_calc_lookups cap)) && r_alloc _ _ t
          then note_free PSlot (bk_s b) (r_max_slot_capacity K V t)
                 (note_free PGroup (bk_g b) (ctrl_words (r_group_count K V t)) b1)
          else b1
        else b in
      match r_rehash_impl K V hash keq allow_shrink always (rl_granted a) t n with
      | Ret t' r => Ret (t', b') r
      | Throw t' => Throw (t', b')
      | Fail e => Fail e
      end
  end.

(** grow_if_necessary, RH:4270-4273. *)
Definition rl_grow (a : answers) (t : rmap) (b : book) : out rbook unit :=
  rl_rehash_impl a false true t b (wmul (wadd (r_mask _ _ t) 1) 2).

(** emplace_impl, RH:5870-5893: [r_emplace] of RobinModel.v. *)
Fixpoint rl_emplace (fuel : nat) (a : answers) (update : bool) (k : K) (v : V) (t : rmap) (b : book)
  : out rbook (N * bool) :=
  match fuel with
  | O => Fail ELoop
  | S fuel' =>
      match r_search K V hash keq t true k with
      | Err e => Fail e
      | Ok (Found i) =>
          match geti (r_slots _ _ t) i with
          | Some (Some kv) =>
              Ret (if update
                   then r_with K V t (r_ctrls _ _ t) (seti (r_slots _ _ t) i (Some (fst kv, v)))
                               (r_size _ _ t)
                   else t, b) (i, false)
          | _ => Fail EUndef
          end
      | Ok (Stop i d) =>
          let grow := r_need_grow K V t || (r_max_distance K V t <=? d) in
          obind (if grow then rl_grow a t b else Ret (t, b) tt) (fun '(t1, b1) _ =>
          match (if grow then r_search K V hash keq t1 false k else Ok (Stop i d)) with
          | Err e => Fail e
          | Ok (Found _) => Fail EUndef
          | Ok (Stop i d) =>
              match r_insert_at K V false t1 i i d (k, v) with
              | Err e => Fail e
              | Ok (t2, true) => Ret (t2, b1) (i, true)
              | Ok (t2, false) =>
                  obind (rl_grow a t2 b1) (fun '(t3, b3) _ => rl_emplace fuel' a update k v t3 b3)
              end
          end)
      end
  end.

(** destroy_data, RH:4175-4208: the slots, then the controls. *)
Definition rl_destroy_book (t : rmap) (b : book) : book :=
  if r_alloc _ _ t
  then note_free PGroup (bk_g b) (ctrl_words (r_group_count K V t))
         (note_free PSlot (bk_s b) (r_max_slot_capacity K V t) b)
  else b.

(** clear, RH:3504-3515. *)
Definition rl_clear (need_destroy : bool) (t : rmap) (b : book) : out rbook unit :=
  match r_clear K V need_destroy t with
  | Ret t' r => Ret (t', if (0 <? r_slot_capacity K V t) && need_destroy
                         then rl_destroy_book t b else b) r
  | Throw t' => Throw (t', b)
  | Fail e => Fail e
  end.

(** rehash, shrink_to_fit and max_load_factor, RH:3517-3540 and RH:3316-3335. *)
Definition rl_rehash (a : answers) (n : N) (t : rmap) (b : book) : out rbook unit :=
  rl_rehash_impl a true false t b (N.max (r_min_require K V t n) (r_size _ _ t)).

Definition rl_shrink (a : answers) (read_only : bool) (t : rmap) (b : book) : out rbook unit :=
  rl_rehash_impl a true false t b
    (if read_only then r_size _ _ t else r_min_require K V t (r_size _ _ t)).

Definition rl_set_mlf (a : answers) (m : N) (t : rmap) (b : book) : out rbook unit :=
  let '(mlf, rev) := r_clamp m in
  let t' := mkR K V (r_alloc _ _ t) (r_ctrls _ _ t) (r_slots _ _ t) (r_last _ _ t) (r_size _ _ t)
                (r_mask _ _ t) (r_lookups _ _ t) (r_thr _ _ t) mlf rev in
  if (r_thr _ _ t' <? r_size _ _ t')
     && (r_slot_capacity K V t' <? r_min_require K V t' (r_size _ _ t'))
  then rl_rehash a (r_size _ _ t') t' b
  else Ret (t', b) tt.

(** One call that may ask for storage or return it; the others are those of [r_step]. *)
Definition rl_step (a : answers) (o : op K V) (t : rmap) (b : book) : out rbook unit :=
  let drop {A} (r : out rbook A) : out rbook unit := obind r (fun s _ => Ret s tt) in
  match o with
  | OInsert _ _ k v => drop (rl_emplace 64 a false k v t b)
  | OAssign _ _ k v => drop (rl_emplace 64 a true k v t b)
  | OClear _ _ d => rl_clear d t b
  | OReserve _ _ n | ORehash _ _ n => rl_rehash a n t b
  | OShrink _ _ ro => rl_shrink a ro t b
  | OMlf _ _ m => rl_set_mlf a m t b
  | _ => match r_step K V hash keq (rl_granted a) o t with
         | Ret t' _ => Ret (t', b) tt
         | Throw t' => Throw (t', b)
         | Fail e => Fail e
         end
  end.

(** Calls in sequence from a new map and finally the destructor, RH:3236-3238. *)
Fixpoint rl_run (calls : list (answers * op K V)) (t : rmap) (b : book) : list event :=
  match calls with
  | [] => bk_events (rl_destroy_book t b)
  | (a, o) :: rest =>
      match rl_step a o t b with
      | Ret (t', b') _ | Throw (t', b') => rl_run rest t' b'
      | Fail _ => bk_events b
      end
  end.

Definition rl_events (calls : list (answers * op K V)) : list event :=
  rl_run calls (rnew K V) new_book.

End Robin.

(** ** flat16 and robin16 *)

(** The answers of operator new[] and of the slot allocator, as the oracle of the two
    models. *)
Definition pair_oracle (a : answers) (groups : bool) (n : N) : bool :=
  if groups then a_group a n else a_slot a n.

(** create_group, F16:1874-1921 and Q:2333-2376: groups_ is set before the slots are
    requested.  delete[] is not told a size: the number of objects is written as 0. *)
Definition g_create_book (a : answers) (gc cap : N) (b : book) : book :=
  if a_group a (gc + 1) then
    let b1 := point_g (bk_next b) (note_alloc PGroup 0 b) in
    if a_slot a cap then point_s (bk_next b1) (note_alloc PSlot cap b1) else b1
  else b.

(** "if (p != nullptr)" in front of a deallocation. *)
Definition free_if (p : pool) (addr n : N) (b : book) : book :=
  if addr =? 0 then b else note_free p addr n b.

(** destroy<true>, F16:1724-1769 and Q:2183-2227: the slots, then the groups; both
    pointers become null. *)
Definition g_destroy_book (cap : N) (b : book) : book :=
  point_s 0 (point_g 0 (free_if PGroup (bk_g b) 0 (free_if PSlot (bk_s b) cap b))).

Section Flat16.

Variables K V : Type.
Variable hash : K -> N.
Variable keq : K -> K -> bool.
Variable mix : N -> N.
Variable trivial : bool.

Notation fmap := (fmap K V).
Notation fbook := (fmap * book)%type.

(** The constructor, F16:928-943. *)
Definition fl_new (a : answers) (n : N) : out fbook unit :=
  match f_calc_capacity n with
  | Err e => Fail e
  | Ok cap =>
      let b := g_create_book a (wadd cap (fGroupWidth - 1) / fGroupWidth) cap new_book in
      match f_new K V (pair_oracle a) n with
      | Ret t r => Ret (t, b) r
      | Throw t => Throw (t, b)
      | Fail e => Fail e
      end
  end.

(** rehash_impl, F16:1923-2021: the calls of F16:2015-2019. *)
Definition fl_rehash_impl (a : answers) (allow_shrink always : bool) (t : fmap) (b : book) (n : N)
  : out fbook unit :=
  match f_calc_capacity n with
  | Err e => Fail e
  | Ok cap =>
      let gc := wadd cap (fGroupWidth - 1) / fGroupWidth in
      let b' :=
        if always || (negb allow_shrink && (f_cap K V t <? cap))
           || (allow_shrink && negb (cap =? f_cap K V t))
        then
          let b1 := g_create_book a gc cap b in
          if a_group a (gc + 1) && a_slot a cap then
            free_if PGroup (bk_g b) 0 (note_free PSlot (bk_s b) (f_cap K V t) b1)
          else b1
        else b in
      match f_rehash_impl K V hash mix allow_shrink always (pair_oracle a) t n with
      | Ret t' r => Ret (t', b') r
      | Throw t' => Throw (t', b')
      | Fail e => Fail e
      end
  end.

(** reorder_or_grow_if_necessary, F16:1856-1866. *)
Definition fl_grow (a : answers) (t : fmap) (b : book) : out fbook unit :=
  if (32 <? f_cap K V t) && (f_cap K V t / 8 <=? f_slot_deleted K V t)
  then match f_drop_deleted K V hash mix t with
       | Ok t' => Ret (t', b) tt
       | Err e => Fail e
       end
  else fl_rehash_impl a false true t b (wmul (f_cap K V t) 2).

(** find_and_prepare_insert, F16:2363-2445: [f_prepare] of Flat16Model.v. *)
Fixpoint fl_prepare (fuel : nat) (a : answers) (k : K) (t : fmap) (b : book) : out fbook (N * bool) :=
  match fuel with
  | O => Fail ELoop
  | S fuel' =>
      let again := obind (fl_grow a t b) (fun '(t', b') _ => fl_prepare fuel' a k t' b') in
      match f_search K V hash keq mix t k with
      | Err e => Fail e
      | Ok (FHit i) => Ret (t, b) (i, true)
      | Ok FFull => again
      | Ok (FStop last m) =>
          if f_need_grow K V t then again
          else match f_prepare K V hash keq mix (S fuel') (pair_oracle a) k t with
               | Ret t' r => Ret (t', b) r
               | Throw t' => Throw (t', b)
               | Fail e => Fail e
               end
      end
  end.

(** emplace_impl, F16:2447-2705. *)
Definition fl_emplace (a : answers) (update : bool) (k : K) (v : V) (t : fmap) (b : book)
  : out fbook unit :=
  obind (fl_prepare 64 a k t b) (fun '(t1, b1) '(i, exists_) =>
  if exists_ : bool then
    match geti (f_slots _ _ t1) i with
    | Some (Some kv) =>
        Ret (if update
             then f_with K V t1 (f_ctrls _ _ t1) (seti (f_slots _ _ t1) i (Some (fst kv, v)))
                         (f_size _ _ t1) (f_left _ _ t1)
             else t1, b1) tt
    | _ => Fail EUndef
    end
  else
    match f_construct K V hash mix t1 i (k, v) with
    | Ok t2 => Ret (t2, b1) tt
    | Err e => Fail e
    end).

(** clear, F16:1257-1269. *)
Definition fl_clear (a : answers) (need_destroy : bool) (t : fmap) (b : book) : out fbook unit :=
  let b' :=
    if (fDefaultCapacity <? f_cap K V t) && need_destroy
    then g_create_book a (wadd fDefaultCapacity (fGroupWidth - 1) / fGroupWidth) fDefaultCapacity
           (g_destroy_book (f_cap K V t) b)
    else b in
  match f_clear K V trivial (pair_oracle a) need_destroy t with
  | Ret t' r => Ret (t', b') r
  | Throw t' => Throw (t', b')
  | Fail e => Fail e
  end.

(** rehash, shrink_to_fit and max_load_factor, F16:1271-1294 and F16:1128-1155. *)
Definition fl_rehash (a : answers) (n : N) (t : fmap) (b : book) : out fbook unit :=
  fl_rehash_impl a true false t b (N.max (f_min_require (f_rev _ _ t) n) (f_size _ _ t)).

Definition fl_shrink (a : answers) (read_only : bool) (t : fmap) (b : book) : out fbook unit :=
  fl_rehash_impl a true false t b
    (if read_only then f_size _ _ t else f_min_require (f_rev _ _ t) (f_size _ _ t)).

Definition fl_set_mlf (a : answers) (x : N) (t : fmap) (b : book) : out fbook unit :=
  let used := f_slot_used K V t in
  let t' := mkF K V (f_ctrls _ _ t) (f_gmask _ _ t) (f_slots _ _ t) (f_size _ _ t) (f_mask _ _ t)
                (f_left _ _ t) (f_mlf_of x) (f_rev_of x) in
  if f_threshold K V t' <? used then
    if (f_cap K V t' <=? 32) || (wsub used (f_size _ _ t') <? f_cap K V t' / 8)
       || (f_cap K V t' <? f_min_require (f_rev _ _ t') (f_size _ _ t'))
    then fl_rehash a (f_size _ _ t') t' b
    else match f_drop_deleted K V hash mix t' with
         | Ok t2 => Ret (t2, b) tt
         | Err e => Fail e
         end
  else Ret (t', b) tt.

Definition fl_step (a : answers) (o : op K V) (t : fmap) (b : book) : out fbook unit :=
  match o with
  | OInsert _ _ k v => fl_emplace a false k v t b
  | OAssign _ _ k v => fl_emplace a true k v t b
  | OClear _ _ d => fl_clear a d t b
  | OReserve _ _ n | ORehash _ _ n => fl_rehash a n t b
  | OShrink _ _ ro => fl_shrink a ro t b
  | OMlf _ _ x => fl_set_mlf a x t b
  | _ => match f_step K V hash keq mix trivial (pair_oracle a) o t with
         | Ret t' _ => Ret (t', b) tt
         | Throw t' => Throw (t', b)
         | Fail e => Fail e
         end
  end.

(** Calls in sequence and finally the destructor, F16:1072-1074. *)
Fixpoint fl_run (calls : list (answers * op K V)) (t : fmap) (b : book) : list event :=
  match calls with
  | [] => bk_events (g_destroy_book (f_cap K V t) b)
  | (a, o) :: rest =>
      match fl_step a o t b with
      | Ret (t', b') _ | Throw (t', b') => fl_run rest t' b'
      | Fail _ => bk_events b
      end
  end.

(** The constructor first; when it throws there is no map to be destroyed. *)
Definition fl_events (a : answers) (n : N) (calls : list (answers * op K V)) : list event :=
  match fl_new a n with
  | Ret (t, b) _ => fl_run calls t b
  | Throw (_, b) => bk_events b
  | Fail _ => []
  end.

End Flat16.

Section Robin16.

Variables K V : Type.
Variable hash : K -> N.
Variable keq : K -> K -> bool.
Variable wide : bool.
Variable trivial : bool.

Notation qmap := (qmap K V).
Notation qbook := (qmap * book)%type.

(** The constructor, Q:1304-1316. *)
Definition ql_new (a : answers) (n : N) : out qbook unit :=
  match q_calc_capacity n with
  | Err e => Fail e
  | Ok cap =>
      let b := g_create_book a (wadd cap (qGroupWidth - 1) / qGroupWidth) cap new_book in
      match q_new K V (pair_oracle a) n with
      | Ret t r => Ret (t, b) r
      | Throw t => Throw (t, b)
      | Fail e => Fail e
      end
  end.

(** rehash_impl, Q:2378-2467: the calls of Q:2461-2465. *)
Definition ql_rehash_impl (a : answers) (allow_shrink always : bool) (t : qmap) (b : book) (n : N)
  : out qbook unit :=
  match q_calc_capacity n with
  | Err e => Fail e
  | Ok cap =>
      let gc := wadd cap (qGroupWidth - 1) / qGroupWidth in
      let b' :=
        if always || (negb allow_shrink && (q_cap K V t <? cap))
           || (allow_shrink && negb (cap =? q_cap K V t))
        then
          let b1 := g_create_book a gc cap b in
          if a_group a (gc + 1) && a_slot a cap then
            free_if PGroup (bk_g b) 0 (note_free PSlot (bk_s b) (q_cap K V t) b1)
          else b1
        else b in
      match q_rehash_impl K V hash keq wide trivial allow_shrink always (pair_oracle a) t n with
      | Ret t' r => Ret (t', b') r
      | Throw t' => Throw (t', b')
      | Fail e => Fail e
      end
  end.

(** grow_if_necessary, Q:2322-2325. *)
Definition ql_grow (a : answers) (t : qmap) (b : book) : out qbook unit :=
  ql_rehash_impl a false true t b (wmul (wadd (q_mask _ _ t) 1) 2).

(** find_or_prepare_insert, Q:2828-2960. *)
Fixpoint ql_prepare (fuel : nat) (a : answers) (k : K) (t : qmap) (b : book)
  : out qbook (N * N * bool) :=
  match fuel with
  | O => Fail ELoop
  | S fuel' =>
      let again := obind (ql_grow a t b) (fun '(t', b') _ => ql_prepare fuel' a k t' b') in
      match q_search K V hash keq wide 4 t (Some k) k with
      | Err e => Fail e
      | Ok (QHit i) => Ret (t, b) (i, 0, true)
      | Ok QFull => again
      | Ok (QStop i d) => if q_need_grow K V t then again else Ret (t, b) (i, d, false)
      end
  end.

(** emplace_impl, Q:3040-3369. *)
Fixpoint ql_emplace (fuel : nat) (a : answers) (update : bool) (k : K) (v : V) (t : qmap) (b : book)
  : out qbook (N * bool) :=
  match fuel with
  | O => Fail ELoop
  | S fuel' =>
      obind (ql_prepare 64 a k t b) (fun '(t1, b1) '(i, d, exists_) =>
      if exists_ : bool then
        match q_read K V (q_slots _ _ t1) i with
        | Ok kv =>
            if update
            then Ret (q_with K V t1 (q_ctrls _ _ t1) (seti (q_slots _ _ t1) i (Some (fst kv, v)))
                             (q_size _ _ t1), b1) (i, false)
            else Ret (t1, b1) (i, false)
        | Err _ => if update then Fail EUndef else Ret (t1, b1) (i, false)
        end
      else
        match q_insert_at K V hash trivial false t1 i d (k, v) with
        | Err e => Fail e
        | Ok (t2, false) => Ret (t2, b1) (i, true)
        | Ok (t2, true) =>
            obind (ql_grow a t2 b1) (fun '(t3, b3) _ => ql_emplace fuel' a update k v t3 b3)
        end)
  end.

(** clear, Q:1664-1675. *)
Definition ql_clear (a : answers) (need_destroy : bool) (t : qmap) (b : book) : out qbook unit :=
  let b' :=
    if (qDefaultCapacity <? q_cap K V t) && need_destroy
    then g_create_book a (wadd qDefaultCapacity (qGroupWidth - 1) / qGroupWidth) qDefaultCapacity
           (g_destroy_book (q_cap K V t) b)
    else b in
  match q_clear K V trivial (pair_oracle a) need_destroy t with
  | Ret t' r => Ret (t', b') r
  | Throw t' => Throw (t', b')
  | Fail e => Fail e
  end.

(** rehash, shrink_to_fit and max_load_factor, Q:1677-1700 and Q:1505-1524. *)
Definition ql_rehash (a : answers) (n : N) (t : qmap) (b : book) : out qbook unit :=
  ql_rehash_impl a true false t b (N.max (q_min_require (q_rev _ _ t) n) (q_size _ _ t)).

Definition ql_shrink (a : answers) (read_only : bool) (t : qmap) (b : book) : out qbook unit :=
  ql_rehash_impl a true false t b
    (if read_only then q_size _ _ t else q_min_require (q_rev _ _ t) (q_size _ _ t)).

Definition ql_set_mlf (a : answers) (x : N) (t : qmap) (b : book) : out qbook unit :=
  let t' := mkQ K V (q_ctrls _ _ t) (q_gmask _ _ t) (q_slots _ _ t) (q_size _ _ t) (q_mask _ _ t)
                (q_thr _ _ t) (f_mlf_of x) (f_rev_of x) in
  if (q_thr _ _ t' <? q_size _ _ t')
     && (q_cap K V t' <? q_min_require (q_rev _ _ t') (q_size _ _ t'))
  then ql_rehash a (q_size _ _ t') t' b
  else Ret (t', b) tt.

Definition ql_step (a : answers) (o : op K V) (t : qmap) (b : book) : out qbook unit :=
  let drop {A} (r : out qbook A) : out qbook unit := obind r (fun s _ => Ret s tt) in
  match o with
  | OInsert _ _ k v => drop (ql_emplace 64 a false k v t b)
  | OAssign _ _ k v => drop (ql_emplace 64 a true k v t b)
  | OClear _ _ d => ql_clear a d t b
  | OReserve _ _ n | ORehash _ _ n => ql_rehash a n t b
  | OShrink _ _ ro => ql_shrink a ro t b
  | OMlf _ _ x => ql_set_mlf a x t b
  | _ => match q_step K V hash keq wide trivial (pair_oracle a) o t with
         | Ret t' _ => Ret (t', b) tt
         | Throw t' => Throw (t', b)
         | Fail e => Fail e
         end
  end.

(** Calls in sequence and finally the destructor, Q:1458-1460. *)
Fixpoint ql_run (calls : list (answers * op K V)) (t : qmap) (b : book) : list event :=
  match calls with
  | [] => bk_events (g_destroy_book (q_cap K V t) b)
  | (a, o) :: rest =>
      match ql_step a o t b with
      | Ret (t', b') _ | Throw (t', b') => ql_run rest t' b'
      | Fail _ => bk_events b
      end
  end.

Definition ql_events (a : answers) (n : N) (calls : list (answers * op K V)) : list event :=
  match ql_new a n with
  | Ret (t, b) _ => ql_run calls t b
  | Throw (_, b) => bk_events b
  | Fail _ => []
  end.

End Robin16.
