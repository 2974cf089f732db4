(** The robin hood map with a key equality that may answer anything and may throw.
    [RH] = /repo/src/jstd/hashmap/robin_hash_map.h.

    Keys are compared by the loops of direct_find and direct_find_and_insert only, always
    with the stored key on the left.  None of the functions is noexcept.  The functions
    below are those of RobinModel.v with [keq] replaced by [cmp], as in CompareModel.v:
    [cmp seen k k'] is the answer to the comparison of the searched key [k] with the stored
    key [k'], where [seen] are the stored keys compared before in the same call; [None]:
    the comparison throws.  The exception leaves the map as it is at that point. *)
From Coq Require Import NArith ZArith List Bool.
From Verif Require Import Base BitsModel GroupModel TableModel RobinModel CompareModel Compare2Model.
Import ListNotations.
Open Scope N_scope.

Section Compare.

Variables K V : Type.
(** get_hash, RH:3959-3976. *)
Variable hash : K -> N.
Variable cmp : comparison K.

Notation rmap := (rmap K V).

(** How the loop ends: at a key said to be equal, where the key would be inserted, or with
    an exception. *)
Inductive rscan_c := RHit (i : N) | RStop (i d : N) | RThrown.

(** The loop of direct_find, RH:5152-5161, and of direct_find_and_insert, RH:5504-5515. *)
Fixpoint r_scan_c (fuel : nat) (ctrls : list N) (slots : list (option (K * V))) (k : K) (i d : N)
    (seen : list K) : res (list K * rscan_c) :=
  match fuel with
  | O => Err ELoop
  | S fuel' =>
      match geti ctrls i with
      | None => Err EUndef
      | Some c =>
          if (s8 d <=? s8 c)%Z then
            match geti slots i with
            | Some (Some kv) =>
                match cmp seen k (fst kv) with
                | None => Ok (fst kv :: seen, RThrown)
                | Some true => Ok (fst kv :: seen, RHit i)
                | Some false => r_scan_c fuel' ctrls slots k (i + 1) (inc8 d) (fst kv :: seen)
                end
            | _ => Err EUndef
            end
          else Ok (seen, RStop i d)
      end
  end.

(** direct_find, RH:5083-5163, up to the result. *)
Definition r_search_c (t : rmap) (k : K) (seen : list K) : res (list K * rscan_c) :=
  r_scan_c (S (length (r_ctrls _ _ t))) (r_ctrls _ _ t) (r_slots _ _ t) k (r_home K V hash t k) 0 seen.

(** emplace_impl<AlwaysUpdate>, RH:5870-5893, with direct_find_and_insert, RH:5471-5616.
    find_failed (RH:5675-5679) and rehash_impl compare no keys. *)
Fixpoint r_emplace_c (fuel : nat) (alloc : N -> bool) (update : bool) (k : K) (v : V) (seen : list K)
    (t : rmap) : out rmap (looked (N * bool)) :=
  match fuel with
  | O => Fail ELoop
  | S fuel' =>
      match r_search_c t k seen with
      | Err e => Fail e
      | Ok (_, RThrown) => Ret t Escaped
      | Ok (_, RHit i) =>
          match geti (r_slots _ _ t) i with
          | Some (Some kv) =>
              Ret (if update
                   then r_with K V t (r_ctrls _ _ t) (seti (r_slots _ _ t) i (Some (fst kv, v))) (r_size _ _ t)
                   else t) (Done (i, false))
          | _ => Fail EUndef
          end
      | Ok (seen', RStop i d) =>
          let grow := r_need_grow K V t || (r_max_distance K V t <=? d) in
          obind (if grow then r_grow K V hash (fun _ _ => false) alloc t else Ret t tt) (fun t1 _ =>
          match (if grow then r_search K V hash (fun _ _ => false) t1 false k else Ok (Stop i d)) with
          | Err e => Fail e
          | Ok (RobinModel.Found _) => Fail EUndef
          | Ok (Stop i d) =>
              match r_insert_at K V false t1 i i d (k, v) with
              | Err e => Fail e
              | Ok (t2, true) => Ret t2 (Done (i, true))
              | Ok (t2, false) =>
                  obind (r_grow K V hash (fun _ _ => false) alloc t2)
                        (fun t3 _ => r_emplace_c fuel' alloc update k v seen' t3)
              end
          end)
      end
  end.

(** find_and_erase, RH:6424-6437. *)
Definition r_erase_c (k : K) (t : rmap) : out rmap (looked N) :=
  match r_search_c t k [] with
  | Err e => Fail e
  | Ok (_, RThrown) => Ret t Escaped
  | Ok (_, RStop _ _) => Ret t (Done 0)
  | Ok (_, RHit i) =>
      if i =? r_max_slot_capacity K V t then Ret t (Done 0)
      else match r_erase_slot K V t i with Ok t' => Ret t' (Done 1) | Err e => Fail e end
  end.

(** find, RH:3552-3562, and what it points to; the position of a miss is that of last_slot_,
    as in RobinModel.v. *)
Definition r_lookup_c (k : K) (t : rmap) : out rmap (looked (option (K * V))) :=
  let entry i :=
    if i =? r_end K V t then Ret t (Done None)
    else match r_deref K V t i with Ok kv => Ret t (Done (Some kv)) | Err e => Fail e end in
  match r_search_c t k [] with
  | Err e => Fail e
  | Ok (_, RThrown) => Ret t Escaped
  | Ok (_, RHit i) => entry i
  | Ok (_, RStop _ _) =>
      match r_last _ _ t with
      | LEnd n => entry n
      | LNull => if r_alloc _ _ t then Fail EUndef else entry 0
      | LOther => Fail EUndef
      end
  end.

(** contains, RH:3547-3550. *)
Definition r_contains_c (k : K) (t : rmap) : out rmap (looked bool) :=
  match r_search_c t k [] with
  | Err e => Fail e
  | Ok (_, RThrown) => Ret t Escaped
  | Ok (_, RHit _) => Ret t (Done true)
  | Ok (_, RStop _ _) => Ret t (Done false)
  end.

Definition r_obs_c {A} (r : out rmap (looked A)) (f : rmap -> A -> res (obs K V))
  : out rmap (option (obs K V)) :=
  obind r (fun t a =>
  match a with
  | Escaped => Ret t None
  | Done a => match f t a with Ok x => Ret t (Some x) | Err e => Fail e end
  end).

Definition r_ins_c (r : out rmap (looked (N * bool))) : out rmap (option (obs K V)) :=
  r_obs_c r (fun t '(i, b) => rbind (r_deref K V t i) (fun kv => Ok (RIns K V kv b))).

(** One call: [Ret t None] if a comparison has thrown, [Throw t] if memory was refused.
    Calls that do not search compare no keys. *)
Definition r_step_c (alloc : N -> bool) (o : op K V) (t : rmap) : out rmap (option (obs K V)) :=
  match o with
  | OInsert _ _ k v => r_ins_c (r_emplace_c 64 alloc false k v [] t)
  | OAssign _ _ k v => r_ins_c (r_emplace_c 64 alloc true k v [] t)
  | OErase _ _ k => r_obs_c (r_erase_c k t) (fun _ n => Ok (RNum K V n))
  | OFind _ _ k => r_obs_c (r_lookup_c k t) (fun _ r => Ok (REntry K V r))
  | OContains _ _ k => r_obs_c (r_contains_c k t) (fun _ b => Ok (RBool K V b))
  | _ => obind (r_step K V hash (fun _ _ => false) alloc o t) (fun t' r => Ret t' (Some r))
  end.

End Compare.

(** A sequence of calls, each with its own answers of the allocator and of the key
    equality; [None] stands for an exception of the key equality.  It stops when memory is
    refused. *)
Fixpoint r_run_c {K V} (hash : K -> N) (calls : list ((N -> bool) * comparison K * op K V)) (t : rmap K V)
  : out (rmap K V) (list (option (obs K V))) :=
  match calls with
  | [] => Ret t []
  | (alloc, cmp, o) :: rest =>
      obind (r_step_c K V hash cmp alloc o t) (fun t' r =>
      obind (r_run_c hash rest t') (fun t'' rs => Ret t'' (r :: rs)))
  end.
