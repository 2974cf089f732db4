(** The robin16 map with a key equality that may answer anything and may throw.
    [Q] = /repo/src/jstd/hashmap/robin16_hash_map.h.

    Keys are compared by find_impl and find_or_prepare_insert only, always with the stored
    key on the left.  Neither is noexcept.  The functions below are those of Robin16Model.v
    with [keq] replaced by [cmp], as in CompareModel.v: [cmp seen k k'] is the answer to
    the comparison of the searched key [k] with the stored key [k'], where [seen] are the
    stored keys compared before in the same call; [None]: the comparison throws.  An
    insertion that grows the table searches again. *)
From Coq Require Import NArith List Bool.
From Verif Require Import Base BitsModel GroupModel TableModel Robin16Model CompareModel Compare2Model.
Import ListNotations.
Open Scope N_scope.

(** The end of a search: one of Robin16Model.v, or an exception. *)
Inductive qscan_c := QScanned (s : qscan) | QThrown.

Section Compare.

Variables K V : Type.
(** get_hash, Q:1946-1949. *)
Variable hash : K -> N.
Variable cmp : comparison K.
(** BitMask256_AVX2Ex instead of BitMask256_AVX2, and trivially destructible elements. *)
Variable wide trivial : bool.

Notation qmap := (qmap K V).
Notation oracle := (bool -> N -> bool).

(** The first comparisons, Q:2626-2678 and 2841-2914. *)
Fixpoint q_singles_c (todo : nat) (t : qmap) (k : K) (tag i d : N) (seen : list K)
  : res (list K * (qscan_c + N * N)) :=
  match todo with
  | O => Ok (seen, inr (i, d))
  | S todo' =>
      match geti (q_ctrls _ _ t) i with
      | None => Err EUndef
      | Some c =>
          if holds d c then
            if snd c =? tag then
              rbind (q_read K V (q_slots _ _ t) i) (fun kv =>
              match cmp seen k (fst kv) with
              | None => Ok (fst kv :: seen, inl QThrown)
              | Some true => Ok (fst kv :: seen, inl (QScanned (QHit i)))
              | Some false => q_singles_c todo' t k tag (q_succ K V t i) (d + 1) (fst kv :: seen)
              end)
            else q_singles_c todo' t k tag (q_succ K V t i) (d + 1) seen
          else Ok (seen, inl (QScanned (QStop i d)))
      end
  end.

(** The loop over the words with an equal hash, Q:2684-2694 and 2919-2931. *)
Fixpoint q_match_c (t : qmap) (k : K) (start : N) (ps : list N) (seen : list K)
  : res (list K * answer N) :=
  match ps with
  | [] => Ok (seen, Absent)
  | p :: ps' =>
      let i := q_round K V t (wadd start (bit_pos wide p)) in
      rbind (q_read K V (q_slots _ _ t) i) (fun kv =>
      match cmp seen k (fst kv) with
      | None => Ok (fst kv :: seen, Thrown)
      | Some true => Ok (fst kv :: seen, Found i)
      | Some false => q_match_c t k start ps' (fst kv :: seen)
      end)
  end.

(** The loops over groups, Q:2680-2700 and 2916-2943, 2952-2959. *)
Fixpoint q_groups_c (fuel : nat) (t : qmap) (k : K) (tag home i d : N) (seen : list K)
  : res (list K * qscan_c) :=
  match fuel with
  | O => Err ELoop
  | S fuel' =>
      rbind (q_group (q_ctrls _ _ t) i) (fun g =>
      rbind (q_match_c t k i (positions (word_mask wide (hash_lanes g tag d))) seen) (fun '(seen', r) =>
      match r with
      | Found j => Ok (seen', QScanned (QHit j))
      | Thrown => Ok (seen', QThrown)
      | Absent =>
          let m := word_mask wide (stop_lanes g d) in
          if negb (m =? 0) then
            let j := wadd i (bit_pos wide (bsf m)) in
            Ok (seen', QScanned (QStop (q_round K V t j) (q_dist K V t j home)))
          else
            let i' := q_next K V t i in
            if i' =? home then Ok (seen', QScanned QFull)
            else q_groups_c fuel' t k tag home i' (u8 (d + qGroupWidth)) seen'
      end))
  end.

(** find_impl (Q:2620-2703) with two first comparisons, find_or_prepare_insert
    (Q:2828-2960) with four. *)
Definition q_search_c (singles : nat) (t : qmap) (k : K) (seen : list K) : res (list K * qscan_c) :=
  rbind (q_singles_c singles t k (q_tag K hash k) (q_home K V hash t k) 0 seen) (fun '(seen', r) =>
  match r with
  | inl s => Ok (seen', s)
  | inr (i, d) => q_groups_c (q_fuel K V t) t k (q_tag K hash k) (q_home K V hash t k) i d seen'
  end).

(** Growing compares no keys. *)
Definition q_grow_c : oracle -> qmap -> out qmap unit := q_grow K V hash (fun _ _ => false) wide trivial.

(** find_or_prepare_insert, Q:2828-2960. *)
Fixpoint q_prepare_c (fuel : nat) (alloc : oracle) (k : K) (seen : list K) (t : qmap)
  : out qmap (list K * looked (N * N * bool)) :=
  match fuel with
  | O => Fail ELoop
  | S fuel' =>
      match q_search_c 4 t k seen with
      | Err e => Fail e
      | Ok (seen', QThrown) => Ret t (seen', Escaped)
      | Ok (seen', QScanned (QHit i)) => Ret t (seen', Done (i, 0, true))
      | Ok (seen', QScanned QFull) =>
          obind (q_grow_c alloc t) (fun t' _ => q_prepare_c fuel' alloc k seen' t')
      | Ok (seen', QScanned (QStop i d)) =>
          if q_need_grow K V t
          then obind (q_grow_c alloc t) (fun t' _ => q_prepare_c fuel' alloc k seen' t')
          else Ret t (seen', Done (i, d, false))
      end
  end.

(** emplace_impl, Q:3040-3369. *)
Fixpoint q_emplace_c (fuel : nat) (alloc : oracle) (update : bool) (k : K) (v : V) (seen : list K)
    (t : qmap) : out qmap (looked (N * bool)) :=
  match fuel with
  | O => Fail ELoop
  | S fuel' =>
      obind (q_prepare_c 64 alloc k seen t) (fun t1 '(seen', r) =>
      match r with
      | Escaped => Ret t1 Escaped
      | Done (i, _, true) =>
          match q_read K V (q_slots _ _ t1) i with
          | Ok kv =>
              if update
              then Ret (q_with K V t1 (q_ctrls _ _ t1) (seti (q_slots _ _ t1) i (Some (fst kv, v)))
                               (q_size _ _ t1)) (Done (i, false))
              else Ret t1 (Done (i, false))
          | Err _ => Fail EUndef
          end
      | Done (i, d, false) =>
          match q_insert_at K V hash trivial false t1 i d (k, v) with
          | Err e => Fail e
          | Ok (t2, false) => Ret t2 (Done (i, true))
          | Ok (t2, true) =>
              obind (q_grow_c alloc t2) (fun t3 _ => q_emplace_c fuel' alloc update k v seen' t3)
          end
      end)
  end.

(** find_and_erase, Q:3548-3557. *)
Definition q_erase_c (k : K) (t : qmap) : out qmap (looked N) :=
  match q_search_c 2 t k [] with
  | Err e => Fail e
  | Ok (_, QThrown) => Ret t Escaped
  | Ok (_, QScanned (QHit i)) =>
      match q_erase_slot K V trivial t i with
      | Ok t' => Ret t' (Done 1)
      | Err e => Fail e
      end
  | Ok (_, QScanned _) => Ret t (Done 0)
  end.

(** find, Q:1748-1751, and what it points to; contains, Q:1743-1746. *)
Definition q_lookup_c (k : K) (t : qmap) : out qmap (looked (option (K * V))) :=
  match q_search_c 2 t k [] with
  | Err e => Fail e
  | Ok (_, QThrown) => Ret t Escaped
  | Ok (_, QScanned (QHit i)) =>
      match q_deref K V t i with
      | Ok kv => Ret t (Done (Some kv))
      | Err e => Fail e
      end
  | Ok (_, QScanned _) => Ret t (Done None)
  end.

(** What the caller sees: nothing if a comparison has thrown. *)
Definition q_obs_c {A} (r : out qmap (looked A)) (f : qmap -> A -> res (obs K V))
  : out qmap (option (obs K V)) :=
  obind r (fun t a =>
  match a with
  | Escaped => Ret t None
  | Done a => match f t a with Ok x => Ret t (Some x) | Err e => Fail e end
  end).

Definition q_ins_c (r : out qmap (looked (N * bool))) : out qmap (option (obs K V)) :=
  q_obs_c r (fun t '(i, b) => rbind (q_deref K V t i) (fun kv => Ok (RIns K V kv b))).

(** One call: [Ret t None] if a comparison has thrown, [Throw t] if memory was refused.
    Calls that do not search compare no keys. *)
Definition q_step_c (alloc : oracle) (o : op K V) (t : qmap) : out qmap (option (obs K V)) :=
  match o with
  | OInsert _ _ k v => q_ins_c (q_emplace_c 64 alloc false k v [] t)
  | OAssign _ _ k v => q_ins_c (q_emplace_c 64 alloc true k v [] t)
  | OErase _ _ k => q_obs_c (q_erase_c k t) (fun _ n => Ok (RNum K V n))
  | OFind _ _ k => q_obs_c (q_lookup_c k t) (fun _ r => Ok (REntry K V r))
  | OContains _ _ k => q_obs_c (q_lookup_c k t) (fun _ r => Ok (RBool K V (negb (is_none r))))
  | _ => obind (q_step K V hash (fun _ _ => false) wide trivial alloc o t) (fun t' r => Ret t' (Some r))
  end.

End Compare.

(** A sequence of calls, each with its own answers of the allocators and of the key
    equality; [None] stands for an exception of the key equality.  It stops when memory
    is refused. *)
Fixpoint q_run_c {K V} (hash : K -> N) (wide trivial : bool)
         (calls : list ((bool -> N -> bool) * comparison K * op K V)) (t : qmap K V)
  : out (qmap K V) (list (option (obs K V))) :=
  match calls with
  | [] => Ret t []
  | (alloc, cmp, o) :: rest =>
      obind (q_step_c K V hash cmp wide trivial alloc o t) (fun t' r =>
      obind (q_run_c hash wide trivial rest t') (fun t'' rs => Ret t'' (r :: rs)))
  end.
