(** The flat16 map with a key equality that may answer anything and may throw.
    [F16] = /repo/src/jstd/hashmap/flat16_hash_map.h.

    Keys are compared by the loops of find_impl, find_and_prepare_insert and
    find_and_erase only, always with the stored key on the left.  None of the functions is
    noexcept.  The functions below are those of Flat16Model.v with [keq] replaced by
    [cmp], as in CompareModel.v: [cmp seen k k'] is the answer to the comparison of the
    searched key [k] with the stored key [k'], where [seen] are the stored keys compared
    before in the same call; [None]: the comparison throws.  An insertion that grows the
    table searches again, so that it may find an equal key only then. *)
From Coq Require Import NArith List Bool.
From Verif Require Import Base BitsModel GroupModel TableModel Flat16Model CompareModel.
Import ListNotations.
Open Scope N_scope.

Section Compare.

Variables K V : Type.
(** get_hash, F16:1532-1535; get_second_hash, F16:1537-1548. *)
Variable hash : K -> N.
Variable mix : N -> N.
Variable cmp : comparison K.

Notation fmap := (fmap K V).
Notation oracle := (bool -> N -> bool).

(** The loop over the positions with equal control bytes, F16:2184-2192, 2379-2387 and
    2719-2728. *)
Fixpoint f_match_c (t : fmap) (k : K) (start : N) (ps : list N) (seen : list K)
  : res (list K * answer N) :=
  match ps with
  | [] => Ok (seen, Absent)
  | p :: ps' =>
      let i := f_round K V t (wadd start p) in
      match geti (f_slots _ _ t) i with
      | Some (Some kv) =>
          match cmp seen k (fst kv) with
          | None => Ok (fst kv :: seen, Thrown)
          | Some true => Ok (fst kv :: seen, Found i)
          | Some false => f_match_c t k start ps' (fst kv :: seen)
          end
      | _ => Err EUndef
      end
  end.

(** The end of the loop over groups: [f_scan] of Flat16Model.v, or an exception. *)
Inductive fscan_c := Scanned (s : fscan) | CompareThrows.

(** The loop over groups of find_impl (F16:2180-2197), find_and_prepare_insert
    (F16:2374-2394) and find_and_erase (F16:2715-2733). *)
Fixpoint f_scan_c (fuel : nat) (t : fmap) (k : K) (start i : N) (seen : list K)
  : res (list K * fscan_c) :=
  match fuel with
  | O => Err ELoop
  | S fuel' =>
      rbind (f_group (f_ctrls _ _ t) i) (fun g =>
      rbind (f_match_c t k i (positions (match_tag g (f_tag K hash mix k))) seen) (fun '(seen', r) =>
      match r with
      | Found j => Ok (seen', Scanned (FHit j))
      | Thrown => Ok (seen', CompareThrows)
      | Absent =>
          let m := match_empty g in
          if negb (m =? 0) then Ok (seen', Scanned (FStop i m))
          else let i' := f_next K V t i in
               if i' =? start then Ok (seen', Scanned FFull) else f_scan_c fuel' t k start i' seen'
      end))
  end.

(** find_impl, F16:2174-2200. *)
Definition f_search_c (t : fmap) (k : K) (seen : list K) : res (list K * fscan_c) :=
  f_scan_c (f_fuel K V t) t k (f_home K V hash t k) (f_home K V hash t k) seen.

(** What a call that looks for a key gives: its result, or the exception of the key
    equality.  ([Throw] is left to refused memory.) *)
Inductive looked (A : Type) := Done (a : A) | Escaped.
Arguments Done {A} a.
Arguments Escaped {A}.

(** find_and_prepare_insert, F16:2363-2445. *)
Fixpoint f_prepare_c (fuel : nat) (alloc : oracle) (k : K) (seen : list K) (t : fmap)
  : out fmap (looked (N * bool)) :=
  match fuel with
  | O => Fail ELoop
  | S fuel' =>
      match f_search_c t k seen with
      | Err e => Fail e
      | Ok (_, CompareThrows) => Ret t Escaped
      | Ok (_, Scanned (FHit i)) => Ret t (Done (i, true))
      | Ok (seen', Scanned FFull) =>
          obind (f_grow K V hash mix alloc t) (fun t' _ => f_prepare_c fuel' alloc k seen' t')
      | Ok (seen', Scanned (FStop last m)) =>
          if f_need_grow K V t
          then obind (f_grow K V hash mix alloc t) (fun t' _ => f_prepare_c fuel' alloc k seen' t')
          else
            let first := f_home K V hash t k in
            if negb (last =? first) then
              match f_deleted_loop K V (f_fuel K V t) t first last first with
              | Err e => Fail e
              | Ok (Some i) => Ret t (Done (i, false))
              | Ok None => Ret (f_use_empty K V t) (Done (f_round K V t (wadd last (bsf m)), false))
              end
            else
              match f_group (f_ctrls _ _ t) last with
              | Err e => Fail e
              | Ok g =>
                  let d := match_deleted g in
                  if negb (d =? 0) then Ret t (Done (f_round K V t (wadd last (bsf d)), false))
                  else Ret (f_use_empty K V t) (Done (f_round K V t (wadd last (bsf m)), false))
              end
      end
  end.

(** emplace_impl, F16:2447-2705; [update] is AlwaysUpdate. *)
Definition f_emplace_c (alloc : oracle) (update : bool) (k : K) (v : V) (t : fmap)
  : out fmap (looked (N * bool)) :=
  obind (f_prepare_c 64 alloc k [] t) (fun t1 r =>
  match r with
  | Escaped => Ret t1 Escaped
  | Done (i, true) =>
      match geti (f_slots _ _ t1) i with
      | Some (Some kv) =>
          if update
          then Ret (f_with K V t1 (f_ctrls _ _ t1) (seti (f_slots _ _ t1) i (Some (fst kv, v)))
                           (f_size _ _ t1) (f_left _ _ t1)) (Done (i, false))
          else Ret t1 (Done (i, false))
      | _ => Fail EUndef
      end
  | Done (i, false) =>
      match f_construct K V hash mix t1 i (k, v) with
      | Ok t2 => Ret t2 (Done (i, true))
      | Err e => Fail e
      end
  end).

(** find_and_erase, F16:2709-2736. *)
Definition f_erase_c (k : K) (t : fmap) : out fmap (looked N) :=
  match f_search_c t k [] with
  | Err e => Fail e
  | Ok (_, CompareThrows) => Ret t Escaped
  | Ok (_, Scanned (FHit i)) =>
      match f_erase_slot K V t i with
      | Ok t' => Ret t' (Done 1)
      | Err e => Fail e
      end
  | Ok (_, Scanned _) => Ret t (Done 0)
  end.

(** find, F16:1342-1348, and what it points to; contains, F16:1337-1340. *)
Definition f_lookup_c (k : K) (t : fmap) : out fmap (looked (option (K * V))) :=
  match f_search_c t k [] with
  | Err e => Fail e
  | Ok (_, CompareThrows) => Ret t Escaped
  | Ok (_, Scanned (FHit i)) =>
      match f_deref K V t i with
      | Ok kv => Ret t (Done (Some kv))
      | Err e => Fail e
      end
  | Ok (_, Scanned _) => Ret t (Done None)
  end.

Definition f_obs_c {A} (r : out fmap (looked A)) (f : fmap -> A -> res (obs K V))
  : out fmap (option (obs K V)) :=
  obind r (fun t a =>
  match a with
  | Escaped => Ret t None
  | Done a => match f t a with Ok x => Ret t (Some x) | Err e => Fail e end
  end).

Definition f_ins_c (r : out fmap (looked (N * bool))) : out fmap (option (obs K V)) :=
  f_obs_c r (fun t '(i, b) => rbind (f_deref K V t i) (fun kv => Ok (RIns K V kv b))).

(** One call: [Ret t None] if a comparison has thrown, [Throw t] if memory was refused.
    Calls that do not search compare no keys. *)
Definition f_step_c (trivial : bool) (alloc : oracle) (o : op K V) (t : fmap)
  : out fmap (option (obs K V)) :=
  match o with
  | OInsert _ _ k v => f_ins_c (f_emplace_c alloc false k v t)
  | OAssign _ _ k v => f_ins_c (f_emplace_c alloc true k v t)
  | OErase _ _ k => f_obs_c (f_erase_c k t) (fun _ n => Ok (RNum K V n))
  | OFind _ _ k => f_obs_c (f_lookup_c k t) (fun _ r => Ok (REntry K V r))
  | OContains _ _ k => f_obs_c (f_lookup_c k t) (fun _ r => Ok (RBool K V (negb (is_none r))))
  | _ => obind (f_step K V hash (fun _ _ => false) mix trivial alloc o t) (fun t' r => Ret t' (Some r))
  end.

End Compare.
Arguments Done {A} a.
Arguments Escaped {A}.

(** A sequence of calls, each with its own answers of the allocators and of the key
    equality; [None] stands for an exception of the key equality.  It stops when memory
    is refused. *)
Fixpoint f_run_c {K V} (hash : K -> N) (mix : N -> N) (trivial : bool)
         (calls : list ((bool -> N -> bool) * comparison K * op K V)) (t : fmap K V)
  : out (fmap K V) (list (option (obs K V))) :=
  match calls with
  | [] => Ret t []
  | (alloc, cmp, o) :: rest =>
      obind (f_step_c K V hash mix cmp trivial alloc o t) (fun t' r =>
      obind (f_run_c hash mix trivial rest t') (fun t'' rs => Ret t'' (r :: rs)))
  end.
