(** The group15 and group16 maps with a key equality that may answer anything and may
    throw.  [T15] = /repo/src/jstd/hashmap/group15_flat_table.hpp,
    [T16] = /repo/src/jstd/hashmap/group16_flat_table.hpp.

    Keys are compared in find_impl (T15:2284-2324) and find_index (T16:2125-2167) only, always
    with the searched key on the left.  None of the functions is noexcept: an exception
    of key_equal_ reaches the caller.  The functions below are those of TableModel.v with
    [keq] replaced by [cmp]: [cmp seen k k'] is the answer to the comparison of [k] with
    the stored key [k'], where [seen] are the stored keys that were compared before in
    the same call, the last one first; [None]: the comparison throws.  So the answers may
    depend on what was compared before, and every call of the map has a [cmp] of its own.

    Not modelled here: emplace through a temporary slot (HasherModel.v), whose element
    is lost by an exception of any kind. *)
From Coq Require Import NArith List Bool.
From Verif Require Import Base BitsModel ProberModel GroupModel TableModel.
Import ListNotations.
Open Scope N_scope.

(** The end of a search. *)
Inductive answer (A : Type) := Found (a : A) | Absent | Thrown.
Arguments Found {A} a.
Arguments Absent {A}.
Arguments Thrown {A}.

Section Compare.

Variables K V : Type.
(** hash_for(key), T15:1353-1371, T16:1314-1330. *)
Variable hash : K -> N.
Variable kd : kind.

Notation table := (table K V).

(** Answers of key_equal_ during one call. *)
Definition comparison : Type := list K -> K -> K -> option bool.

Variable cmp : comparison.

(** The inner do/while of find_impl, T15:2299-2306, T16:2141-2149.  Returns the keys
    compared so far as well. *)
Fixpoint scan_c (slots : list (option (K * V))) (k : K) (gi : N) (ps : list N) (seen : list K)
  : res (list K * answer N) :=
  match ps with
  | [] => Ok (seen, Absent)
  | p :: ps' =>
      match geti slots (slot_index kd gi p) with
      | Some (Some (k', _)) =>
          match cmp seen k k' with
          | None => Ok (k' :: seen, Thrown)
          | Some true => Ok (k' :: seen, Found p)
          | Some false => scan_c slots k gi ps' (k' :: seen)
          end
      | _ => Err EUndef
      end
  end.

(** The outer do/while of find_impl, T15:2288-2321; find_index, T16:2130-2164. *)
Fixpoint find_loop_c (fuel : nat) (t : table) (k : K) (ch : N) (pr : prober) (seen : list K)
  : res (list K * answer (N * N)) :=
  match fuel with
  | O => Err ELoop
  | S f =>
      match geti (t_groups _ _ t) (pr_index pr) with
      | None => Err EUndef
      | Some g =>
          match scan_c (t_slots _ _ t) k (pr_index pr) (positions (kd_match_hash kd g ch)) seen with
          | Err e => Err e
          | Ok (seen', Thrown) => Ok (seen', Thrown)
          | Ok (seen', Found p) => Ok (seen', Found (pr_index pr, p))
          | Ok (seen', Absent) =>
              if negb (kd_is_overflow kd g ch) then Ok (seen', Absent)
              else
                let '(pr', more) := next_bucket (t_gmask _ _ t) pr in
                if more then find_loop_c f t k ch pr' seen' else Ok (seen', Absent)
          end
      end
  end.

(** find_impl(key), T15:2269-2274; find_index(key), T16:2116-2121. *)
Definition find_c (t : table) (k : K) : res (list K * answer (N * N)) :=
  let h := hash k in
  find_loop_c (S (N.to_nat (t_gmask _ _ t))) t k (ctrl_for_hash kd h)
              (prober_init (index_for_hash K V t h)) [].

(** find_or_insert, T15:2393-2427, T16:2217-2251. *)
Definition find_or_insert_c (alloc : N -> bool) (t : table) (k : K)
  : out table ((N * N) * bool) :=
  match find_c t k with
  | Err e => Fail e
  | Ok (_, Thrown) => Throw t
  | Ok (_, Found loc) => Ret t (loc, false)
  | Ok (_, Absent) =>
      obind (if need_grow K V t then grow_if_necessary K V hash kd alloc t else Ret t tt)
            (fun t1 _ =>
               match find_empty_to_insert K V kd true t1 (hash k) with
               | Ok (t2, loc) => Ret t2 (loc, true)
               | Err e => Fail e
               end)
  end.

(** emplace_impl<AlwaysUpdate>, T15:2507-2719, T16:2319-2560, and try_emplace_impl,
    T15:2725-2761, T16:2563-2586; element constructors do not throw. *)
Definition emplace_c (alloc : N -> bool) (always_update : bool) (t : table) (k : K) (v : V)
  : out table (N * bool) :=
  obind (find_or_insert_c alloc t k)
        (fun t1 r =>
           let '((gi, p), need_insert) := r in
           let i := slot_index kd gi p in
           if need_insert then
             match construct_at K V t1 i (k, v) with
             | Ok t2 => Ret t2 (i, true)
             | Err e => Fail e
             end
           else if always_update then
             match geti (t_slots _ _ t1) i with
             | Some (Some (k', _)) =>
                 Ret (mkT _ _ (t_alloc _ _ t1) (t_groups _ _ t1) (seti (t_slots _ _ t1) i (Some (k', v)))
                          (t_size _ _ t1) (t_thr _ _ t1) (t_gmask _ _ t1) (t_shift _ _ t1) (t_mlf _ _ t1))
                     (i, false)
             | _ => Fail EUndef
             end
           else Ret t1 (i, false)).

(** find_and_erase, T15:2804-2816, T16:2616-2628. *)
Definition find_and_erase_c (t : table) (k : K) : out table N :=
  match find_c t k with
  | Err e => Fail e
  | Ok (_, Thrown) => Throw t
  | Ok (_, Absent) => Ret t 0
  | Ok (_, Found (gi, p)) =>
      match erase_slot K V kd t gi p with
      | Ok t' => Ret t' 1
      | Err e => Fail e
      end
  end.

(** find/at/contains/count, T15:778-817, T16:724-763. *)
Definition lookup_c (t : table) (k : K) : out table (option (K * V)) :=
  match find_c t k with
  | Err e => Fail e
  | Ok (_, Thrown) => Throw t
  | Ok (_, Absent) => Ret t None
  | Ok (_, Found (gi, p)) =>
      match geti (t_slots _ _ t) (slot_index kd gi p) with
      | Some (Some kv) => Ret t (Some kv)
      | _ => Fail EUndef
      end
  end.

(** One call.  Calls that do not search compare no keys. *)
Definition step_c (alloc : N -> bool) (o : op K V) (t : table) : out table (obs K V) :=
  match o with
  | OInsert _ _ k v => observe_ins K V (emplace_c alloc false t k v)
  | OAssign _ _ k v => observe_ins K V (emplace_c alloc true t k v)
  | OErase _ _ k => obind (find_and_erase_c t k) (fun t' n => Ret t' (RNum _ _ n))
  | OFind _ _ k => obind (lookup_c t k) (fun t' e => Ret t' (REntry _ _ e))
  | OContains _ _ k => obind (lookup_c t k) (fun t' e => Ret t' (RBool _ _ (negb (is_none e))))
  | _ => step K V hash (fun _ _ => false) kd alloc o t
  end.

End Compare.

(** A sequence of calls, each with its own answers of the allocator and of the key
    equality, as RunModel.run. *)
Fixpoint run_c {K V} (hash : K -> N) (kd : kind)
         (calls : list ((N -> bool) * comparison K * op K V)) (t : table K V)
  : res (list (option (obs K V)) * table K V) :=
  match calls with
  | [] => Ok ([], t)
  | (alloc, cmp, o) :: rest =>
      match step_c K V hash kd cmp alloc o t with
      | Ret t' r => rbind (run_c hash kd rest t') (fun '(rs, t'') => Ok (Some r :: rs, t''))
      | Throw t' => rbind (run_c hash kd rest t') (fun '(rs, t'') => Ok (None :: rs, t''))
      | Fail e => Err e
      end
  end.
