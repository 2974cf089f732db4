(** Insertion of a new key whose element's constructor throws, in the maps of
    [RH] = /repo/src/jstd/hashmap/robin_hash_map.h,
    [F16] = /repo/src/jstd/hashmap/flat16_hash_map.h,
    [Q] = /repo/src/jstd/hashmap/robin16_hash_map.h.
    Everything before the construction is as in RobinModel, Flat16Model and
    Robin16Model; nothing after it is done, and the exception leaves the function. *)
From Coq Require Import NArith ZArith List Bool.
From Verif Require Import Base TableModel RobinModel Flat16Model Robin16Model.
Import ListNotations.
Open Scope N_scope.

Section Throw.

Variables K V : Type.
Variable hash : K -> N.
Variable keq : K -> K -> bool.

(** The construction throws in a slot without an element. *)
Definition raw_slot (slots : list (option (K * V))) (i : N) : bool :=
  match geti slots i with Some None => true | _ => false end.

(** ** [RH] *)

(** The end of direct_find_and_insert, RH:5609-5615 (setUsedCtrl, or insert_to_place), and
    the construction by emplace_impl, RH:5879, which throws.  The flag is false for
    kNeedGrow. *)
Definition r_insert_at_t (t : rmap K V) (i d : N) : res (rmap K V * bool) :=
  if r_alloc _ _ t then
    match geti (r_ctrls _ _ t) i with
    | None => Err EUndef
    | Some c =>
        if c =? cEmpty then
          if raw_slot (r_slots _ _ t) i
          then Ok (r_with K V t (seti (r_ctrls _ _ t) i d) (r_slots _ _ t) (r_size _ _ t), true)
          else Err EUndef
        else
          rbind (r_insert_to_place K V false t i d) (fun '(ctrls, slots, ok) =>
          if (ok : bool) && negb (raw_slot slots i) then Err EUndef
          else Ok (r_with K V t ctrls slots (r_size _ _ t), ok))
    end
  else Err EUndef.

(** emplace_impl<AlwaysUpdate>, RH:5870-5893, with direct_find_and_insert, RH:5471-5616:
    [r_emplace] of RobinModel. *)
Fixpoint r_emplace_t (fuel : nat) (alloc : N -> bool) (update : bool) (k : K) (v : V)
    (t : rmap K V) : out (rmap K V) (N * bool) :=
  match fuel with
  | O => Fail ELoop
  | S fuel' =>
      match r_search K V hash keq t true k with
      | Err e => Fail e
      | Ok (Found i) =>
          match geti (r_slots _ _ t) i with
          | Some (Some kv) =>
              Ret (if update
                   then r_with K V t (r_ctrls _ _ t) (seti (r_slots _ _ t) i (Some (fst kv, v)))
                               (r_size _ _ t)
                   else t) (i, false)
          | _ => Fail EUndef
          end
      | Ok (Stop i d) =>
          let grow := r_need_grow K V t || (r_max_distance K V t <=? d) in
          obind (if grow then r_grow K V hash keq alloc t else Ret t tt) (fun t1 _ =>
          match (if grow then r_search K V hash keq t1 false k else Ok (Stop i d)) with
          | Err e => Fail e
          | Ok (Found _) => Fail EUndef
          | Ok (Stop i d) =>
              match r_insert_at_t t1 i d with
              | Err e => Fail e
              | Ok (t2, true) => Throw t2
              | Ok (t2, false) =>
                  obind (r_grow K V hash keq alloc t2) (fun t3 _ =>
                  r_emplace_t fuel' alloc update k v t3)
              end
          end)
      end
  end.

(** ** [F16] *)

Variable mix : N -> N.

(** emplace_impl, F16:2447-2705: setUsed and setUsedMirrorCtrl, then the construction. *)
Definition f_emplace_t (alloc : bool -> N -> bool) (update : bool) (k : K) (v : V) (t : fmap K V)
  : out (fmap K V) (N * bool) :=
  obind (f_prepare K V hash keq mix 64 alloc k t) (fun t1 '(i, exists_) =>
  if exists_ : bool then
    match geti (f_slots _ _ t1) i with
    | Some (Some kv) =>
        if update
        then Ret (f_with K V t1 (f_ctrls _ _ t1) (seti (f_slots _ _ t1) i (Some (fst kv, v)))
                         (f_size _ _ t1) (f_left _ _ t1)) (i, false)
        else Ret t1 (i, false)
    | _ => Fail EUndef
    end
  else
    match f_set_used (f_cap K V t1) (f_ctrls _ _ t1) i (f_tag K hash mix k) with
    | Err e => Fail e
    | Ok cs =>
        if raw_slot (f_slots _ _ t1) i
        then Throw (f_with K V t1 cs (f_slots _ _ t1) (f_size _ _ t1) (f_left _ _ t1))
        else Fail EUndef
    end).

(** ** [Q] *)

(** [wide] as in Robin16Model; the elements have destructors ([trivial] = false). *)
Variable wide : bool.

(** The common end of the emplace_impl functions, Q:3047-3072 for example. *)
Definition q_insert_at_t (t : qmap K V) (target d : N) (k : K) : res (qmap K V * bool) :=
  match geti (q_ctrls _ _ t) target with
  | None => Err EUndef
  | Some c =>
      rbind (if is_empty16 c
             then rbind (q_set (q_cap K V t) (q_ctrls _ _ t) target (d, q_tag K hash k))
                        (fun cs => Ok (cs, q_slots _ _ t, false))
             else q_insert_to_place K V false false t target d (q_tag K hash k))
            (fun '(cs, sl, grow) =>
      if (grow : bool) then Ok (q_with K V t cs sl (q_size _ _ t), true)
      else if raw_slot sl target then Ok (q_with K V t cs sl (q_size _ _ t), false)
      else Err EUndef)
  end.

(** emplace_impl, Q:3040-3369: [q_emplace] of Robin16Model, for elements with destructors. *)
Fixpoint q_emplace_t (fuel : nat) (alloc : bool -> N -> bool) (update : bool) (k : K) (v : V)
    (t : qmap K V) : out (qmap K V) (N * bool) :=
  match fuel with
  | O => Fail ELoop
  | S fuel' =>
      obind (q_prepare K V hash keq wide false 64 alloc k t) (fun t1 '(i, d, exists_) =>
      if exists_ : bool then
        match q_read K V (q_slots _ _ t1) i with
        | Ok kv =>
            if update
            then Ret (q_with K V t1 (q_ctrls _ _ t1) (seti (q_slots _ _ t1) i (Some (fst kv, v)))
                             (q_size _ _ t1)) (i, false)
            else Ret t1 (i, false)
        | Err _ =>
            if update then Fail EUndef else Ret t1 (i, false)
        end
      else
        match q_insert_at_t t1 i d k with
        | Err e => Fail e
        | Ok (t2, false) => Throw t2
        | Ok (t2, true) =>
            obind (q_grow K V hash keq wide false alloc t2) (fun t3 _ =>
            q_emplace_t fuel' alloc update k v t3)
        end)
  end.

End Throw.
