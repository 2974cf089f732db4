(** What insertions leave of their arguments, and arguments that refer to elements of the map
    itself.  [T15], [T16], [M15], [M16] as in CopyModel.v.
    Elsewhere in the model a moved value is a copied value; here [gone_key k] and
    [gone_value v] are what a key and a mapped value are after they have been moved from
    (themselves for numbers, the empty string for std::string). *)
From Coq Require Import NArith List Bool.
From Verif Require Import Base GroupModel TableModel IterModel CopyModel.
Import ListNotations.
Open Scope N_scope.

(** How an argument is passed: const lvalue, lvalue that is not const, rvalue. *)
Inductive category := CConst | CLvalue | CRvalue.

Section Move.

Variables K V : Type.
Variable hash : K -> N.
Variable keq : K -> K -> bool.
Variable kd : kind.
Variable gone_key : K -> K.
Variable gone_value : V -> V.

Notation table := (table K V).

(** The pair constructed from std::move(value), T15:2548, T16:2379, and what it leaves.
    [const_key]: the argument is a pair<const K, V>, whose key can only be copied. *)
Definition left_pair (const_key : bool) (kv : K * V) : K * V :=
  (if const_key then fst kv else gone_key (fst kv), gone_value (snd kv)).

(** emplace_impl<false> of one argument, T15:2506-2532 (const ValueT &) and 2534-2568
    (ValueT &&, also chosen for lvalues that are not const); T16:2337-2361, 2363-2395.
    Called by emplace and emplace_hint with a pair, by insert with a pair (const or rvalue).
    Result: as emplace_impl, and the argument afterwards. *)
Definition emplace_pair (alloc : N -> bool) (c : category) (const_key : bool) (t : table)
           (kv : K * V) : out table (N * bool) * (K * V) :=
  match find_or_insert K V hash keq kd alloc t (fst kv) with
  | Ret t1 ((gi, p), need_insert) =>
      let i := slot_index kd gi p in
      if need_insert then
        match construct_at K V t1 i kv with
        | Ok t2 => (Ret t2 (i, true),
                    match c with CConst => kv | _ => left_pair const_key kv end)
        | Err e => (Fail e, kv)
        end
      else (Ret t1 (i, false), kv)
  | Throw t1 => (Throw t1, kv)
  | Fail e => (Fail e, kv)
  end.

(** std::forward of one argument into a constructor or an assignment. *)
Definition left_of {A} (gone : A -> A) (c : category) (a : A) : A :=
  match c with CRvalue => gone a | _ => a end.

(** emplace_impl<AlwaysUpdate> of a key and a value, T15:2570-2610, T16:2397-2438, and
    try_emplace_impl, T15:2723-2761, T16:2550-2587 (AlwaysUpdate = false).  Called by emplace,
    try_emplace and insert_or_assign (M15:471-487, M16:468-484).
    Result: as emplace_impl, and both arguments afterwards. *)
Definition emplace_two (alloc : N -> bool) (always_update : bool) (ck cv : category) (t : table)
           (k : K) (v : V) : out table (N * bool) * (K * V) :=
  match find_or_insert K V hash keq kd alloc t k with
  | Ret t1 ((gi, p), need_insert) =>
      let i := slot_index kd gi p in
      if need_insert then
        match construct_at K V t1 i (k, v) with
        | Ok t2 => (Ret t2 (i, true), (left_of gone_key ck k, left_of gone_value cv v))
        | Err e => (Fail e, (k, v))
        end
      else if always_update then
        match geti (t_slots _ _ t1) i with
        | Some (Some (k', _)) =>
            (Ret (mkT _ _ (t_alloc _ _ t1) (t_groups _ _ t1) (seti (t_slots _ _ t1) i (Some (k', v)))
                      (t_size _ _ t1) (t_thr _ _ t1) (t_gmask _ _ t1) (t_shift _ _ t1) (t_mlf _ _ t1))
                 (i, false), (k, left_of gone_value cv v))
        | _ => (Fail EUndef, (k, v))
        end
      else (Ret t1 (i, false), (k, v))
  | Throw t1 => (Throw t1, (k, v))
  | Fail e => (Fail e, (k, v))
  end.

(** insert_or_assign with a key of a type that is converted to the key type,
    M15:484-492, M16:481-489: std::move(key), whatever the category. *)
Definition insert_or_assign_other (alloc : N -> bool) (ck cv : category) (t : table) (k : K) (v : V)
  : out table (N * bool) * (K * V) :=
  emplace_two alloc true CRvalue cv t k v.

(** insert(first, last) of the maps, M15:457-463, M16:454-460, [n] rounds, where [first] is
    an iterator that is not const: every round emplaces what [first] refers to. *)
Fixpoint range_rounds (alloc : N -> bool) (const_key : bool) (n : nat) (first : K * V) (t : table)
  : out table unit * (K * V) :=
  match n with
  | O => (Ret t tt, first)
  | S n' =>
      match emplace_pair alloc CLvalue const_key t first with
      | (Ret t1 _, first') => range_rounds alloc const_key n' first' t1
      | (Throw t1, first') => (Throw t1, first')
      | (Fail e, first') => (Fail e, first')
      end
  end.

(** The same on a range: the map and the range afterwards. *)
Definition range_insert_mut (alloc : N -> bool) (const_key : bool) (l : list (K * V)) (t : table)
  : out table unit * list (K * V) :=
  match l with
  | [] => (Ret t tt, [])
  | first :: l' => let '(r, first') := range_rounds alloc const_key (length l) first t in (r, first' :: l')
  end.

(** The same when [first] is an iterator of another map [src], at slot [i]: the map and
    the other map afterwards. *)
Definition insert_from_map (alloc : N -> bool) (n : nat) (src : table) (i : N) (t : table)
  : out table unit * table :=
  match geti (t_slots _ _ src) i with
  | Some (Some kv) =>
      let '(r, kv') := range_rounds alloc true n kv t in
      (r, mkT _ _ (t_alloc _ _ src) (t_groups _ _ src) (seti (t_slots _ _ src) i (Some kv'))
              (t_size _ _ src) (t_thr _ _ src) (t_gmask _ _ src) (t_shift _ _ src) (t_mlf _ _ src))
  | _ => (Fail EUndef, src)
  end.

(** insert(first, last) of the tables, T15:895-901, T16:843-848: every element. *)
Fixpoint table_range_insert (alloc : N -> bool) (c : category) (const_key : bool) (l : list (K * V))
         (t : table) : out table unit * list (K * V) :=
  match l with
  | [] => (Ret t tt, [])
  | kv :: l' =>
      match emplace_pair alloc c const_key t kv with
      | (Ret t1 _, kv') => let '(r, l'') := table_range_insert alloc c const_key l' t1 in (r, kv' :: l'')
      | (Throw t1, kv') => (Throw t1, kv' :: l')
      | (Fail e, kv') => (Fail e, kv' :: l')
      end
  end.

(** operator = (initializer_list), M15:219-223, M16:216-220. *)
Definition assign_list (alloc : N -> bool) (l : list (K * V)) (t : table) : out table unit :=
  obind (clear K V kd false t) (fun t1 _ => range_insert K V hash keq kd alloc l t1).

(** emplace_impl of a key and of a reference to the mapped value in slot [j] of the map itself
    (emplace, try_emplace and insert_or_assign with m.at(k0)), lines as for [emplace_two].
    The reference is followed when the element is constructed or assigned.  The slots that it
    refers to have been deallocated if find_or_insert has replaced the arrays; rehash_impl<false>
    does so if and only if the control capacity grows (T15:2113-2114, T16:1988-1989). *)
Definition emplace_ref (alloc : N -> bool) (always_update : bool) (t : table) (k : K) (j : N)
  : out table (N * bool) :=
  obind (find_or_insert K V hash keq kd alloc t k) (fun t1 r =>
    let '((gi, p), need_insert) := r in
    let i := slot_index kd gi p in
    let target := if ctrl_capacity K V kd t =? ctrl_capacity K V kd t1 then geti (t_slots _ _ t1) j else None in
    if need_insert then
      match target with
      | Some (Some (_, v)) =>
          match construct_at K V t1 i (k, v) with Ok t2 => Ret t2 (i, true) | Err e => Fail e end
      | _ => Fail EUndef
      end
    else if always_update then
      match target, geti (t_slots _ _ t1) i with
      | Some (Some (_, v)), Some (Some (k', _)) =>
          Ret (mkT _ _ (t_alloc _ _ t1) (t_groups _ _ t1) (seti (t_slots _ _ t1) i (Some (k', v)))
                   (t_size _ _ t1) (t_thr _ _ t1) (t_gmask _ _ t1) (t_shift _ _ t1) (t_mlf _ _ t1))
              (i, false)
      | _, _ => Fail EUndef
      end
    else Ret t1 (i, false)).

End Move.
