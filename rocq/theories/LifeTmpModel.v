(** emplace through a temporary slot in the robin hood map
    /repo/src/jstd/hashmap/robin_hash_map.h ([RH]) with the indirect layout of
    IndirectModel.v. *)
From Coq Require Import NArith List Bool.
From Verif Require Import Base TableModel RobinModel IndirectModel.
Import ListNotations.
Open Scope N_scope.

Section Tmp.

Variables K V : Type.
Variable hash : K -> N.
Variable keq : K -> K -> bool.

Notation imap := (imap K V).

(** emplace_impl, RH:6053-6096, for arguments from which neither an element nor a key
    can be constructed; [k] and [v] are the key and the value in the temporary slot
    (RH:6063-6068).  The last component of the answer: the temporary element has been
    destroyed.  A present key: RH:6080-6087; a new key: transfer, RH:6073-6079; kNeedGrow:
    the temporary is moved from and left, RH:6088-6095. *)
Definition i_emplace_tmp (fuel : nat) (alloc : N -> bool) (update : bool) (k : K) (v : V) (t : imap)
  : out imap (N * bool * bool) :=
  match i_search K V hash keq t true k with
  | Err e => Fail e
  | Ok (Found i) =>
      match geti (i_ctrls _ _ t) i with
      | Some c =>
          match geti (i_slots _ _ t) (c_idx c) with
          | Some (Some kv) =>
              Ret (if update
                   then i_with K V t (i_ctrls _ _ t) (seti (i_slots _ _ t) (c_idx c) (Some (fst kv, v)))
                               (i_size _ _ t)
                   else t) (c_idx c, false, true)
          | _ => Fail EUndef
          end
      | None => Fail EUndef
      end
  | Ok (Stop i d) =>
      let grow := i_need_grow K V t || (127 <? d) in
      obind (if grow then i_grow K V hash keq alloc t else Ret t tt) (fun t1 _ =>
      match (if grow then i_search K V hash keq t1 false k else Ok (Stop i d)) with
      | Err e => Fail e
      | Ok (Found _) => Fail EUndef
      | Ok (Stop i d) =>
          match i_insert_at K V hash false t1 i d (k, v) with
          | Err e => Fail e
          | Ok (t2, true) => Ret t2 (i_size _ _ t1, true, true)
          | Ok (t2, false) =>
              obind (i_grow K V hash keq alloc t2) (fun t3 _ =>
              obind (i_emplace K V hash keq fuel alloc false k v t3) (fun t4 '(n, new) =>
              Ret t4 (n, new, false)))
          end
      end)
  end.

End Tmp.
