(** Model of /repo/src/jstd/string/string_view_array.h ([SVA] below): a vector of pointers to
    elements that the destructor deletes.  Elements are numbered in the order of their
    creation.  The copy constructor does not compile ([*other[i]] of an element, SVA:190). *)
From Coq Require Import NArith List Bool.
From Verif Require Import Base.
Import ListNotations.
Open Scope N_scope.

(** The array (SVA:82), null pointers being [None], and the elements that exist. *)
Record varray := mkVA { va_ptrs : list (option N); va_live : list N; va_next : N }.

Definition va_new : varray := mkVA [] [] 0.

Inductive vop :=
| VPush            (* push_back(new element), SVA:141-147 *)
| VPop             (* pop_back(), SVA:149-151 *)
| VClear           (* clear(), SVA:129-131 *)
| VResize (n : nat) (* resize(n), SVA:137-139 *).

(** pop_back of an empty vector is undefined. *)
Definition va_step (o : vop) (a : varray) : res varray :=
  match o with
  | VPush => Ok (mkVA (va_ptrs a ++ [Some (va_next a)]) (va_next a :: va_live a) (va_next a + 1))
  | VPop =>
      match va_ptrs a with
      | [] => Err EUndef
      | _ => Ok (mkVA (removelast (va_ptrs a)) (va_live a) (va_next a))
      end
  | VClear => Ok (mkVA [] (va_live a) (va_next a))
  | VResize n =>
      Ok (mkVA (firstn n (va_ptrs a) ++ repeat None (n - length (va_ptrs a))) (va_live a) (va_next a))
  end.

Fixpoint va_run (l : list vop) (a : varray) : res varray :=
  match l with
  | [] => Ok a
  | o :: r => rbind (va_step o a) (va_run r)
  end.

(** delete: deleting what does not exist is undefined. *)
Definition va_delete (p : N) (live : list N) : res (list N) :=
  if existsb (N.eqb p) live then Ok (filter (fun x => negb (x =? p)) live) else Err EUndef.

(** destroy, SVA:84-92, called by the destructor (SVA:106-108): what exists afterwards. *)
Fixpoint va_destroy (ptrs : list (option N)) (live : list N) : res (list N) :=
  match ptrs with
  | [] => Ok live
  | None :: r => va_destroy r live
  | Some p :: r => rbind (va_delete p live) (va_destroy r)
  end.

(** operator [], SVA:153-159. *)
Definition va_at (a : varray) (i : nat) : res N :=
  match nth_error (va_ptrs a) i with
  | Some (Some p) => if existsb (N.eqb p) (va_live a) then Ok p else Err EUndef
  | _ => Err EUndef
  end.

(** at, SVA:161-173: the pointer, or an exception ([None]). *)
Definition va_get (a : varray) (i : nat) : option (option N) := nth_error (va_ptrs a) i.
