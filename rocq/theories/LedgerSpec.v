(** A book-keeper that watches the calls made to the allocators.  It knows nothing of
    tables: it holds the list of the live blocks and objects to a block that is
    returned twice, with another size, or without ever having been handed out. *)
From Coq Require Import NArith List Bool.
From Verif Require Import LedgerModel.
Import ListNotations.
Open Scope N_scope.

Definition pool_eqb (p q : pool) : bool :=
  match p, q with PGroup, PGroup | PSlot, PSlot => true | _, _ => false end.

Definition block_eqb (b c : block) : bool :=
  pool_eqb (b_pool b) (b_pool c) && (b_addr b =? b_addr c) && (b_count b =? b_count c).

(** Two live blocks of one allocator have different addresses. *)
Definition clash (b c : block) : bool :=
  pool_eqb (b_pool b) (b_pool c) && (b_addr b =? b_addr c).

(** Strike a block off the list; [None] if it is not there. *)
Fixpoint strike (b : block) (live : list block) : option (list block) :=
  match live with
  | [] => None
  | c :: rest =>
      if block_eqb b c then Some rest
      else match strike b rest with Some l => Some (c :: l) | None => None end
  end.

(** The live blocks after the events; [None] after a wrong one. *)
Fixpoint play (live : list block) (es : list event) : option (list block) :=
  match es with
  | [] => Some live
  | EAlloc b :: rest => if existsb (clash b) live then None else play (b :: live) rest
  | EFree b :: rest =>
      match strike b live with
      | Some live' => play live' rest
      | None => None
      end
  end.
