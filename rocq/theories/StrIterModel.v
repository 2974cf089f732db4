(** The iterators of string views, and reverse iterators over them or over pointers.
    [SI] = /repo/src/jstd/string/string_iterator.h, [SV] = /repo/src/jstd/string/string_view.h,
    [IT] = /repo/src/jstd/iterator.h.
    A pointer is a position in one array of characters; positions outside 0 .. length are
    undefined behaviour, as is reading the one behind the last.  string_iterator (SI:173-313)
    repeats const_string_iterator (SI:25-159) member by member; one model serves both.
    Lines below are those of the latter. *)
From Coq Require Import ZArith NArith List Bool.
From Verif Require Import Base.
Import ListNotations.
Open Scope Z_scope.

Section StrIter.

Variable A : Type.

(** The array, and a pointer into it (ptr_, SI:42). *)
Definition arr := list A.
Definition ptr := Z.

(** Pointer arithmetic of C++, [expr.add], as in SI:67, 80, 93 and 105. *)
Definition p_add (a : arr) (p : ptr) (n : Z) : res ptr :=
  if (0 <=? p + n) && (p + n <=? Z.of_nat (length a)) then Ok (p + n) else Err EUndef.

(** operator *, SI:51-56. *)
Definition it_deref (a : arr) (p : ptr) : res A :=
  if p <? 0 then Err EUndef
  else match nth_error a (Z.to_nat p) with Some x => Ok x | None => Err EUndef end.

(** ++ it, SI:66-69, and -- it, SI:79-82. *)
Definition it_inc (a : arr) (p : ptr) : res ptr := p_add a p 1.
Definition it_dec (a : arr) (p : ptr) : res ptr := p_add a p (-1).

(** What a call that returns an iterator by reference gives: a live object with this
    pointer, or one whose lifetime has ended. *)
Inductive handle := Live (p : ptr) | Dead.

(** Reading the iterator behind a reference, as SI:55 and 73 do. *)
Definition use (h : handle) : res ptr :=
  match h with Live p => Ok p | Dead => Err EUndef end.

(** it ++, SI:72-76, and it --, SI:85-89: the new iterator and what is returned, a
    reference to the local [tmp]. *)
Definition it_post_inc (a : arr) (p : ptr) : res (ptr * handle) :=
  rbind (it_inc a p) (fun q => Ok (q, Dead)).
Definition it_post_dec (a : arr) (p : ptr) : res (ptr * handle) :=
  rbind (it_dec a p) (fun q => Ok (q, Dead)).

(** it += n, it + n and n + it, SI:92-101 and 163-169; it -= n and it - n, SI:104-113. *)
Definition it_plus (a : arr) (p : ptr) (n : Z) : res ptr := p_add a p n.
Definition it_minus (a : arr) (p : ptr) (n : Z) : res ptr := p_add a p (- n).

(** it - rhs, SI:116-118. *)
Definition it_diff (p q : ptr) : Z := p - q.

(** it [n], SI:126-128. *)
Definition it_at (a : arr) (p : ptr) (n : Z) : res A :=
  rbind (it_plus a p n) (fun q => it_deref a q).

(** ==, !=, <, >, <= and >=, SI:131-158. *)
Definition it_eq (p q : ptr) : bool := p =? q.
Definition it_ne (p q : ptr) : bool := negb (it_eq p q).
Definition it_lt (p q : ptr) : bool := p <? q.
Definition it_gt (p q : ptr) : bool := it_lt q p.
Definition it_le (p q : ptr) : bool := negb (it_lt q p).
Definition it_ge (p q : ptr) : bool := negb (it_lt p q).

(** A string view, SV:60-61, and its begin() and end(), SV:113-117. *)
Record view := { v_data : ptr; v_size : Z }.
Definition v_begin (v : view) : ptr := v_data v.
Definition v_end (a : arr) (v : view) : res ptr := p_add a (v_data v) (v_size v).

(** for (it = first; it != last; ++it) collect *it.  [fuel] is a bound on the rounds. *)
Fixpoint walk (fuel : nat) (a : arr) (first last : ptr) : res (list A) :=
  if it_ne first last then
    match fuel with
    | O => Err ELoop
    | S fuel' =>
        rbind (it_deref a first) (fun x =>
        rbind (it_inc a first) (fun p =>
        rbind (walk fuel' a p last) (fun l => Ok (x :: l))))
    end
  else Ok [].
Definition v_walk (a : arr) (v : view) : res (list A) :=
  rbind (v_end a v) (fun last => walk (length a) a (v_begin v) last).

(** reverse_iterator, IT:266-377; its state is the wrapped iterator.  operator *, IT:315-318. *)
Definition r_deref (a : arr) (p : ptr) : res A := rbind (it_dec a p) (fun q => it_deref a q).

(** ++ and --, IT:326-329 and 339-342, and the postfix forms, IT:332-336 and 345-349, which
    return the old iterator by value. *)
Definition r_inc (a : arr) (p : ptr) : res ptr := it_dec a p.
Definition r_dec (a : arr) (p : ptr) : res ptr := it_inc a p.
Definition r_post_inc (a : arr) (p : ptr) : res (ptr * handle) :=
  rbind (it_dec a p) (fun q => Ok (q, Live p)).
Definition r_post_dec (a : arr) (p : ptr) : res (ptr * handle) :=
  rbind (it_inc a p) (fun q => Ok (q, Live p)).

(** += and +, IT:352-360; -= and -, IT:363-371; [], IT:374-376. *)
Definition r_plus (a : arr) (p : ptr) (n : Z) : res ptr := it_minus a p n.
Definition r_minus (a : arr) (p : ptr) (n : Z) : res ptr := it_plus a p n.
Definition r_at (a : arr) (p : ptr) (n : Z) : res A := rbind (r_plus a p n) (fun q => r_deref a q).

(** Difference and order, IT:393-455. *)
Definition r_diff (p q : ptr) : Z := it_diff q p.
Definition r_ne (p q : ptr) : bool := negb (it_eq p q).
Definition r_lt (p q : ptr) : bool := it_lt q p.
Definition r_gt (p q : ptr) : bool := r_lt q p.
Definition r_le (p q : ptr) : bool := negb (r_lt q p).
Definition r_ge (p q : ptr) : bool := negb (r_lt p q).

(** The loop with make_reverse_iterator (IT:461-467) of end() and begin(). *)
Fixpoint r_walk (fuel : nat) (a : arr) (first last : ptr) : res (list A) :=
  if r_ne first last then
    match fuel with
    | O => Err ELoop
    | S fuel' =>
        rbind (r_deref a first) (fun x =>
        rbind (r_inc a first) (fun p =>
        rbind (r_walk fuel' a p last) (fun l => Ok (x :: l))))
    end
  else Ok [].
Definition v_walk_back (a : arr) (v : view) : res (list A) :=
  rbind (v_end a v) (fun last => r_walk (length a) a last (v_begin v)).

(** The loop while (it != last) collect *it++ that std::copy and others may use, SI:72-76. *)
Fixpoint walk_post (fuel : nat) (a : arr) (first last : ptr) : res (list A) :=
  if it_ne first last then
    match fuel with
    | O => Err ELoop
    | S fuel' =>
        rbind (it_post_inc a first) (fun '(p, h) =>
        rbind (use h) (fun old =>
        rbind (it_deref a old) (fun x =>
        rbind (walk_post fuel' a p last) (fun l => Ok (x :: l)))))
    end
  else Ok [].
Definition v_walk_post (a : arr) (v : view) : res (list A) :=
  rbind (v_end a v) (fun last => walk_post (length a) a (v_begin v) last).

End StrIter.
