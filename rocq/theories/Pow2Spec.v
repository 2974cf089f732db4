(** Specification of rounding to powers of two, independent of the code. *)
From Coq Require Import NArith.
Open Scope N_scope.

Definition pow2 (p : N) : Prop := exists k, p = 2 ^ k.

(** The least power of two that is at least [n], or greater than [n]. *)
Definition least_pow2_ge (n p : N) : Prop := pow2 p /\ n <= p /\ forall q, pow2 q -> n <= q -> p <= q.
Definition least_pow2_gt (n p : N) : Prop := pow2 p /\ n < p /\ forall q, pow2 q -> n < q -> p <= q.

(** The greatest power of two that is at most [n], or less than [n]. *)
Definition greatest_pow2_le (n p : N) : Prop := pow2 p /\ p <= n /\ forall q, pow2 q -> q <= n -> q <= p.
Definition greatest_pow2_lt (n p : N) : Prop := pow2 p /\ p < n /\ forall q, pow2 q -> q < n -> q <= p.

(** [k] is the logarithm to base two of [n], rounded up. *)
Definition ceil_log2 (n k : N) : Prop := n <= 2 ^ k /\ forall j, n <= 2 ^ j -> k <= j.
