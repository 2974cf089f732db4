(** Model of /repo/src/jstd/hashmap/group_quadratic_prober.hpp:68-98. *)
From Coq Require Import NArith.
From Verif Require Import Base.
Open Scope N_scope.

(** Fields index_ and step_ (lines 95-97). *)
Record prober := mkProber { pr_index : N; pr_step : N }.

(** Constructor, line 70. *)
Definition prober_init (index : N) : prober := mkProber index 0.

(** next_bucket, lines 89-93: new state and returned flag. *)
Definition next_bucket (mask : N) (p : prober) : prober * bool :=
  let step := wadd (pr_step p) 1 in
  (mkProber (N.land (wadd (pr_index p) step) mask) step, step <=? mask).
