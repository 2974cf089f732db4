(** The alignment helpers (C215) and swap_ranges (C216).  The model is UtilModel.v. *)
From Coq Require Import NArith List Bool.
From Verif Require Import Base UtilModel UtilFacts.
Import ListNotations.
Open Scope N_scope.

(** ** C215 *)

(** With or without assertions, as long as the rounded value has 64 bits. *)
Theorem c215_least_multiple_partial :
  forall on k s, k < 64 -> s + 2 ^ k <= two64 ->
  exists r, align_to on s (2 ^ k) = Some r /\ pointer_align_to on s (2 ^ k) = Some r
    /\ (2 ^ k | r) /\ s <= r /\ forall x, (2 ^ k | x) -> s <= x -> r <= x.
Proof. exact align_least. Qed.
Print Assumptions c215_least_multiple_partial.

Example c215_example : 12 < 64 /\ 4097 + 2 ^ 12 <= two64
  /\ align_to true 4097 (2 ^ 12) = Some 8192 /\ align_to true 4096 4096 = Some 4096 /\ align_to true 0 4096 = Some 0
  /\ pointer_align_to true 4097 16 = Some 4112 /\ check_alignment true 4112 16 = Some true
  /\ check_alignment true 4120 16 = Some false /\ align_to true 4097 24 = None /\ align_to true 5 0 = None
  /\ align_to false 4097 24 = Some 4104.
Proof. exact ux_align. Qed.

(** Closer to 2^64 the result is 0, and no assertion fails. *)
Theorem c215_wraps_to_zero :
  forall on k s, k < 64 -> s < two64 -> two64 < s + 2 ^ k ->
  align_to on s (2 ^ k) = Some 0 /\ pointer_align_to on s (2 ^ k) = Some 0.
Proof. exact align_wraps. Qed.
Print Assumptions c215_wraps_to_zero.

Theorem c215_not_below_refuted :
  exists k s r, k < 64 /\ s < two64 /\ 0 < s
  /\ align_to true s (2 ^ k) = Some r /\ pointer_align_to true s (2 ^ k) = Some r /\ r < s.
Proof. exact ux_wraps. Qed.
Print Assumptions c215_not_below_refuted.

Theorem c215_check_alignment :
  forall on k p, k < 64 -> exists b, check_alignment on p (2 ^ k) = Some b /\ (b = true <-> (2 ^ k | p)).
Proof. exact check_alignment_iff. Qed.
Print Assumptions c215_check_alignment.

(** Assertions reject every other alignment. *)
Theorem c215_other_alignments_abort :
  forall a p, a < two64 -> (forall k, a <> 2 ^ k) ->
  check_alignment true p a = None /\ align_to true p a = None /\ pointer_align_to true p a = None.
Proof. exact others_abort. Qed.
Print Assumptions c215_other_alignments_abort.

(** ** C216 *)

(** Without assertions, two ranges that do not overlap are exchanged. *)
Theorem c216_ranges_are_exchanged_partial :
  forall (T : Type) (m : list T) f1 f2 n,
  f1 + n <= N.of_nat (length m) -> f2 + n <= N.of_nat (length m) ->
  f1 + n <= f2 \/ f2 + n <= f1 ->
  exists m', swap_ranges T false m f1 (f1 + n) f2 = Ok (Some (m', f2 + n))
    /\ swap_arrays T false m f1 f2 n = Ok (Some m')
    /\ length m' = length m
    /\ (forall k, k < n -> geti m' (f1 + k) = geti m (f2 + k) /\ geti m' (f2 + k) = geti m (f1 + k))
    /\ (forall i, ~ (f1 <= i < f1 + n) -> ~ (f2 <= i < f2 + n) -> geti m' i = geti m i).
Proof. exact exchanged. Qed.
Print Assumptions c216_ranges_are_exchanged_partial.

Example c216_example : swap_ranges N false [1; 2; 3; 9; 4; 5; 6] 0 3 4 = Ok (Some ([4; 5; 6; 9; 1; 2; 3], 7)).
Proof. exact ux_swap. Qed.

(** With assertions every call with a non-empty range aborts. *)
Theorem c216_assertion_always_fails :
  forall (T : Type) (m : list T) f1 f2 n,
  0 < n -> f1 + n <= N.of_nat (length m) -> f2 + n <= N.of_nat (length m) ->
  f1 + n <= f2 \/ f2 + n <= f1 ->
  swap_ranges T true m f1 (f1 + n) f2 = Ok None /\ swap_arrays T true m f1 f2 n = Ok None.
Proof. exact always_aborts. Qed.
Print Assumptions c216_assertion_always_fails.

Theorem c216_assertion_holds_refuted :
  exists m f1 f2 n, 0 < n /\ f1 + n <= N.of_nat (length m) /\ f2 + n <= N.of_nat (length m)
  /\ (f1 + n <= f2) /\ swap_ranges N true m f1 (f1 + n) f2 = Ok None /\ swap_arrays N true m f1 f2 n = Ok None.
Proof. exact ux_abort. Qed.
Print Assumptions c216_assertion_holds_refuted.
