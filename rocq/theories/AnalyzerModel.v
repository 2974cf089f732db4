(** Model of the bucket interface of the two tables (T15 = group15_flat_table.hpp, T16 =
    group16_flat_table.hpp) and of the counts of /repo/src/jstd/hashmap/hashmap_analyzer.h ([HA]
    below).  The rates and deviations are floating point numbers computed from these
    counts and are not modelled. *)
From Coq Require Import NArith List Bool.
From Verif Require Import Base BitsModel GroupModel TableModel.
Import ListNotations.
Open Scope N_scope.

(** ** Buckets *)

Section Buckets.

Variables K V : Type.
Variable kd : kind.

(** bucket_count, T15:595, T16:555. *)
Definition bucket_count (t : table K V) : N := capacity K V kd t.

(** bucket_size, T15:594, T16:554. *)
Definition bucket_size (t : table K V) (n : N) : N := 1.

End Buckets.

(** ** The analyzer *)

(** read_bucket_sizes, HA:157-173, for a container with [n] buckets: the counts. *)
Definition an_counts (size_of : N -> N) (n : N) : list N := map size_of (seqN n).

(** The sum, HA:163-168. *)
Definition an_total (l : list N) : N := fold_left wadd l 0.

(** get_max_bucket_count, HA:175-186. *)
Definition an_max (l : list N) : N := fold_left (fun m c => if m <? c then c else m) l 0.

(** calc_usage_count, HA:242-253; calc_conflict_count, HA:288-300; calc_perfect_count,
    HA:322-334. *)
Definition an_count (p : N -> bool) (l : list N) : N :=
  fold_left (fun n c => if p c then wadd n 1 else n) l 0.
Definition an_usage (l : list N) : N := an_count (fun c => 0 <? c) l.
Definition an_conflict (l : list N) : N := an_count (fun c => 1 <? c) l.
Definition an_perfect (l : list N) : N := an_count (fun c => c =? 1) l.

(** The numerator in calc_unused_rate, HA:274-282: a difference of unsigned numbers,
    if the size is not 0. *)
Definition an_unused (size : N) (l : list N) : N := wsub size (an_usage l).

(** start_analyse, HA:357-391: whether there is a result. *)
Definition an_start (l : list N) : bool := 0 <? an_total l.
