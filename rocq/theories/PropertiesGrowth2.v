(** The cost of growing in the flat16, robin16 and robin maps (C208-C210), while nothing is
    erased, reserved or cleared and the load factor is the default one. *)
From Coq Require Import NArith List Bool.
From Verif Require Import Base TableModel TableInv MapSpec ReachModel WitnessModel RobinModel RobinSpec
  Flat16Model Flat16Spec Robin16Model Robin16Spec Robin16Witness GrowthSpec Growth2Spec
  Growth2Flat16 Growth2Robin16 Growth2Robin Growth2Witness.
Import ListNotations.
Open Scope N_scope.

(** ** C208 *)

(** [r] reallocations have moved [m] elements in all. *)
Theorem c208_flat16_growth_amortised :
  forall (K V : Type) (mix : N -> N) (trivial : bool) (hash : K -> N) (keq : K -> K -> bool), lawful hash keq ->
  forall alloc n t0 (calls : list ((bool -> N -> bool) * op K V)), f_sane alloc -> n <= 2 ^ 44 ->
  f_new K V alloc n = Ret t0 tt ->
  Forall (fun c => f_sane (fst c) /\ adds K V (snd c) = true) calls ->
  match costs2 (fun c t => f_step K V hash keq mix trivial (fst c) (snd c) t) (f_cap K V) (f_size K V) calls t0 with
  | Ret t (r, m) => 2 * f_size _ _ t <= f_cap _ _ t /\ m <= 2 * f_size _ _ t
      /\ ((r = 0 /\ f_cap _ _ t = f_cap _ _ t0)
          \/ (f_cap _ _ t = 2 ^ r * f_cap _ _ t0 /\ f_cap _ _ t <= 4 * f_size _ _ t))
  | Throw _ => True
  | Fail _ => False
  end.
Proof. exact (fun K V mix trivial hash keq LW => flat16_growth hash keq mix LW trivial). Qed.
Print Assumptions c208_flat16_growth_amortised.

(** Nine insertions into four slots: three reallocations move 2, 4 and 8 elements. *)
Example c208_run : exists t0, f_new N N qal 4 = Ret t0 tt
  /\ Forall (fun c => f_sane (fst c) /\ adds N N (snd c) = true) (puts qal 9)
  /\ cost (costs2 (fun c => f_step N N idhash N.eqb (fun h => h) true (fst c) (snd c)) (f_cap N N) (f_size N N)
       (puts qal 9) t0) = Some (3, 14).
Proof. exact flat16_run_lemma. Qed.
Print Assumptions c208_run.

(** ** C209 *)

Theorem c209_robin16_growth_amortised :
  forall (K V : Type) (wide trivial : bool) (hash : K -> N) (keq : K -> K -> bool), lawful hash keq ->
  forall alloc n t0 (calls : list ((bool -> N -> bool) * op K V)), f_sane alloc -> n <= 2 ^ 44 ->
  q_new K V alloc n = Ret t0 tt ->
  obeys2 (fun c t => q_step K V hash keq wide trivial (fst c) (snd c) t)
    (fun c t => f_sane (fst c) /\ adds K V (snd c) = true /\ q_client K V hash keq (snd c) t
       /\ forall l, q_traverse K V wide t = Ok l -> q_fine K V hash (fst (spec_step K V keq (snd c) l))) calls t0 ->
  match costs2 (fun c t => q_step K V hash keq wide trivial (fst c) (snd c) t) (q_cap K V) (q_size K V) calls t0 with
  | Ret t (r, m) => 2 * q_size _ _ t <= q_cap _ _ t /\ m <= 2 * q_size _ _ t
      /\ ((r = 0 /\ q_cap _ _ t = q_cap _ _ t0)
          \/ (q_cap _ _ t = 2 ^ r * q_cap _ _ t0 /\ q_cap _ _ t <= 4 * q_size _ _ t))
  | Throw _ => True
  | Fail _ => False
  end.
Proof. exact (fun K V wide trivial hash keq LW => robin16_growth hash keq LW wide trivial). Qed.
Print Assumptions c209_robin16_growth_amortised.

(** Seventeen insertions into sixteen slots: two reallocations move 8 and 16 elements. *)
Example c209_run : forall wide trivial, exists t0, q_new N N qal 16 = Ret t0 tt
  /\ obeys2 (fun c => q_step N N idhash N.eqb wide trivial (fst c) (snd c))
    (fun c t => f_sane (fst c) /\ adds N N (snd c) = true /\ q_client N N idhash N.eqb (snd c) t
       /\ forall l, q_traverse N N wide t = Ok l -> q_fine N N idhash (fst (spec_step N N N.eqb (snd c) l))) (puts qal 17) t0
  /\ cost (costs2 (fun c => q_step N N idhash N.eqb wide trivial (fst c) (snd c)) (q_cap N N) (q_size N N)
       (puts qal 17) t0) = Some (2, 24).
Proof. exact robin16_run_lemma. Qed.
Print Assumptions c209_run.

(** ** C210 *)

Theorem c210_robin_growth_amortised :
  forall (K V : Type) (hash : K -> N) (keq : K -> K -> bool), lawful hash keq ->
  forall (calls : list ((N -> bool) * op K V)),
  obeys2 (fun c t => r_step K V hash keq (fst c) (snd c) t)
    (fun c t => sane (fst c) /\ adds K V (snd c) = true /\ r_client K V 2 (snd c) t
       /\ forall l, r_traverse K V t = Ok l -> spread_all K V hash 2 (fst (spec_step K V keq (snd c) l)))
    calls (rnew K V) ->
  match costs2 (fun c t => r_step K V hash keq (fst c) (snd c) t) (r_slot_capacity K V) (r_size K V)
          calls (rnew K V) with
  | Ret t (r, m) => 2 * r_size _ _ t <= r_slot_capacity _ _ t /\ m <= 2 * r_size _ _ t
      /\ ((r = 0 /\ r_slot_capacity _ _ t = 0)
          \/ (r_slot_capacity _ _ t = 2 ^ (r + 1) /\ r_slot_capacity _ _ t <= 4 * r_size _ _ t))
  | Throw _ => True
  | Fail _ => False
  end.
Proof. exact (fun K V hash keq LW => robin_growth hash keq LW). Qed.
Print Assumptions c210_robin_growth_amortised.

(** Nine insertions into an empty map: four allocations, three of them move 2, 4 and 8
    elements. *)
Example c210_run :
  obeys2 (fun c => r_step N N idhash N.eqb (fst c) (snd c))
    (fun c t => sane (fst c) /\ adds N N (snd c) = true /\ r_client N N 2 (snd c) t
       /\ forall l, r_traverse N N t = Ok l -> spread_all N N idhash 2 (fst (spec_step N N N.eqb (snd c) l)))
    (puts ten 9) (rnew N N)
  /\ cost (costs2 (fun c => r_step N N idhash N.eqb (fst c) (snd c)) (r_slot_capacity N N) (r_size N N)
       (puts ten 9) (rnew N N)) = Some (4, 14).
Proof. exact robin_run_lemma. Qed.
Print Assumptions c210_run.
