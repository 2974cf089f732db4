(** clear() is declared noexcept in the flat16, robin16 and robin maps (C211): if it throws,
    the program ends. *)
From Coq Require Import NArith List Bool.
From Verif Require Import Base TableModel TableInv MapSpec WitnessModel RobinModel Flat16Model Flat16Spec
  Robin16Model Robin16Spec Robin16Witness ClearFacts.
Import ListNotations.
Open Scope N_scope.

(** ** C211 *)

Theorem c211_flat16_clear_is_noexcept_refuted :
  exists t t', f_built N N idhash N.eqb (fun h => h) t []
  /\ f_step N N idhash N.eqb (fun h => h) true none (OClear N N true) t = Throw t'.
Proof. exact flat16_clear_lemma. Qed.
Print Assumptions c211_flat16_clear_is_noexcept_refuted.

Theorem c211_robin16_clear_is_noexcept_refuted :
  forall wide trivial, exists t t', q_built N N idhash N.eqb wide trivial t []
  /\ q_step N N idhash N.eqb wide trivial none (OClear N N true) t = Throw t'.
Proof. exact robin16_clear_lemma. Qed.
Print Assumptions c211_robin16_clear_is_noexcept_refuted.

(** Exactly when: clear(true), more than four slots, and the two groups or the four slots of the
    new table are refused. *)
Theorem c211_flat16_clear_throws_exactly_when_partial :
  forall (K V : Type) (hash : K -> N) (keq : K -> K -> bool), lawful hash keq ->
  forall mix trivial t m alloc need, f_built K V hash keq mix t m ->
  (exists t', f_step K V hash keq mix trivial alloc (OClear K V need) t = Throw t')
  <-> need = true /\ 4 < f_cap _ _ t /\ (alloc true 2 = false \/ alloc false 4 = false).
Proof. exact (fun K V hash keq LW => flat16_clear hash keq LW). Qed.
Print Assumptions c211_flat16_clear_throws_exactly_when_partial.

Theorem c211_robin16_clear_throws_exactly_when_partial :
  forall (K V : Type) (hash : K -> N) (keq : K -> K -> bool), lawful hash keq ->
  forall wide trivial t m alloc need, q_built K V hash keq wide trivial t m ->
  (exists t', q_step K V hash keq wide trivial alloc (OClear K V need) t = Throw t')
  <-> need = true /\ 4 < q_cap _ _ t /\ (alloc true 2 = false \/ alloc false 4 = false).
Proof. exact (fun K V hash keq LW => robin16_clear hash keq LW). Qed.
Print Assumptions c211_robin16_clear_throws_exactly_when_partial.

(** A robin map needs no memory to be cleared. *)
Theorem c211_robin_clear_is_noexcept :
  forall (K V : Type) (hash : K -> N) (keq : K -> K -> bool) (t : rmap K V) alloc need t',
  r_step K V hash keq alloc (OClear K V need) t <> Throw t'.
Proof. exact (fun K V hash keq => robin_clear hash keq). Qed.
Print Assumptions c211_robin_clear_is_noexcept.

(** clear() without an argument does not ask for memory. *)
Example c211_example : exists t t', f_built N N idhash N.eqb (fun h => h) t []
  /\ 4 < f_cap N N t /\ f_step N N idhash N.eqb (fun h => h) true none (OClear N N false) t = Ret t' (RUnit N N).
Proof. exact clear_kept_lemma. Qed.
