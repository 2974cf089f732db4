(** Calls made to the allocators by robin_hash_map, flat16_hash_map and
    robin16_hash_map (properties C179 to C181). *)
From Coq Require Import NArith List Bool.
From Verif Require Import Base GroupModel TableModel LedgerModel LedgerSpec RobinModel Flat16Model Robin16Model
  Ledger2Model Ledger2Spec Ledger2Facts Ledger2Witness.
Import ListNotations.
Open Scope N_scope.

(** robin_hash_map: if no call throws, every block obtained is returned once, to the
    allocator it came from and with its size, by the end of the destructor. *)
Theorem c179_blocks_are_returned_partial :
  forall (K V : Type) (hash : K -> N) (keq : K -> K -> bool) calls rs t,
    r_run K V hash keq (map (fun c => (rl_granted (fst c), snd c)) calls) (rnew K V) = Ok (rs, t) ->
    ~ In None rs ->
    play [] (rl_events K V hash keq calls) = Some [].
Proof. exact robin_ledger. Qed.
Print Assumptions c179_blocks_are_returned_partial.

Example c179_blocks_are_returned_example :
  (exists rs t, r_run N N idh N.eqb (map r_call busy) (rnew N N) = Ok (rs, t) /\ ~ In None rs)
  /\ allocs (rl_events N N idh N.eqb busy) = 18%nat.
Proof. exact robin_busy. Qed.

(** After an insertion that is refused the slots, the control array is never returned. *)
Theorem c179_controls_are_returned_refuted :
  exists calls, answered (r_run N N idh N.eqb (map r_call calls) (rnew N N)) = [false]
    /\ play [] (rl_events N N idh N.eqb calls) = Some [mkBlock PGroup 1 64].
Proof. exact (ex_intro _ _ robin_leak). Qed.
Print Assumptions c179_controls_are_returned_refuted.

(** After a rehash that is refused its storage, the destructor returns the slots with
    another size than they were obtained with. *)
Theorem c179_sizes_are_right_refuted :
  exists calls, answered (r_run N N idh N.eqb (map r_call calls) (rnew N N)) = [true; true; false]
    /\ play [] (rl_events N N idh N.eqb calls) = None
    /\ rl_events N N idh N.eqb calls =
       [EAlloc (mkBlock PGroup 1 64); EAlloc (mkBlock PSlot 2 8);
        EFree (mkBlock PSlot 2 26); EFree (mkBlock PGroup 1 64)].
Proof. exact (ex_intro _ _ robin_wrong_size). Qed.
Print Assumptions c179_sizes_are_right_refuted.

(** flat16_hash_map: the same, also when operator new[] refuses groups. *)
Theorem c180_blocks_are_returned_partial :
  forall (K V : Type) (hash : K -> N) (keq : K -> K -> bool) (mix : N -> N) (trivial : bool)
         a n t0 calls rs t,
    n < two64 ->
    f_new K V (pair_oracle a) n = Ret t0 tt ->
    f_run K V hash keq mix trivial (map (fun c => (pair_oracle (fst c), snd c)) calls) t0 = Ok (rs, t) ->
    Forall2 fair calls rs ->
    play [] (fl_events K V hash keq mix trivial a n calls) = Some [].
Proof. exact flat16_ledger. Qed.
Print Assumptions c180_blocks_are_returned_partial.

Example c180_blocks_are_returned_example :
  (exists rs t, flat_of busy16 = Ok (rs, t) /\ Forall2 fair busy16 rs)
  /\ In false (answered (flat_of busy16))
  /\ allocs (fl_events N N idh N.eqb idh false granting 4 busy16) = 22%nat.
Proof. exact flat16_busy. Qed.

Theorem c180_groups_are_returned_refuted :
  exists calls, answered (flat_of calls) = [true; true; false]
    /\ play [] (fl_events N N idh N.eqb idh false granting 4 calls) = Some [mkBlock PGroup 1 0].
Proof. exact (ex_intro _ _ flat16_leak). Qed.
Print Assumptions c180_groups_are_returned_refuted.

Theorem c180_constructor_returns_groups_refuted :
  exists a, (exists t, f_new N N (pair_oracle a) 4 = Throw t)
    /\ play [] (fl_events N N idh N.eqb idh false a 4 []) = Some [mkBlock PGroup 1 0].
Proof. exact (ex_intro _ _ flat16_new_leak). Qed.
Print Assumptions c180_constructor_returns_groups_refuted.

(** robin16_hash_map. *)
Theorem c181_blocks_are_returned_partial :
  forall (K V : Type) (hash : K -> N) (keq : K -> K -> bool) (wide trivial : bool) a n t0 calls rs t,
    n < two64 ->
    q_new K V (pair_oracle a) n = Ret t0 tt ->
    q_run K V hash keq wide trivial (map (fun c => (pair_oracle (fst c), snd c)) calls) t0 = Ok (rs, t) ->
    Forall2 fair calls rs ->
    play [] (ql_events K V hash keq wide trivial a n calls) = Some [].
Proof. exact robin16_ledger. Qed.
Print Assumptions c181_blocks_are_returned_partial.

Example c181_blocks_are_returned_example :
  (exists rs t, robin16_of busy16 = Ok (rs, t) /\ Forall2 fair busy16 rs)
  /\ In false (answered (robin16_of busy16))
  /\ allocs (ql_events N N idh N.eqb true false granting 4 busy16) = 22%nat.
Proof. exact robin16_busy. Qed.

Theorem c181_groups_are_returned_refuted :
  exists calls, answered (robin16_of calls) = [true; true; false]
    /\ play [] (ql_events N N idh N.eqb true false granting 4 calls) = Some [mkBlock PGroup 1 0].
Proof. exact (ex_intro _ _ robin16_leak). Qed.
Print Assumptions c181_groups_are_returned_refuted.

Theorem c181_constructor_returns_groups_refuted :
  exists a, (exists t, q_new N N (pair_oracle a) 4 = Throw t)
    /\ play [] (ql_events N N idh N.eqb true false a 4 []) = Some [mkBlock PGroup 1 0].
Proof. exact (ex_intro _ _ robin16_new_leak). Qed.
Print Assumptions c181_constructor_returns_groups_refuted.
