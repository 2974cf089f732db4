(** Concrete runs for the allocator ledgers of robin_hash_map, flat16_hash_map and
    robin16_hash_map. *)
From Coq Require Import NArith List Bool.
From Verif Require Import Base GroupModel TableModel LedgerModel LedgerSpec RobinModel Flat16Model Robin16Model
  Ledger2Model Ledger2Spec.
Import ListNotations.
Open Scope N_scope.

Definition idh (k : N) : N := k.
Definition granting : answers := mkAns (fun _ => true) (fun _ => true).
Definition no_groups : answers := mkAns (fun _ => false) (fun _ => true).
Definition no_slots : answers := mkAns (fun _ => true) (fun _ => false).

Definition put (a : answers) (n : nat) : list (answers * op N N) :=
  map (fun k => (a, OInsert N N (N.of_nat k * 5) (N.of_nat k))) (seq 1 n).

(** Insertions with growth, erasures, a rehash, clear of both kinds and shrink_to_fit. *)
Definition busy : list (answers * op N N) :=
  put granting 20 ++ [(granting, OErase N N 10); (granting, OErase N N 35); (granting, ORehash N N 100);
    (granting, OShrink N N false); (granting, OMlf N N 100)] ++
  [(granting, OClear N N false)] ++ put granting 9 ++ [(granting, OClear N N true)] ++ put granting 3.

(** The same without clear(false), after which flat16_hash_map is damaged (C63). *)
Definition busy16 : list (answers * op N N) :=
  put granting 20 ++ [(granting, OErase N N 10); (granting, OErase N N 35); (granting, ORehash N N 100);
    (granting, OShrink N N false); (granting, OMlf N N 40000000)] ++
  [(granting, OClear N N true)] ++ put granting 9 ++ [(no_groups, ORehash N N 100)] ++ put granting 12.

Definition r_call (c : answers * op N N) : (N -> bool) * op N N := (rl_granted (fst c), snd c).
Definition g_call (c : answers * op N N) : (bool -> N -> bool) * op N N := (pair_oracle (fst c), snd c).

(** The answers of a run: [true] for a value, [false] for an exception. *)
Definition answered {A B} (r : res (list (option A) * B)) : list bool :=
  match r with
  | Ok (rs, _) => map (fun o => match o with Some _ => true | None => false end) rs
  | Err _ => []
  end.

Definition allocs (es : list event) : nat :=
  length (filter (fun e => match e with EAlloc _ => true | _ => false end) es).

Lemma answered_all {A B} (r : res (list (option A) * B)) n : answered r = repeat true (S n) ->
  exists rs t, r = Ok (rs, t) /\ ~ In None rs.
Proof.
  destruct r as [[rs t]|]; cbn [answered]; [|discriminate]. intros E. exists rs, t. split; [reflexivity|].
  intros H. apply (in_map (fun o : option A => match o with Some _ => true | None => false end)) in H.
  rewrite E in H. apply repeat_spec in H. discriminate.
Qed.

Lemma robin_busy :
  (exists rs t, r_run N N idh N.eqb (map r_call busy) (rnew N N) = Ok (rs, t) /\ ~ In None rs)
  /\ allocs (rl_events N N idh N.eqb busy) = 18%nat.
Proof. split; [|vm_compute; reflexivity]. apply (answered_all _ 38). vm_compute. reflexivity. Qed.

(** The first insertion gets controls but no slots. *)
Lemma robin_leak :
  answered (r_run N N idh N.eqb (map r_call (put no_slots 1)) (rnew N N)) = [false]
  /\ play [] (rl_events N N idh N.eqb (put no_slots 1)) = Some [mkBlock PGroup 1 64].
Proof. vm_compute. split; reflexivity. Qed.

(** A rehash is refused, and the map is destroyed. *)
Definition refused_rehash : list (answers * op N N) := put granting 2 ++ [(no_groups, ORehash N N 1000)].

Lemma robin_wrong_size :
  answered (r_run N N idh N.eqb (map r_call refused_rehash) (rnew N N)) = [true; true; false]
  /\ play [] (rl_events N N idh N.eqb refused_rehash) = None
  /\ rl_events N N idh N.eqb refused_rehash =
     [EAlloc (mkBlock PGroup 1 64); EAlloc (mkBlock PSlot 2 8);
      EFree (mkBlock PSlot 2 26); EFree (mkBlock PGroup 1 64)].
Proof. vm_compute. repeat split; reflexivity. Qed.

(** Groups but no slots for a rehash. *)
Definition half_rehash : list (answers * op N N) := put granting 2 ++ [(no_slots, ORehash N N 100)].

Definition flat_of (calls : list (answers * op N N)) :=
  match f_new N N (pair_oracle granting) 4 with
  | Ret t _ => f_run N N idh N.eqb idh false (map g_call calls) t
  | _ => Err EUndef
  end.

Definition robin16_of (calls : list (answers * op N N)) :=
  match q_new N N (pair_oracle granting) 4 with
  | Ret t _ => q_run N N idh N.eqb true false (map g_call calls) t
  | _ => Err EUndef
  end.

Lemma fair_all {R} (calls : list (answers * op N N)) (rs : list (option R)) :
  length rs = length calls ->
  (forall c, In c calls -> (forall n, a_slot (fst c) n = true)) ->
  (forall i a d, nth_error calls i = Some (a, OClear N N d) -> nth_error rs i <> Some None) ->
  Forall2 fair calls rs.
Proof.
  revert rs. induction calls as [|c calls IH]; intros [|r rs] HL H1 H2; try discriminate; [constructor|].
  constructor.
  - intros ->. split; [apply H1; now left|]. intros d E. destruct c as [a o]. cbn [snd] in E. subst o.
    apply (H2 0%nat a d); reflexivity.
  - apply IH.
    + cbn in HL. congruence.
    + intros c' HC. apply H1. now right.
    + intros i. apply (H2 (S i)).
Qed.

Definition busy16_answers : list bool := repeat true 35 ++ [false] ++ repeat true 12.

Lemma busy16_fair {R B} (r : res (list (option R) * B)) : answered r = busy16_answers ->
  exists rs t, r = Ok (rs, t) /\ Forall2 fair busy16 rs.
Proof.
  destruct r as [[rs t]|]; cbn [answered]; [|discriminate]. intros E. exists rs, t. split; [reflexivity|].
  apply fair_all.
  - apply (f_equal (@length _)) in E. rewrite map_length in E. exact E.
  - intros c HC n. revert c HC. apply Forall_forall. repeat constructor.
  - intros i a d HN HR. apply (map_nth_error (fun o : option R => match o with Some _ => true | None => false end)) in HR.
    rewrite E in HR.
    do 48 (destruct i as [|i]; [try discriminate HN; discriminate HR|cbn in HN, HR]).
    destruct i; discriminate.
Qed.

Lemma flat16_busy :
  (exists rs t, flat_of busy16 = Ok (rs, t) /\ Forall2 fair busy16 rs)
  /\ In false (answered (flat_of busy16))
  /\ allocs (fl_events N N idh N.eqb idh false granting 4 busy16) = 22%nat.
Proof.
  split; [apply busy16_fair; vm_compute; reflexivity|]. split; [vm_compute; tauto|]. vm_compute. reflexivity.
Qed.

Lemma flat16_leak :
  answered (flat_of half_rehash) = [true; true; false]
  /\ play [] (fl_events N N idh N.eqb idh false granting 4 half_rehash) = Some [mkBlock PGroup 1 0].
Proof. vm_compute. split; reflexivity. Qed.

Lemma flat16_new_leak :
  (exists t, f_new N N (pair_oracle no_slots) 4 = Throw t)
  /\ play [] (fl_events N N idh N.eqb idh false no_slots 4 []) = Some [mkBlock PGroup 1 0].
Proof. split; [eexists; vm_compute; reflexivity|vm_compute; reflexivity]. Qed.

Lemma robin16_busy :
  (exists rs t, robin16_of busy16 = Ok (rs, t) /\ Forall2 fair busy16 rs)
  /\ In false (answered (robin16_of busy16))
  /\ allocs (ql_events N N idh N.eqb true false granting 4 busy16) = 22%nat.
Proof.
  split; [apply busy16_fair; vm_compute; reflexivity|]. split; [vm_compute; tauto|]. vm_compute. reflexivity.
Qed.

Lemma robin16_leak :
  answered (robin16_of half_rehash) = [true; true; false]
  /\ play [] (ql_events N N idh N.eqb true false granting 4 half_rehash) = Some [mkBlock PGroup 1 0].
Proof. vm_compute. split; reflexivity. Qed.

Lemma robin16_new_leak :
  (exists t, q_new N N (pair_oracle no_slots) 4 = Throw t)
  /\ play [] (ql_events N N idh N.eqb true false no_slots 4 []) = Some [mkBlock PGroup 1 0].
Proof. split; [eexists; vm_compute; reflexivity|vm_compute; reflexivity]. Qed.
