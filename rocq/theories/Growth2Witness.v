(** Concrete runs for the growth of the flat16, robin16 and robin maps. *)
From Coq Require Import NArith ZArith List Bool Lia.
From Coq Require Import ZifyBool ZifyNat ZifyN.
From Verif Require Import Base BaseFacts GroupModel TableModel TableInv MapSpec MapFacts WitnessModel WitnessFacts
  ReachModel RobinModel RobinSpec RobinRefine RobinWitness Flat16Model Flat16Spec Robin16Model Robin16Spec Robin16Witness
  GrowthSpec Growth2Spec.
Import ListNotations.
Open Scope N_scope.

(** [n] insertions, the keys from 1. *)
Definition puts {A : Type} (alloc : A) (n : nat) : list (A * op N N) :=
  map (fun k => (alloc, OInsert N N (N.of_nat k) 0)) (seq 1 n).

Lemma puts_all {A : Type} (P : A -> Prop) (alloc : A) n : P alloc ->
  Forall (fun c => P (fst c) /\ adds N N (snd c) = true) (puts alloc n).
Proof. intros H. apply Forall_forall. intros c Hc. apply in_map_iff in Hc. destruct Hc as (k & <- & _). auto. Qed.

Lemma few_fine (m : list (N * N)) : (length m <= 128)%nat -> q_fine N N idhash m.
Proof.
  intros H b _ _ a n _ _ _. unfold q_wanted.
  assert (X : forall (f : N * N -> bool) l, (length (filter f l) <= length l)%nat).
  { intros f l. induction l as [|x l IH]; cbn [filter length]; [lia|]. destruct (f x); cbn [length]; lia. }
  pose proof (X (fun e => (idhash (fst e) mod 2 ^ b + 2 ^ b - a) mod 2 ^ b <? n) m) as Y. clear X.
  remember (length (filter _ m)) as x. lia.
Qed.

Lemma put_few k v (m : list (N * N)) : (length (fst (spec_step N N N.eqb (OInsert N N k v) m)) <= S (length m))%nat.
Proof. cbn [spec_step fst]. unfold put_new. destruct (has _ _ _ _ _); cbn [length]; lia. Qed.

(** The maps of a run have at least sixteen slots and few entries. *)
Fixpoint q_watch (wide trivial : bool) (calls : list ((bool -> N -> bool) * op N N)) (t : qmap N N) : bool :=
  match calls with
  | [] => true
  | c :: rest => (16 <=? q_cap _ _ t)
      && (match q_traverse N N wide t with Ok l => length l <=? 127 | Err _ => true end)%nat
      && match q_step N N idhash N.eqb wide trivial (fst c) (snd c) t with Ret t' _ => q_watch wide trivial rest t' | _ => true end
  end.

Lemma q_watched wide trivial calls : forall t, q_watch wide trivial calls t = true ->
  Forall (fun c => f_sane (fst c) /\ exists k v, snd c = OInsert N N k v) calls ->
  obeys2 (fun c => q_step N N idhash N.eqb wide trivial (fst c) (snd c))
    (fun c t => f_sane (fst c) /\ adds N N (snd c) = true /\ q_client N N idhash N.eqb (snd c) t
       /\ forall l, q_traverse N N wide t = Ok l -> q_fine N N idhash (fst (spec_step N N N.eqb (snd c) l))) calls t.
Proof.
  induction calls as [|c calls IH]; intros t H HF; [exact I|]. cbn [q_watch obeys2] in *.
  apply Forall_cons_iff in HF. destruct HF as [[HS (k & v & EO)] HF']. apply andb_prop in H. destruct H as [H H3].
  apply andb_prop in H. destruct H as [H1 H2]. split.
  - cbv beta. rewrite EO. split; [exact HS|]. split; [reflexivity|]. split; [left; lia|]. intros l E. rewrite E in H2.
    apply few_fine. pose proof (put_few k v l). apply PeanoNat.Nat.leb_le in H2. lia.
  - destruct (q_step _ _ _ _ _ _ _ _ t); auto.
Qed.

Fixpoint r_watch (calls : list ((N -> bool) * op N N)) (t : rmap N N) : bool :=
  match calls with
  | [] => true
  | c :: rest => (match r_traverse N N t with Ok l => length l <=? 10 | Err _ => true end)%nat
      && match r_step N N idhash N.eqb (fst c) (snd c) t with Ret t' _ => r_watch rest t' | _ => true end
  end.

Lemma r_watched calls : forall t, r_watch calls t = true ->
  Forall (fun c => sane (fst c) /\ exists k v, snd c = OInsert N N k v) calls ->
  obeys2 (fun c => r_step N N idhash N.eqb (fst c) (snd c))
    (fun c t => sane (fst c) /\ adds N N (snd c) = true /\ r_client N N 2 (snd c) t
       /\ forall l, r_traverse N N t = Ok l -> spread_all N N idhash 2 (fst (spec_step N N N.eqb (snd c) l))) calls t.
Proof.
  induction calls as [|c calls IH]; intros t H HF; [exact I|]. cbn [r_watch obeys2] in *.
  apply Forall_cons_iff in HF. destruct HF as [[HS (k & v & EO)] HF']. apply andb_prop in H. destruct H as [H2 H3]. split.
  - cbv beta. rewrite EO. split; [exact HS|]. split; [reflexivity|]. split; [exact I|]. intros l E. rewrite E in H2.
    apply few_spread. pose proof (put_few k v l). apply PeanoNat.Nat.leb_le in H2. lia.
  - destruct (r_step _ _ _ _ _ _ t); auto.
Qed.

Lemma puts_ins {A : Type} (P : A -> Prop) (alloc : A) n : P alloc ->
  Forall (fun c => P (fst c) /\ exists k v, snd c = OInsert N N k v) (puts alloc n).
Proof. intros H. apply Forall_forall. intros c Hc. apply in_map_iff in Hc. destruct Hc as (k & <- & _). cbn. eauto. Qed.

Definition cost {T : Type} (r : out T (N * N)) : option (N * N) := match r with Ret _ rm => Some rm | _ => None end.

Lemma flat16_run_lemma : exists t0, f_new N N qal 4 = Ret t0 tt
  /\ Forall (fun c => f_sane (fst c) /\ adds N N (snd c) = true) (puts qal 9)
  /\ cost (costs2 (fun c => f_step N N idhash N.eqb (fun h => h) true (fst c) (snd c)) (f_cap N N) (f_size N N)
       (puts qal 9) t0) = Some (3, 14).
Proof.
  eexists. split; [vm_compute; reflexivity|]. split; [apply puts_all, qal_sane|]. vm_compute. reflexivity.
Qed.

Lemma robin16_run_lemma : forall wide trivial, exists t0, q_new N N qal 16 = Ret t0 tt
  /\ obeys2 (fun c => q_step N N idhash N.eqb wide trivial (fst c) (snd c))
    (fun c t => f_sane (fst c) /\ adds N N (snd c) = true /\ q_client N N idhash N.eqb (snd c) t
       /\ forall l, q_traverse N N wide t = Ok l -> q_fine N N idhash (fst (spec_step N N N.eqb (snd c) l))) (puts qal 17) t0
  /\ cost (costs2 (fun c => q_step N N idhash N.eqb wide trivial (fst c) (snd c)) (q_cap N N) (q_size N N)
       (puts qal 17) t0) = Some (2, 24).
Proof.
  intros wide trivial. exists (q_start 16). split; [apply q_start_new|]. split.
  - apply q_watched; [destruct wide, trivial; vm_compute; reflexivity|apply puts_ins, qal_sane].
  - destruct wide, trivial; vm_compute; reflexivity.
Qed.

Definition ten : N -> bool := fun n => n <=? 2 ^ 10.

Lemma ten_sane : sane ten.
Proof. intros n H. unfold ten in H. lia. Qed.

Lemma robin_run_lemma :
  obeys2 (fun c => r_step N N idhash N.eqb (fst c) (snd c))
    (fun c t => sane (fst c) /\ adds N N (snd c) = true /\ r_client N N 2 (snd c) t
       /\ forall l, r_traverse N N t = Ok l -> spread_all N N idhash 2 (fst (spec_step N N N.eqb (snd c) l)))
    (puts ten 9) (rnew N N)
  /\ cost (costs2 (fun c => r_step N N idhash N.eqb (fst c) (snd c)) (r_slot_capacity N N) (r_size N N)
       (puts ten 9) (rnew N N)) = Some (4, 14).
Proof.
  split.
  - apply r_watched; [vm_compute; reflexivity|apply puts_ins, ten_sane].
  - vm_compute. reflexivity.
Qed.
