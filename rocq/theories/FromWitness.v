(** Maps built from a list. *)
From Coq Require Import NArith ZArith List Bool Lia Permutation.
From Coq Require Import ZifyBool ZifyNat ZifyN.
From Verif Require Import Base BaseFacts GroupModel TableModel TableInv MapSpec ReachModel WitnessModel WitnessFacts
  Crc32Model RobinModel RobinSpec RobinRefine Flat16Model Flat16Spec Robin16Model Robin16Spec Robin16Ring
  CompareModel Compare2Model Compare3Model Compare4Model ReserveSpec FromModel.
Import ListNotations.
Open Scope N_scope.

Notation crc := simple_int_hash_crc32.

(** Eleven entries, two of them with keys that were there before. *)
Definition wx_list : list (N * N) :=
  [(7, 1); (23, 2); (39, 3); (7, 4); (100, 5); (15, 6); (31, 7); (23, 8); (47, 9); (63, 10); (200, 11)].

Definition up_to_44 (g : bool) (n : N) : bool := n <=? 2 ^ 44.
Definition up_to_55 (n : N) : bool := n <=? 2 ^ 55.

Lemma wx_sane2 : f_sane up_to_44.
Proof. intros n H. unfold up_to_44 in H. lia. Qed.

Lemma wx_sane : sane up_to_55.
Proof. intros n H. unfold up_to_55 in H. lia. Qed.

Lemma wx_flat16_lemma : exists t,
  lawful idhash N.eqb /\ f_sane up_to_44 /\ f_sane no_alloc2
  /\ f_from N N idhash N.eqb crc up_to_44 no_alloc2 4 wx_list = Ret t tt
  /\ f_size _ _ t = 9 /\ f_cap _ _ t = 32
  /\ f_step N N idhash N.eqb crc false no_alloc2 (OFind N N 23) t = Ret t (REntry N N (Some (23, 2))).
Proof.
  eexists. split; [exact idlaw|]. split; [exact wx_sane2|]. split; [intros n H; discriminate|].
  split; [vm_compute; reflexivity|]. vm_compute. auto.
Qed.

Lemma filter_le {A} (f : A -> bool) l : (length (filter f l) <= length l)%nat.
Proof. induction l as [|x l IH]; cbn [filter length]; [auto|]. destruct (f x); cbn [length]; lia. Qed.

Lemma wx_fine : q_fine N N idhash (all_put N N N.eqb wx_list []).
Proof.
  intros b Hb Hl a n Ha H1 H2. unfold q_wanted.
  match goal with |- N.of_nat (length (filter ?f ?m)) <= _ => pose proof (filter_le f m) as H end.
  change (length (all_put N N N.eqb wx_list [])) with 9%nat in H. lia.
Qed.

Lemma wx_robin16_lemma : forall wide trivial, exists t,
  lawful idhash N.eqb /\ f_sane up_to_44 /\ (8 <= length wx_list)%nat
  /\ q_fine N N idhash (all_put N N N.eqb wx_list [])
  /\ q_from N N idhash N.eqb wide trivial up_to_44 no_alloc2 4 wx_list = Ret t tt
  /\ q_size _ _ t = 9 /\ q_cap _ _ t = 32
  /\ q_step N N idhash N.eqb wide trivial no_alloc2 (OFind N N 23) t = Ret t (REntry N N (Some (23, 2))).
Proof.
  intros wide trivial.
  destruct wide, trivial;
    (eexists; split; [exact idlaw|]; split; [exact wx_sane2|]; split; [cbn; lia|]; split; [exact wx_fine|];
     split; [vm_compute; reflexivity|]; vm_compute; auto).
Qed.

Lemma wx_robin_lemma : exists t,
  lawful idhash N.eqb /\ sane up_to_55 /\ spread_all N N idhash 2 (all_put N N N.eqb wx_list [])
  /\ r_from N N idhash N.eqb up_to_55 no_alloc 0 wx_list = Ret t tt
  /\ r_size _ _ t = 9 /\ r_slot_capacity _ _ t = 32
  /\ r_step N N idhash N.eqb no_alloc (OFind N N 23) t = Ret t (REntry N N (Some (23, 2))).
Proof.
  eexists. split; [exact idlaw|]. split; [exact wx_sane|].
  split; [apply few_spread; vm_compute; lia|].
  split; [vm_compute; reflexivity|]. vm_compute. auto.
Qed.

(** Key equalities: [N.eqb], and one that throws. *)
Definition wx_eq : comparison N := fun _ a b => Some (a =? b).
Definition wx_throw : comparison N := fun _ _ _ => None.

Definition wx_list_c : list (comparison N * (N * N)) :=
  [(wx_eq, (7, 1)); (wx_eq, (23, 2)); (wx_eq, (39, 3)); (wx_throw, (7, 4)); (wx_eq, (100, 5))].

Lemma wx_flat16_left : exists t,
  f_from_c N N idhash crc up_to_44 4 wx_list_c = Ret t Escaped
  /\ f_cap _ _ t = 16 /\ exists l, f_traverse N N t = Ok l /\ length l = 3%nat.
Proof. eexists. split; [vm_compute; reflexivity|]. split; [vm_compute; reflexivity|]. eexists. split; vm_compute; reflexivity. Qed.

Lemma wx_robin16_left : forall wide trivial, exists t,
  q_from_c N N idhash wide trivial up_to_44 4 wx_list_c = Ret t Escaped
  /\ q_cap _ _ t = 16 /\ exists l, q_traverse N N wide t = Ok l /\ length l = 3%nat.
Proof.
  intros wide trivial.
  destruct wide, trivial; (eexists; split; [vm_compute; reflexivity|]; split; [vm_compute; reflexivity|];
    eexists; split; vm_compute; reflexivity).
Qed.

Lemma wx_robin_left : exists t,
  r_from_c N N idhash up_to_55 0 wx_list_c = Ret t Escaped
  /\ r_alloc _ _ t = true /\ exists l, r_traverse N N t = Ok l /\ length l = 3%nat.
Proof. eexists. split; [vm_compute; reflexivity|]. split; [vm_compute; reflexivity|]. eexists. split; vm_compute; reflexivity. Qed.
