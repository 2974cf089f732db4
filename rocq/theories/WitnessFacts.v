(** Executions, computed in the model, that end badly. *)
From Coq Require Import NArith ZArith List Bool Lia.
From Coq Require Import ZifyBool ZifyNat ZifyN.
From Verif Require Import Base BaseFacts BitsModel GroupModel TableModel TableInv RunModel IterModel
  CopyModel ReachModel MapProps MapProps2 WitnessModel.
Import ListNotations.
Open Scope N_scope.

Lemma idlaw : lawful idhash N.eqb.
Proof.
  constructor.
  - intros k. apply N.mod_lt. discriminate.
  - apply N.eqb_refl.
  - intros a b H. apply N.eqb_eq in H. subst. apply N.eqb_refl.
  - intros a b c H1 H2. apply N.eqb_eq in H1, H2. subst. apply N.eqb_refl.
  - intros a b H. apply N.eqb_eq in H. now subst.
Qed.

Lemma roomy_sane : sane roomy_alloc.
Proof.
  intros n H. unfold roomy_alloc in H. assert (2 ^ 20 <= 2 ^ 55) by (apply pow2_le; lia). lia.
Qed.

Lemma none_sane : sane no_alloc.
Proof. intros n H. discriminate. Qed.

(** Calls and their conditions, decided. *)
Definition client_okb (kd : kind) (o : op N N) (t : table N N) : bool :=
  match o with
  | OClear _ _ false => negb (kd_sent kd) || negb (capacity _ _ kd t =? 0)
  | OReserve _ _ n => negb (n =? 0)
  | ORehash _ _ n => n <=? 2 ^ 63
  | _ => true
  end.

Definition noshrinkb (kd : kind) (o : op N N) (t : table N N) : bool :=
  match o with OShrink _ _ _ => false | _ => client_okb kd o t end.

Definition erase_freeb (kd : kind) (o : op N N) (t : table N N) : bool :=
  match o with
  | OErase _ _ _ => false
  | OShrink _ _ true => negb (kd_sent kd)
  | _ => client_okb kd o t
  end.

Fixpoint obeysb (kd : kind) (okb : op N N -> table N N -> bool) (calls : list (call N N)) (t : table N N) : bool :=
  match calls with
  | [] => true
  | (alloc, o) :: rest =>
      okb o t && match step N N idhash N.eqb kd alloc o t with
                 | Ret t' _ | Throw t' => obeysb kd okb rest t'
                 | Fail _ => true
                 end
  end.

Lemma client_okb_ok kd o t : client_okb kd o t = true -> client_ok N N kd o t.
Proof.
  destruct o as [| | | | | |[]| | | |]; cbn [client_okb client_ok]; auto; intros H; try lia.
  intros Hs. rewrite Hs in H. cbn [negb orb] in H. lia.
Qed.

Lemma noshrinkb_ok kd o t : noshrinkb kd o t = true -> client_noshrink N N kd o t.
Proof. destruct o; cbn [noshrinkb client_noshrink]; try discriminate; apply client_okb_ok. Qed.

Lemma erase_freeb_ok kd o t : erase_freeb kd o t = true -> erase_free N N kd o t.
Proof.
  destruct o as [| | | | | | | | |[]|]; cbn [erase_freeb erase_free]; try discriminate;
    try apply client_okb_ok. now destruct (kd_sent kd).
Qed.

Lemma obeysb_ok kd okb (ok : op N N -> table N N -> Prop) :
  (forall o t, okb o t = true -> ok o t) ->
  forall calls t, obeysb kd okb calls t = true -> obeys N N idhash N.eqb kd ok calls t.
Proof.
  intros H. induction calls as [|[alloc o] calls IH]; intros t; cbn [obeysb obeys]; auto.
  intros E. apply andb_prop in E. destruct E as [E1 E2]. split; auto.
  destruct (step N N idhash N.eqb kd alloc o t); auto.
Qed.

Lemma sane_ins l : Forall (fun c => sane (fst c)) (map ins l).
Proof. apply Forall_forall. intros c H. apply in_map_iff in H. destruct H as (k & <- & _). exact roomy_sane. Qed.

Lemma sane_era l : Forall (fun c => sane (fst c)) (map era l).
Proof. apply Forall_forall. intros c H. apply in_map_iff in H. destruct H as (k & <- & _). exact roomy_sane. Qed.

Ltac sane_calls := repeat first [apply Forall_app; split | apply sane_ins | apply sane_era
  | apply Forall_cons; [exact roomy_sane|] | apply Forall_nil].

(** ** shrink_to_fit of group15 *)

Definition K3 := key 3 2.

(** 112 insertions; the map grows to 256 control bytes. *)
Definition shrink_a : list (call N N) := map ins (map K3 (from_to 0 112)).
(** After shrink_to_fit(): erase the 105 entries of the seven full groups, insert
    113 other ones. *)
Definition shrink_b : list (call N N) :=
  map era (map K3 (from_to 1 38 ++ from_to 45 67)) ++ map ins (map K3 (from_to 200 113)).
Definition shrink_calls : list (call N N) :=
  shrink_a ++ [(roomy_alloc, OShrink N N false)] ++ shrink_b.

Lemma shrink_sane : Forall (fun c => sane (fst c)) shrink_calls.
Proof. unfold shrink_calls, shrink_a, shrink_b. sane_calls. Qed.

Lemma shrink_obeys : obeys N N idhash N.eqb k15 (client_ok N N k15) shrink_calls new15.
Proof.
  apply (obeysb_ok k15 (client_okb k15)); [apply client_okb_ok|]. vm_compute. reflexivity.
Qed.

Lemma shrink_loops : run15 shrink_calls new15 = Err ELoop.
Proof. vm_compute. reflexivity. Qed.

Lemma shrink_before_returns :
  match run15 (shrink_a ++ [(roomy_alloc, OShrink N N false)]) new15 with
  | Ok (outs, t) => forallb (fun o => negb (is_none o)) outs && (t_size _ _ t =? 112)
  | Err _ => false
  end = true.
Proof. vm_compute. reflexivity. Qed.

(** shrink_to_fit(true) with thirty entries. *)
Definition shrink_ro_calls : list (call N N) :=
  map ins (map K3 (from_to 0 30)) ++ [(roomy_alloc, OShrink N N true)].

Lemma shrink_ro_sane : Forall (fun c => sane (fst c)) shrink_ro_calls.
Proof. unfold shrink_ro_calls. sane_calls. Qed.

Lemma shrink_ro_obeys : obeys N N idhash N.eqb k15 (client_ok N N k15) shrink_ro_calls new15.
Proof.
  apply (obeysb_ok k15 (client_okb k15)); [apply client_okb_ok|]. vm_compute. reflexivity.
Qed.

Lemma shrink_ro_loops : run15 shrink_ro_calls new15 = Err ELoop.
Proof. vm_compute. reflexivity. Qed.

(** ** Insertion into group16 after one erasure *)

Definition A16 := key 0 1.
Definition B16 := key 0 2.

(** Sixteen keys fill a group, one of another class overflows it; one of the first
    is erased; sixteen more are inserted. *)
Definition drift_calls : list (call N N) :=
  map ins (map A16 (from_to 0 16)) ++ [ins (B16 0)] ++ [era (A16 0)]
  ++ map ins (map B16 (from_to 1 17)).

Lemma drift_sane : Forall (fun c => sane (fst c)) drift_calls.
Proof. unfold drift_calls. sane_calls. Qed.

Lemma drift_obeys : obeys N N idhash N.eqb k16 (client_ok N N k16) drift_calls new16.
Proof.
  apply (obeysb_ok k16 (client_okb k16)); [apply client_okb_ok|]. vm_compute. reflexivity.
Qed.

Lemma drift_loops : run16 drift_calls new16 = Err ELoop.
Proof. vm_compute. reflexivity. Qed.

(** ** reserve *)

Lemma reserve112 :
  match step N N idhash N.eqb k15 roomy_alloc (OReserve N N 112) new15 with
  | Ret t _ =>
      match run15 (map ins (map K3 (from_to 0 112))) t with
      | Ok (_, t') => negb (capacity _ _ k15 t' =? capacity _ _ k15 t)
      | Err _ => false
      end
  | _ => false
  end = true.
Proof. vm_compute. reflexivity. Qed.

Lemma reserve33 :
  match step N N idhash N.eqb k16 roomy_alloc (OMlf N N 131) new16 with
  | Ret t0 _ =>
      match step N N idhash N.eqb k16 roomy_alloc (OReserve N N 33) t0 with
      | Ret t _ =>
          match run16 (map ins (map K3 (from_to 0 33))) t with
          | Ok (_, t') => negb (capacity _ _ k16 t' =? capacity _ _ k16 t)
          | Err _ => false
          end
      | _ => false
      end
  | _ => false
  end = true.
Proof. vm_compute. reflexivity. Qed.

(** ** Churn in group15 *)

(** Sixteen entries, then [n] times: erase the oldest, insert another. *)
Definition churn_calls (n : N) : list (call N N) :=
  map ins (map K3 (from_to 0 16))
  ++ flat_map (fun i => [era (K3 i); ins (K3 (i + 16))]) (seqN n).

Lemma churn_sane n : Forall (fun c => sane (fst c)) (churn_calls n).
Proof.
  unfold churn_calls. sane_calls. apply Forall_forall. intros c H. apply in_flat_map in H.
  destruct H as (i & _ & [<-|[<-|[]]]); exact roomy_sane.
Qed.

(** The sizes after each call. *)
Fixpoint sizes (kd : kind) (calls : list (call N N)) (t : table N N) : list N :=
  match calls with
  | [] => []
  | (alloc, o) :: rest =>
      match step N N idhash N.eqb kd alloc o t with
      | Ret t' _ | Throw t' => t_size _ _ t' :: sizes kd rest t'
      | Fail _ => []
      end
  end.
