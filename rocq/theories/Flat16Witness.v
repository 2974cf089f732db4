(** Example maps and counterexamples for the flat16 map.  Keys and values are numbers,
    the hash is the identity, the second hash is the CRC32 instruction. *)
From Coq Require Import NArith ZArith List Bool Lia Permutation.
From Coq Require Import ZifyBool ZifyNat ZifyN.
From Verif Require Import Base BaseFacts GroupModel TableModel TableInv MapSpec MapFacts
  WitnessModel WitnessFacts Crc32Model Flat16Model Flat16Spec Flat16Facts Flat16Ops Flat16Runs.
Import ListNotations.
Open Scope N_scope.

Notation crc := simple_int_hash_crc32.
Notation fm := (fmap N N).
Notation fnew := (f_new N N).
Notation fstep := (f_step N N idhash N.eqb crc).
Notation frun := (f_run N N idhash N.eqb crc).
Notation fbuilt := (f_built N N idhash N.eqb crc).

(** At most a million slots and groups. *)
Definition f_some : bool -> N -> bool := fun _ n => n <=? 2 ^ 20.
(** Groups of control bytes, but no slots. *)
Definition f_no_slots : bool -> N -> bool := fun groups _ => groups.
Definition f_nothing : bool -> N -> bool := fun _ _ => false.

Lemma f_some_sane : f_sane f_some.
Proof. intros n H. unfold f_some in H. lia. Qed.

Lemma f_no_slots_sane : f_sane f_no_slots.
Proof. intros n H. discriminate. Qed.

Lemma f_nothing_sane : f_sane f_nothing.
Proof. intros n H. discriminate. Qed.

Definition f_do (o : op N N) : (bool -> N -> bool) * op N N := (f_some, o).
Definition f_add (k : N) : (bool -> N -> bool) * op N N := f_do (OInsert N N k (k + 1)).

(** The map that calls lead to from flat16_hash_map(n). *)
Definition f_from (n : N) (calls : list ((bool -> N -> bool) * op N N))
  : res (list (option (obs N N)) * fm) :=
  match fnew f_some n with
  | Ret t _ => frun false calls t
  | Throw _ => Err ELeak
  | Fail e => Err e
  end.

(** ** A checker for [f_built] *)

Definition f_nearb (t : fm) : bool :=
  forallb (fun i => match geti (f_slots _ _ t) i with
                    | Some (Some kv) => (i + f_cap _ _ t - idhash (fst kv) mod f_cap _ _ t) mod f_cap _ _ t <? 16
                    | _ => true
                    end) (seqN (N.of_nat (length (f_slots _ _ t)))).

Definition f_tidyb (t : fm) : bool :=
  (f_cap _ _ t <=? 32) || (f_slot_deleted _ _ t <? f_cap _ _ t / 8).

Definition f_spareb (t : fm) : bool :=
  negb (4 <=? f_size _ _ t) || negb (2 ^ N.log2 (f_size _ _ t) =? f_size _ _ t).

Definition f_clientb (o : op N N) (t : fm) : bool :=
  match o with
  | OInsert _ _ _ _ | OAssign _ _ _ _ => f_tidyb t
  | OErase _ _ _ => f_nearb t
  | OClear _ _ b => b && (4 <? f_cap _ _ t)
  | OReserve _ _ n | ORehash _ _ n => (n <=? 2 ^ 44) && ((f_size _ _ t <=? n) || f_spareb t)
  | OShrink _ _ b => negb b || f_spareb t
  | OMlf _ _ _ => f_tidyb t
  | _ => true
  end.

Lemma f_tidyb_ok t : f_tidyb t = true -> f_tidy N N t.
Proof. unfold f_tidyb, f_tidy. lia. Qed.

Lemma f_spareb_ok t : f_spareb t = true -> f_spare N N t.
Proof.
  unfold f_spareb. intros H e He E. rewrite E in H. rewrite N.log2_pow2, N.eqb_refl in H by lia.
  pose proof (N.pow_le_mono_r 2 2 e ltac:(lia) He) as P. change (2 ^ 2) with 4 in P.
  destruct (N.leb_spec 4 (2 ^ e)); [discriminate|lia].
Qed.

Lemma resize_ok n t : (n <=? 2 ^ 44) && ((f_size _ _ t <=? n) || f_spareb t) = true ->
  n <= 2 ^ 44 /\ (f_size _ _ t <= n \/ f_spare N N t).
Proof.
  intros H. apply andb_true_iff in H. destruct H as [H1 H2]. split; [now apply N.leb_le|].
  apply orb_true_iff in H2. destruct H2 as [H2|H2]; [left; now apply N.leb_le|right; now apply f_spareb_ok].
Qed.

Lemma shrink_ok b t : negb b || f_spareb t = true -> b = false \/ f_spare N N t.
Proof. destruct b; [right; now apply f_spareb_ok|now left]. Qed.

Lemma f_clientb_ok o t : f_clientb o t = true -> f_client N N idhash o t.
Proof.
  destruct o; cbn -[N.pow]; auto; intros H; try (apply f_tidyb_ok in H; auto; fail);
    try (now apply resize_ok); try (now apply shrink_ok); try lia.
  - intros i kv E. unfold f_nearb in H. rewrite forallb_forall in H.
    assert (Hi : In i (seqN (N.of_nat (length (f_slots _ _ t))))) by (apply seqN_In; eapply geti_Some_lt; eauto).
    specialize (H i Hi). rewrite E in H. lia.
  - destruct need_destroy; cbn in H; [lia|discriminate].
Qed.

Fixpoint f_chase (ops : list (op N N)) (t : fm) (m : list (N * N)) : option (fm * list (N * N)) :=
  match ops with
  | [] => Some (t, m)
  | o :: ops' =>
      if f_clientb o t then
        match fstep false f_some o t with
        | Ret t' _ => f_chase ops' t' (fst (spec_step N N N.eqb o m))
        | _ => None
        end
      else None
  end.

Lemma f_chase_built ops : forall t m t' m', fbuilt t m -> f_chase ops t m = Some (t', m') -> fbuilt t' m'.
Proof.
  induction ops as [|o ops IH]; intros t m t' m' HB E; cbn [f_chase] in E.
  - injection E as <- <-. exact HB.
  - destruct (f_clientb o t) eqn:EC; [|discriminate].
    destruct (fstep false f_some o t) as [t1 r|t1|e] eqn:ES; try discriminate.
    apply (IH t1 _ _ _) in E; auto. eapply f_built_step; eauto; [apply f_some_sane|now apply f_clientb_ok].
Qed.

Definition f_chased (n : N) (ops : list (op N N)) : option (fm * list (N * N)) :=
  match fnew f_some n with Ret t _ => f_chase ops t [] | _ => None end.

Lemma f_chased_built n ops t m : n <= 2 ^ 44 -> f_chased n ops = Some (t, m) -> fbuilt t m.
Proof.
  intros Hn E. unfold f_chased in E. destruct (fnew f_some n) as [t0 []|t0|e] eqn:EN; try discriminate.
  eapply f_chase_built; [|exact E]. eapply f_built_new; eauto. apply f_some_sane.
Qed.

Definition f_get (r : option (fm * list (N * N))) : fm * list (N * N) :=
  match r with Some x => x | None => (f_blank N N, []) end.

Definition f_some_map (r : option (fm * list (N * N))) : bool := match r with Some _ => true | None => false end.

Lemma f_get_built n ops : n <= 2 ^ 44 -> f_some_map (f_chased n ops) = true ->
  fbuilt (fst (f_get (f_chased n ops))) (snd (f_get (f_chased n ops))).
Proof.
  intros Hn E. destruct (f_chased n ops) as [[t m]|] eqn:EC; [|discriminate].
  cbn [f_get fst snd]. eapply f_chased_built; eauto.
Qed.

Definition puts (l : list N) : list (op N N) := map (fun k => OInsert N N k (k + 1)) l.

(** 40 entries with erasures, reassignments and a changed load factor. *)
Definition fx_ops : list (op N N) :=
  OMlf N N 40000000 :: puts (seqN 40) ++ map (fun k => OErase N N k) [3; 17; 38] ++ puts [3; 500; 129]
  ++ [OAssign N N 7 70; OReserve N N 90; OErase N N 500; OShrink N N false; OInsert N N 1000 1].

Definition fx_busy : fm := fst (f_get (f_chased 4 fx_ops)).
Definition fx_busy_map : list (N * N) := snd (f_get (f_chased 4 fx_ops)).

(** Sixteen keys that ask for the same slot. *)
Definition fx_crowd_ops : list (op N N) := puts (map (N.mul 64) (seqN 16)) ++ [OErase N N 320].
Definition fx_crowd : fm := fst (f_get (f_chased 4 fx_crowd_ops)).
Definition fx_crowd_map : list (N * N) := snd (f_get (f_chased 4 fx_crowd_ops)).

Lemma fx_busy_built : fbuilt fx_busy fx_busy_map.
Proof. apply f_get_built; [lia|vm_compute; reflexivity]. Qed.

Lemma fx_crowd_built : fbuilt fx_crowd fx_crowd_map.
Proof. apply f_get_built; [lia|vm_compute; reflexivity]. Qed.

Lemma fx_example_lemma :
  lawful idhash N.eqb /\ fbuilt fx_busy fx_busy_map /\ fbuilt fx_crowd fx_crowd_map
  /\ (f_size _ _ fx_busy, f_cap _ _ fx_busy, length fx_busy_map) = (40, 128, 40%nat)
  /\ (f_size _ _ fx_crowd, f_cap _ _ fx_crowd, length fx_crowd_map) = (15, 32, 15%nat).
Proof.
  split; [exact idlaw|]. split; [exact fx_busy_built|]. split; [exact fx_crowd_built|].
  split; vm_compute; reflexivity.
Qed.

(** All calls of the list are among those [client] allows, in the states they meet. *)
Fixpoint f_allowed (client : op N N -> fm -> bool) (ops : list (op N N)) (t : fm) : bool :=
  match ops with
  | [] => true
  | o :: ops' => client o t && match fstep false f_some o t with Ret t' _ => f_allowed client ops' t' | _ => false end
  end.

Definition f_allows (client : op N N -> fm -> bool) (n : N) (ops : list (op N N)) : bool :=
  match fnew f_some n with Ret t _ => f_allowed client ops t | _ => false end.

Definition f_client8b (o : op N N) (t : fm) : bool :=
  match o with
  | OInsert _ _ _ _ | OAssign _ _ _ _ => f_size _ _ t <? 8
  | OErase _ _ _ | OFind _ _ _ | OContains _ _ _ | OSize _ _ => true
  | _ => false
  end.

Definition f_client0b (o : op N N) (t : fm) : bool :=
  match o with
  | OErase _ _ _ => false
  | OClear _ _ b => b && (4 <? f_cap _ _ t)
  | OReserve _ _ n | ORehash _ _ n => (n <=? 2 ^ 44) && ((f_size _ _ t <=? n) || f_spareb t)
  | OShrink _ _ b => negb b || f_spareb t
  | OMlf _ _ _ => f_cap _ _ t <=? 32
  | _ => true
  end.

Lemma f_client8b_ok o t : f_client8b o t = true -> f_client8 N N o t.
Proof. destruct o; cbn; auto; try discriminate; lia. Qed.

Lemma f_client0b_ok o t : f_client0b o t = true -> f_client0 N N o t.
Proof.
  destruct o; cbn -[N.pow]; auto; try discriminate; try (apply resize_ok); try (apply shrink_ok); try lia.
  - destruct need_destroy; cbn; [lia|discriminate].
Qed.

(** Eight keys that collide, some erased and inserted again. *)
Definition fx8_ops : list (op N N) :=
  puts (map (N.mul 16) (seqN 8)) ++ [OErase N N 32; OErase N N 112; OInsert N N 112 5; OFind N N 32; OFind N N 112;
  OErase N N 32; OContains N N 96; OInsert N N 1 1; OSize N N].

Lemma fx8_lemma : f_allows f_client8b 4 fx8_ops = true
  /\ match f_from 4 (map f_do fx8_ops) with
     | Ok (rs, t) => skipn 8 rs =
         [Some (RNum N N 1); Some (RNum N N 1); Some (RIns N N (112, 5) true); Some (REntry N N None);
          Some (REntry N N (Some (112, 5))); Some (RNum N N 0); Some (RBool N N true);
          Some (RIns N N (1, 1) true); Some (RNum N N 8)]
     | Err _ => False
     end.
Proof. split; vm_compute; reflexivity. Qed.

Definition fx0_ops : list (op N N) :=
  OMlf N N 53687092 :: puts (seqN 20) ++ [OInsert N N 3 9; OAssign N N 4 40; OFind N N 4; OReserve N N 100;
  OContains N N 77; OShrink N N false; OFind N N 3; OSize N N; OClear N N true; OSize N N; OContains N N 3; OInsert N N 3 1].

Lemma fx0_lemma : f_allows f_client0b 4 fx0_ops = true
  /\ match f_from 4 (map f_do fx0_ops) with
     | Ok (rs, t) => skipn 21 rs =
         [Some (RIns N N (3, 4) false); Some (RIns N N (4, 40) false); Some (REntry N N (Some (4, 40)));
          Some (RUnit N N); Some (RBool N N false); Some (RUnit N N); Some (REntry N N (Some (3, 4)));
          Some (RNum N N 20); Some (RUnit N N); Some (RNum N N 0); Some (RBool N N false); Some (RIns N N (3, 1) true)]
     | Err _ => False
     end.
Proof. split; vm_compute; reflexivity. Qed.

(** ** Counterexamples *)

(** Seventeen keys ask for the same slot; one is erased, and another is gone too. *)
Definition fx_lost_ops : list (op N N) := puts (map (N.mul 64) (seqN 17)).
Definition fx_lost : fm := fst (f_get (f_chased 4 fx_lost_ops)).
Definition fx_lost_map : list (N * N) := snd (f_get (f_chased 4 fx_lost_ops)).

Lemma fx_lost_built : fbuilt fx_lost fx_lost_map.
Proof. apply f_get_built; [lia|vm_compute; reflexivity]. Qed.

Definition bool_obs (r : out fm (obs N N)) : option bool := match r with Ret _ (RBool _ _ b) => Some b | _ => None end.
Definition map_of (r : out fm (obs N N)) : fm := match r with Ret t _ => t | Throw t => t | Fail _ => f_blank N N end.
Definition fate (r : out fm (obs N N)) : option (option err) :=
  match r with Ret _ _ => None | Throw _ => Some None | Fail e => Some (Some e) end.

Lemma fate_ret r : fate r = None -> exists x, r = Ret (map_of r) x.
Proof. destruct r as [t x|t|e]; try discriminate. eauto. Qed.

Lemma fate_throw r : fate r = Some None -> r = Throw (map_of r).
Proof. destruct r as [t x|t|e]; try discriminate. reflexivity. Qed.

Lemma fate_fail r e : fate r = Some (Some e) -> r = Fail e.
Proof. destruct r as [t x|t|e']; try discriminate. intros H. now injection H as ->. Qed.

Lemma fx_lost_lemma : exists t m k j t' r, fbuilt t m /\ N.eqb j k = false
  /\ bool_obs (fstep false f_some (OContains N N j) t) = Some true
  /\ fstep false f_some (OErase N N k) t = Ret t' r
  /\ fstep false f_some (OContains N N j) t' = Ret t' (RBool N N false).
Proof.
  exists fx_lost, fx_lost_map, 320, 1024, (map_of (fstep false f_some (OErase N N 320) fx_lost)), (RNum N N 1).
  split; [exact fx_lost_built|]. repeat split; vm_compute; reflexivity.
Qed.

(** 32 insertions, eight erasures, one insertion. *)
Definition fx_dirty_ops : list (op N N) := puts (seqN 32) ++ map (fun k => OErase N N k) (seqN 8).
Definition fx_dirty : fm := fst (f_get (f_chased 4 fx_dirty_ops)).
Definition fx_dirty_map : list (N * N) := snd (f_get (f_chased 4 fx_dirty_ops)).

Lemma fx_dirty_built : fbuilt fx_dirty fx_dirty_map.
Proof. apply f_get_built; [lia|vm_compute; reflexivity]. Qed.

Lemma fx_dirty_lemma : exists t m k v, fbuilt t m /\ length m = 24%nat /\ f_cap _ _ t = 64
  /\ fstep false f_some (OInsert N N k v) t = Fail EUndef.
Proof.
  exists fx_dirty, fx_dirty_map, 100, 0. split; [exact fx_dirty_built|].
  split; [vm_compute; reflexivity|]. split; [vm_compute; reflexivity|].
  apply fate_fail. vm_compute. reflexivity.
Qed.

Definition fx_mlf_calls : list ((bool -> N -> bool) * op N N) :=
  [f_do (OReserve N N 32); f_do (OMlf N N 53687092)] ++ map f_add (seqN 33).

Lemma fx_mlf_lemma : f_from 4 fx_mlf_calls = Err EUndef
  /\ match f_from 4 (removelast fx_mlf_calls) with Ok (_, t) => f_size _ _ t = 32 /\ f_cap _ _ t = 64 | Err _ => False end.
Proof. split; [vm_compute; reflexivity|]. vm_compute. split; reflexivity. Qed.

(** clear() after 32 insertions: with a trivial destructor the map has size 0 and
    still finds a key; otherwise the search reads an element that was destroyed. *)
Definition fx_full_ops : list (op N N) := puts (seqN 32).
Definition fx_full : fm := fst (f_get (f_chased 4 fx_full_ops)).
Definition fx_full_map : list (N * N) := snd (f_get (f_chased 4 fx_full_ops)).

Lemma fx_full_built : fbuilt fx_full fx_full_map.
Proof. apply f_get_built; [lia|vm_compute; reflexivity]. Qed.

Lemma fx_clear_lemma : exists t m k t1 t2, fbuilt t m
  /\ fstep true f_some (OClear N N false) t = Ret t1 (RUnit N N)
  /\ fstep true f_some (OSize N N) t1 = Ret t1 (RNum N N 0)
  /\ fstep true f_some (OContains N N k) t1 = Ret t1 (RBool N N true)
  /\ fstep false f_some (OClear N N false) t = Ret t2 (RUnit N N)
  /\ fstep false f_some (OContains N N k) t2 = Fail EUndef.
Proof.
  exists fx_full, fx_full_map, 25, (map_of (fstep true f_some (OClear N N false) fx_full)),
    (map_of (fstep false f_some (OClear N N false) fx_full)).
  split; [exact fx_full_built|]. repeat split; vm_compute; reflexivity.
Qed.

(** In a map of four slots clear() also removes the end mark, and iterating leaves the
    slots. *)
Definition final (r : res (list (option (obs N N)) * fm)) : fm :=
  match r with Ok (_, t) => t | Err _ => f_blank N N end.

Lemma fx_clear4_lemma : exists t, f_from 4 (map f_add [1; 2] ++ [f_do (OClear N N false); f_add 1])
    = Ok ([Some (RIns N N (1, 2) true); Some (RIns N N (2, 3) true); Some (RUnit N N); Some (RIns N N (1, 2) true)], t)
  /\ f_size _ _ t = 1 /\ f_traverse N N t = Err EUndef.
Proof.
  exists (final (f_from 4 (map f_add [1; 2] ++ [f_do (OClear N N false); f_add 1]))).
  repeat split; vm_compute; reflexivity.
Qed.

Lemma fx_shrink_lemma : exists t m, fbuilt t m /\ length m = 4%nat
  /\ fstep false f_some (OShrink N N true) t = Fail ELoop
  /\ fstep false f_some (OReserve N N 0) t = Fail ELoop
  /\ fstep false f_some (ORehash N N 2) t = Fail ELoop.
Proof.
  exists (fst (f_get (f_chased 4 (puts [1; 2; 5; 6])))), (snd (f_get (f_chased 4 (puts [1; 2; 5; 6])))).
  split; [apply f_get_built; [lia|vm_compute; reflexivity]|]. repeat split; vm_compute; reflexivity.
Qed.

Lemma fx_resize_lemma : exists t', fstep false f_some (OReserve N N 0) fx_busy = Ret t' (RUnit N N)
  /\ f_cap _ _ t' = 64 /\ f_cap _ _ fx_busy = 128 /\ f_size _ _ t' = 40.
Proof.
  exists (match fstep false f_some (OReserve N N 0) fx_busy with Ret t' _ => t' | _ => fx_busy end).
  split; [vm_compute; reflexivity|]. split; [vm_compute; reflexivity|].
  split; vm_compute; reflexivity.
Qed.

Definition copied (t : fm) : fm :=
  match f_copy N N idhash crc f_some t with Ret t' _ => t' | _ => f_blank N N end.

Lemma fx_copy_lemma : exists t m t', fbuilt t m /\ f_copy N N idhash crc f_some t = Ret t' tt
  /\ frun false (map f_add (map (N.add 32) (seqN 33))) t' = Err ELeak
  /\ exists rs t'', frun false (map f_add (map (N.add 32) (seqN 33))) t = Ok (rs, t'').
Proof.
  exists fx_full, fx_full_map, (copied fx_full). split; [exact fx_full_built|].
  split; [vm_compute; reflexivity|]. split; [vm_compute; reflexivity|].
  assert (E : match frun false (map f_add (map (N.add 32) (seqN 33))) fx_full with Ok _ => true | _ => false end = true)
    by (vm_compute; reflexivity).
  destruct (frun false _ fx_full) as [[rs t'']|]; [eauto|discriminate].
Qed.

Lemma fx_copy_example : exists t', f_copy N N idhash crc f_some fx_busy = Ret t' tt /\ f_size _ _ t' = 40.
Proof. exists (copied fx_busy). split; vm_compute; reflexivity. Qed.

(** The slots of the larger table cannot be allocated. *)
Lemma fx_throw_lemma : exists t m k t', fbuilt t m /\ f_sane f_no_slots /\ has N N N.eqb k m = true
  /\ fstep false f_no_slots (OInsert N N 9 9) t = Throw t'
  /\ fstep false f_some (OContains N N k) t' = Ret t' (RBool N N false)
  /\ f_size _ _ t' = 2 /\ f_destroy N N t' = Err ELeak.
Proof.
  exists (fst (f_get (f_chased 4 (puts [0; 1])))), (snd (f_get (f_chased 4 (puts [0; 1])))), 0,
    (map_of (fstep false f_no_slots (OInsert N N 9 9) (fst (f_get (f_chased 4 (puts [0; 1])))))).
  split; [apply f_get_built; [lia|vm_compute; reflexivity]|]. split; [exact f_no_slots_sane|].
  repeat split; vm_compute; reflexivity.
Qed.

Lemma fx_refused_example : (forall n, f_nothing true n = false) /\ f_tidy N N fx_full
  /\ fstep false f_nothing (OInsert N N 99 1) fx_full = Throw fx_full.
Proof.
  split; [reflexivity|]. split; [apply f_tidyb_ok; vm_compute; reflexivity|]. vm_compute. reflexivity.
Qed.

(** Sixteen of sixteen slots in use, at a maximum load factor of 0.8. *)
Definition fx_load_ops : list (op N N) :=
  OMlf N N 53687092 :: puts (seqN 13) ++ [OShrink N N false] ++ puts [13; 14; 15].

Lemma fx_load_lemma : exists t m, fbuilt t m /\ f_size _ _ t = 16 /\ f_cap _ _ t = 16 /\ f_threshold N N t = 12
  /\ f_left _ _ t = two64 - 4.
Proof.
  exists (fst (f_get (f_chased 4 fx_load_ops))), (snd (f_get (f_chased 4 fx_load_ops))).
  split; [apply f_get_built; [lia|vm_compute; reflexivity]|]. repeat split; vm_compute; reflexivity.
Qed.

Lemma fx_adds_example : Forall (fun c => f_sane (fst c) /\ f_adds N N (snd c)) (map f_add (seqN 33))
  /\ match f_from 4 (map f_add (seqN 33)) with
     | Ok (rs, t) => f_size _ _ t = 33 /\ f_cap _ _ t = 128 /\ length rs = 33%nat
                     /\ forallb (fun r => match r with Some _ => true | None => false end) rs = true
     | Err _ => False end.
Proof.
  split.
  - apply Forall_forall. intros c H. apply in_map_iff in H. destruct H as (k & <- & _).
    split; [exact f_some_sane|exact I].
  - vm_compute. repeat split; reflexivity.
Qed.

Lemma fx_end_lemma : exists g i, length g = 16%nat /\ geti g i = Some fEndOf
  /\ N.testbit (match_empty_or_deleted g) i = true
  /\ exists t, fnew f_some 4 = Ret t tt /\ f_group (f_ctrls _ _ t) 0 = Ok g.
Proof.
  exists (repeat 128 4 ++ [255] ++ repeat 128 3 ++ repeat 255 8), 4.
  split; [reflexivity|]. split; [reflexivity|]. split; [vm_compute; reflexivity|].
  exists (fst (f_get (f_chased 4 []))). split; vm_compute; reflexivity.
Qed.
