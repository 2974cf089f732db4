(** No call compares a stored element twice while the keys of a robin hood map are
    spread; an insertion that cannot make room compares again after growing. *)
From Coq Require Import NArith ZArith List Bool Lia Permutation.
From Verif Require Import Base BaseFacts GroupModel TableModel TableInv ReachModel WitnessModel RobinModel RobinSpec
  RobinOps RobinRefine RobinWitness Flat16Spec Robin16Model Robin16Spec Robin16Witness CompareModel Compare2Model
  CompareSpec CompareFacts CompareWitness Compare3Model Compare3Spec Compare3Facts Compare3Witness
  Compare4Model Compare4Spec Compare4Witness.
Import ListNotations.
Open Scope N_scope.

Section Twice.

Context {K V : Type} (hash : K -> N) (H64 : forall k, hash k < 2 ^ 64).
Variable cmp : comparison K.

Lemma thrown_head C S (k : K) fuel : forall i d seen s,
  r_scan_c K V cmp fuel C S k i d seen = Ok (s, RThrown) ->
  exists k' s0, s = k' :: s0 /\ cmp s0 k k' = None.
Proof.
  induction fuel as [|fuel IH]; intros i d seen s; cbn [r_scan_c]; [discriminate|].
  destruct (geti C i) as [c|]; [|discriminate]. destruct (s8 d <=? s8 c)%Z; [|discriminate].
  destruct (geti S i) as [[kv|]|]; try discriminate.
  destruct (cmp seen k (fst kv)) as [[|]|] eqn:E; [discriminate|apply IH|].
  intros H. injection H as <-. eauto.
Qed.

(** An exception is that of the first search. *)
Lemma escaped_first alloc (update : bool) (k : K) (v : V) (t t' : rmap K V) fuel :
  (forall e, r_emplace_c K V hash cmp 1 alloc update k v [] t <> Fail e) ->
  r_emplace_c K V hash cmp (S fuel) alloc update k v [] t = Ret t' Escaped ->
  exists s, r_search_c K V hash cmp t k [] = Ok (s, RThrown).
Proof.
  cbn [r_emplace_c]. destruct (r_search_c K V hash cmp t k []) as [[s [i|i d|]]|e]; [| |eauto|discriminate].
  { destruct (geti (r_slots K V t) i) as [[kv|]|]; discriminate. }
  cbv zeta. generalize (r_need_grow K V t || (r_max_distance K V t <=? d)) as grow. intros grow.
  destruct (if grow then r_grow K V hash (fun _ _ => false) alloc t else Ret t tt) as [t1 u|t1|e]; cbn [obind]; try discriminate.
  destruct (if grow then r_search K V hash (fun _ _ => false) t1 false k else Ok (Stop i d)) as [[i'|i' d']|e]; try discriminate.
  destruct (r_insert_at K V false t1 i' i' d' (k, v)) as [[t2 [|]]|e]; try discriminate.
  destruct (r_grow K V hash _ alloc t2) as [t3 u3|t3|e]; cbn [obind]; try discriminate.
  intros H. exfalso. exact (H _ eq_refl).
Qed.

Lemma escaped_ins (r : out (rmap K V) (looked (N * bool))) t' :
  r_ins_c K V r = Ret t' None -> r = Ret t' Escaped.
Proof.
  unfold r_ins_c, r_obs_c. destruct r as [t1 [[i b]|]|t1|e]; cbn [obind]; try discriminate.
  - destruct (rbind _ _); discriminate.
  - intros H. now injection H as ->.
Qed.

Lemma robin_compares_once : forall q (t : rmap K V), q = 1 \/ q = 2 -> r_reached_c hash q t ->
  forall alloc o t', sane alloc -> r_client_c hash q o t ->
  r_step_c K V hash cmp alloc o t = Ret t' None ->
  exists m k k' seen rest, r_traverse K V t = Ok m /\ concerns o k /\ cmp seen k k' = None
    /\ Permutation (k' :: seen ++ rest) (map fst m).
Proof.
  intros q t Hq HR alloc o t' HA (HC & m & Em & Hm) E.
  pose proof (r_reached_inv hash H64 q t Hq HR) as I.
  pose proof (traverse_spec hash _ q Hq t I) as ET. rewrite ET in Em. injection Em as <-.
  assert (KEY : forall k s, concerns o k -> r_search_c K V hash cmp t k [] = Ok (s, RThrown) ->
    exists m k k' seen rest, r_traverse K V t = Ok m /\ concerns o k /\ cmp seen k k' = None
    /\ Permutation (k' :: seen ++ rest) (map fst m)).
  { intros k s Hk HS. destruct (search_c_once hash cmp q Hq H64 t k s RThrown I HS) as ((rest & P) & _).
    destruct (thrown_head _ _ _ _ _ _ _ _ HS) as (k' & s0 & -> & T).
    exists (content t), k, k', s0, rest. split; [exact ET|]. split; [exact Hk|]. split; [exact T|exact P]. }
  assert (INS : forall (update : bool) k v, o = (if update then OAssign K V k v else OInsert K V k v) ->
    exists s, r_search_c K V hash cmp t k [] = Ok (s, RThrown)).
  { intros update k v ->.
    assert (HP : spread_all K V hash q ((k, v) :: content t)) by (destruct update; exact Hm).
    pose proof (insert_followed hash cmp q Hq H64 update alloc t k v 0 HA I HP) as F.
    apply (escaped_first alloc update k v t t' 63).
    - intros e He. rewrite He in F. cbn in F. destruct F as [(x & F)|(x & y & F & _)]; discriminate.
    - apply escaped_ins. destruct update; exact E. }
  destruct o as [k v|k v|k|k|k| |need|n|n|ro|x].
  6-11: cbn [r_step_c] in E; match type of E with obind ?a _ = _ => destruct a end; discriminate.
  - destruct (INS false k v eq_refl) as [s HS]. now apply (KEY k s).
  - destruct (INS true k v eq_refl) as [s HS]. now apply (KEY k s).
  - cbn [r_step_c] in E. unfold r_obs_c, r_erase_c in E.
    destruct (r_search_c K V hash cmp t k []) as [[s [i|i d|]]|e] eqn:HS; cbn [obind] in E; try discriminate.
    + destruct (i =? r_max_slot_capacity K V t); [discriminate|]. destruct (r_erase_slot K V t i); discriminate.
    + now apply (KEY k s).
  - cbn [r_step_c] in E. unfold r_obs_c, r_lookup_c in E.
    destruct (r_search_c K V hash cmp t k []) as [[s [i|i d|]]|e] eqn:HS; cbn [obind] in E; try discriminate.
    + destruct (i =? r_end K V t); [discriminate|]. destruct (r_deref K V t i); discriminate.
    + destruct (r_last K V t) as [|n|]; [destruct (r_alloc K V t); [discriminate|]| |discriminate].
      * destruct (0 =? r_end K V t); [discriminate|]. destruct (r_deref K V t 0); discriminate.
      * destruct (n =? r_end K V t); [discriminate|]. destruct (r_deref K V t n); discriminate.
    + now apply (KEY k s).
  - cbn [r_step_c] in E. unfold r_obs_c, r_contains_c in E.
    destruct (r_search_c K V hash cmp t k []) as [[s [i|i d|]]|e] eqn:HS; cbn [obind] in E; try discriminate.
    now apply (KEY k s).
Qed.

End Twice.

(** ** Executions *)

(** An equality of numbers that throws when it meets the same stored key again. *)
Definition again_cmp : comparison N :=
  fun seen k k' => if existsb (N.eqb k') seen then None else Some (k' =? k).

(** Eleven keys at the positions 31 .. 41 and one at 30; the next one wants 30 in 32 and
    in 64 slots. *)
Definition tw_calls : list ((N -> bool) * op N N) := map call (put_ops (keys 11 32 31 ++ [30])).
Definition tw_full : rm := match rrun tw_calls (rnew N N) with Ok (_, t) => t | Err _ => rnew N N end.

Lemma robin_twice :
  exists calls rs (t t' : rmap N N) l,
  Forall (fun c => sane (fst c) /\ exists k v, snd c = OInsert N N k v) calls
  /\ r_run N N idhash N.eqb calls (rnew N N) = Ok (rs, t)
  /\ (r_size _ _ t, r_slot_capacity _ _ t) = (12, 32)
  /\ r_step_c N N idhash again_cmp some_alloc (OInsert N N 94 0) t = Ret t' None
  /\ r_slot_capacity _ _ t' = 64 /\ r_traverse N N t' = Ok l /\ length l = 12%nat
  /\ match r_step N N idhash N.eqb some_alloc (OInsert N N 94 0) t with
     | Ret _ x => x = RIns N N (94, 0) true
     | _ => False
     end.
Proof.
  exists tw_calls. eexists _, _, _, _. split.
  { apply Forall_forall. intros c H. apply in_map_iff in H. destruct H as (o & <- & H).
    apply in_map_iff in H. destruct H as (k & <- & _). split; [exact some_sane|]. cbn. eauto. }
  split; [vm_compute; reflexivity|]. split; [vm_compute; reflexivity|]. split; [vm_compute; reflexivity|].
  split; [vm_compute; reflexivity|]. split; [vm_compute; reflexivity|]. split; vm_compute; reflexivity.
Qed.

(** 129 keys at the position 7 and one at 6; the next one wants 6 in all tables with up to
    4096 slots and has the control byte of the key at 6. *)
Definition tw16_calls : list ((bool -> N -> bool) * op N N) :=
  map qput (map (fun i => 7 + 4096 * i) (seqN 129) ++ [6]).
Definition tw16_key : N := 1454086.
Definition tw16_full (wide trivial : bool) : qm :=
  match q_run N N idhash N.eqb wide trivial tw16_calls (q_start 512) with Ok (_, t) => t | Err _ => q_start 4 end.
Definition tw16_outs (wide trivial : bool) : list (option (obs N N)) :=
  match q_run N N idhash N.eqb wide trivial tw16_calls (q_start 512) with Ok (rs, _) => rs | Err _ => [] end.
Definition tw16_last (wide trivial : bool) : qm :=
  match q_step_c N N idhash again_cmp wide trivial qal (OInsert N N tw16_key 0) (tw16_full wide trivial) with
  | Ret t' _ => t' | _ => q_start 4 end.

Lemma robin16_twice wide trivial :
  exists n calls t0 rs (t t' : qmap N N),
  n <= 2 ^ 44 /\ q_new N N qal n = Ret t0 tt
  /\ Forall (fun c => f_sane (fst c) /\ exists k v, snd c = OInsert N N k v) calls
  /\ q_run N N idhash N.eqb wide trivial calls t0 = Ok (rs, t)
  /\ (q_size _ _ t, q_cap _ _ t) = (130, 512)
  /\ q_step_c N N idhash again_cmp wide trivial qal (OInsert N N tw16_key 0) t = Ret t' None
  /\ (q_size _ _ t', q_cap _ _ t') = (130, 1024)
  /\ match q_step N N idhash N.eqb wide trivial qal (OInsert N N tw16_key 0) t with
     | Ret t'' x => x = RIns N N (tw16_key, 0) true /\ q_cap _ _ t'' = 8192
     | _ => False
     end.
Proof.
  exists 512, tw16_calls, (q_start 512), (tw16_outs wide trivial), (tw16_full wide trivial), (tw16_last wide trivial).
  split; [discriminate|]. split; [vm_compute; reflexivity|]. split.
  { apply Forall_forall. intros c H. apply in_map_iff in H. destruct H as (k & <- & _).
    split; [exact qal_sane|]. cbn. eauto. }
  split; [destruct wide, trivial; vm_compute; reflexivity|].
  split; [destruct wide, trivial; vm_compute; reflexivity|].
  split; [destruct wide, trivial; vm_compute; reflexivity|].
  split; [destruct wide, trivial; vm_compute; reflexivity|].
  destruct wide, trivial; vm_compute; split; reflexivity.
Qed.

(** The partial claim with a map of two copies of a key. *)
Lemma robin_once_example :
  sane some_alloc /\ r_reached_c idhash 2 (rc_end (rc_same 2))
  /\ r_client_c idhash 2 (OInsert N N 31 2) (rc_end (rc_same 2))
  /\ (exists l, r_traverse N N (rc_end (rc_same 2)) = Ok l /\ map fst l = [31; 31])
  /\ r_step_c N N idhash second_cmp some_alloc (OInsert N N 31 2) (rc_end (rc_same 2))
     = Ret (rc_end (rc_same 2)) None.
Proof.
  split; [exact some_sane|]. split; [exact rc_two_reached|]. split; [exact rc_two_client|].
  split; [eexists; split; vm_compute; reflexivity|]. vm_compute. reflexivity.
Qed.

(** The models agree on calls that grow a map and find no room. *)
Lemma agree_examples :
  (exists t', r_step_c N N idhash (fun _ k k' => Some (k' =? k)) some_alloc (OInsert N N 94 0) tw_full
     = Ret t' (Some (RIns N N (94, 0) true)) /\ r_slot_capacity _ _ t' = 64)
  /\ (exists t', q_step_c N N idhash (fun _ k k' => Some (k' =? k)) true false qal (OInsert N N tw16_key 0)
                   (tw16_full true false)
     = Ret t' (Some (RIns N N (tw16_key, 0) true)) /\ q_cap _ _ t' = 8192).
Proof.
  split; eexists; (split; [vm_compute; reflexivity|]); vm_compute; reflexivity.
Qed.
