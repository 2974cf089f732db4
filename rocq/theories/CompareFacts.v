(** Proofs about the maps with an arbitrary key equality. *)
From Coq Require Import NArith ZArith List Bool Lia Permutation.
From Coq Require Import ZifyBool ZifyNat ZifyN.
From Verif Require Import Base BaseFacts BitsModel BitsFacts ProberModel ProberFacts
  GroupModel GroupFacts TableModel TableInv TableFind TableInsert TableLoops TableCap TableOps
  IterModel IterFacts MapSpec MapFacts RunModel Refine Progress ReachModel ReachFacts MapProps
  CompareModel CompareSpec.
Import ListNotations.
Open Scope N_scope.
Ltac Zify.zify_post_hook ::= Z.div_mod_to_equations.

(** Keys at different places are part of the keys of the elements. *)
Lemma part_of {K V} (is : list N) : forall (sl : list (option (K * V))) seen, NoDup is ->
  Forall2 (fun i k' => exists v, geti sl i = Some (Some (k', v))) is seen ->
  exists rest, Permutation (seen ++ rest) (map fst (elems sl)).
Proof.
  induction is as [|i is IH]; intros sl seen ND F; inversion F as [|? k' ? seen' (v & Hi) F']; subst.
  - exists (map fst (elems sl)). reflexivity.
  - inversion ND as [|? ? Hn ND']; subst.
    destruct (IH (seti sl i None) seen' ND') as [rest HP].
    + clear - F' Hn. induction F' as [|j k is seen (v & Hj) F IH]; constructor.
      * exists v. rewrite geti_seti_neq; auto. intros ->. apply Hn. now left.
      * apply IH. intros H. apply Hn. now right.
    + exists rest. cbn [app]. rewrite HP.
      pose proof (Permutation_map fst (elems_seti_None _ _ _ Hi)) as HE. exact HE.
Qed.

Section Facts.

Context {K V : Type} (hash : K -> N) (H64 : forall k, hash k < two64).
Context (kd : kind) (L : klaws kd).

Notation table := (table K V).
Notation S' := (kd_S kd).
Notation code := (kl_code kd L).
Notation sidx := (slot_index kd).
Notation never := (fun _ _ : K => false).
Notation gsinv := (@TableInv.gsinv K V hash never kd L).
Notation Inv0 := (@TableInv.Inv0 K V hash never kd L).
Notation content t := (elems (t_slots _ _ t)).

Lemma never_tame : tame hash never.
Proof. constructor; auto; discriminate. Qed.

Section Cmp.
Context (cmp : comparison K).

Definition at_slot (sl : list (option (K * V))) (key : K) (i : N) (k' : K) : Prop :=
  exists v, geti sl i = Some (Some (k', v)) /\ kd_reduce kd (hash k') = kd_reduce kd (hash key).

Definition held (sl : list (option (K * V))) (key : K) (i : N) (a : option bool) : Prop :=
  exists kv seen, geti sl i = Some (Some kv) /\ cmp seen key (fst kv) = a.

Lemma scan_c_spec sl key gi ps : forall is seen,
  (forall p, In p ps -> p < S' /\ exists k', at_slot sl key (sidx gi p) k') ->
  NoDup ps -> NoDup is -> Forall2 (at_slot sl key) is seen ->
  (forall p, In p ps -> ~ In (sidx gi p) is) ->
  exists is' seen' a, scan_c K V kd cmp sl key gi ps seen = Ok (seen', a)
    /\ NoDup is' /\ Forall2 (at_slot sl key) is' seen'
    /\ (forall i, In i is' -> In i is \/ exists p, In p ps /\ i = sidx gi p)
    /\ match a with
       | Found p => In p ps /\ held sl key (sidx gi p) (Some true)
       | Absent => forall p, In p ps -> held sl key (sidx gi p) (Some false)
       | Thrown => exists p, In p ps /\ held sl key (sidx gi p) None
       end.
Proof.
  induction ps as [|p ps IH]; intros is seen Hp ND NI F Hd.
  - exists is, seen, Absent. cbn [scan_c In]. repeat (split; auto). intros p [].
  - inversion ND as [|? ? Hnp ND']; subst.
    destruct (Hp p (or_introl eq_refl)) as (Hps & k' & v & Hs & Hr).
    assert (Hat : at_slot sl key (sidx gi p) k') by (exists v; auto).
    assert (ND1 : NoDup (sidx gi p :: is)) by (constructor; auto; apply Hd; now left).
    assert (F1 : Forall2 (at_slot sl key) (sidx gi p :: is) (k' :: seen)) by (constructor; auto).
    assert (Hsub : forall i, In i (sidx gi p :: is) -> In i is \/ exists q, In q (p :: ps) /\ i = sidx gi q).
    { intros i [<-|Hi]; auto. right. exists p. split; auto. now left. }
    cbn [scan_c]. rewrite Hs. destruct (cmp seen key k') as [[|]|] eqn:Ec.
    + exists (sidx gi p :: is), (k' :: seen), (Found p). repeat (split; auto); [now left|].
      exists (k', v), seen. auto.
    + destruct (IH (sidx gi p :: is) (k' :: seen)) as (is' & seen' & a & E & N' & F' & S'' & Ha); auto.
      * intros q Hq. apply Hp. now right.
      * intros q Hq [Eq|Hi]; [|apply (Hd q); [now right|auto]].
        destruct (Hp q (or_intror Hq)) as [Hqs _].
        destruct (sidx_inj kd _ _ _ _ Hps Hqs Eq) as [_ ->]. contradiction.
      * exists is', seen', a. split; auto. split; auto. split; auto. split.
        -- intros i Hi. destruct (S'' i Hi) as [[<-|H]|(q & Hq & ->)]; auto.
           ++ right. exists p. split; auto. now left.
           ++ right. exists q. split; auto. now right.
        -- destruct a as [q| |].
           ++ destruct Ha. split; auto. now right.
           ++ intros q [<-|Hq]; auto. exists (k', v), seen. auto.
           ++ destruct Ha as (q & Hq & Hh). exists q. split; auto. now right.
    + exists (sidx gi p :: is), (k' :: seen), Thrown. repeat (split; auto).
      exists p. split; [now left|]. exists (k', v), seen. auto.
Qed.

(** Every element of group [gi] with the hash of the key was denied. *)
Definition denied_in (sl : list (option (K * V))) (key : K) (gi : N) : Prop :=
  forall p kv, p < S' -> geti sl (sidx gi p) = Some (Some kv) -> hash (fst kv) = hash key ->
  said false cmp key (fst kv).

Definition ends (t : table) (key : K) (a : answer (N * N)) : Prop :=
  match a with
  | Found (gi, p) => p < S' /\ held (t_slots _ _ t) key (sidx gi p) (Some true)
  | Absent => all_denied hash cmp key (content t)
  | Thrown => exists i, held (t_slots _ _ t) key i None
  end.

Lemma find_loop_c_spec k t key : gsinv k (t_groups _ _ t) (t_slots _ _ t) ->
  t_gmask _ _ t = 2 ^ k - 1 ->
  forall fuel j is seen, j < 2 ^ k -> 2 ^ k <= j + N.of_nat fuel ->
  NoDup is -> Forall2 (at_slot (t_slots _ _ t) key) is seen ->
  (forall i, In i is -> exists n p, n < j /\ p < S' /\ i = sidx (probe k (home k (hash key)) n) p) ->
  (forall i, i < j -> denied_in (t_slots _ _ t) key (probe k (home k (hash key)) i)) ->
  exists is' seen' a,
    find_loop_c K V kd cmp fuel t key (kd_reduce kd (hash key)) (prober_at k (home k (hash key)) j) seen
      = Ok (seen', a)
    /\ NoDup is' /\ Forall2 (at_slot (t_slots _ _ t) key) is' seen' /\ ends t key a.
Proof.
  intros G Hmask. pose proof (gv_big _ _ _ _ _ _ _ G) as Hbig. apply (k_small kd L) in Hbig.
  pose proof (pow_small _ Hbig) as Hps. pose proof two64_eq as E64.
  assert (Hdone : forall j, j < 2 ^ k ->
     (forall i, i <= j -> denied_in (t_slots _ _ t) key (probe k (home k (hash key)) i)) ->
     (j + 1 = 2 ^ k \/ exists g, geti (t_groups _ _ t) (probe k (home k (hash key)) j) = Some g
        /\ kd_is_overflow kd g (kd_reduce kd (hash key)) = false) ->
     all_denied hash cmp key (content t)).
  { intros j Hj Habs Hend kv Hin Eh. apply In_elems in Hin. destruct Hin as [i0 Hi].
    destruct (slot_group _ _ _ _ _ _ _ _ _ G Hi) as (g & Hg & Hgi & Hp & Es & Hsent).
    rewrite <- Es in Hi.
    destruct (gv_chain _ _ _ _ _ _ _ G _ _ _ Hgi Hp Hi) as (j' & Hj' & Ej' & Hch).
    rewrite Eh in Ej', Hch.
    destruct (N.le_gt_cases j' j) as [Hle|Hgt].
    - apply (Habs j' Hle (i0 mod S')); auto. now rewrite <- Ej'.
    - destruct Hend as [Hend|(g' & Hg' & Ho)]; [lia|].
      rewrite (Hch j g' Hgt Hg') in Ho. discriminate. }
  induction fuel as [|fuel IH]; intros j is seen Hj Hf NI F Hd Habs; [lia|].
  cbn [find_loop_c].
  change (pr_index (prober_at k (home k (hash key)) j)) with (probe k (home k (hash key)) j).
  pose proof (probe_lt k (home k (hash key)) j) as Hpl.
  destruct (geti_lt (t_groups _ _ t) (probe k (home k (hash key)) j)) as [g Hg].
  { rewrite (gv_len _ _ _ _ _ _ _ G). exact Hpl. }
  rewrite Hg. pose proof (gv_valid _ _ _ _ _ _ _ G _ _ Hg) as Hv.
  pose proof (proj2 (proj2 (kl_masks _ L g (kd_reduce kd (hash key)) Hv))) as Hm.
  set (ps := positions (kd_match_hash kd g (kd_reduce kd (hash key)))).
  assert (Hps1 : forall p, In p ps <-> p < S' /\ code g p = kd_reduce kd (hash key)).
  { intros p. unfold ps. rewrite In_positions by auto. apply (kl_match_hash _ L); auto. }
  destruct (scan_c_spec (t_slots _ _ t) key (probe k (home k (hash key)) j) ps is seen)
    as (is1 & seen1 & a & E & N1 & F1 & S1 & Ha); auto.
  { intros p Hp. apply Hps1 in Hp. destruct Hp as [Hp Hc]. split; auto.
    destruct (code_reduce_slot _ _ _ _ _ _ _ _ _ _ _ G Hg Hp Hc) as [[k' v] Hs].
    exists k', v. split; auto. rewrite <- Hc.
    symmetry. exact (gv_some _ _ _ _ _ _ _ G _ _ _ _ Hg Hp Hs). }
  { apply NoDup_positions. auto. }
  { intros p Hp Hi. apply Hps1 in Hp. destruct Hp as [Hp _].
    destruct (Hd _ Hi) as (n & q & Hn & Hq & Eq).
    destruct (sidx_inj kd _ _ _ _ Hp Hq Eq) as [Ep _].
    apply probe_inj in Ep; lia. }
  fold ps. rewrite E. destruct a as [p| |].
  - exists is1, seen1, (Found (probe k (home k (hash key)) j, p)).
    split; auto. split; auto. split; auto. cbn [ends]. destruct Ha as [Hin Hh].
    apply Hps1 in Hin. tauto.
  - assert (Habs' : forall i, i <= j -> denied_in (t_slots _ _ t) key (probe k (home k (hash key)) i)).
    { intros i Hi. destruct (N.eq_dec i j) as [->|]; [|apply Habs; lia].
      intros p kv Hp Hs Eh. destruct (Ha p) as (kv' & s & Hs' & Hc).
      - apply Hps1. split; auto. rewrite (gv_some _ _ _ _ _ _ _ G _ _ _ _ Hg Hp Hs). now rewrite Eh.
      - rewrite Hs in Hs'. injection Hs' as <-. now exists s. }
    destruct (kd_is_overflow kd g (kd_reduce kd (hash key))) eqn:Eo; cbn [negb].
    + rewrite Hmask, next_bucket_at by lia.
      destruct (N.leb_spec (j + 1) (2 ^ k - 1)).
      * apply (IH (j + 1) is1 seen1); auto; try lia.
        -- intros i Hi. destruct (S1 i Hi) as [H'|(p & Hp & ->)].
           ++ destruct (Hd i H') as (n & q & Hn & Hq & Eq). exists n, q. split; [lia|auto].
           ++ exists j, p. split; [lia|]. split; auto. now apply Hps1.
        -- intros i Hi. apply Habs'. lia.
      * exists is1, seen1, Absent. split; auto. split; auto. split; auto.
        apply (Hdone j); auto. left. lia.
    + exists is1, seen1, Absent. split; auto. split; auto. split; auto.
      apply (Hdone j); auto. right. eauto.
  - exists is1, seen1, Thrown. split; auto. split; auto. split; auto. cbn [ends].
    destruct Ha as (p & _ & Hh). eauto.
Qed.

Lemma find_c_spec t key : Inv0 t ->
  exists is seen a, find_c K V hash kd cmp t key = Ok (seen, a)
    /\ NoDup is /\ Forall2 (at_slot (t_slots _ _ t) key) is seen /\ ends t key a
    /\ (forall gi p, a = Found (gi, p) -> t_alloc _ _ t = true).
Proof.
  intros I. destruct (t_alloc _ _ t) eqn:Ea.
  - destruct (iv_alloc _ _ _ _ _ I Ea) as (k & G & Hm & Hs).
    unfold find_c, ctrl_for_hash, index_for_hash. rewrite Hs. fold (home k (hash key)).
    pose proof (gv_big _ _ _ _ _ _ _ G) as Hbig. apply (k_small kd L) in Hbig.
    pose proof (gv_k _ _ _ _ _ _ _ G).
    rewrite (prober_init_at k); [|apply home_lt; [auto|lia|apply H64]].
    pose proof (pow2_pos k).
    destruct (find_loop_c_spec k t key G Hm (S (N.to_nat (t_gmask _ _ t))) 0 [] [])
      as (is & seen & a & E & ND & F & He); auto; try lia.
    + constructor.
    + intros i [].
    + exists is, seen, a. auto 6.
  - exists [], [], Absent. rewrite (iv_unalloc _ _ _ _ _ I Ea).
    split; [|split; [constructor|split; [constructor|split]]].
    + pose proof (find_unalloc (V := V) hash never kd L never_tame (t_mlf _ _ t) key) as E.
      unfold find_c, find in *. revert E.
      cbn [empty_table t_shift t_gmask]. change (N.to_nat 0) with 0%nat.
      cbn [find_loop find_loop_c empty_table t_groups t_slots].
      destruct (geti (kd_static kd) _) as [g|]; [|discriminate].
      destruct (positions _) as [|p ps]; cbn [scan_keys scan_c].
      * destruct (negb _); auto.
      * unfold geti. cbn [nth_error]. destruct (N.to_nat _); discriminate.
    + cbn [ends]. intros e [].
    + discriminate.
Qed.

(** ** One call *)

Lemma find_never t key : Inv0 t -> find K V hash never kd t key = Ok None.
Proof.
  intros I. destruct (find_spec hash never kd L never_tame t key I)
    as [(gi & p & kv & _ & _ & _ & _ & E)|[E _]]; [discriminate|exact E].
Qed.

Lemma emplace_c_cases alloc upd t k v : Inv0 t ->
  (emplace_c K V hash kd cmp alloc upd t k v = Throw t)
  \/ (exists gi p kv, p < S' /\ t_alloc _ _ t = true
        /\ geti (t_slots _ _ t) (sidx gi p) = Some (Some kv) /\ said true cmp k (fst kv)
        /\ emplace_c K V hash kd cmp alloc upd t k v
           = Ret (if upd then set_slot t (sidx gi p) (fst kv, v) else t) (sidx gi p, false))
  \/ (all_denied hash cmp k (content t)
      /\ emplace_c K V hash kd cmp alloc upd t k v = emplace_impl K V hash never kd alloc upd true t k v).
Proof.
  intros I. unfold emplace_c, find_or_insert_c, emplace_impl, find_or_insert.
  rewrite (find_never t k I).
  destruct (find_c_spec t k I) as (is & seen & a & E & _ & _ & He & Ha). rewrite E.
  destruct a as [[gi p]| |]; [|auto|auto].
  right. left. cbn [ends] in He. destruct He as (Hp & kv & s & Hs & Hc).
  exists gi, p, kv. split; auto. split; [eauto|]. split; auto. split; [now exists s|].
  cbn [obind]. destruct upd; auto. rewrite Hs. destruct kv. reflexivity.
Qed.

Lemma erase_c_cases t k : Inv0 t ->
  (find_and_erase_c K V hash kd cmp t k = Throw t)
  \/ (exists gi p kv, p < S' /\ t_alloc _ _ t = true
        /\ geti (t_slots _ _ t) (sidx gi p) = Some (Some kv) /\ said true cmp k (fst kv)
        /\ find_and_erase_c K V hash kd cmp t k
           = match erase_slot K V kd t gi p with Ok t' => Ret t' 1 | Err e => Fail e end)
  \/ (all_denied hash cmp k (content t) /\ find_and_erase_c K V hash kd cmp t k = Ret t 0).
Proof.
  intros I. unfold find_and_erase_c.
  destruct (find_c_spec t k I) as (is & seen & a & E & _ & _ & He & Ha). rewrite E.
  destruct a as [[gi p]| |]; [|auto|auto].
  right. left. cbn [ends] in He. destruct He as (Hp & kv & s & Hs & Hc).
  exists gi, p, kv. split; auto. split; [eauto|]. split; auto. split; [now exists s|reflexivity].
Qed.

Lemma lookup_c_cases t k : Inv0 t ->
  (lookup_c K V hash kd cmp t k = Throw t)
  \/ (exists kv, In kv (content t) /\ said true cmp k (fst kv)
        /\ lookup_c K V hash kd cmp t k = Ret t (Some kv))
  \/ (all_denied hash cmp k (content t) /\ lookup_c K V hash kd cmp t k = Ret t None).
Proof.
  intros I. unfold lookup_c.
  destruct (find_c_spec t k I) as (is & seen & a & E & _ & _ & He & Ha). rewrite E.
  destruct a as [[gi p]| |]; [|auto|auto].
  right. left. cbn [ends] in He. destruct He as (Hp & kv & s & Hs & Hc).
  exists kv. split; [apply In_elems; eauto|]. split; [now exists s|]. now rewrite Hs.
Qed.

(** The outcome of a call. *)
Definition step_c_ok (o : op K V) (t : table) (r : out table (obs K V)) : Prop :=
  match r with
  | Ret t' x => Inv0 t' /\ exists m, bag_step hash cmp o (content t) x m /\ Permutation (content t') m
  | Throw t' => t' = t \/ exists m, o = OMlf _ _ m /\ t' = set_mlf K V t (clamp m)
  | Fail e => e = ELoop
  end.

Lemma insert_c_ok alloc (upd : bool) t k v : alloc_ok alloc -> Inv0 t ->
  let o := if upd then OAssign _ _ k v else OInsert _ _ k v in
  step_c_ok o t (step_c K V hash kd cmp alloc o t).
Proof.
  intros HA I o.
  assert (Eo : step_c K V hash kd cmp alloc o t
               = observe_ins K V (emplace_c K V hash kd cmp alloc upd t k v))
    by (unfold o; destruct upd; reflexivity).
  rewrite Eo. clear Eo.
  destruct (emplace_c_cases alloc upd t k v I)
    as [E|[(gi & p & kv & Hp & Ha & Hs & Hc & E)|[Hd E]]]; rewrite E; clear E.
  - cbn. auto.
  - unfold observe_ins. cbn [obind fst snd]. unfold o. destruct upd.
    + rewrite (entry_at_seti t _ (fst kv, v) _ Hs) by reflexivity. cbn [step_c_ok]. split.
      * now apply set_slot_Inv0.
      * exists ((fst kv, v) :: elems (seti (t_slots _ _ t) (sidx gi p) None)). split.
        -- left. exists kv, (elems (seti (t_slots _ _ t) (sidx gi p) None)).
           split; [symmetry; now apply elems_seti_None|auto].
        -- cbn [set_slot t_slots]. destruct (geti_split _ _ _ Hs) as (a & b & _ & _ & Es).
           rewrite !Es, !elems_app. cbn [elems flat_map opt_list app].
           symmetry. apply Permutation_middle.
    + unfold entry_at. rewrite Hs. cbn [step_c_ok]. split; auto.
      exists (content t). split; auto. left. exists kv. split; [apply In_elems; eauto|auto].
  - pose proof (insert_ok hash never kd L never_tame alloc upd t k v HA I) as H. cbv zeta in H.
    assert (Eo : step K V hash never kd alloc o t
               = observe_ins K V (emplace_impl K V hash never kd alloc upd true t k v))
      by (unfold o; destruct upd; reflexivity).
    fold o in H. rewrite Eo in H. clear Eo.
    assert (Hh : has K V never k (content t) = false).
    { apply has_false. auto. }
    destruct (observe_ins _ _ _) as [t' x|t'|e]; [|exact H|exact H].
    destruct H as (I' & HP & Hx). split; auto. exists ((k, v) :: content t).
    assert (Hg : get K V never k (content t) = None).
    { unfold get. clear. induction (content t); auto. }
    unfold o in *. destruct upd; cbn [spec_step fst snd] in *;
      unfold put, put_new, the in *; rewrite Hh, Hg in *; cbn [negb fst] in *; (split; [right; auto|auto]).
Qed.

Lemma step_c_refines alloc o t : alloc_ok alloc -> Inv0 t -> client_ok K V kd o t ->
  step_c_ok o t (step_c K V hash kd cmp alloc o t).
Proof.
  intros HA I Hok.
  assert (Hother : step_c K V hash kd cmp alloc o t = step K V hash never kd alloc o t ->
    (forall x m, x = snd (spec_step K V never o (content t)) ->
       m = fst (spec_step K V never o (content t)) -> bag_step hash cmp o (content t) x m) ->
    step_c_ok o t (step_c K V hash kd cmp alloc o t)).
  { intros -> Hb. pose proof (step_refines hash never kd L never_tame alloc o t HA I Hok) as H.
    destruct (step _ _ _ _ _ _ _ _) as [t' x|t'|e]; [|exact H|exact H].
    destruct H as (I' & HP & Hx). split; auto. eauto. }
  destruct o as [k v|k v|k|k|k| |b|n|n|b|m];
    try (apply Hother; [reflexivity|]; cbn [spec_step fst snd]; intros x m' -> ->; now split).
  - apply (insert_c_ok alloc false); auto.
  - apply (insert_c_ok alloc true); auto.
  - cbn [step_c].
    destruct (erase_c_cases t k I) as [E|[(gi & p & kv & Hp & Ha & Hs & Hc & E)|[Hd E]]]; rewrite E; clear E.
    + cbn. auto.
    + destruct (erase_slot_spec hash never kd L t gi p kv I Ha Hp Hs) as (t' & Ee & I' & _ & Hsl & _).
      rewrite Ee. cbn [obind step_c_ok]. split; auto. exists (content t'). split; auto.
      left. exists kv. rewrite Hsl. split; [symmetry; now apply elems_seti_None|auto].
    + cbn [obind step_c_ok]. split; auto. exists (content t). split; auto. right. auto.
  - cbn [step_c].
    destruct (lookup_c_cases t k I) as [E|[(kv & Hi & Hc & E)|[Hd E]]]; rewrite E; clear E;
      cbn [obind step_c_ok]; auto; (split; auto); exists (content t); (split; auto); (split; auto).
    left. eauto.
  - cbn [step_c].
    destruct (lookup_c_cases t k I) as [E|[(kv & Hi & Hc & E)|[Hd E]]]; rewrite E; clear E;
      cbn [obind step_c_ok is_none negb]; auto; (split; auto); exists (content t); (split; auto); (split; auto).
    left. eauto.
Qed.

Section NoCount.
Context (NC : kd_count_deleted kd = false) (NS : kd_rehash_shrinks kd = false).

Notation Inv1 := (Inv1 hash never kd L).

Lemma step_c_keeps1 alloc o t : alloc_ok alloc -> Inv1 t -> client_noshrink K V kd o t ->
  keeps Inv1 (step_c K V hash kd cmp alloc o t).
Proof.
  intros HA I1 Ho. pose proof (proj1 I1) as I.
  assert (Hold : step_c K V hash kd cmp alloc o t = step K V hash never kd alloc o t ->
     keeps Inv1 (step_c K V hash kd cmp alloc o t)).
  { intros ->. now apply step_keeps1. }
  assert (Hins : forall upd k v,
     keeps Inv1 (observe_ins K V (emplace_c K V hash kd cmp alloc upd t k v))).
  { intros upd k v. destruct (emplace_c_cases alloc upd t k v I)
      as [E|[(gi & p & kv & Hp & Ha & Hs & Hc & E)|[Hd E]]]; rewrite E; clear E.
    - exact I1.
    - unfold observe_ins. cbn [obind fst snd]. destruct upd.
      + rewrite (entry_at_seti t _ (fst kv, v) _ Hs) by reflexivity. cbn [keeps].
        now apply set_slot_Inv1.
      + unfold entry_at. rewrite Hs. exact I1.
    - now apply emplace_keeps1. }
  destruct o as [k v|k v|k|k|k| |b|n|n|b|m]; try (apply Hold; reflexivity).
  - apply Hins.
  - apply Hins.
  - cbn [step_c].
    destruct (erase_c_cases t k I) as [E|[(gi & p & kv & Hp & Ha & Hs & Hc & E)|[Hd E]]]; rewrite E; clear E;
      [exact I1| |exact I1].
    destruct (erase_slot_Inv1 hash never kd L t gi p kv I1 Ha Hp Hs) as (t' & -> & _ & H'). exact H'.
  - cbn [step_c].
    destruct (lookup_c_cases t k I) as [E|[(kv & Hi & Hc & E)|[Hd E]]]; rewrite E; exact I1.
  - cbn [step_c].
    destruct (lookup_c_cases t k I) as [E|[(kv & Hi & Hc & E)|[Hd E]]]; rewrite E; exact I1.
Qed.

End NoCount.

End Cmp.

(** ** Runs *)

Lemma bag_step_perm cmp (o : op K V) m m' r m1 : Permutation m m' -> bag_step hash cmp o m r m1 ->
  exists m1', bag_step hash cmp o m' r m1' /\ Permutation m1 m1'.
Proof.
  intros HP H.
  assert (Hin : forall e, In e m -> In e m') by (intros; eapply Permutation_in; eauto).
  assert (Hden : forall k, all_denied hash cmp k m -> all_denied hash cmp k m').
  { intros k Hd e He. apply Hd. apply Permutation_in with m'; [now symmetry|auto]. }
  destruct o as [k v|k v|k|k|k| |b|n|n|b|x]; cbn [bag_step] in *.
  - destruct H as [(e & He & Hs & -> & ->)|(Hd & -> & ->)].
    + exists m'. split; auto. left. exists e. auto.
    + exists ((k, v) :: m'). split; [right; auto|]. now constructor.
  - destruct H as [(e & rest & He & Hs & -> & ->)|(Hd & -> & ->)].
    + exists ((fst e, v) :: rest). split; auto. left. exists e, rest.
      split; [|auto]. rewrite <- HP. exact He.
    + exists ((k, v) :: m'). split; [right; auto|]. now constructor.
  - destruct H as [(e & He & Hs & ->)|(Hd & -> & ->)].
    + exists m1. split; auto. left. exists e. split; [|auto]. rewrite <- HP. exact He.
    + exists m'. split; auto.
  - destruct H as (-> & [(e & He & Hs & ->)|(Hd & ->)]); exists m'; (split; [|auto]); split; auto.
    left. eauto.
  - destruct H as (-> & [(e & He & Hs & ->)|(Hd & ->)]); exists m'; (split; [|auto]); split; auto.
    left. eauto.
  - destruct H as (-> & ->). exists m'. split; [|auto]. split; auto.
    now rewrite (Permutation_length HP).
  - destruct H as (-> & ->). exists []. auto.
  - destruct H as (-> & ->). exists m'. auto.
  - destruct H as (-> & ->). exists m'. auto.
  - destruct H as (-> & ->). exists m'. auto.
  - destruct H as (-> & ->). exists m'. auto.
Qed.

Lemma bag_run_perm {A} (calls : list (A * comparison K * op K V)) outs m mf : bag_run hash calls outs m mf ->
  forall m', Permutation m m' -> bag_run hash calls outs m' mf.
Proof.
  induction 1 as [m mf H|alloc cmp o calls r outs m m1 mf HS HR IH|alloc cmp o calls outs m mf HR IH];
    intros m' HP.
  - constructor. rewrite <- HP. exact H.
  - destruct (bag_step_perm cmp o m m' r m1 HP HS) as (m1' & HS' & HP').
    econstructor; eauto.
  - constructor. auto.
Qed.

Lemma run_c_refines calls : forall t,
  Forall (fun c : call_c => alloc_ok (fst (fst c))) calls -> Inv0 t ->
  obeys_c hash kd (client_ok K V kd) calls t ->
  match run_c hash kd calls t with
  | Ok (outs, t') => Inv0 t' /\ bag_run hash calls outs (content t) (content t')
  | Err e => e = ELoop
  end.
Proof.
  induction calls as [|[[alloc cmp] o] calls IH]; intros t HA I Ho; cbn [run_c].
  - split; auto. constructor. reflexivity.
  - inversion HA as [|x y HA1 HA2]; subst. cbn [obeys_c] in Ho. destruct Ho as [Ho1 Ho2].
    cbn [fst] in HA1.
    pose proof (step_c_refines cmp alloc o t HA1 I Ho1) as Hs.
    destruct (step_c K V hash kd cmp alloc o t) as [t1 r|t1|e]; cbn [step_c_ok] in Hs.
    + destruct Hs as (I1 & m & Hb & HP). pose proof (IH t1 HA2 I1 Ho2) as H.
      destruct (run_c hash kd calls t1) as [[outs t']|e]; cbn [rbind]; auto.
      destruct H as [I' HR]. split; auto. econstructor; eauto. eapply bag_run_perm; eauto.
    + assert (Hc : Inv0 t1 /\ content t1 = content t).
      { destruct Hs as [-> |(m & _ & ->)]; auto. split; auto.
        apply set_mlf_Inv0; auto. apply clamp_range. }
      destruct Hc as [I1 Ec]. pose proof (IH t1 HA2 I1 Ho2) as H.
      destruct (run_c hash kd calls t1) as [[outs t']|e]; cbn [rbind]; auto.
      destruct H as [I' HR]. split; auto. constructor. now rewrite <- Ec.
    + exact Hs.
Qed.

Lemma reached_c_Inv0 t : reached_c hash kd t -> Inv0 t.
Proof.
  intros (calls & outs & HA & Ho & E).
  pose proof (run_c_refines calls (new_map K V kd) HA (default_Inv0 hash never kd L) Ho) as H.
  rewrite E in H. tauto.
Qed.

End Facts.
