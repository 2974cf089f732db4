(** The robin hood map: the invariant of the map and its member functions. *)
From Coq Require Import NArith ZArith List Bool Lia Permutation.
From Coq Require Import ZifyBool ZifyNat ZifyN.
From Verif Require Import Base BaseFacts BitsModel BitsFacts GroupModel TableModel TableInv
  MapSpec MapFacts FallbackFacts ReachModel RobinModel RobinSpec RobinFacts.
Import ListNotations.
Open Scope N_scope.
Ltac Zify.zify_post_hook ::= Z.div_mod_to_equations.

Lemma lookups_range b : 2 <= b -> 4 <= r_calc_lookups (2 ^ b) <= 128.
Proof.
  intros H. unfold r_calc_lookups, rMinLookups. rewrite N.log2_pow2 by lia.
  destruct (N.ltb_spec b 16); lia.
Qed.

Lemma room_le b : 2 <= b -> room (2 ^ b) <= r_calc_lookups (2 ^ b) /\ room (2 ^ b) <= 126.
Proof.
  intros H. unfold room, r_calc_lookups, rMinLookups. rewrite N.log2_pow2 by lia.
  destruct (N.ltb_spec b 16); lia.
Qed.

Lemma geti_skipn {A} (l : list A) n o : nth_error l n = Some o -> skipn n l = o :: skipn (S n) l.
Proof.
  revert l. induction n; intros [|a l] H; try discriminate.
  - injection H as ->. reflexivity.
  - cbn [skipn]. now apply IHn.
Qed.

Ltac rcbn := unfold r_with; cbn [r_alloc r_ctrls r_slots r_last r_size r_mask r_lookups r_thr r_mlf r_rev].

Section Ops.

Context {K V : Type} (hash : K -> N) (keq : K -> K -> bool) (LW : tame hash keq).

Notation slots := (list (option (K * V))).
Notation rmap := (rmap K V).
Notation C_ := (r_ctrls K V).
Notation S_ := (r_slots K V).

Definition mx (b : N) : N := 2 ^ b + r_calc_lookups (2 ^ b).
Definition gcount (b : N) : N := (mx b + 31) / 32.

Record rb (b : N) (t : rmap) : Prop := {
  rb_b : 2 <= b;
  rb_big : mx b <= 2 ^ 55;
  rb_alloc : r_alloc _ _ t = true;
  rb_mask : r_mask _ _ t = 2 ^ b - 1;
  rb_look : r_lookups _ _ t = r_calc_lookups (2 ^ b);
  rb_last : r_last _ _ t = LEnd (mx b);
  rb_clen : N.of_nat (length (C_ t)) = (gcount b + 1) * 32;
  rb_cs : cs hash b (mx b) (C_ t) (S_ t);
  rb_size : r_size _ _ t = N.of_nat (length (elems (S_ t)));
  rb_dist : distinct_keys K V keq (elems (S_ t))
}.

Lemma b_small b : mx b <= 2 ^ 55 -> b <= 54.
Proof.
  intros H. unfold mx in H. destruct (N.le_gt_cases b 54) as [|G]; auto.
  pose proof (pow2_le 55 b ltac:(lia)). pose proof (lookups_range b ltac:(lia)). lia.
Qed.

Lemma pow_ge4 b : 2 <= b -> 4 <= 2 ^ b.
Proof. intros H. pose proof (pow2_le 2 b H). lia. Qed.

Lemma mx_lt b : mx b <= 2 ^ 55 -> mx b + 31 < two64.
Proof. intros H. unfold two64. lia. Qed.

Lemma rb_slot_capacity b t : rb b t -> r_slot_capacity _ _ t = 2 ^ b.
Proof.
  intros X. unfold r_slot_capacity. rewrite (rb_mask _ _ X).
  pose proof (pow_ge4 b (rb_b _ _ X)). pose proof (rb_big _ _ X) as HB. unfold mx in HB.
  destruct (N.eqb_spec (2 ^ b - 1) 0); [lia|]. rewrite wadd_small by (unfold two64; lia). lia.
Qed.

Lemma rb_max b t : rb b t -> r_max_slot_capacity _ _ t = mx b.
Proof.
  intros X. unfold r_max_slot_capacity. rewrite (rb_slot_capacity _ _ X), (rb_look _ _ X).
  pose proof (rb_big _ _ X) as HB. unfold mx in *. apply wadd_small. unfold two64. lia.
Qed.

Lemma rb_gc b t : rb b t -> r_group_count _ _ t = gcount b.
Proof.
  intros X. unfold r_group_count, gcount. rewrite (rb_max _ _ X). unfold rGroupWidth.
  pose proof (mx_lt b (rb_big _ _ X)). rewrite wadd_small; [reflexivity|lia].
Qed.

Lemma rb_home b t k : rb b t -> r_home K V hash t k = hm hash b k.
Proof.
  intros X. unfold r_home, hm. rewrite (rb_mask _ _ X). apply land_mask_n.
Qed.

Lemma rb_maxd b t : rb b t -> 255 < r_max_distance _ _ t.
Proof.
  intros X. unfold r_max_distance. rewrite (rb_look _ _ X).
  pose proof (lookups_range b (rb_b _ _ X)). rewrite N.mod_small; lia.
Qed.

Lemma mx_room b : 2 <= b -> 2 ^ b + room (2 ^ b) <= mx b.
Proof. intros H. unfold mx. pose proof (room_le b H). lia. Qed.

(** ** Spread *)

Notation spread := (spread K V hash).

Lemma spread_cnt b l : spread (2 ^ b) l <->
  forall a n, 1 <= n -> cnt (inwin hash b a n) l <= n + room (2 ^ b).
Proof. reflexivity. Qed.

Lemma spread_perm c l l' : Permutation l l' -> spread c l -> spread c l'.
Proof.
  intros P H a n Hn. unfold homes_in. rewrite <- (Permutation_length (filter_perm _ _ _ P)).
  now apply H.
Qed.

Lemma spread_tail c l l' : spread c (l ++ l') -> spread c l'.
Proof.
  intros H a n Hn. specialize (H a n Hn). unfold homes_in in *. rewrite filter_app, app_length in H.
  lia.
Qed.

Lemma spread_cons c e l : spread c (e :: l) -> spread c l.
Proof. apply (spread_tail c [e] l). Qed.

Lemma spread_nil c : spread c [].
Proof. intros a n Hn. unfold homes_in. cbn. lia. Qed.

Lemma spread_filter c f l : spread c l -> spread c (filter f l).
Proof.
  intros H a n Hn. etransitivity; [|apply (H a n Hn)]. unfold homes_in. clear H.
  induction l as [|e l IH]; [reflexivity|]. cbn [filter].
  destruct (f e); cbn [filter]; destruct ((a <=? hash (fst e) mod c) && (hash (fst e) mod c <? a + n));
    cbn [length]; lia.
Qed.

Lemma spread_rekey c (f : K * V -> K * V) l : (forall e, fst (f e) = fst e) ->
  spread c l -> spread c (map f l).
Proof.
  intros Hf H a n Hn. specialize (H a n Hn). unfold homes_in in *.
  assert (E : length (filter (fun e => let h := hash (fst e) mod c in (a <=? h) && (h <? a + n)) (map f l))
   = length (filter (fun e => let h := hash (fst e) mod c in (a <=? h) && (h <? a + n)) l)).
  { clear H. induction l as [|e l IH]; [reflexivity|]. cbn [map filter]. rewrite Hf.
    cbv zeta in *. destruct (_ && _); cbn [length]; lia. }
  etransitivity; [|exact H]. apply N.eq_le_incl. f_equal. exact E.
Qed.

Lemma cs_room b t c p : rb b t -> spread (2 ^ b) (elems (S_ t)) ->
  geti (C_ t) p = Some c -> c < 128 -> c <= room (2 ^ b).
Proof.
  intros X HS Hc Hu.
  destruct (crowd _ _ _ _ _ (rb_cs _ _ X) _ _ Hc Hu) as (a & Ha & Hall).
  pose proof (proj1 (spread_cnt _ _) HS a (p - c - a + 1) ltac:(lia)) as H.
  pose proof (cs_used_lt _ _ _ _ _ _ _ (rb_cs _ _ X) Hc Hu) as Hp.
  assert (HN : p - a + 1 <= cnt (inwin hash b a (p - c - a + 1)) (elems (S_ t))).
  { apply (cnt_range 0) with a.
    - rewrite (cs_len _ _ _ _ _ (rb_cs _ _ X)). lia.
    - intros j Hj1 Hj2. destruct (Hall j) as (kv' & E2 & E3 & E4); [lia|lia|].
      exists kv'. split; auto. unfold inwin. lia. }
  lia.
Qed.

Lemma rb_calm b t : rb b t -> spread (2 ^ b) (elems (S_ t)) -> calm (C_ t).
Proof.
  intros X HS i c Hc Hu. pose proof (cs_room _ _ _ _ X HS Hc Hu).
  pose proof (room_le b (rb_b _ _ X)). lia.
Qed.

(** ** Search *)

Definition fresh_key (l : list (K * V)) (k : K) : Prop :=
  forall e, In e l -> keq (fst e) k = false.

Lemma nokey_fresh (S : slots) k : nokey keq S k <-> fresh_key (elems S) k.
Proof.
  split.
  - intros H e He. apply In_elems in He. destruct He as [i Hi]. eauto.
  - intros H i kv Hi. apply H. apply In_elems. eauto.
Qed.

Lemma fresh_has l k : fresh_key l k <-> has K V keq k l = false.
Proof.
  rewrite has_false. split; intros H e He; specialize (H e He).
  - now rewrite (keq_sym_eq hash keq LW).
  - now rewrite (keq_sym_eq hash keq LW).
Qed.

Lemma fresh_perm l l' k : Permutation l l' -> fresh_key l k -> fresh_key l' k.
Proof. intros P H e He. apply H. eapply Permutation_in; [symmetry; exact P|auto]. Qed.

Lemma search_spec b t (cmp : bool) k : rb b t -> spread (2 ^ b) (elems (S_ t)) ->
  (exists i kv, cmp = true /\ r_search K V hash keq t cmp k = Ok (Found i)
     /\ geti (S_ t) i = Some (Some kv) /\ keq (fst kv) k = true)
  \/ (exists n, r_search K V hash keq t cmp k = Ok (Stop (hm hash b k + n) n)
     /\ n <= 127 /\ stopat (C_ t) (hm hash b k) n
     /\ (cmp = true -> fresh_key (elems (S_ t)) k)).
Proof.
  intros X HS. unfold r_search. rewrite (rb_home _ _ _ X).
  pose proof (rb_calm _ _ X HS) as Cl. pose proof (rb_cs _ _ X) as XC.
  pose proof (hm_lt hash b k) as Hh.
  assert (HM : hm hash b k <= mx b) by (unfold mx; lia).
  assert (Z0 : forall m, hm hash b k + 0 = m -> hm hash b k = m) by lia.
  destruct (scan_spec hash keq LW b (mx b) (C_ t) (S_ t) (if cmp then Some k else None) k XC Cl HM
    ltac:(destruct cmp; auto) (S (length (C_ t))) 0) as [(i & kv & A & B & D & E)|(n & A & B & D & E)].
  - lia.
  - lia.
  - intros j Hj. lia.
  - intros _ j kv Hj. lia.
  - left. exists i, kv. rewrite N.add_0_r in B. destruct cmp; [auto|discriminate].
  - right. exists n. rewrite N.add_0_r in A. split; auto. split; auto. split; auto.
    intros ->. apply nokey_fresh. auto.
Qed.

(** ** Insertion *)

Lemma insert_at_spec (rehashing : bool) b t n kv : rb b t ->
  spread (2 ^ b) (kv :: elems (S_ t)) -> fresh_key (elems (S_ t)) (fst kv) ->
  n <= 127 -> stopat (C_ t) (hm hash b (fst kv)) n ->
  exists C' S', let i := hm hash b (fst kv) + n in let t' := r_with K V t C' S' (r_size _ _ t + 1) in
    r_insert_at K V rehashing t i i n kv = Ok (t', true)
    /\ rb b t' /\ Permutation (kv :: elems (S_ t)) (elems S') /\ geti S' i = Some (Some kv).
Proof.
  intros X HS HF Hn [HA (c & Hc & Hcn)]. cbv zeta. set (i := hm hash b (fst kv) + n) in *.
  pose proof (rb_cs _ _ X) as XC. pose proof (rb_b _ _ X) as Hb.
  pose proof (cs_len _ _ _ _ _ XC) as HSL. pose proof (cs_clen _ _ _ _ _ XC) as HCL.
  assert (F : fits hash b (C_ t) i n kv).
  { split; [lia|]. split; [reflexivity|]. intros H0. destruct (HA (n - 1)) as (c1 & E & L & U); [lia|].
    exists c1. replace (i - 1) with (hm hash b (fst kv) + (n - 1)) by (unfold i; lia). split; auto. lia. }
  pose proof (fits_room _ _ _ _ _ _ _ _ _ _ XC F (Permutation_refl _) (proj1 (spread_cnt _ _) HS)) as HnD.
  pose proof (mx_room b Hb) as HR. pose proof (room_le b Hb) as [_ HR2].
  pose proof (hm_lt hash b (fst kv)) as Hh.
  assert (Hi : i < mx b) by (unfold i; lia).
  assert (Hsz : r_size _ _ t + 1 < two64).
  { rewrite (rb_size _ _ X). pose proof (elems_length_le (S_ t)).
    pose proof (rb_big _ _ X). unfold two64. lia. }
  assert (MK : forall C' S', cs hash b (mx b) C' S' -> length C' = length (C_ t) ->
     Permutation (kv :: elems (S_ t)) (elems S') ->
     rb b (r_with K V t C' S' (r_size _ _ t + 1))).
  { intros C' S' XC' EL P. destruct X. split; rcbn; auto.
    - now rewrite EL.
    - rewrite <- (Permutation_length P). cbn [length]. lia.
    - eapply (distinct_perm hash keq LW); [exact P|]. cbn. split; auto. now apply fresh_has. }
  unfold r_insert_at. rewrite (rb_alloc _ _ X), Hc.
  destruct (N.eqb_spec c cEmpty) as [->|Hne].
  - destruct (cs_free _ _ _ _ _ XC _ _ Hc ltac:(unfold cEmpty; lia)) as (_ & _ & Hfree).
    specialize (Hfree Hi). unfold r_construct. rewrite Hfree. cbn [rbind].
    rewrite wadd_small by auto.
    assert (P : Permutation (kv :: elems (S_ t)) (elems (seti (S_ t) i (Some kv)))).
    { symmetry. now apply elems_seti_Some. }
    exists (seti (C_ t) i n), (seti (S_ t) i (Some kv)). split; [reflexivity|]. split; [|split].
    + apply MK; auto. { eapply put_cs; eauto. } apply seti_length.
    + exact P.
    + apply geti_seti_eq. lia.
  - assert (Hu : c < 128).
    { destruct (N.lt_ge_cases c 128) as [|Hge]; auto.
      destruct (cs_free _ _ _ _ _ XC _ _ Hc Hge) as (_ & [A|A] & _); [contradiction|lia]. }
    destruct Hcn as [Hcn|Hcn]; [lia|].
    rewrite N.eqb_refl. unfold r_insert_to_place. rewrite (rb_last _ _ X), Hc.
    destruct (cs_used _ _ _ _ _ XC _ _ Hc Hu) as (kv' & E & Ei). rewrite E.
    rewrite inc8_small by lia.
    destruct (place_spec hash b (mx b) rehashing (r_max_distance K V t) i kv (room (2 ^ b))
      (rb_maxd _ _ X) HR HR2 (S (length (C_ t))) (seti (C_ t) i n) (S_ t) (i + 1) (c + 1) kv'
      (kv :: elems (S_ t))) as (C' & S' & R & R1 & R2 & R3 & R4).
    + lia.
    + rewrite seti_len. lia.
    + eapply put_cs; eauto.
    + lia.
    + split; [lia|]. split; [lia|]. intros _. exists n. replace (i + 1 - 1) with i by lia.
      rewrite geti_seti_eq by lia. split; [auto|lia].
    + intros j cj Hj. rewrite geti_seti_neq by lia.
      apply (rb_calm _ _ X (spread_cons _ _ _ HS)).
    + symmetry. now apply Perm_swap_at.
    + apply spread_cnt. exact HS.
    + rewrite R. cbn [rbind orb]. unfold r_construct. rewrite R1. cbn [rbind].
      rewrite wadd_small by auto.
      exists C', (seti S' i (Some kv)). split; [reflexivity|]. split; [|split; [exact R4|]].
      * apply MK; auto. now rewrite R2, seti_length.
      * apply geti_seti_eq. eapply geti_Some_lt; eauto.
Qed.

Lemma insert_no_grow_spec b t kv : rb b t ->
  spread (2 ^ b) (kv :: elems (S_ t)) -> fresh_key (elems (S_ t)) (fst kv) ->
  exists C' S', let t' := r_with K V t C' S' (r_size _ _ t + 1) in
    r_insert_no_grow K V hash keq t kv = Ok t' /\ rb b t'
    /\ Permutation (kv :: elems (S_ t)) (elems S').
Proof.
  intros X HS HF. unfold r_insert_no_grow.
  destruct (search_spec b t false (fst kv) X (spread_cons _ _ _ HS))
    as [(i & kv' & A & _)|(n & A & B & D & _)]; [discriminate|].
  rewrite A. cbn [rbind]. rewrite (rb_home _ _ _ X). unfold slot_plus. rewrite s8_used by lia.
  destruct (Z.ltb_spec (Z.of_N (hm hash b (fst kv)) + Z.of_N n) 0); [lia|]. cbn [rbind].
  replace (Z.to_N (Z.of_N (hm hash b (fst kv)) + Z.of_N n)) with (hm hash b (fst kv) + n) by lia.
  destruct (insert_at_spec true b t n kv X HS HF B D) as (C' & S' & R1 & R2 & R3 & _).
  cbv zeta in R1. rewrite R1. cbn [rbind]. exists C', S'. auto.
Qed.

Lemma insert_all_spec b l : forall t, rb b t ->
  spread (2 ^ b) (l ++ elems (S_ t)) -> distinct_keys K V keq (l ++ elems (S_ t)) ->
  exists C' S' s', let t' := r_with K V t C' S' s' in
    r_insert_all K V hash keq l t = Ok t' /\ rb b t'
    /\ Permutation (l ++ elems (S_ t)) (elems S').
Proof.
  induction l as [|kv l IH]; intros t X HS HD; cbv zeta; cbn [app r_insert_all] in *.
  - exists (C_ t), (S_ t), (r_size _ _ t). destruct t. cbn in *. auto.
  - destruct HD as [HD1 HD2].
    assert (PM : Permutation (kv :: l ++ elems (S_ t)) (l ++ kv :: elems (S_ t))) by apply Permutation_middle.
    destruct (insert_no_grow_spec b t kv X) as (C' & S' & R1 & R2 & R3).
    + eapply spread_tail with (l := l). eapply spread_perm; [exact PM|exact HS].
    + apply fresh_has. rewrite has_false in *. intros e He. apply HD1. apply in_or_app. auto.
    + cbv zeta in *. rewrite R1. cbn [rbind].
      assert (P2 : Permutation (kv :: l ++ elems (S_ t)) (l ++ elems S')).
      { rewrite PM. now apply Permutation_app_head. }
      destruct (IH _ R2) as (C2 & S2 & s2 & A1 & A2 & A3).
      * rcbn. eapply spread_perm; [exact P2|exact HS].
      * rcbn. eapply (distinct_perm hash keq LW); [exact P2|]. cbn. auto.
      * cbv zeta in *. exists C2, S2, s2. split; [exact A1|]. split; [exact A2|].
        rewrite P2. exact A3.
Qed.

(** ** The elements of the arrays *)

Lemma collect_spec b t : rb b t -> forall len a,
  (a + len <= length (C_ t))%nat -> mx b <= N.of_nat (a + len) ->
  r_collect K V (C_ t) (S_ t) (map N.of_nat (seq a len)) = Ok (elems (skipn a (S_ t))).
Proof.
  intros X. pose proof (rb_cs _ _ X) as XC. pose proof (cs_len _ _ _ _ _ XC) as HSL.
  induction len as [|len IH]; intros a H1 H2; cbn [seq map r_collect].
  - rewrite skipn_all2 by lia. reflexivity.
  - destruct (geti_lt (C_ t) (N.of_nat a)) as [c Hc]; [lia|]. rewrite Hc.
    destruct (N.ltb_spec c 128) as [Hu|Hge].
    + destruct (cs_used _ _ _ _ _ XC _ _ Hc Hu) as (kv & E & _). rewrite E.
      rewrite (IH (S a)) by lia. cbn [rbind].
      unfold geti in E. rewrite Nat2N.id in E. now rewrite (geti_skipn _ _ _ E).
    + rewrite (IH (S a)) by lia.
      destruct (N.lt_ge_cases (N.of_nat a) (mx b)) as [Hlt|Hge2].
      * destruct (cs_free _ _ _ _ _ XC _ _ Hc Hge) as (_ & _ & F). specialize (F Hlt).
        unfold geti in F. rewrite Nat2N.id in F. now rewrite (geti_skipn _ _ _ F).
      * rewrite !skipn_all2 by lia. reflexivity.
Qed.

Lemma elements_spec b t : rb b t -> r_elements K V t = Ok (elems (S_ t)).
Proof.
  intros X. unfold r_elements. rewrite (rb_slot_capacity _ _ X), (rb_gc _ _ X), (rb_max _ _ X), (rb_alloc _ _ X).
  pose proof (rb_clen _ _ X) as HC. unfold rGroupWidth, gcount in *.
  pose proof (rb_cs _ _ X) as XC. pose proof (cs_clen _ _ _ _ _ XC).
  destruct (32 <=? 2 ^ b); unfold seqN; rewrite (collect_spec b t X); try reflexivity; lia.
Qed.

(** ** Creating and rehashing *)

Lemma calc_capacity_spec n : n <= 2 ^ 63 ->
  exists b, r_calc_capacity n = Ok (2 ^ b) /\ 2 <= b /\ n <= 2 ^ b /\ b <= 63.
Proof.
  intros H. unfold r_calc_capacity, rMinCapacity. set (m := N.max n 4).
  assert (Hm : 4 <= m <= 2 ^ 63) by (unfold m; lia).
  assert (Hn : n <= m) by (unfold m; lia). clearbody m.
  destruct (is_pow2 m) eqn:E.
  - apply is_pow2_spec in E; [|lia|unfold two64; lia]. destruct E as [b ->]. exists b.
    split; auto. split; [|split; auto].
    + apply (N.pow_le_mono_r_iff 2 2 b); lia.
    + apply (N.pow_le_mono_r_iff 2 b 63); lia.
  - destruct (round_up_spec 4 m ltac:(lia) ltac:(lia)) as (k & E1 & E2 & E3 & E4).
    exists k. split; auto. split; [|lia]. apply (N.pow_le_mono_r_iff 2 2 k); lia.
Qed.

Lemma elems_none n : elems (repeat (@None (K * V)) n) = [].
Proof. apply elems_repeat_None. Qed.

Lemma fresh_ctrls_spec b : mx b <= 2 ^ 55 -> 2 <= b ->
  let C := r_fresh_ctrls (2 ^ b) (r_calc_lookups (2 ^ b)) (gcount b) in
  N.of_nat (length C) = (gcount b + 1) * 32 /\ cs hash b (mx b) C (repeat (@None (K * V)) (N.to_nat (mx b))).
Proof.
  intros HB Hb. cbv zeta. unfold r_fresh_ctrls, rGroupWidth, cEmpty, cEndOf. fold (mx b).
  set (C := if 32 <=? 2 ^ b then _ else _).
  assert (HL : N.of_nat (length C) = (gcount b + 1) * 32).
  { unfold C. destruct (32 <=? 2 ^ b); rewrite ?app_length, !repeat_length; unfold gcount; lia. }
  assert (HG : forall i c, geti C i = Some c -> c = 255 \/ c = 254 /\ mx b <= i).
  { intros i c. unfold C. destruct (32 <=? 2 ^ b).
    - intros H. apply geti_In, repeat_spec in H. auto.
    - intros H. destruct (N.lt_ge_cases i (mx b)) as [Hlt|Hge].
      + rewrite geti_app_l in H by (rewrite repeat_length; lia). apply geti_In, repeat_spec in H. auto.
      + apply geti_In in H. apply in_app_or in H. destruct H as [H|H]; apply repeat_spec in H; auto. }
  split; [exact HL|].
  assert (HM : mx b < (gcount b + 1) * 32) by (unfold gcount; lia).
  split.
  - intros i c H Hc. destruct (HG _ _ H); lia.
  - intros i c H Hc. destruct (HG _ _ H) as [->|[-> Hi]].
    + split; [lia|]. split; [auto|]. intros Hi. apply geti_repeat. lia.
    + split; [lia|]. split; [auto|]. intros Hi2. lia.
  - intros i c c' H H' P1 P2. destruct (HG _ _ H'); lia.
  - rewrite repeat_length. lia.
  - lia.
Qed.

Lemma create_spec alloc t b : sane alloc -> 2 <= b -> b <= 63 ->
  (exists t', r_create K V alloc t (2 ^ b) = Throw t')
  \/ exists t', r_create K V alloc t (2 ^ b) = Ret t' tt /\ rb b t' /\ elems (S_ t') = []
       /\ r_mlf _ _ t' = r_mlf _ _ t /\ r_rev _ _ t' = r_rev _ _ t
       /\ r_thr _ _ t' = wmul (2 ^ b) (r_mlf _ _ t) / 256.
Proof.
  intros HA Hb Hb63. unfold r_create.
  pose proof (lookups_range b Hb) as HLk. pose proof (pow2_le b 63 Hb63).
  rewrite (wadd_small (2 ^ b)) by (unfold two64; lia). fold (mx b).
  destruct (alloc (mx b)) eqn:EA; [|left; eauto]. right.
  apply HA in EA. pose proof (mx_lt b EA).
  rewrite (wadd_small (mx b)) by (unfold rGroupWidth; lia).
  change ((mx b + (rGroupWidth - 1)) / rGroupWidth) with (gcount b).
  destruct (fresh_ctrls_spec b EA Hb) as [HL XC]. cbv zeta in *.
  eexists. split; [reflexivity|]. split; [|rcbn; split; [apply elems_none|auto]].
  split; rcbn; auto.
  - rewrite wsub_small; [reflexivity|lia|unfold two64; lia].
  - rewrite elems_none. reflexivity.
  - rewrite elems_none. exact I.
Qed.

(** ** The invariant of the map *)

Variable q : N.
Hypothesis Hq : q = 1 \/ q = 2.

Definition mlf_ok (t : rmap) : Prop :=
  77 <= r_mlf _ _ t <= 154 /\ 427 <= r_rev _ _ t <= 854
  /\ (q = 2 -> r_mlf _ _ t = 128 /\ r_rev _ _ t = 512).

Record remp (t : rmap) : Prop := {
  re_alloc : r_alloc _ _ t = false;
  re_ctrls : C_ t = empty_ctrls;
  re_slots : S_ t = [];
  re_last : r_last _ _ t = LNull;
  re_size : r_size _ _ t = 0;
  re_mask : r_mask _ _ t = 0;
  re_look : r_lookups _ _ t = 4;
  re_thr : r_thr _ _ t = 0
}.

Record rfull (b : N) (t : rmap) : Prop := {
  rf_rb : rb b t;
  rf_spread : spread (2 ^ b) (elems (S_ t));
  rf_thr : q * r_thr _ _ t <= 2 ^ b;
  rf_fill : q * r_size _ _ t <= 2 ^ b
}.

Definition rinv (t : rmap) : Prop := mlf_ok t /\ (remp t \/ exists b, rfull b t).

Definition content (t : rmap) : list (K * V) := elems (S_ t).

Lemma content_emp t : remp t -> content t = [].
Proof. intros E. unfold content. now rewrite (re_slots _ E). Qed.

Lemma rinv_dist t : rinv t -> distinct_keys K V keq (content t).
Proof.
  intros [_ [E|[b F]]].
  - rewrite (content_emp _ E). exact I.
  - apply (rb_dist _ _ (rf_rb _ _ F)).
Qed.

Lemma rinv_size t : rinv t -> r_size _ _ t = N.of_nat (length (content t)).
Proof.
  intros [_ [E|[b F]]].
  - rewrite (content_emp _ E), (re_size _ E). reflexivity.
  - apply (rb_size _ _ (rf_rb _ _ F)).
Qed.

Lemma thr_ok t b : mlf_ok t -> b <= 54 -> q * (wmul (2 ^ b) (r_mlf _ _ t) / 256) <= 2 ^ b.
Proof.
  intros (A & B & D) Hb. pose proof (pow2_le b 54 Hb).
  rewrite wmul_small by (unfold two64; nia).
  destruct Hq as [->| ->].
  - nia.
  - destruct D as [-> _]; auto. lia.
Qed.

Lemma rinv_elements t : rinv t -> r_elements K V t = Ok (content t).
Proof.
  intros [_ [E|[b F]]].
  - unfold r_elements. rewrite (content_emp _ E).
    unfold r_slot_capacity. rewrite (re_mask _ E). cbn [N.eqb]. rewrite (re_alloc _ E). reflexivity.
  - apply elements_spec with b. apply (rf_rb _ _ F).
Qed.

(** Moving to a table with another capacity. *)
Lemma rebuild_spec alloc t b : sane alloc -> rinv t -> 2 <= b -> b <= 63 ->
  spread (2 ^ b) (content t) -> q * r_size _ _ t <= 2 ^ b ->
  (exists t', obind (r_create K V alloc t (2 ^ b)) (fun t0 _ =>
        match rbind (r_elements K V t) (fun l => r_insert_all K V hash keq l t0) with
        | Ok t' => Ret t' tt
        | Err e => Fail e
        end) = Throw t')
  \/ exists t', obind (r_create K V alloc t (2 ^ b)) (fun t0 _ =>
        match rbind (r_elements K V t) (fun l => r_insert_all K V hash keq l t0) with
        | Ok t' => Ret t' tt
        | Err e => Fail e
        end) = Ret t' tt /\ rfull b t' /\ mlf_ok t' /\ Permutation (content t) (content t').
Proof.
  intros HA I Hb Hb63 HS Hfill.
  destruct (create_spec alloc t b HA Hb Hb63) as [(t' & E)|(t0 & E & X & E0 & Em & Er & Et)]; rewrite E; cbn [obind].
  { left. eauto. }
  right. rewrite (rinv_elements _ I). cbn [rbind].
  destruct (insert_all_spec b (content t) t0 X) as (C' & S' & s' & R1 & R2 & R3).
  - rewrite E0, app_nil_r. exact HS.
  - rewrite E0, app_nil_r. now apply rinv_dist.
  - cbv zeta in *. rewrite R1. rewrite E0, app_nil_r in R3.
    eexists. split; [reflexivity|]. split; [|split].
    + split; auto.
      * rcbn. eapply spread_perm; [exact R3|exact HS].
      * rcbn. rewrite Et. apply thr_ok; [apply I|]. apply b_small. apply (rb_big _ _ X).
      * rewrite (rb_size _ _ R2). rcbn. rewrite <- (Permutation_length R3).
        now rewrite <- (rinv_size _ I).
    + destruct I as [[A [B D]] _]. unfold mlf_ok. rcbn. rewrite Em, Er. auto.
    + exact R3.
Qed.

Definition resized (t : rmap) (r : out rmap unit) : Prop :=
  (exists t', r = Throw t')
  \/ exists t', r = Ret t' tt /\ rinv t' /\ Permutation (content t) (content t').

Lemma rehash_spec (shrink always : bool) alloc t n : sane alloc -> rinv t -> n <= 2 ^ 63 ->
  q * r_size _ _ t <= 2 ^ 62 ->
  (forall b, 2 <= b -> n <= 2 ^ b -> spread (2 ^ b) (content t) /\ q * r_size _ _ t <= 2 ^ b) ->
  resized t (r_rehash_impl K V hash keq shrink always alloc t n).
Proof.
  intros HA I Hn _ HS. unfold r_rehash_impl.
  destruct (calc_capacity_spec n Hn) as (b & E & Hb & Hnb & Hb63). rewrite E.
  destruct (_ || _ || _).
  - destruct (HS b Hb Hnb) as [HS1 HS2].
    destruct (rebuild_spec alloc t b HA I Hb Hb63 HS1 HS2) as [(t' & R)|(t' & R1 & R2 & R3 & R4)].
    + left. eauto.
    + right. exists t'. split; auto. split; auto. split; auto. right. eauto.
  - right. exists t. auto.
Qed.

Lemma grow_spec alloc t : sane alloc -> rinv t ->
  (forall b, 2 <= b -> q * (r_size _ _ t + 1) <= 2 ^ b -> spread (2 ^ b) (content t)) ->
  (exists t', r_grow K V hash keq alloc t = Throw t')
  \/ exists t' b, r_grow K V hash keq alloc t = Ret t' tt /\ rfull b t' /\ mlf_ok t'
       /\ Permutation (content t) (content t') /\ q * (r_size _ _ t + 1) <= 2 ^ b.
Proof.
  intros HA I HS. unfold r_grow, r_rehash_impl.
  assert (HC : exists b, r_calc_capacity (wmul (wadd (r_mask K V t) 1) 2) = Ok (2 ^ b) /\ 2 <= b /\ b <= 63
    /\ q * (r_size _ _ t + 1) <= 2 ^ b).
  { destruct I as [_ [E|[b F]]].
    - exists 2. rewrite (re_mask _ E), (re_size _ E). split; [reflexivity|]. destruct Hq as [->| ->]; lia.
    - pose proof (rf_rb _ _ F) as X. pose proof (rb_b _ _ X) as Hb. pose proof (b_small b (rb_big _ _ X)) as Hs.
      pose proof (pow_ge4 b Hb) as H4. pose proof (pow2_le b 54 Hs) as H54.
      rewrite (rb_mask _ _ X). rewrite wadd_small by (unfold two64; lia).
      rewrite wmul_small by (unfold two64; lia).
      replace ((2 ^ b - 1 + 1) * 2) with (2 ^ (b + 1)) by (rewrite N.pow_add_r; lia).
      exists (b + 1). unfold r_calc_capacity, rMinCapacity.
      assert (H1 : 2 ^ (b + 1) = 2 * 2 ^ b) by (rewrite N.pow_add_r; lia).
      replace (N.max (2 ^ (b + 1)) 4) with (2 ^ (b + 1)) by lia.
      assert (P2 : is_pow2 (2 ^ (b + 1)) = true).
      { apply is_pow2_spec; [lia|unfold two64; lia|eauto]. }
      rewrite P2. split; [reflexivity|]. split; [lia|]. split; [lia|].
      pose proof (rf_fill _ _ F). destruct Hq as [->| ->]; lia. }
  destruct HC as (b & E & Hb & Hb63 & Hf). rewrite E. cbn [orb].
  destruct (rebuild_spec alloc t b HA I Hb Hb63 (HS b Hb Hf) ltac:(lia))
    as [(t' & R)|(t' & R1 & R2 & R3 & R4)].
  - left. exists t'. exact R.
  - right. exists t', b. auto.
Qed.

End Ops.
