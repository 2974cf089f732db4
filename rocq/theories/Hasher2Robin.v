(** robin_hash_map with a hasher that throws. *)
From Coq Require Import NArith ZArith List Bool Lia Permutation.
From Coq Require Import ZifyBool ZifyNat ZifyN.
From Verif Require Import Base BaseFacts GroupModel TableModel TableInv MapSpec MapFacts
  ReachModel RobinModel RobinSpec RobinFacts RobinOps RobinRefine Hasher2Model Hasher2Spec.
Import ListNotations.
Open Scope N_scope.

Section Robin.

Context {K V : Type} (hash : K -> N) (keq : K -> K -> bool) (LW : lawful hash keq).

Notation rmap := (rmap K V).
Notation S_ := (r_slots K V).
Notation spread := (spread K V hash).
Notation spread_all := (spread_all K V hash).
Notation content := (@content K V).

Lemma insert_all_h_eq l : forall m t t', r_insert_all K V hash keq l t = Ok t' ->
  if (length l <=? m)%nat
  then r_insert_all_h K V hash keq m l t = Ok (t', [], Some (m - length l)%nat)
  else exists t1, r_insert_all K V hash keq (firstn m l) t = Ok t1
    /\ r_insert_all_h K V hash keq m l t = Ok (t1, skipn m l, None).
Proof.
  induction l as [|kv l IH]; intros m t t' E; cbn [r_insert_all r_insert_all_h length] in *.
  - injection E as <-. destruct m; reflexivity.
  - destruct m as [|m].
    + cbn. eauto.
    + destruct (r_insert_no_grow K V hash keq t kv) as [t1|] eqn:E1; [|discriminate]. cbn [rbind] in *.
      specialize (IH m _ _ E). change (S (length l) <=? S m)%nat with (length l <=? m)%nat.
      cbn [firstn skipn r_insert_all r_insert_all_h]. rewrite E1. cbn [rbind]. exact IH.
Qed.

Section Q.

Variable q : N.
Hypothesis Hq : q = 1 \/ q = 2.

Notation rinv := (rinv hash keq q).

(** What is left after the exception. *)
Definition broken (t : rmap) (cap : N) (m : nat) (r : out (rmap * list (K * V)) nat) : Prop :=
  exists t1 kept lost, r = Throw (t1, lost) /\ rinv t1 /\ r_mask _ _ t1 = cap - 1
    /\ Permutation kept (content t1) /\ Permutation (kept ++ lost) (content t) /\ length kept = m.

Lemma spread_firstn c m l : spread c l -> spread c (firstn m l).
Proof.
  intros H. apply (spread_tail hash c (skipn m l)). eapply spread_perm; [|exact H].
  rewrite <- (firstn_skipn m l) at 1. apply Permutation_app_comm.
Qed.

Lemma distinct_firstn m l : distinct_keys K V keq l -> distinct_keys K V keq (firstn m l).
Proof.
  revert m. induction l as [|e l IH]; intros [|m]; cbn; auto. intros [H1 H2]. split; [|auto].
  rewrite has_false in *. intros x Hx. apply H1. rewrite <- (firstn_skipn m l). apply in_or_app. auto.
Qed.

Lemma rebuild_h alloc t b m : sane alloc -> rinv t -> 2 <= b -> b <= 63 ->
  spread (2 ^ b) (content t) -> q * r_size _ _ t <= 2 ^ b ->
  let r := match r_create K V alloc t (2 ^ b) with
        | Ret t0 _ =>
            match rbind (r_elements K V t) (fun l => r_insert_all_h K V hash keq m l t0) with
            | Ok (t', _, Some n) => Ret (t', []) n
            | Ok (t', l, None) => Throw (t', l)
            | Err e => Fail e
            end
        | Throw t' => Throw (t', [])
        | Fail e => Fail e
        end in
  match obind (r_create K V alloc t (2 ^ b)) (fun t0 _ =>
        match rbind (r_elements K V t) (fun l => r_insert_all K V hash keq l t0) with
        | Ok t' => Ret t' tt
        | Err e => Fail e
        end) with
  | Ret t' _ => r_mask _ _ t' = 2 ^ b - 1
      /\ if r_size _ _ t <=? N.of_nat m then r = Ret (t', []) (m - N.to_nat (r_size _ _ t))%nat
         else broken t (2 ^ b) m r
  | Throw t' => r = Throw (t', [])
  | Fail _ => False
  end.
Proof.
  intros HA I Hb Hb63 HS Hfill.
  destruct (create_spec hash keq alloc t b HA Hb Hb63) as [(t' & E)|(t0 & E & X & E0 & Em & Er & Et)];
    rewrite E; cbn [obind]; [reflexivity|].
  rewrite (rinv_elements _ _ _ _ I). cbn [rbind].
  pose proof (rinv_dist _ _ _ _ I) as HD.
  destruct (insert_all_spec hash keq LW b (content t) t0 X) as (C' & S' & s' & R1 & R2 & R3).
  { rewrite E0, app_nil_r. exact HS. }
  { rewrite E0, app_nil_r. exact HD. }
  cbv zeta in *. rewrite R1. split; [rcbn; apply (rb_mask _ _ _ _ X)|].
  pose proof (insert_all_h_eq (content t) m t0 _ R1) as HH.
  rewrite (rinv_size _ _ _ _ I).
  destruct (Nat.leb_spec (length (content t)) m) as [Hm|Hm].
  - replace (N.of_nat (length (content t)) <=? N.of_nat m) with true by (symmetry; apply N.leb_le; lia).
    rewrite HH. now rewrite Nat2N.id.
  - replace (N.of_nat (length (content t)) <=? N.of_nat m) with false by (symmetry; apply N.leb_gt; lia).
    destruct HH as (t1 & E1 & E2). rewrite E2.
    destruct (insert_all_spec hash keq LW b (firstn m (content t)) t0 X) as (C1 & S1 & s1 & Q1 & Q2 & Q3).
    { rewrite E0, app_nil_r. now apply spread_firstn. }
    { rewrite E0, app_nil_r. now apply distinct_firstn. }
    cbv zeta in *. rewrite E1 in Q1. injection Q1 as ->. rewrite E0, app_nil_r in Q3.
    assert (HL : length (firstn m (content t)) = m) by (rewrite firstn_length; lia).
    exists (r_with K V t0 C1 S1 s1), (firstn m (content t)), (skipn m (content t)). split; [reflexivity|].
    split; [|split; [rcbn; apply (rb_mask _ _ _ _ X)|split; [exact Q3|split]]].
    + split.
      * destruct I as [[A [B D]] _]. unfold mlf_ok. rcbn. rewrite Em, Er. auto.
      * right. exists b. split; auto.
        { rcbn. eapply spread_perm; [exact Q3|]. now apply spread_firstn. }
        { rcbn. rewrite Et. apply (thr_ok q Hq); [apply I|]. apply b_small. apply (rb_big _ _ _ _ X). }
        { rewrite (rb_size _ _ _ _ Q2). rcbn. rewrite <- (Permutation_length Q3), HL.
          rewrite (rinv_size _ _ _ _ I) in Hfill. nia. }
    + now rewrite firstn_skipn.
    + exact HL.
Qed.

(** rehash_impl *)
Definition split_by (t : rmap) (m : nat) (r : out rmap unit) (h : out (rmap * list (K * V)) nat) : Prop :=
  match r with
  | Ret t' _ =>
      (r_size _ _ t <= N.of_nat m \/ r_mask _ _ t' = r_mask _ _ t ->
         exists n, h = Ret (t', []) n)
      /\ (r_mask _ _ t' <> r_mask _ _ t -> N.of_nat m < r_size _ _ t ->
            broken t (r_mask _ _ t' + 1) m h)
  | Throw t' => h = Throw (t', [])
  | Fail _ => False
  end.

Lemma rinv_cap t : rinv t -> r_size _ _ t = 0 \/ r_slot_capacity K V t = r_mask _ _ t + 1.
Proof.
  intros [_ [E|[b F]]].
  - left. apply (re_size _ E).
  - right. pose proof (rf_rb _ _ _ _ _ F) as X. unfold r_slot_capacity.
    rewrite (rb_mask _ _ _ _ X). pose proof (pow_ge4 b (rb_b _ _ _ _ X)).
    pose proof (pow2_le b 54 (b_small b (rb_big _ _ _ _ X))).
    destruct (N.eqb_spec (2 ^ b - 1) 0); [lia|]. apply wadd_small. unfold two64. lia.
Qed.

Lemma rehash_h (shrink always : bool) alloc t n m : sane alloc -> rinv t -> n <= 2 ^ 63 ->
  (always = true -> r_mask _ _ t + 1 < n) ->
  (forall b, 2 <= b -> n <= 2 ^ b -> spread (2 ^ b) (content t) /\ q * r_size _ _ t <= 2 ^ b) ->
  split_by t m (r_rehash_impl K V hash keq shrink always alloc t n)
               (r_rehash_impl_h K V hash keq m shrink always alloc t n).
Proof.
  intros HA I Hn Hal HS. unfold r_rehash_impl, r_rehash_impl_h.
  destruct (calc_capacity_spec n Hn) as (b & E & Hb & Hnb & Hb63). rewrite E.
  pose proof (pow_ge4 b Hb) as H4.
  destruct (_ || _ || _) eqn:EC.
  - destruct (HS b Hb Hnb) as [HS1 HS2].
    pose proof (rebuild_h alloc t b m HA I Hb Hb63 HS1 HS2) as H. cbv zeta in H.
    assert (HM : r_size _ _ t = 0 \/ r_mask _ _ t <> 2 ^ b - 1).
    { destruct (rinv_cap t I) as [|HC]; [auto|]. right. rewrite HC in EC. destruct always.
      - specialize (Hal eq_refl). lia.
      - cbn [orb] in EC. apply orb_true_iff in EC. destruct EC as [EC|EC]; lia. }
    unfold split_by.
    destruct (obind _ _) as [t' u|t'|]; auto. destruct H as [H1 H2]. rewrite H1.
    replace (2 ^ b - 1 + 1) with (2 ^ b) by lia.
    destruct (N.leb_spec (r_size _ _ t) (N.of_nat m)) as [L|L].
    + split; [|lia]. intros _. eauto.
    + split; [|auto]. intros [HH|HH]; [lia|]. exfalso. destruct HM; [lia|]. congruence.
  - cbn. split; [eauto|]. congruence.
Qed.

Lemma grow_h alloc t m : sane alloc -> rinv t ->
  (forall b, 2 <= b -> q * (r_size _ _ t + 1) <= 2 ^ b -> spread (2 ^ b) (content t)) ->
  match r_grow K V hash keq alloc t with
  | Ret t' _ => r_mask _ _ t' <> r_mask _ _ t
  | _ => True
  end
  /\ split_by t m (r_grow K V hash keq alloc t) (r_grow_h K V hash keq m alloc t).
Proof.
  intros HA I HS. unfold r_grow, r_grow_h.
  assert (HC : exists c, wmul (wadd (r_mask K V t) 1) 2 = 2 ^ c /\ 1 <= c <= 55
    /\ r_mask _ _ t + 1 < 2 ^ c
    /\ forall b, 2 <= b -> 2 ^ c <= 2 ^ b -> q * (r_size _ _ t + 1) <= 2 ^ b).
  { destruct I as [_ [E|[b F]]].
    - exists 1. rewrite (re_mask _ E), (re_size _ E). split; [reflexivity|]. split; [lia|].
      split; [reflexivity|]. intros b Hb _. pose proof (pow_ge4 b Hb). destruct Hq as [->| ->]; lia.
    - pose proof (rf_rb _ _ _ _ _ F) as X. pose proof (rb_b _ _ _ _ X) as Hb.
      pose proof (b_small b (rb_big _ _ _ _ X)) as Hs.
      pose proof (pow_ge4 b Hb) as H4. pose proof (pow2_le b 54 Hs) as H54.
      rewrite (rb_mask _ _ _ _ X). rewrite wadd_small by (unfold two64; lia).
      rewrite wmul_small by (unfold two64; lia). exists (b + 1).
      assert (H1 : 2 ^ (b + 1) = 2 * 2 ^ b) by (rewrite N.pow_add_r; lia).
      rewrite H1. split; [lia|]. split; [lia|]. split; [lia|].
      intros b' _ Hle. pose proof (rf_fill _ _ _ _ _ F). destruct Hq as [->| ->]; lia. }
  destruct HC as (c & Ec & Hc & Hlt & HS'). rewrite Ec.
  pose proof (pow2_le c 63 ltac:(lia)) as H63.
  assert (HR : split_by t m (r_rehash_impl K V hash keq false true alloc t (2 ^ c))
                 (r_rehash_impl_h K V hash keq m false true alloc t (2 ^ c))).
  { apply rehash_h; auto. intros b Hb Hle. specialize (HS' b Hb Hle). split; [now apply HS|]. nia. }
  split; [|exact HR].
  destruct (r_rehash_impl K V hash keq false true alloc t (2 ^ c)) as [t' u| |] eqn:ER; auto.
  unfold r_rehash_impl in ER.
  destruct (calc_capacity_spec (2 ^ c) H63) as (b & E & Hb & Hnb & Hb63). rewrite E in ER. cbn [orb] in ER.
  assert (HB : q * (r_size _ _ t + 1) <= 2 ^ b) by auto.
  pose proof (rebuild_h alloc t b m HA I Hb Hb63 (HS b Hb HB) ltac:(nia)) as H. cbv zeta in H.
  rewrite ER in H. destruct H as [H _]. rewrite H. lia.
Qed.

(** emplace_impl *)
Lemma emplace_h_inv alloc (update : bool) t k v fuel m : sane alloc -> rinv t ->
  spread_all q (put_new K V keq k v (content t)) ->
  match r_emplace K V hash keq (S fuel) alloc update k v t with
  | Ret t' r =>
      (r_size _ _ t <= N.of_nat m \/ r_mask _ _ t' = r_mask _ _ t ->
         r_emplace_h K V hash keq (S fuel) (S m) alloc update k v t = Ret (t', []) r)
      /\ (r_mask _ _ t' <> r_mask _ _ t -> N.of_nat m < r_size _ _ t ->
         exists t1 kept lost, r_emplace_h K V hash keq (S fuel) (S m) alloc update k v t = Throw (t1, lost)
           /\ rinv t1 /\ r_mask _ _ t1 = r_mask _ _ t'
           /\ Permutation kept (content t1) /\ Permutation (kept ++ lost) (content t) /\ length kept = m)
  | Throw t' => r_emplace_h K V hash keq (S fuel) (S m) alloc update k v t = Throw (t', [])
  | Fail _ => False
  end.
Proof.
  intros HA I HP. cbn [r_emplace r_emplace_h].
  destruct (search_inv hash keq LW q t true k I) as [(i & kv & b & _ & A & F & B & D)|(i & n & A & St & HF)].
  - rewrite A, B. split; [reflexivity|]. destruct update; rcbn; congruence.
  - rewrite A. cbv zeta. specialize (HF eq_refl).
    assert (HN : put_new K V keq k v (content t) = (k, v) :: content t).
    { unfold put_new. apply (fresh_has hash keq LW) in HF. now rewrite HF. }
    rewrite HN in HP.
    assert (HG : forall b, 2 <= b -> q * (r_size _ _ t + 1) <= 2 ^ b -> spread (2 ^ b) (content t)).
    { intros b Hb Hf. eapply spread_cons. apply (HP b Hb). cbn [length].
      rewrite (rinv_size _ _ _ _ I) in Hf. lia. }
    pose proof (prep_spec hash keq LW q Hq alloc t k v i n HA I St HF HP) as PS. cbv zeta in PS.
    assert (INS : forall t1 n1 b, n1 <= 127 -> stopat (r_ctrls K V t1) (hm hash b k) n1 ->
      rfull hash keq q b t1 -> Permutation (content t) (content t1) ->
      q * (r_size _ _ t + 1) <= 2 ^ b ->
      exists t2, r_insert_at K V false t1 (hm hash b k + n1) (hm hash b k + n1) n1 (k, v) = Ok (t2, true)
        /\ r_mask _ _ t2 = r_mask _ _ t1).
    { intros t1 n1 b Hn1 S1 F1 P1 Hf1.
      assert (PC : Permutation ((k, v) :: content t) ((k, v) :: content t1)) by now constructor.
      assert (SP : spread (2 ^ b) ((k, v) :: content t1)).
      { eapply spread_perm; [exact PC|]. apply (HP b).
        - apply (rb_b _ _ _ _ (rf_rb _ _ _ _ _ F1)).
        - cbn [length]. rewrite (rinv_size _ _ _ _ I) in Hf1. lia. }
      destruct (insert_at_spec hash keq LW false b t1 n1 (k, v) (rf_rb _ _ _ _ _ F1) SP)
        as (C' & S' & R1 & R2 & R3 & R4); auto.
      + cbn [fst]. eapply fresh_perm; eauto.
      + cbv zeta in *. cbn [fst] in *. rewrite R1. eexists. split; [reflexivity|]. reflexivity. }
    destruct (r_need_grow K V t || (r_max_distance K V t <=? n)) eqn:EG.
    + destruct (grow_h alloc t m HA I HG) as [G1 G2]. unfold split_by in G2.
      destruct (r_grow K V hash keq alloc t) as [t1 u|t1|e] eqn:ER.
      * destruct PS as [(t' & PS)|(t1' & n1 & b & E1 & E2 & Hn & S1 & F & M & P & Hf & _)]; [discriminate|].
        injection E1 as E1. subst t1'. cbn [obind]. rewrite E2.
        destruct (INS t1 n1 b Hn S1 F P Hf) as (t2 & J1 & J2). rewrite J1. destruct G2 as [G2 G3]. split.
        { intros [HH|HH]; [|rewrite J2 in HH; congruence]. destruct (G2 (or_introl HH)) as (n2 & ->).
          cbn [obind fst]. rewrite E2, J1. reflexivity. }
        { intros HM HL. rewrite J2 in HM. destruct (G3 HM HL) as (t3 & kp & ls & -> & Q1 & Q2 & Q3).
          cbn [obind]. exists t3, kp, ls. split; [reflexivity|]. split; [exact Q1|]. split; [|exact Q3].
          rewrite Q2, J2. lia. }
      * cbn [obind]. rewrite G2. reflexivity.
      * contradiction.
    + destruct PS as [(t' & PS)|(t1' & n1 & b & E1 & E2 & Hn & S1 & F & M & P & Hf & _)]; [discriminate|].
      injection E1 as E1. subst t1'. injection E2 as E2 E3. subst i n.
      destruct (INS t n1 b Hn S1 F P Hf) as (t2 & J1 & J2). cbn [obind fst]. rewrite J1.
      split; [reflexivity|]. congruence.
Qed.

Lemma rinv_behaves t m : rinv t -> Permutation m (content t) -> r_behaves_as K V hash keq q t m.
Proof.
  intros I P. split.
  - intros calls HC. apply (agrees_spec hash keq LW q Hq); auto.
  - exists (content t). split; [now apply (traverse_spec hash keq q)|now symmetry].
Qed.

End Q.

Theorem robin_emplace_h q t m alloc (update : bool) k v :
  q = 1 \/ q = 2 -> r_reach K V hash keq q t m -> sane alloc ->
  spread_all q (put_new K V keq k v m) ->
  r_emplace_h K V hash keq 64 0 alloc update k v t = Throw (t, [])
  /\ forall n, match r_emplace K V hash keq 64 alloc update k v t with
  | Ret t' r =>
      (r_size _ _ t <= N.of_nat n \/ r_mask _ _ t' = r_mask _ _ t ->
         r_emplace_h K V hash keq 64 (S n) alloc update k v t = Ret (t', []) r)
      /\ (r_mask _ _ t' <> r_mask _ _ t -> N.of_nat n < r_size _ _ t ->
         exists t1 kept lost, r_emplace_h K V hash keq 64 (S n) alloc update k v t = Throw (t1, lost)
           /\ r_behaves_as K V hash keq q t1 kept /\ r_mask _ _ t1 = r_mask _ _ t'
           /\ Permutation (kept ++ lost) m /\ length kept = n)
  | Throw t' => r_emplace_h K V hash keq 64 (S n) alloc update k v t = Throw (t', [])
  | Fail _ => False
  end.
Proof.
  intros Hq R HA HP. split; [reflexivity|]. intros n.
  destruct (reach_inv hash keq LW q t m Hq R) as [I P].
  assert (HP' : spread_all q (put_new K V keq k v (content t))).
  { eapply (spread_all_perm hash q); [|exact HP]. unfold put_new.
    rewrite (has_perm keq k m (content t) P). destruct (has _ _ _ _ _); [exact P|now constructor]. }
  pose proof (emplace_h_inv q Hq alloc update t k v 63 n HA I HP') as H.
  change (S 63) with 64%nat in H.
  destruct (r_emplace K V hash keq 64 alloc update k v t) as [t' r|t'|]; auto.
  destruct H as [H1 H2]. split; [exact H1|]. intros HM HL.
  destruct (H2 HM HL) as (t1 & kp & ls & A & B & C & D & E & F). exists t1, kp, ls. split; [exact A|].
  split; [now apply rinv_behaves|]. split; [exact C|]. split; [|exact F]. now rewrite E.
Qed.

Theorem robin_rehash_h q t m alloc n more :
  q = 1 \/ q = 2 -> r_reach K V hash keq q t m -> sane alloc -> spread_all q m ->
  n <= 2 ^ 50 -> q = 1 \/ r_size _ _ t <= n ->
  match r_rehash K V hash keq alloc n t with
  | Ret t' _ =>
      (r_size _ _ t <= N.of_nat more \/ r_mask _ _ t' = r_mask _ _ t ->
         exists rest, r_rehash_h K V hash keq more alloc n t = Ret (t', []) rest)
      /\ (r_mask _ _ t' <> r_mask _ _ t -> N.of_nat more < r_size _ _ t ->
         exists t1 kept lost, r_rehash_h K V hash keq more alloc n t = Throw (t1, lost)
           /\ r_behaves_as K V hash keq q t1 kept /\ r_mask _ _ t1 = r_mask _ _ t'
           /\ Permutation (kept ++ lost) m /\ length kept = more)
  | Throw t' => r_rehash_h K V hash keq more alloc n t = Throw (t', [])
  | Fail _ => False
  end.
Proof.
  intros Hq R HA HP Hn Hc. destruct (reach_inv hash keq LW q t m Hq R) as [I P].
  assert (HP' : spread_all q (content t)) by (eapply (spread_all_perm hash q); eauto).
  unfold r_rehash, r_rehash_h. pose proof (size_bound hash keq q Hq t I) as HB.
  destruct (min_require_ge q Hq t n (proj1 I) ltac:(lia)) as (G1 & G2 & G3).
  assert (G : q * r_size _ _ t <= N.max (r_min_require K V t n) (r_size K V t))
    by (destruct Hc as [E|Hc]; nia).
  pose proof (rehash_h q Hq true false alloc t (N.max (r_min_require K V t n) (r_size K V t)) more HA I) as H.
  assert (H0 : N.max (r_min_require K V t n) (r_size K V t) <= 2 ^ 63) by lia.
  specialize (H H0 ltac:(discriminate)).
  match type of H with ?A -> _ => assert (H1 : A) end.
  { intros b Hb Hle. split; [|lia]. apply HP'; auto. rewrite <- (rinv_size _ _ _ _ I). lia. }
  specialize (H H1). unfold split_by in H.
  destruct (r_rehash_impl K V hash keq true false alloc t _) as [t' u|t'|]; auto.
  destruct H as [A B]. split; [exact A|]. intros HM HL.
  destruct (B HM HL) as (t1 & kp & ls & Q1 & Q2 & Q3 & Q4 & Q5 & Q6). exists t1, kp, ls. split; [exact Q1|].
  split; [now apply rinv_behaves|]. split; [rewrite Q3; lia|]. split; [|exact Q6]. now rewrite Q5.
Qed.

End Robin.
