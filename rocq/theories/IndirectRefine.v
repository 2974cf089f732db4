(** The indirect layout of the robin hood map: every call agrees with the abstract
    map, and the order of the entries. *)
From Coq Require Import NArith ZArith List Bool Lia Permutation.
From Coq Require Import ZifyBool ZifyNat ZifyN.
From Verif Require Import Base BaseFacts BitsModel BitsFacts GroupModel HashModel TableModel TableInv
  MapSpec MapFacts FallbackFacts ReachModel RobinModel RobinSpec RobinFacts RobinOps RobinRefine
  IndirectModel IndirectSpec IndirectFacts IndirectOps.
Import ListNotations.
Open Scope N_scope.
Ltac Zify.zify_post_hook ::= Z.div_mod_to_equations.

Section Refine.

Context {K V : Type} (hash : K -> N) (keq : K -> K -> bool) (LW : lawful hash keq).

Notation slots := (list (option (K * V))).
Notation imap := (imap K V).
Notation C_ := (i_ctrls K V).
Notation S_ := (i_slots K V).
Notation spread := (spread K V hash).
Notation spread_all := (spread_all K V hash).
Notation icontent := (@icontent K V).
Notation ib := (ib hash keq).

(** ** Order of the entries *)

Lemma others_false k kv (l1 l2 : list (K * V)) : distinct_keys K V keq (l1 ++ kv :: l2) ->
  keq k (fst kv) = true -> forall e, In e (l1 ++ l2) -> keq k (fst e) = false.
Proof.
  intros D Hk.
  assert (D1 : distinct_keys K V keq (kv :: l1 ++ l2)).
  { eapply (distinct_perm hash keq LW); [|exact D]. symmetry. apply Permutation_middle. }
  destruct D1 as [D1 _]. rewrite has_false in D1. intros e He. specialize (D1 e He).
  rewrite (keq_subst hash keq LW _ _ _ Hk). exact D1.
Qed.

Lemma map_one k (f : K * V -> K * V) kv (l1 l2 : list (K * V)) : distinct_keys K V keq (l1 ++ kv :: l2) ->
  keq k (fst kv) = true ->
  map (fun e => if keq k (fst e) then f e else e) (l1 ++ kv :: l2) = l1 ++ f kv :: l2.
Proof.
  intros D Hk. pose proof (others_false k kv l1 l2 D Hk) as U.
  rewrite map_app. cbn [map]. rewrite Hk.
  assert (M : forall l, (forall e, In e l -> keq k (fst e) = false) ->
    map (fun e => if keq k (fst e) then f e else e) l = l).
  { intros l H. rewrite <- (map_id l) at 2. apply map_ext_in. intros e He. now rewrite H. }
  rewrite !M; auto; intros e He; apply U; apply in_or_app; auto.
Qed.

Lemma has_split k (l : list (K * V)) : has K V keq k l = true ->
  exists l1 kv l2, l = l1 ++ kv :: l2 /\ keq k (fst kv) = true.
Proof.
  intros H. apply has_true in H. destruct H as (e & He & Hk).
  destruct (in_split _ _ He) as (l1 & l2 & E). exists l1, e, l2. auto.
Qed.

Lemma swap_remove_at k kv (l1 l2 : list (K * V)) : distinct_keys K V keq (l1 ++ kv :: l2) ->
  keq k (fst kv) = true ->
  swap_remove K V keq k (l1 ++ kv :: l2) = swap_at (l1 ++ kv :: l2) l1 l2.
Proof.
  intros D Hk. pose proof (others_false k kv l1 l2 D Hk) as U. unfold swap_remove, swap_at.
  rewrite rev_app_distr. cbn [rev]. destruct (rev l2) as [|z r] eqn:ER.
  - cbn [app]. rewrite Hk. apply rev_involutive.
  - assert (E2 : l2 = rev r ++ [z]) by (rewrite <- (rev_involutive l2), ER; reflexivity).
    cbn [app]. rewrite (U z). 2:{ rewrite E2. apply in_or_app. right. apply in_or_app. right. now left. }
    rewrite <- !app_assoc, !rev_app_distr, rev_involutive. cbn [rev app].
    rewrite <- app_assoc. cbn [app].
    apply (map_one k (fun _ => z) kv l1 (rev r)); auto.
    subst l2. clear - D. revert D. generalize (rev r). induction l1 as [|e l1 IH]; intros m D.
    + cbn [app] in *. destruct D as [D1 D2]. split.
      * unfold has in *. rewrite existsb_app in D1. apply orb_false_iff in D1. apply D1.
      * clear D1. induction m as [|x m IHm]; [exact I|]. cbn [app] in D2. destruct D2 as [D1 D2]. split; auto.
        unfold has in *. rewrite existsb_app in D1. apply orb_false_iff in D1. apply D1.
    + cbn [app] in *. destruct D as [D1 D2]. split; [|apply IH; exact D2].
      unfold has in *. replace (l1 ++ kv :: m ++ [z]) with ((l1 ++ kv :: m) ++ [z]) in D1 by (rewrite <- app_assoc; reflexivity).
      rewrite existsb_app in D1. apply orb_false_iff in D1. apply D1.
Qed.

Lemma swap_at_perm l (l1 l2 : list (K * V)) : Permutation (swap_at l l1 l2) (l1 ++ l2).
Proof.
  unfold swap_at. destruct (rev l2) as [|z r] eqn:ER.
  - assert (l2 = []) as -> by (rewrite <- (rev_involutive l2), ER; reflexivity). now rewrite app_nil_r.
  - assert (E2 : l2 = rev r ++ [z]) by (rewrite <- (rev_involutive l2), ER; reflexivity).
    rewrite E2. apply Permutation_app_head. apply Permutation_cons_append.
Qed.

Lemma remove_mid k kv (l1 l2 : list (K * V)) : distinct_keys K V keq (l1 ++ kv :: l2) ->
  keq k (fst kv) = true -> remove K V keq k (l1 ++ kv :: l2) = l1 ++ l2.
Proof.
  intros D Hk. pose proof (others_false k kv l1 l2 D Hk) as U. unfold remove.
  rewrite filter_app. cbn [filter]. rewrite Hk. cbn [negb].
  rewrite <- filter_app. clear - U. induction (l1 ++ l2) as [|e l IH]; [reflexivity|].
  cbn [filter]. rewrite (U e) by (left; auto). cbn [negb]. f_equal. apply IH. intros e' He'. apply U. now right.
Qed.

Lemma remove_absent k (l : list (K * V)) : has K V keq k l = false -> remove K V keq k l = l.
Proof.
  intros H. rewrite has_false in H. unfold remove. induction l as [|e l IH]; [reflexivity|].
  cbn [filter]. rewrite (H e) by (left; auto). cbn [negb]. f_equal. apply IH. intros e' He'. apply H. now right.
Qed.

(** The order is that of the abstract map up to a permutation. *)
Lemma order_step_perm o l : distinct_keys K V keq l ->
  Permutation (fst (spec_step K V keq o l)) (order_step K V keq o l).
Proof.
  intros D. destruct o; cbn [spec_step order_step fst]; try reflexivity.
  - unfold put_new. destruct (has K V keq k l); [reflexivity|]. apply Permutation_cons_append.
  - unfold put. destruct (has K V keq k l); [reflexivity|]. apply Permutation_cons_append.
  - destruct (has K V keq k l) eqn:EH.
    + destruct (has_split k l EH) as (l1 & kv & l2 & -> & Hk).
      rewrite (swap_remove_at k kv l1 l2 D Hk), (remove_mid k kv l1 l2 D Hk). symmetry. apply swap_at_perm.
    + now rewrite remove_absent.
Qed.

(** ** The invariant *)

(** What a call that throws leaves as it was. *)
Definition ikept (t t' : imap) : Prop :=
  C_ t' = C_ t /\ S_ t' = S_ t /\ i_mask _ _ t' = i_mask _ _ t /\ i_size _ _ t' = i_size _ _ t
  /\ i_alloc _ _ t' = i_alloc _ _ t /\ i_last _ _ t' = i_last _ _ t.

Lemma irehash_kept (shrink always : bool) alloc t n t' :
  i_rehash_impl K V hash keq shrink always alloc t n = Throw t' -> ikept t t'.
Proof.
  unfold i_rehash_impl. destruct (r_calc_capacity n) as [cap|]; [|discriminate].
  destruct (_ || _ || _); [|discriminate]. unfold i_create.
  destruct (alloc _); cbn [obind].
  - destruct (rbind _ _); discriminate.
  - intros E. injection E as <-. repeat split.
Qed.

Section Q.

Variable q : N.
Hypothesis Hq : q = 1 \/ q = 2.

Definition imlf_ok (t : imap) : Prop :=
  77 <= i_mlf _ _ t <= 154 /\ 427 <= i_rev _ _ t <= 854
  /\ (q = 2 -> i_mlf _ _ t = 128 /\ i_rev _ _ t = 512).

Record iemp (t : imap) : Prop := {
  ie_alloc : i_alloc _ _ t = false;
  ie_ctrls : C_ t = iempty_ctrls;
  ie_slots : S_ t = [];
  ie_size : i_size _ _ t = 0;
  ie_mask : i_mask _ _ t = 0;
  ie_look : i_lookups _ _ t = 4;
  ie_thr : i_thr _ _ t = 0
}.

Record ifull (b : N) (t : imap) : Prop := {
  if_ib : ib b t;
  if_spread : spread (2 ^ b) (icontent t);
  if_thr : q * i_thr _ _ t <= 2 ^ b;
  if_fill : q * i_size _ _ t <= 2 ^ b
}.

Definition iinv (t : imap) : Prop := imlf_ok t /\ (iemp t \/ exists b, ifull b t).

Notation fine := (i_fine K V hash q).

Lemma icontent_emp t : iemp t -> icontent t = [].
Proof. intros E. unfold IndirectOps.icontent. now rewrite (ie_slots _ E). Qed.

Lemma iinv_dist t : iinv t -> distinct_keys K V keq (icontent t).
Proof.
  intros [_ [E|[b F]]].
  - rewrite (icontent_emp _ E). exact I.
  - apply (ib_dist _ _ _ _ (if_ib _ _ F)).
Qed.

Lemma iinv_size t : iinv t -> i_size _ _ t = N.of_nat (length (icontent t)).
Proof.
  intros [_ [E|[b F]]].
  - rewrite (icontent_emp _ E), (ie_size _ E). reflexivity.
  - apply (ib_size _ _ _ _ (if_ib _ _ F)).
Qed.

Lemma iinv_32 t : iinv t -> N.of_nat (length (icontent t)) <= 2 ^ 32.
Proof.
  intros [_ [E|[b F]]].
  - rewrite (icontent_emp _ E). cbn. lia.
  - apply (ib_idx _ _ _ _ (if_ib _ _ F)).
Qed.

Lemma iinv_elements t : iinv t -> i_elements K V t = Ok (icontent t).
Proof.
  intros I. unfold i_elements. pose proof (iinv_size t I) as HS. destruct I as [_ [E|[b F]]].
  - rewrite (ie_alloc _ E), (icontent_emp _ E). reflexivity.
  - pose proof (if_ib _ _ F) as X. rewrite (ib_alloc _ _ _ _ X), (ib_slots _ _ _ _ X), HS. apply read_dense.
Qed.

Lemma ithr_ok t b : imlf_ok t -> b <= 54 -> q * (wmul (2 ^ b) (i_mlf _ _ t) / 256) <= 2 ^ b.
Proof.
  intros (A & B & D) Hb. pose proof (pow2_le b 54 Hb).
  rewrite wmul_small by (unfold two64; nia).
  destruct Hq as [->| ->].
  - nia.
  - destruct D as [-> _]; auto. lia.
Qed.

(** ** Rehashing *)

Lemma irebuild alloc t b : sane alloc -> iinv t -> 2 <= b -> b <= 63 ->
  spread (2 ^ b) (icontent t) -> q * i_size _ _ t <= 2 ^ b ->
  (exists t', obind (i_create K V alloc t (2 ^ b)) (fun t0 _ =>
        match rbind (i_elements K V t) (fun l => i_insert_all K V hash keq l t0) with
        | Ok t' => Ret t' tt
        | Err e => Fail e
        end) = Throw t')
  \/ exists t', obind (i_create K V alloc t (2 ^ b)) (fun t0 _ =>
        match rbind (i_elements K V t) (fun l => i_insert_all K V hash keq l t0) with
        | Ok t' => Ret t' tt
        | Err e => Fail e
        end) = Ret t' tt /\ ifull b t' /\ imlf_ok t' /\ icontent t' = icontent t.
Proof.
  intros HA I Hb Hb63 HS Hfill.
  destruct (create_ind hash keq alloc t b HA Hb Hb63) as [(t' & E)|(t0 & E & X & E0 & Em & Er & Et)]; rewrite E; cbn [obind].
  { left. eauto. }
  right. rewrite (iinv_elements _ I). cbn [rbind].
  destruct (insert_all_ind hash keq LW b (icontent t) t0 X) as (C' & S' & s' & R1 & R2 & R3).
  - rewrite E0. exact HS.
  - rewrite E0. now apply iinv_dist.
  - rewrite E0. cbn [app]. now apply iinv_32.
  - cbv zeta in *. rewrite R1. rewrite E0 in R3. cbn [app] in R3.
    eexists. split; [reflexivity|]. split; [|split].
    + split; auto.
      * rewrite R3. exact HS.
      * icbn. rewrite Et. apply ithr_ok; [apply I|]. apply b_small. apply (ib_big _ _ _ _ X).
      * rewrite (ib_size _ _ _ _ R2), R3. now rewrite <- (iinv_size _ I).
    + destruct I as [[A [B D]] _]. unfold imlf_ok. icbn. rewrite Em, Er. auto.
    + exact R3.
Qed.

Definition iresized (t : imap) (r : out imap unit) : Prop :=
  (exists t', r = Throw t' /\ ikept t t')
  \/ exists t', r = Ret t' tt /\ iinv t' /\ icontent t' = icontent t.

Lemma irehash_impl (shrink always : bool) alloc t n : sane alloc -> iinv t -> n <= 2 ^ 63 ->
  (forall b, 2 <= b -> n <= 2 ^ b -> spread (2 ^ b) (icontent t) /\ q * i_size _ _ t <= 2 ^ b) ->
  iresized t (i_rehash_impl K V hash keq shrink always alloc t n).
Proof.
  intros HA I Hn HS.
  destruct (i_rehash_impl K V hash keq shrink always alloc t n) as [t' u|t'|e] eqn:ER.
  2:{ left. exists t'. split; auto. eapply irehash_kept. exact ER. }
  all: revert ER; unfold i_rehash_impl;
    destruct (calc_capacity_spec n Hn) as (b & E & Hb & Hnb & Hb63); rewrite E;
    (destruct (_ || _ || _);
     [destruct (HS b Hb Hnb) as [HS1 HS2];
      destruct (irebuild alloc t b HA I Hb Hb63 HS1 HS2) as [(t1 & R)|(t1 & R1 & R2 & R3 & R4)];
      [rewrite R; discriminate|rewrite R1]|]); try discriminate; intros E1; injection E1 as <- <-.
  - right. exists t1. split; auto. split; auto. split; auto. right. eauto.
  - right. exists t. auto.
Qed.

Lemma igrow alloc t : sane alloc -> iinv t ->
  (forall b, 2 <= b -> q * (i_size _ _ t + 1) <= 2 ^ b -> spread (2 ^ b) (icontent t)) ->
  (exists t', i_grow K V hash keq alloc t = Throw t')
  \/ exists t' b, i_grow K V hash keq alloc t = Ret t' tt /\ ifull b t' /\ imlf_ok t'
       /\ icontent t' = icontent t /\ q * (i_size _ _ t + 1) <= 2 ^ b.
Proof.
  intros HA I HS. unfold i_grow, i_rehash_impl.
  assert (HC : exists b, r_calc_capacity (wmul (wadd (i_mask K V t) 1) 2) = Ok (2 ^ b) /\ 2 <= b /\ b <= 63
    /\ q * (i_size _ _ t + 1) <= 2 ^ b).
  { destruct I as [_ [E|[b F]]].
    - exists 2. rewrite (ie_mask _ E), (ie_size _ E). split; [reflexivity|]. destruct Hq as [->| ->]; lia.
    - pose proof (if_ib _ _ F) as X. pose proof (ib_b _ _ _ _ X) as Hb. pose proof (b_small b (ib_big _ _ _ _ X)) as Hs.
      pose proof (pow_ge4 b Hb) as H4. pose proof (pow2_le b 54 Hs) as H54.
      rewrite (ib_mask _ _ _ _ X). rewrite wadd_small by (unfold two64; lia).
      rewrite wmul_small by (unfold two64; lia).
      replace ((2 ^ b - 1 + 1) * 2) with (2 ^ (b + 1)) by (rewrite N.pow_add_r; lia).
      exists (b + 1). unfold r_calc_capacity, rMinCapacity.
      assert (H1 : 2 ^ (b + 1) = 2 * 2 ^ b) by (rewrite N.pow_add_r; lia).
      replace (N.max (2 ^ (b + 1)) 4) with (2 ^ (b + 1)) by lia.
      assert (P2 : is_pow2 (2 ^ (b + 1)) = true).
      { apply is_pow2_spec; [lia|unfold two64; lia|eauto]. }
      rewrite P2. split; [reflexivity|]. split; [lia|]. split; [lia|].
      pose proof (if_fill _ _ F). destruct Hq as [->| ->]; lia. }
  destruct HC as (b & E & Hb & Hb63 & Hf). rewrite E. cbn [orb].
  destruct (irebuild alloc t b HA I Hb Hb63 (HS b Hb Hf) ltac:(lia))
    as [(t' & R)|(t' & R1 & R2 & R3 & R4)].
  - left. exists t'. exact R.
  - right. exists t', b. auto.
Qed.

(** ** Search *)

Definition istopped (t : imap) (k : K) (i n : N) : Prop :=
  iemp t \/ exists b, ifull b t /\ i = hm hash b k + n /\ n <= 127 /\ stopat (DS (C_ t)) (hm hash b k) n.

Lemma isearch t (cmp : bool) k : iinv t ->
  (exists i c kv b, cmp = true /\ i_search K V hash keq t cmp k = Ok (Found i) /\ ifull b t
     /\ geti (C_ t) i = Some c /\ c_dist c < 128 /\ vw (S_ t) c = Some (fst kv, c_idx c)
     /\ geti (S_ t) (c_idx c) = Some (Some kv) /\ geti (icontent t) (c_idx c) = Some kv
     /\ i < mx b /\ keq (fst kv) k = true)
  \/ (exists i n, i_search K V hash keq t cmp k = Ok (Stop i n) /\ istopped t k i n
     /\ (cmp = true -> fresh_key keq (icontent t) k)).
Proof.
  intros [_ [E|[b F]]].
  - right. exists 0, 0. unfold i_search, i_home. rewrite (ie_mask _ E), N.land_0_r, (ie_ctrls _ E).
    split; [reflexivity|]. split; [now left|]. intros _ e. rewrite (icontent_emp _ E). intros [].
  - destruct (search_ind hash keq LW b t cmp k (if_ib _ _ F) (if_spread _ _ F))
      as [(i & c & kv & A & H)|(n & A & B & D & G)].
    + left. exists i, c, kv, b. destruct H as (H1 & H2). auto.
    + right. exists (hm hash b k + n), n. split; auto. split; auto. right. exists b. auto.
Qed.

Lemma fine_cons k v (l : list (K * V)) : fine (l ++ [(k, v)]) ->
  spread_all q ((k, v) :: l) /\ N.of_nat (length l) < 2 ^ 32.
Proof.
  intros [H1 H2]. rewrite app_length in H2. cbn [length] in H2. split; [|lia].
  eapply (spread_all_perm hash q); [|exact H1]. symmetry. apply Permutation_cons_append.
Qed.

(** emplace_impl for an absent key. *)
Lemma iemplace_new alloc (update : bool) t k v fuel : sane alloc -> iinv t ->
  fresh_key keq (icontent t) k -> fine (icontent t ++ [(k, v)]) ->
  (exists t', i_emplace K V hash keq (S fuel) alloc update k v t = Throw t' /\ ikept t t')
  \/ exists t' i, i_emplace K V hash keq (S fuel) alloc update k v t = Ret t' (i, true)
       /\ iinv t' /\ icontent t' = icontent t ++ [(k, v)]
       /\ geti (S_ t') i = Some (Some (k, v)).
Proof.
  intros HA I HF HFI. destruct (fine_cons _ _ _ HFI) as [HP H32]. cbn [i_emplace].
  destruct (isearch t true k I) as [(i & c & kv & b & _ & A & F & _ & _ & _ & _ & B & _ & D)|(i & n & A & St & _)].
  { exfalso. rewrite (HF kv) in D; [discriminate|]. eapply geti_In; eauto. }
  rewrite A. cbv zeta.
  assert (PREP : let grow := i_need_grow K V t || (127 <? n) in
    (exists t', (if grow then i_grow K V hash keq alloc t else Ret t tt) = Throw t')
    \/ exists t1 n1 b, (if grow then i_grow K V hash keq alloc t else Ret t tt) = Ret t1 tt
       /\ (if grow then i_search K V hash keq t1 false k else Ok (Stop i n)) = Ok (Stop (hm hash b k + n1) n1)
       /\ n1 <= 127 /\ stopat (DS (C_ t1)) (hm hash b k) n1 /\ ifull b t1 /\ imlf_ok t1
       /\ icontent t1 = icontent t /\ q * (i_size _ _ t + 1) <= 2 ^ b).
  { cbv zeta. destruct (i_need_grow K V t || (127 <? n)) eqn:EG.
    - destruct (igrow alloc t HA I) as [(t' & E)|(t1 & b & E & F & M & P & Hf)].
      + intros b Hb Hf. eapply spread_cons. apply (HP b Hb). cbn [length].
        rewrite (iinv_size _ I) in Hf. lia.
      + left. eauto.
      + right. rewrite E.
        destruct (search_ind hash keq LW b t1 false k (if_ib _ _ F) (if_spread _ _ F))
          as [(j & c & kv & A' & _)|(n1 & A' & B & D & _)]; [discriminate|].
        exists t1, n1, b. auto 10.
    - right. apply orb_false_iff in EG. destruct EG as [EG1 EG2]. unfold i_need_grow in EG1.
      destruct St as [E|(b & F & Ei & Hn & St)].
      + rewrite (ie_thr _ E), (ie_size _ E) in EG1. discriminate.
      + exists t, n, b. rewrite <- Ei. do 5 (split; [auto|]). split; [apply I|]. split; [auto|].
        pose proof (if_thr _ _ F). apply N.leb_gt in EG1.
        etransitivity; [|eassumption]. apply N.mul_le_mono_l. lia. }
  cbv zeta in PREP.
  destruct PREP as [(t' & E)|(t1 & n1 & b & E1 & E2 & Hn & S1 & F & M & P & Hf)].
  - left. exists t'. rewrite E. split; [reflexivity|].
    destruct (_ || _) in E; [|discriminate]. eapply irehash_kept. exact E.
  - right. rewrite E1. cbn [obind]. rewrite E2.
    assert (ES : i_size _ _ t1 = i_size _ _ t).
    { rewrite (ib_size _ _ _ _ (if_ib _ _ F)), (iinv_size _ I). now rewrite P. }
    assert (SP : spread (2 ^ b) ((k, v) :: icontent t1)).
    { rewrite P. apply (HP b).
      - apply (ib_b _ _ _ _ (if_ib _ _ F)).
      - cbn [length]. rewrite (iinv_size _ I) in Hf. lia. }
    destruct (insert_at_ind hash keq LW false b t1 n1 (k, v) (if_ib _ _ F) SP)
      as (C' & R1 & R2 & R3 & R4).
    + cbn [fst]. now rewrite P.
    + now rewrite P.
    + auto.
    + auto.
    + cbv zeta in *. cbn [fst] in *. rewrite R1. eexists _, _. split; [reflexivity|].
      split; [|split].
      * split; [destruct M as (M1 & M2 & M3); unfold imlf_ok; icbn; auto|].
        right. exists b. split; auto.
        { rewrite R3. eapply spread_perm; [apply Permutation_cons_append|exact SP]. }
        { icbn. apply (if_thr _ _ F). }
        { icbn. now rewrite ES. }
      * rewrite R3, P. reflexivity.
      * exact R4.
Qed.

(** Replacing an element without changing its key. *)
Lemma ib_assign b t n kv v : ib b t -> geti (icontent t) n = Some kv ->
  let t' := i_with K V t (C_ t) (seti (S_ t) n (Some (fst kv, v))) (i_size _ _ t) in
  exists l1 l2, ib b t' /\ icontent t = l1 ++ kv :: l2 /\ icontent t' = l1 ++ (fst kv, v) :: l2
    /\ geti (S_ t') n = Some (Some (fst kv, v)).
Proof.
  intros X Hn t'. destruct (geti_mid _ _ _ Hn) as (l1 & l2 & EL & L1). exists l1, l2.
  set (sl' := seti (S_ t) n (Some (fst kv, v))) in *.
  assert (Esl : sl' = dense (mx b) (l1 ++ (fst kv, v) :: l2)).
  { unfold sl'. rewrite (ib_slots _ _ _ _ X), EL, <- L1. apply dense_set. }
  assert (EC : icontent t' = l1 ++ (fst kv, v) :: l2).
  { unfold IndirectOps.icontent, t'. icbn. rewrite Esl. apply dense_elems. }
  assert (G : geti (S_ t) n = Some (Some kv)).
  { rewrite (ib_slots _ _ _ _ X). now apply dense_geti. }
  assert (HnL : n < N.of_nat (length (S_ t))) by (eapply geti_Some_lt; eauto).
  assert (VW : forall c, vw sl' c = vw (S_ t) c).
  { intros c. unfold vw, sl'. rewrite geti_seti by auto. destruct (N.eqb_spec (c_idx c) n) as [->|]; auto.
    now rewrite G. }
  assert (EV : VSM (mx b) sl' (C_ t) = VSM (mx b) (S_ t) (C_ t)).
  { apply geti_ext. intros j. rewrite !geti_VS. destruct (j <? mx b); auto.
    destruct (geti (C_ t) j) as [c|]; auto. cbn. now rewrite VW. }
  assert (ELn : length (icontent t') = length (icontent t)).
  { rewrite EC, EL, !app_length. reflexivity. }
  split; [|split; [exact EL|split; [exact EC|]]].
  - destruct X. split; rewrite ?ELn, ?EC; unfold t'; icbn; auto.
    + now rewrite EV.
    + intros j c Hc. destruct (ib_tags j c Hc) as [T1 T2]. split; auto. rewrite VW. auto.
    + rewrite EV, ib_perm. rewrite EL, !numd_app. reflexivity.
    + rewrite EL in ib_dist. clear - ib_dist.
      induction l1 as [|e l1 IH]; cbn [app] in *.
      * exact ib_dist.
      * destruct ib_dist as [D1 D2]. split; [|now apply IH].
        unfold has in *. rewrite existsb_app in *. exact D1.
  - unfold t'. icbn. unfold sl'. now apply geti_seti_eq.
Qed.

(** emplace_impl for a key that is present. *)
Lemma iemplace_old alloc (update : bool) t k v fuel kv : iinv t ->
  In kv (icontent t) -> keq k (fst kv) = true ->
  exists t' i, i_emplace K V hash keq (S fuel) alloc update k v t = Ret t' (i, false)
     /\ iinv t'
     /\ icontent t' = (if update then map (fun e => if keq k (fst e) then (fst e, v) else e) (icontent t)
                       else icontent t)
     /\ geti (S_ t') i = Some (Some (if update then (fst kv, v) else kv)).
Proof.
  intros I Hin Hk. cbn [i_emplace].
  destruct (isearch t true k I) as [(i & c & kv' & b & _ & A & F & B & _ & _ & B2 & B3 & _ & D)|(i & n & A & St & HF)].
  2:{ exfalso. specialize (HF eq_refl kv Hin). rewrite (keq_sym_eq hash keq LW) in HF. congruence. }
  rewrite A, B, B2.
  assert (kv' = kv) as ->.
  { apply (distinct_uniq_In hash keq LW (icontent t)).
    - now apply iinv_dist.
    - eapply geti_In; eauto.
    - auto.
    - eapply (lw_trans _ _ LW); eauto. }
  destruct update; eexists _, (c_idx c); (split; [reflexivity|]); [|auto].
  destruct (ib_assign b t (c_idx c) kv v (if_ib _ _ F) B3) as (l1 & l2 & X & EL & EC & G). cbv zeta in *.
  assert (EM : icontent (i_with K V t (C_ t) (seti (S_ t) (c_idx c) (Some (fst kv, v))) (i_size K V t))
    = map (fun e => if keq k (fst e) then (fst e, v) else e) (icontent t)).
  { rewrite EC, EL. symmetry. apply (map_one k (fun e => (fst e, v))); auto. rewrite <- EL. now apply iinv_dist. }
  split; [|split; [exact EM|exact G]].
  split; [apply I|]. right. exists b. split; auto.
  - rewrite EM. apply spread_rekey; [|apply (if_spread _ _ F)]. intros e. destruct (keq k (fst e)); auto.
  - icbn. apply (if_thr _ _ F).
  - icbn. apply (if_fill _ _ F).
Qed.

(** find_and_erase. *)
Lemma ierase t k : iinv t ->
  exists t', i_erase K V hash keq k t = Ret t' (count K V keq k (icontent t))
    /\ iinv t' /\ icontent t' = order_step K V keq (OErase K V k) (icontent t).
Proof.
  intros I. unfold i_erase, count. cbn [order_step].
  destruct (isearch t true k I) as [(i & c & kv & b & _ & A & F & B1 & B2 & B3 & B4 & B5 & B6 & D)|(i & n & A & St & HF)]; rewrite A.
  - pose proof (if_ib _ _ F) as X. rewrite (ib_max _ _ _ _ X). destruct (N.eqb_spec i (mx b)); [lia|].
    destruct (erase_slot_ind hash keq LW b t i c kv X B1 B2 B6 B3 B5) as (C' & S' & l1 & l2 & R1 & R2 & R3 & R4).
    cbv zeta in *. rewrite R1.
    assert (HK : keq k (fst kv) = true) by now apply (lw_sym _ _ LW).
    assert (EH : has K V keq k (icontent t) = true).
    { apply has_true. exists kv. split; auto. eapply geti_In; eauto. }
    rewrite EH. pose proof (iinv_dist _ I) as HD.
    eexists. split; [reflexivity|]. split.
    + split; [apply I|]. right. exists b. split; auto.
      * rewrite R4. eapply spread_perm; [symmetry; apply swap_at_perm|].
        pose proof (if_spread _ _ F) as HS. rewrite R3 in HS.
        eapply spread_cons with (e := kv). eapply spread_perm; [|exact HS]. symmetry. apply Permutation_middle.
      * icbn. apply (if_thr _ _ F).
      * icbn. pose proof (if_fill _ _ F). etransitivity; [|eassumption]. apply N.mul_le_mono_l. lia.
    + rewrite R4. rewrite R3 in *. symmetry. now apply swap_remove_at.
  - specialize (HF eq_refl). pose proof (proj1 (fresh_has hash keq LW _ _) HF) as EH. rewrite EH.
    exists t. auto.
Qed.

(** Lookups. *)
Lemma idx_not_last b t n : ifull b t -> n < i_size _ _ t -> ptr_eq (ISlot n) (i_last_ptr K V t) = false.
Proof.
  intros F Hn. pose proof (if_ib _ _ F) as X. pose proof (ib_last _ _ _ _ X) as HL. unfold last_ok in HL.
  unfold i_last_ptr. destruct (i_last K V t) as [|m|]; [reflexivity| |reflexivity]. cbn. subst m.
  apply N.eqb_neq. pose proof (ib_fit _ _ _ _ X). rewrite (ib_size _ _ _ _ X) in Hn. lia.
Qed.

Lemma ptr_eq_refl p : ptr_eq p p = true.
Proof. destruct p; cbn; auto. apply N.eqb_refl. Qed.

Lemma icontains t k : iinv t -> i_contains K V hash keq t k = Ok (has K V keq k (icontent t)).
Proof.
  intros I. unfold i_contains, i_find.
  destruct (isearch t true k I) as [(i & c & kv & b & _ & A & F & B1 & B2 & B3 & B4 & B5 & B6 & D)|(i & n & A & St & HF)]; rewrite A; cbn [rbind].
  - rewrite B1. cbn [rbind]. f_equal. rewrite (idx_not_last b t); auto.
    + cbn [negb]. symmetry. apply has_true. exists kv. split; [eapply geti_In; eauto|]. now apply (lw_sym _ _ LW).
    + rewrite (iinv_size _ I). eapply geti_Some_lt; eauto.
  - rewrite ptr_eq_refl. cbn [negb]. f_equal. symmetry. apply (fresh_has hash keq LW). auto.
Qed.

Lemma ifind_present t k e : iinv t -> get K V keq k (icontent t) = Some e ->
  exists n, i_find K V hash keq t k = Ok (ISlot n) /\ geti (icontent t) n = Some e
    /\ i_find_obs K V hash keq t k = Ok (Some e).
Proof.
  intros I EG. pose proof (iinv_dist _ I) as HD. unfold i_find_obs, i_find.
  destruct (isearch t true k I) as [(i & c & kv & b & _ & A & F & B1 & B2 & B3 & B4 & B5 & B6 & D)|(i & n & A & St & HF)]; rewrite A; cbn [rbind].
  - assert (kv = e) as ->.
    { apply get_Some in EG. destruct EG as [G1 G2]. apply (distinct_uniq_In hash keq LW (icontent t)); auto.
      - eapply geti_In; eauto.
      - eapply (lw_trans _ _ LW); eauto. }
    rewrite B1. cbn [rbind]. exists (c_idx c). split; auto. split; auto.
    unfold i_end. rewrite (ib_alloc _ _ _ _ (if_ib _ _ F)). cbn [ptr_eq].
    assert (Hlt : c_idx c < i_size _ _ t) by (rewrite (iinv_size _ I); eapply geti_Some_lt; eauto).
    destruct (N.eqb_spec (c_idx c) (i_size K V t)); [lia|]. unfold i_deref. rewrite B4. reflexivity.
  - exfalso. specialize (HF eq_refl). pose proof (proj1 (fresh_has hash keq LW _ _) HF) as EH.
    rewrite has_get, EG in EH. discriminate.
Qed.

(** A key that is absent: the pointer that find returns is not end(), and refers to
    no element. *)
Lemma ifind_absent t k : iinv t -> i_alloc _ _ t = true -> has K V keq k (icontent t) = false ->
  exists p, i_find K V hash keq t k = Ok p /\ ptr_eq p (i_end K V t) = false
    /\ i_deref K V t p = Err EUndef.
Proof.
  intros I HA HN. unfold i_find.
  destruct (isearch t true k I) as [(i & c & kv & b & _ & A & F & B1 & B2 & B3 & B4 & B5 & B6 & D)|(i & n & A & St & HF)]; rewrite A; cbn [rbind].
  - exfalso. rewrite has_false in HN. rewrite (keq_sym_eq hash keq LW), HN in D; [discriminate|]. eapply geti_In; eauto.
  - exists (i_last_ptr K V t). split; auto. destruct I as [_ [E|[b F]]].
    { rewrite (ie_alloc _ E) in HA. discriminate. }
    pose proof (if_ib _ _ F) as X. pose proof (ib_last _ _ _ _ X) as HL. unfold last_ok in HL.
    unfold i_end, i_last_ptr. rewrite HA. destruct (i_last K V t) as [|m|]; [split; reflexivity| |split; reflexivity].
    subst m. cbn [ptr_eq i_deref]. split.
    + apply N.eqb_neq. pose proof (if_fill _ _ F). destruct Hq as [->| ->]; unfold mx; pose proof (lookups_range b (ib_b _ _ _ _ X)); lia.
    + rewrite geti_ge; [reflexivity|]. rewrite (ib_slots _ _ _ _ X), dense_length by apply (ib_fit _ _ _ _ X). lia.
Qed.

Lemma ilookup t k : iinv t ->
  i_contains K V hash keq t k = Ok true \/ i_alloc _ _ t = false /\ i_last _ _ t = LNull ->
  i_find_obs K V hash keq t k = Ok (get K V keq k (icontent t)).
Proof.
  intros I [H|[H1 H2]].
  - rewrite (icontains t k I) in H. injection H as H. rewrite has_get in H.
    destruct (get K V keq k (icontent t)) as [e|] eqn:EG; [|discriminate].
    destruct (ifind_present t k e I EG) as (n & _ & _ & R). exact R.
  - assert (E : iemp t).
    { destruct I as [_ [E|[b F]]]; auto. rewrite (ib_alloc _ _ _ _ (if_ib _ _ F)) in H1. discriminate. }
    rewrite (icontent_emp _ E). cbn [get find]. unfold i_find_obs, i_find.
    destruct (isearch t true k I) as [(i & c & kv & b & _ & A & F & _)|(i & n & A & St & HF)].
    { rewrite (ib_alloc _ _ _ _ (if_ib _ _ F)) in H1. discriminate. }
    rewrite A. cbn [rbind]. unfold i_last_ptr, i_end. rewrite H1, H2. reflexivity.
Qed.

(** clear. *)
Lemma iclear t (destroy : bool) : iinv t -> i_alloc _ _ t = true ->
  exists t', i_clear K V destroy t = Ret t' tt /\ iinv t' /\ icontent t' = [].
Proof.
  intros I HA. unfold i_clear. pose proof (iinv_size _ I) as HS.
  destruct I as [M [E|[b F]]]; [rewrite (ie_alloc _ E) in HA; discriminate|].
  pose proof (if_ib _ _ F) as X.
  assert (HD : i_destroy K V (S_ t) (seqN (i_size K V t)) = Ok (dense (mx b) [])).
  { rewrite (ib_slots _ _ _ _ X), HS. apply destroy_dense. apply (ib_fit _ _ _ _ X). }
  destruct (_ && destroy).
  - rewrite HD. eexists. split; [reflexivity|]. split; [|reflexivity]. split.
    + destruct M as (M1 & M2 & M3). unfold imlf_ok, i_destroyed. icbn. auto.
    + left. split; reflexivity.
  - unfold i_clear_data. rewrite HA, HD, (ib_gc _ _ _ _ X). unfold i_clear_ctrls, iGroupWidth.
    rewrite (ib_clen _ _ _ _ X), N.leb_refl.
    eexists. split; [reflexivity|].
    set (C' := _ ++ _).
    assert (EC' : C' = repeat iEmpty (N.to_nat ((igc b + 1) * 4))).
    { unfold C'. rewrite skipn_all2; [apply app_nil_r|]. pose proof (ib_clen _ _ _ _ X). lia. }
    destruct (empty_ib hash keq b (i_with K V t C' (dense (mx b) []) 0)) as [E1 E2]; try (apply X); auto.
    split; [|exact E2]. split; [apply M|]. right. exists b. split; auto.
    + rewrite E2. apply spread_nil.
    + apply (if_thr _ _ F).
    + cbn. lia.
Qed.

(** rehash and its callers. *)
Lemma isize_bound (t : imap) : iinv t -> i_size _ _ t <= 2 ^ 54.
Proof. intros I. rewrite (iinv_size _ I). pose proof (iinv_32 _ I). lia. Qed.

Lemma iresize alloc t n : sane alloc -> iinv t -> n <= 2 ^ 63 ->
  spread_all q (icontent t) -> q * i_size _ _ t <= n ->
  iresized t (i_rehash_impl K V hash keq true false alloc t n).
Proof.
  intros HA I Hn HP Hf. apply irehash_impl; auto.
  intros b Hb Hnb. split; [|lia]. apply HP; auto. rewrite <- (iinv_size _ I). lia.
Qed.

Lemma imin_require (t : imap) n : imlf_ok t -> n <= 2 ^ 54 ->
  q * n <= i_min_require K V t n /\ n <= i_min_require K V t n /\ i_min_require K V t n <= 2 ^ 56.
Proof.
  intros (A & B & D) Hn. unfold i_min_require. rewrite wmul_small by (unfold two64; nia).
  destruct Hq as [E|E].
  - rewrite E. nia.
  - destruct (D E) as [_ E2]. rewrite E2, E. lia.
Qed.

Lemma irehash_to alloc t n : sane alloc -> iinv t -> n <= 2 ^ 54 ->
  (q = 1 \/ i_size _ _ t <= n) -> spread_all q (icontent t) ->
  iresized t (i_rehash K V hash keq alloc n t).
Proof.
  intros HA I Hn Hc HP. unfold i_rehash. pose proof (isize_bound t I).
  destruct (imin_require t n (proj1 I) Hn) as (G1 & G2 & G3).
  apply iresize; auto.
  - lia.
  - destruct Hc as [E|Hc]; nia.
Qed.

Lemma ishrink alloc t (ro : bool) : sane alloc -> iinv t -> (q = 1 \/ ro = false) ->
  spread_all q (icontent t) -> iresized t (i_shrink K V hash keq alloc ro t).
Proof.
  intros HA I Hc HP. unfold i_shrink. pose proof (isize_bound t I) as HB.
  destruct (imin_require t _ (proj1 I) HB) as (G1 & G2 & G3).
  assert (G : q * i_size _ _ t <= (if ro then i_size _ _ t else i_min_require K V t (i_size _ _ t))
    /\ (if ro then i_size _ _ t else i_min_require K V t (i_size _ _ t)) <= 2 ^ 63).
  { destruct ro; [|lia]. destruct Hc as [->|]; [lia|discriminate]. }
  apply iresize; auto; apply G.
Qed.

Lemma imlf alloc t m : sane alloc -> iinv t -> q = 1 ->
  spread_all q (icontent t) -> iresized t (i_set_mlf K V hash keq alloc m t).
Proof.
  intros HA I E1 HP. unfold i_set_mlf. pose proof (clamp_ok q Hq m) as HC.
  destruct (r_clamp m) as [mlf rev]. cbv zeta.
  set (t' := mkI _ _ _ _ _ _ _ _ _ _ _ _).
  assert (I' : iinv t').
  { destruct I as [M [E|[b F]]]; (split; [split; [apply HC|split; [apply HC|rewrite E1; discriminate]]|]).
    - left. destruct E. split; auto.
    - right. exists b. destruct F as [X F1 F2 F3]. split; auto. destruct X. split; auto. }
  destruct (_ && _).
  - pose proof (irehash_to alloc t' (i_size _ _ t') HA I') as H.
    destruct H as [(t1 & H1 & H2)|(t1 & H1 & H2 & H3)]; auto.
    + apply isize_bound; auto.
    + left. exists t1. auto.
    + right. exists t1. auto.
  - right. exists t'. auto.
Qed.

(** ** One call *)

Definition ifollows (o : op K V) (t : imap) (r : out imap (obs K V)) : Prop :=
  match r with
  | Ret t' x => iinv t' /\ x = snd (spec_step K V keq o (icontent t))
      /\ icontent t' = order_step K V keq o (icontent t)
  | Throw t' => ikept t t'
  | Fail _ => False
  end.

Lemma iresized_follows o t r : iresized t r ->
  spec_step K V keq o (icontent t) = (icontent t, RUnit K V) ->
  order_step K V keq o (icontent t) = icontent t -> ifollows o t (i_unit K V r).
Proof.
  intros [(t' & -> & HK)|(t' & -> & I & P)] E E'; cbn [i_unit obind ifollows]; auto. rewrite E, E', P. cbn. auto.
Qed.

Lemma istep alloc o t : sane alloc -> iinv t -> i_client K V hash keq q o t ->
  fine (order_step K V keq o (icontent t)) ->
  ifollows o t (i_step K V hash keq alloc o t).
Proof.
  intros HA I HC HP. pose proof (iinv_dist _ I) as HD.
  assert (INS : forall (update : bool) k v,
    fine (order_step K V keq (if update then OAssign K V k v else OInsert K V k v) (icontent t)) ->
    ifollows (if update then OAssign K V k v else OInsert K V k v) t
      (i_ins K V (i_emplace K V hash keq 64 alloc update k v t))).
  { intros update k v HP'.
    assert (E1 : order_step K V keq (if update then OAssign K V k v else OInsert K V k v) (icontent t)
      = if has K V keq k (icontent t)
        then (if update then map (fun e => if keq k (fst e) then (fst e, v) else e) (icontent t) else icontent t)
        else icontent t ++ [(k, v)]).
    { destruct update; cbn [order_step]; destruct (has _ _ _ _ _); reflexivity. }
    assert (E2 : snd (spec_step K V keq (if update then OAssign K V k v else OInsert K V k v) (icontent t))
      = RIns K V (if update then (fst (the K V keq k v (icontent t)), v) else the K V keq k v (icontent t))
                 (negb (has K V keq k (icontent t)))).
    { destruct update; reflexivity. }
    unfold ifollows. rewrite E2, E1. rewrite E1 in HP'. unfold the. rewrite has_get in *.
    destruct (get K V keq k (icontent t)) as [e|] eqn:EG.
    - apply get_Some in EG. destruct EG as [Hin Hk].
      destruct (iemplace_old alloc update t k v 63 e I Hin Hk) as (t' & i & R1 & R2 & R3 & R4).
      change (S 63) with 64%nat in R1. rewrite R1. unfold i_ins. cbn [obind]. unfold i_deref. rewrite R4.
      cbn [i_lift]. destruct update; auto.
    - assert (HF : fresh_key keq (icontent t) k).
      { apply (fresh_has hash keq LW). rewrite has_get, EG. reflexivity. }
      destruct (iemplace_new alloc update t k v 63 HA I HF HP') as [(t' & R & RK)|(t' & i & R1 & R2 & R3 & R4)].
      + change (S 63) with 64%nat in R. rewrite R. exact RK.
      + change (S 63) with 64%nat in R1. rewrite R1. unfold i_ins. cbn [obind]. unfold i_deref. rewrite R4.
        cbn [i_lift]. destruct update; auto. }
  destruct o; cbn [i_step].
  - apply (INS false k v HP).
  - apply (INS true k v HP).
  - destruct (ierase t k I) as (t' & R1 & R2 & R3). rewrite R1. cbn [obind ifollows]. auto.
  - cbn in HC. rewrite (ilookup t k I HC). cbn. auto.
  - rewrite (icontains t k I). cbn. auto.
  - cbn. rewrite (iinv_size _ I). auto.
  - cbn in HC. destruct (iclear t need_destroy I HC) as (t' & R1 & R2 & R3). rewrite R1. cbn. rewrite R3. auto.
  - cbn in HC. apply iresized_follows; auto. apply irehash_to; auto; [lia|apply HC|apply HP].
  - cbn in HC. apply iresized_follows; auto. apply irehash_to; auto; [lia|apply HC|apply HP].
  - cbn in HC. apply iresized_follows; auto. apply ishrink; auto. apply HP.
  - cbn in HC. apply iresized_follows; auto. apply imlf; auto. apply HP.
Qed.

Lemma fine_perm l l' : Permutation l l' -> fine l -> fine l'.
Proof.
  intros P [H1 H2]. split; [eapply (spread_all_perm hash q); eauto|]. now rewrite <- (Permutation_length P).
Qed.

Lemma iagrees (fine' : list (K * V) -> Prop) calls :
  (forall m, distinct_keys K V keq m -> fine' m -> fine m) ->
  Forall (fun c => sane (fst c)) calls -> forall t m, iinv t -> Permutation m (icontent t) ->
  i_agrees K V hash keq fine' q calls t m.
Proof.
  intros HFine. induction calls as [|[alloc o] rest IH]; intros HS t m I P; [exact Logic.I|].
  inversion HS as [|? ? HS1 HS2]; subst. cbn [i_agrees].
  destruct (spec_step K V keq o m) as [m' r'] eqn:E. intros HC HP.
  assert (D : distinct_keys K V keq m).
  { eapply (distinct_perm hash keq LW); [symmetry; exact P|]. now apply iinv_dist. }
  destruct (spec_step_perm hash keq LW o m (icontent t) P D) as [P1 P2]. rewrite E in P1, P2. cbn [fst snd] in *.
  assert (D' : distinct_keys K V keq m').
  { pose proof (spec_step_distinct keq o m D) as H. now rewrite E in H. }
  assert (P3 : Permutation m' (order_step K V keq o (icontent t))).
  { rewrite P1. apply order_step_perm. now apply iinv_dist. }
  pose proof (istep alloc o t HS1 I HC (fine_perm _ _ P3 (HFine _ D' HP))) as F. unfold ifollows in F.
  destruct (i_step K V hash keq alloc o t) as [t' x|t'|e]; auto.
  destruct F as (F1 & F2 & F3). split; [congruence|]. apply IH; auto. now rewrite F3.
Qed.

Lemma iinv_new : iinv (inew K V).
Proof.
  split.
  - unfold imlf_ok, inew. icbn. unfold rDefaultMlf, rDefaultRev. lia.
  - left. split; reflexivity.
Qed.

(** ** Iteration *)

Lemma iwalk M l t : S_ t = dense M l -> N.of_nat (length l) <= M -> i_size _ _ t = N.of_nat (length l) ->
  forall l2 l1 fuel, l = l1 ++ l2 -> (length l2 < fuel)%nat -> i_walk K V fuel t (N.of_nat (length l1)) = Ok l2.
Proof.
  intros HS HM Hz. induction l2 as [|e l2 IH]; intros l1 fuel E Hf; (destruct fuel as [|fuel]; [lia|]); cbn [i_walk].
  - rewrite Hz, E, app_nil_r, N.eqb_refl. reflexivity.
  - destruct (N.eqb_spec (N.of_nat (length l1)) (i_size K V t)) as [H|_].
    { rewrite Hz, E, app_length in H. cbn [length] in H. lia. }
    unfold i_deref. rewrite HS.
    assert (G : geti (dense M l) (N.of_nat (length l1)) = Some (Some e)).
    { apply dense_geti. rewrite E. unfold geti. rewrite Nat2N.id, nth_error_app2, Nat.sub_diag by lia. reflexivity. }
    rewrite G. cbn [rbind]. specialize (IH (l1 ++ [e]) fuel). rewrite <- app_assoc, app_length in IH. cbn [app length] in *.
    replace (N.of_nat (length l1) + 1) with (N.of_nat (length l1 + 1)) by lia.
    rewrite IH; auto. lia.
Qed.

Lemma itraverse t : iinv t -> i_traverse K V t = Ok (icontent t).
Proof.
  intros I. unfold i_traverse. pose proof (iinv_size _ I) as HS. destruct I as [_ [E|[b F]]].
  - rewrite (icontent_emp _ E), (ie_size _ E), (ie_slots _ E). cbn. now rewrite (ie_size _ E).
  - pose proof (if_ib _ _ F) as X.
    replace (if i_size K V t =? 0 then i_size K V t else 0) with (N.of_nat (length (@nil (K * V)))).
    2:{ cbn. destruct (N.eqb_spec (i_size K V t) 0); auto. }
    apply (iwalk (mx b) (icontent t) t (ib_slots _ _ _ _ X) (ib_fit _ _ _ _ X) HS (icontent t) []); auto.
    pose proof (dense_length (mx b) (icontent t) (ib_fit _ _ _ _ X)) as HL.
    rewrite <- (ib_slots _ _ _ _ X) in HL. pose proof (ib_fit _ _ _ _ X). lia.
Qed.

End Q.

(** ** Copying *)

(** The loop of unique_insert does not stop among empty controls: it runs off the end
    of the control array. *)
Lemma scan64_leaves n : forall fuel i d, d < 256 -> (0 < fuel)%nat -> N.of_nat n < N.of_nat fuel + i ->
  i_scan64 fuel (repeat iEmpty n) i d = Err EUndef.
Proof.
  induction fuel as [|fuel IH]; intros i d Hd H0 Hf; [lia|]. cbn [i_scan64].
  destruct (geti (repeat iEmpty n) i) as [c|] eqn:Ec; [|reflexivity].
  pose proof (geti_Some_lt _ _ _ Ec) as Hi. rewrite repeat_length in Hi.
  apply geti_In, repeat_spec in Ec. subst c.
  assert (E1 : value64 (mkC d 0 0) = Z.of_N (d * 256)).
  { unfold value64. cbn [c_dist c_hash c_idx]. rewrite N.mul_0_l, N.add_0_l, N.add_0_r.
    destruct (N.ltb_spec (d * 256) (2 ^ 63)); [reflexivity|lia]. }
  rewrite E1. change (value64 iEmpty) with 65280%Z.
  destruct (Z.leb_spec (Z.of_N (d * 256)) 65280); [|lia].
  apply IH; [|lia|lia]. unfold inc8. apply N.mod_lt. discriminate.
Qed.

Lemma icreate_ctrls alloc (t t' : imap) cap u : i_create K V alloc t cap = Ret t' u ->
  exists n, C_ t' = repeat iEmpty n.
Proof.
  unfold i_create. destruct (alloc _); [|discriminate]. intros E. injection E as <- _. cbn. eauto.
Qed.

Lemma icopy_fails q alloc t : q = 1 \/ q = 2 -> iinv q t -> icontent t <> [] ->
  (exists t', i_copy K V hash alloc t = Throw t') \/ i_copy K V hash alloc t = Fail EUndef.
Proof.
  intros Hq I HN. unfold i_copy. rewrite (itraverse q Hq t I).
  pose proof (iinv_size q t I) as HS. pose proof (iinv_32 q Hq t I) as H32.
  assert (ER : i_min_require K V (inew K V) (i_size _ _ t) = 2 * i_size _ _ t).
  { unfold i_min_require, inew. icbn. unfold rDefaultRev. rewrite wmul_small by (unfold two64; lia). lia. }
  rewrite ER. destruct (icontent t) as [|kv l] eqn:EC; [contradiction|]. cbn [length] in HS, H32.
  destruct (N.eqb_spec (2 * i_size K V t) 0) as [E0|_]; [lia|].
  destruct (calc_capacity_spec (2 * i_size K V t) ltac:(lia)) as (b & Eb & _). rewrite Eb.
  destruct (i_create K V alloc (inew K V) (2 ^ b)) as [t0 u|t0|e] eqn:E; cbn [obind]; [|left; eauto|].
  2:{ unfold i_create in E. destruct (alloc _); discriminate. }
  destruct (icreate_ctrls _ _ _ _ _ E) as [n En]. rewrite En. right.
  rewrite scan64_leaves; [reflexivity|lia|lia|]. rewrite repeat_length. lia.
Qed.

Lemma icopy_empty alloc t : i_size _ _ t = 0 -> i_copy K V hash alloc t = Ret (inew K V) tt.
Proof.
  intros E. unfold i_copy. rewrite E. cbn [N.eqb].
  replace (i_min_require K V (inew K V) 0 =? 0) with true by reflexivity. cbn [obind].
  unfold i_traverse. rewrite E. cbn [N.eqb i_walk]. rewrite E. reflexivity.
Qed.

(** ** At most eleven entries *)

Lemma few_fine m : (length m <= 11)%nat -> i_fine K V hash 2 m.
Proof. intros H. split; [now apply few_spread|lia]. Qed.

(** ** Reachable maps *)

Lemma iinv_weaken (t : imap) : iinv 2 t -> iinv 1 t.
Proof.
  intros [(A & B & _) D]. split; [split; [exact A|split; [exact B|discriminate]]|].
  destruct D as [E|[b F]]; [now left|]. right. exists b.
  destruct F as [F1 F2 F3 F4]. split; auto; lia.
Qed.

Lemma iinv_move q t : iinv q t -> iinv q (fst (i_move K V t)).
Proof.
  intros [M D]. split; [exact M|]. destruct D as [E|[b F]].
  - left. destruct E. split; auto.
  - right. exists b. destruct F as [F1 F2 F3 F4]. split; auto.
    + destruct F1. split; auto.
    + unfold i_move. cbn [fst]. icbn. lia.
Qed.

Lemma iinv_swap q a t : iinv q t -> iinv q (fst (i_swap K V a t)).
Proof.
  intros [M D]. split; [exact M|]. destruct D as [E|[b F]].
  - left. destruct E. split; auto.
  - right. exists b. destruct F as [F1 F2 F3 F4]. split; auto.
    destruct F1. split; auto. unfold last_ok, i_swap, i_take. cbn [fst]. icbn.
    destruct (i_last K V a); exact I.
Qed.

Lemma ireach_inv q t m : q = 1 \/ q = 2 -> i_reach K V hash keq q t m ->
  iinv q t /\ Permutation m (icontent t).
Proof.
  intros Hq. induction 1 as [|t m alloc o t' r R [I P] HA HC HP E|t m R [I P]|t m t2 m2 R [I P] R2 [I2 P2]].
  - split; [now apply iinv_new|]. reflexivity.
  - assert (D : distinct_keys K V keq m).
    { eapply (distinct_perm hash keq LW); [symmetry; exact P|]. now apply (iinv_dist q). }
    destruct (spec_step_perm hash keq LW o m (icontent t) P D) as [P1 P2].
    assert (P3 : Permutation (fst (spec_step K V keq o m)) (order_step K V keq o (icontent t))).
    { rewrite P1. apply order_step_perm. now apply (iinv_dist q). }
    pose proof (istep q Hq alloc o t HA I HC (fine_perm q _ _ P3 HP)) as F. unfold ifollows in F.
    rewrite E in F. destruct F as (F1 & F2 & F3). split; auto. now rewrite F3.
  - split; [now apply iinv_move|]. exact P.
  - split; [now apply iinv_swap|]. exact P2.
Qed.

(** ** The theorems *)

Notation reach := (i_reach K V hash keq).

Lemma indirect_agrees q calls t m : q = 1 \/ q = 2 -> reach q t m ->
  Forall (fun c => sane (fst c)) calls ->
  i_agrees K V hash keq (i_fine K V hash q) q calls t m.
Proof.
  intros Hq R HS. destruct (ireach_inv q t m Hq R) as [I P]. eapply iagrees; eauto.
Qed.

Lemma indirect_few calls t m : reach 2 t m -> Forall (fun c => sane (fst c)) calls ->
  i_agrees K V hash keq (fun m => (length m <= 11)%nat) 2 calls t m.
Proof.
  intros R HS. destruct (ireach_inv 2 t m (or_intror eq_refl) R) as [I P].
  eapply (iagrees 2); eauto. intros m' _ H. now apply few_fine.
Qed.

Lemma indirect_observe q t m k : q = 1 \/ q = 2 -> reach q t m ->
  (exists l, i_traverse K V t = Ok l /\ Permutation m l) /\ i_size _ _ t = N.of_nat (length m)
  /\ i_contains K V hash keq t k = Ok (has K V keq k m).
Proof.
  intros Hq R. destruct (ireach_inv q t m Hq R) as [I P].
  split; [exists (icontent t); split; [now apply (itraverse q)|auto]|].
  split; [rewrite (Permutation_length P); now apply (iinv_size q)|].
  rewrite (icontains q Hq t k I). f_equal. symmetry. apply has_perm. exact P.
Qed.

Lemma indirect_find_present q t m k : q = 1 \/ q = 2 -> reach q t m -> has K V keq k m = true ->
  exists p e, i_find K V hash keq t k = Ok p /\ ptr_eq p (i_end K V t) = false
    /\ i_deref K V t p = Ok e /\ In e m /\ keq k (fst e) = true.
Proof.
  intros Hq R Hk. destruct (ireach_inv q t m Hq R) as [I P].
  rewrite (has_perm keq k _ _ P), has_get in Hk. destruct (get K V keq k (icontent t)) as [e|] eqn:EG; [|discriminate].
  destruct (ifind_present q Hq t k e I EG) as (n & E1 & E2 & E3).
  exists (ISlot n), e. split; auto. unfold i_find_obs in E3. rewrite E1 in E3. cbn [rbind] in E3.
  destruct (ptr_eq (ISlot n) (i_end K V t)); [discriminate|]. split; auto.
  destruct (i_deref K V t (ISlot n)) as [x|]; [|discriminate]. cbn [rbind] in E3. injection E3 as ->. split; auto.
  apply get_Some in EG. destruct EG as [G1 G2]. split; auto. eapply Permutation_in; [symmetry; exact P|exact G1].
Qed.

Lemma indirect_find_absent q t m k : q = 1 \/ q = 2 -> reach q t m -> i_alloc _ _ t = true ->
  has K V keq k m = false ->
  exists p, i_find K V hash keq t k = Ok p /\ ptr_eq p (i_end K V t) = false
    /\ i_deref K V t p = Err EUndef.
Proof.
  intros Hq R HA Hk. destruct (ireach_inv q t m Hq R) as [I P]. apply (ifind_absent q Hq); auto.
  now rewrite <- (has_perm keq k _ _ P).
Qed.

Lemma indirect_copy q alloc t m : q = 1 \/ q = 2 -> reach q t m -> m <> [] ->
  (exists t', i_copy K V hash alloc t = Throw t') \/ i_copy K V hash alloc t = Fail EUndef.
Proof.
  intros Hq R HN. destruct (ireach_inv q t m Hq R) as [I P]. apply (icopy_fails q); auto.
  intros E. rewrite E in P. apply Permutation_sym, Permutation_nil in P. contradiction.
Qed.

Lemma indirect_order q alloc o t m t' r l : q = 1 \/ q = 2 -> reach q t m -> sane alloc ->
  i_client K V hash keq q o t -> i_fine K V hash q (fst (spec_step K V keq o m)) ->
  i_step K V hash keq alloc o t = Ret t' r -> i_traverse K V t = Ok l ->
  i_traverse K V t' = Ok (order_step K V keq o l).
Proof.
  intros Hq R HA HC HP E T. destruct (ireach_inv q t m Hq R) as [I P].
  rewrite (itraverse q Hq t I) in T. injection T as <-.
  assert (D : distinct_keys K V keq m).
  { eapply (distinct_perm hash keq LW); [symmetry; exact P|]. now apply (iinv_dist q). }
  destruct (spec_step_perm hash keq LW o m (icontent t) P D) as [P1 P2].
  assert (P3 : Permutation (fst (spec_step K V keq o m)) (order_step K V keq o (icontent t))).
  { rewrite P1. apply order_step_perm. now apply (iinv_dist q). }
  pose proof (istep q Hq alloc o t HA I HC (fine_perm q _ _ P3 HP)) as F. unfold ifollows in F.
  rewrite E in F. destruct F as (F1 & F2 & F3). rewrite (itraverse q Hq t' F1). now rewrite F3.
Qed.

Lemma indirect_throw q alloc o t m t' : q = 1 \/ q = 2 -> reach q t m -> sane alloc ->
  i_client K V hash keq q o t -> i_fine K V hash q (fst (spec_step K V keq o m)) ->
  i_step K V hash keq alloc o t = Throw t' ->
  i_traverse K V t' = i_traverse K V t /\ i_size _ _ t' = i_size _ _ t
  /\ forall k, i_contains K V hash keq t' k = i_contains K V hash keq t k
       /\ i_find_obs K V hash keq t' k = i_find_obs K V hash keq t k.
Proof.
  intros Hq R HA HC HP E. destruct (ireach_inv q t m Hq R) as [I P].
  assert (D : distinct_keys K V keq m).
  { eapply (distinct_perm hash keq LW); [symmetry; exact P|]. now apply (iinv_dist q). }
  destruct (spec_step_perm hash keq LW o m (icontent t) P D) as [P1 P2].
  assert (P3 : Permutation (fst (spec_step K V keq o m)) (order_step K V keq o (icontent t))).
  { rewrite P1. apply order_step_perm. now apply (iinv_dist q). }
  pose proof (istep q Hq alloc o t HA I HC (fine_perm q _ _ P3 HP)) as F. unfold ifollows in F.
  rewrite E in F. destruct F as (F1 & F2 & F3 & F4 & F5 & F6).
  split; [|split; [exact F4|]].
  - unfold i_traverse. rewrite F2, F4. generalize (S (length (S_ t))), (if i_size K V t =? 0 then i_size K V t else 0).
    induction n as [|n IH]; intros x; [reflexivity|]. cbn [i_walk]. rewrite F4. unfold i_deref. rewrite F2.
    destruct (x =? i_size K V t); [reflexivity|]. destruct (geti (S_ t) x) as [[e|]|]; cbn [rbind]; auto. now rewrite IH.
  - intros k. unfold i_contains, i_find_obs, i_find, i_search, i_home, i_last_ptr, i_end, i_deref.
    now rewrite F1, F2, F3, F4, F5, F6.
Qed.

Lemma indirect_move q t m : q = 1 \/ q = 2 -> reach q t m ->
  i_traverse K V (fst (i_move K V t)) = i_traverse K V t
  /\ i_traverse K V (snd (i_move K V t)) = Ok [] /\ i_size _ _ (snd (i_move K V t)) = 0.
Proof.
  intros Hq R. destruct (ireach_inv q t m Hq R) as [I P].
  split; [|split; reflexivity].
  rewrite (itraverse q Hq _ (iinv_move q t I)), (itraverse q Hq t I). reflexivity.
Qed.

Lemma indirect_swap q t m t2 m2 : q = 1 \/ q = 2 -> reach q t m -> reach q t2 m2 ->
  i_traverse K V (fst (i_swap K V t t2)) = i_traverse K V t2
  /\ i_traverse K V (snd (i_swap K V t t2)) = i_traverse K V t.
Proof.
  intros Hq R R2. destruct (ireach_inv q t m Hq R) as [I P]. destruct (ireach_inv q t2 m2 Hq R2) as [I2 P2].
  change (snd (i_swap K V t t2)) with (fst (i_swap K V t2 t)).
  rewrite (itraverse q Hq _ (iinv_swap q t t2 I2)), (itraverse q Hq _ (iinv_swap q t2 t I)),
    (itraverse q Hq t I), (itraverse q Hq t2 I2). split; reflexivity.
Qed.

Lemma indirect_agrees_at q t m calls : q = 1 \/ q = 2 -> reach q t m ->
  Forall (fun c => sane (fst c)) calls ->
  i_agrees K V hash keq (i_fine K V hash q) q calls t m.
Proof. intros Hq R HS. now apply indirect_agrees. Qed.

Lemma indirect_few_at t m calls : reach 2 t m -> Forall (fun c => sane (fst c)) calls ->
  i_agrees K V hash keq (fun m => (length m <= 11)%nat) 2 calls t m.
Proof. intros R HS. now apply indirect_few. Qed.

Lemma indirect_move_agrees q t m calls : q = 1 \/ q = 2 -> reach q t m ->
  Forall (fun c => sane (fst c)) calls ->
  i_traverse K V (fst (i_move K V t)) = i_traverse K V t
  /\ i_traverse K V (snd (i_move K V t)) = Ok []
  /\ i_agrees K V hash keq (i_fine K V hash q) q calls (fst (i_move K V t)) m.
Proof.
  intros Hq R HS. destruct (indirect_move q t m Hq R) as (A & B & _). split; [exact A|]. split; [exact B|].
  apply indirect_agrees; auto. now constructor.
Qed.

Lemma indirect_swap_agrees q a ma b mb calls : q = 1 \/ q = 2 -> reach q a ma -> reach q b mb ->
  Forall (fun c => sane (fst c)) calls ->
  i_traverse K V (fst (i_swap K V a b)) = i_traverse K V b
  /\ i_traverse K V (snd (i_swap K V a b)) = i_traverse K V a
  /\ i_agrees K V hash keq (i_fine K V hash q) q calls (fst (i_swap K V a b)) mb
  /\ i_agrees K V hash keq (i_fine K V hash q) q calls (snd (i_swap K V a b)) ma.
Proof.
  intros Hq R R2 HS. destruct (indirect_swap q a ma b mb Hq R R2) as (A & B).
  split; [exact A|]. split; [exact B|]. split.
  - apply indirect_agrees; auto. eapply ireach_swap; eauto.
  - apply indirect_agrees; auto. change (snd (i_swap K V a b)) with (fst (i_swap K V b a)). eapply ireach_swap; eauto.
Qed.

End Refine.
