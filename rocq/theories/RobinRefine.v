(** The robin hood map: every call agrees with the abstract map. *)
From Coq Require Import NArith ZArith List Bool Lia Permutation.
From Coq Require Import ZifyBool ZifyNat ZifyN.
From Verif Require Import Base BaseFacts BitsModel BitsFacts GroupModel TableModel TableInv
  MapSpec MapFacts FallbackFacts ReachModel RobinModel RobinSpec RobinFacts RobinOps.
Import ListNotations.
Open Scope N_scope.
Ltac Zify.zify_post_hook ::= Z.div_mod_to_equations.

Section Refine.

Context {K V : Type} (hash : K -> N) (keq : K -> K -> bool) (LW : tame hash keq).

Notation slots := (list (option (K * V))).
Notation rmap := (rmap K V).
Notation C_ := (r_ctrls K V).
Notation S_ := (r_slots K V).
Notation spread := (spread K V hash).
Notation spread_all := (spread_all K V hash).
Notation content := (@content K V).

Lemma wsub1 x : 0 < x -> x < two64 -> wsub x 1 = x - 1.
Proof. intros. apply wsub_small; lia. Qed.

(** What a call that throws leaves as it was. *)
Definition kept (t t' : rmap) : Prop :=
  r_ctrls _ _ t' = r_ctrls _ _ t /\ r_slots _ _ t' = r_slots _ _ t /\ r_mask _ _ t' = r_mask _ _ t
  /\ r_size _ _ t' = r_size _ _ t.

Lemma rehash_kept (shrink always : bool) alloc t n t' :
  r_rehash_impl K V hash keq shrink always alloc t n = Throw t' -> kept t t'.
Proof.
  unfold r_rehash_impl. destruct (r_calc_capacity n) as [cap|]; [|discriminate].
  destruct (_ || _ || _); [|discriminate]. unfold r_create.
  destruct (alloc _); cbn [obind].
  - destruct (rbind _ _); discriminate.
  - intros E. injection E as <-. repeat split.
Qed.

Section Q.

Variable q : N.
Hypothesis Hq : q = 1 \/ q = 2.

Notation rinv := (rinv hash keq q).
Notation rfull := (rfull hash keq q).
Notation mlf_ok := (@mlf_ok K V q).

Definition stopped (t : rmap) (k : K) (i n : N) : Prop :=
  remp t \/ exists b, rfull b t /\ i = hm hash b k + n /\ n <= 127 /\ stopat (C_ t) (hm hash b k) n.

Lemma search_inv t (cmp : bool) k : rinv t ->
  (exists i kv b, cmp = true /\ r_search K V hash keq t cmp k = Ok (Found i) /\ rfull b t
     /\ geti (S_ t) i = Some (Some kv) /\ keq (fst kv) k = true)
  \/ (exists i n, r_search K V hash keq t cmp k = Ok (Stop i n) /\ stopped t k i n
     /\ (cmp = true -> fresh_key keq (content t) k)).
Proof.
  intros [_ [E|[b F]]].
  - right. exists 0, 0. unfold r_search, r_home. rewrite (re_mask _ E), N.land_0_r, (re_ctrls _ E).
    split; [reflexivity|]. split; [now left|]. intros _ e. rewrite (content_emp _ E). intros [].
  - destruct (search_spec hash keq LW b t cmp k (rf_rb _ _ _ _ _ F) (rf_spread _ _ _ _ _ F))
      as [(i & kv & A & B & D & G)|(n & A & B & D & G)].
    + left. exists i, kv, b. auto.
    + right. exists (hm hash b k + n), n. split; auto. split; auto. right. exists b. auto.
Qed.

Lemma maxd_gt b t : rfull b t -> 255 < r_max_distance K V t.
Proof. intros F. eapply rb_maxd. apply (rf_rb _ _ _ _ _ F). Qed.

(** The place for a new key, after growth if necessary. *)
Lemma prep_spec alloc t k v i n : sane alloc -> rinv t -> stopped t k i n ->
  fresh_key keq (content t) k -> spread_all q ((k, v) :: content t) ->
  let grow := r_need_grow K V t || (r_max_distance K V t <=? n) in
  (exists t', (if grow then r_grow K V hash keq alloc t else Ret t tt) = Throw t')
  \/ exists t1 n1 b, (if grow then r_grow K V hash keq alloc t else Ret t tt) = Ret t1 tt
       /\ (if grow then r_search K V hash keq t1 false k else Ok (Stop i n)) = Ok (Stop (hm hash b k + n1) n1)
       /\ n1 <= 127 /\ stopat (C_ t1) (hm hash b k) n1 /\ rfull b t1 /\ mlf_ok t1
       /\ Permutation (content t) (content t1) /\ q * (r_size _ _ t + 1) <= 2 ^ b
       /\ (grow = false -> t1 = t).
Proof.
  intros HA I HS HF HP. cbv zeta.
  destruct (r_need_grow K V t || (r_max_distance K V t <=? n)) eqn:EG.
  - destruct (grow_spec hash keq LW q Hq alloc t HA I) as [(t' & E)|(t1 & b & E & F & M & P & Hf)].
    + intros b Hb Hf. eapply spread_cons. apply (HP b Hb). cbn [length].
      rewrite (rinv_size _ _ _ _ I) in Hf. lia.
    + left. eauto.
    + right. rewrite E.
      destruct (search_spec hash keq LW b t1 false k (rf_rb _ _ _ _ _ F) (rf_spread _ _ _ _ _ F))
        as [(j & kv & A & _)|(n1 & A & B & D & _)]; [discriminate|].
      exists t1, n1, b. do 8 (split; [auto|]). discriminate.
  - right. apply orb_false_iff in EG. destruct EG as [EG1 EG2]. unfold r_need_grow in EG1.
    destruct HS as [E|(b & F & Ei & Hn & St)].
    + rewrite (re_thr _ E), (re_size _ E) in EG1. discriminate.
    + exists t, n, b. rewrite <- Ei. do 5 (split; [auto|]). split; [apply I|]. split; [auto|]. split; [|auto].
      pose proof (rf_thr _ _ _ _ _ F). apply N.leb_gt in EG1.
      etransitivity; [|eassumption]. apply N.mul_le_mono_l. lia.
Qed.

Lemma rfull_insert b t C' S' l :
  rfull b t -> rb hash keq b (r_with K V t C' S' (r_size _ _ t + 1)) ->
  Permutation l (elems S') -> spread (2 ^ b) l -> q * (r_size _ _ t + 1) <= 2 ^ b ->
  rfull b (r_with K V t C' S' (r_size _ _ t + 1)).
Proof.
  intros F X P HS Hf. split; auto.
  - rcbn. eapply spread_perm; eauto.
  - rcbn. apply (rf_thr _ _ _ _ _ F).
Qed.

Lemma rfull_size b t : rfull b t -> r_size _ _ t = N.of_nat (length (content t)).
Proof. intros F. apply (rb_size _ _ _ _ (rf_rb _ _ _ _ _ F)). Qed.

(** emplace_impl for an absent key. *)
Lemma emplace_new alloc (update : bool) t k v fuel : sane alloc -> rinv t ->
  fresh_key keq (content t) k -> spread_all q ((k, v) :: content t) ->
  (exists t', r_emplace K V hash keq (S fuel) alloc update k v t = Throw t' /\ kept t t')
  \/ exists t' i, r_emplace K V hash keq (S fuel) alloc update k v t = Ret t' (i, true)
       /\ rinv t' /\ Permutation ((k, v) :: content t) (content t')
       /\ geti (S_ t') i = Some (Some (k, v)).
Proof.
  intros HA I HF HP. cbn [r_emplace].
  destruct (search_inv t true k I) as [(i & kv & b & _ & A & F & B & D)|(i & n & A & St & _)].
  { exfalso. rewrite (HF kv) in D; [discriminate|]. apply In_elems. eauto. }
  rewrite A. cbv zeta.
  destruct (prep_spec alloc t k v i n HA I St HF HP) as [(t' & E)|(t1 & n1 & b & E1 & E2 & Hn & S1 & F & M & P & Hf & _)];
    cbv zeta in *.
  - left. exists t'. rewrite E. split; [reflexivity|].
    destruct (_ || _) in E; [|discriminate]. eapply rehash_kept. exact E.
  - right. rewrite E1. cbn [obind]. rewrite E2.
    assert (ES : r_size _ _ t1 = r_size _ _ t).
    { rewrite (rfull_size _ _ F), (rinv_size _ _ _ _ I). now rewrite (Permutation_length P). }
    assert (PC : Permutation ((k, v) :: content t) ((k, v) :: content t1)) by now constructor.
    assert (SP : spread (2 ^ b) ((k, v) :: content t1)).
    { eapply spread_perm; [exact PC|]. apply (HP b).
      - apply (rb_b _ _ _ _ (rf_rb _ _ _ _ _ F)).
      - cbn [length]. rewrite (rinv_size _ _ _ _ I) in Hf. lia. }
    destruct (insert_at_spec hash keq LW false b t1 n1 (k, v) (rf_rb _ _ _ _ _ F) SP)
      as (C' & S' & R1 & R2 & R3 & R4).
    + cbn [fst]. eapply fresh_perm; eauto.
    + auto.
    + auto.
    + cbv zeta in *. cbn [fst] in *. rewrite R1. eexists _, _. split; [reflexivity|].
      split; [|split].
      * split; [destruct M as (M1 & M2 & M3); unfold RobinOps.mlf_ok; rcbn; auto|].
        right. exists b. eapply rfull_insert; eauto. now rewrite ES.
      * rewrite PC. exact R3.
      * exact R4.
Qed.

(** emplace_impl for a key that is present. *)
Lemma emplace_old alloc (update : bool) t k v fuel kv : rinv t ->
  In kv (content t) -> keq k (fst kv) = true ->
  exists t' i, r_emplace K V hash keq (S fuel) alloc update k v t = Ret t' (i, false)
     /\ rinv t'
     /\ Permutation (if update then map (fun e => if keq k (fst e) then (fst e, v) else e) (content t)
                     else content t) (content t')
     /\ geti (S_ t') i = Some (Some (if update then (fst kv, v) else kv)).
Proof.
  intros I Hin Hk. cbn [r_emplace].
  destruct (search_inv t true k I) as [(i & kv' & b & _ & A & F & B & D)|(i & n & A & St & HF)].
  2:{ exfalso. specialize (HF eq_refl kv Hin). rewrite (keq_sym_eq hash keq LW) in HF. congruence. }
  rewrite A, B.
  assert (kv' = kv) as ->.
  { apply (distinct_uniq_In hash keq LW (content t)).
    - now apply (rinv_dist hash keq q).
    - apply In_elems. eauto.
    - auto.
    - eapply (tm_trans _ _ LW); eauto. }
  pose proof (rf_rb _ _ _ _ _ F) as X. pose proof (rb_cs _ _ _ _ X) as XC.
  destruct update; eexists _, i; (split; [reflexivity|]).
  2:{ auto. }
  pose proof (geti_Some_lt _ _ _ B) as Hi.
  destruct (geti_split _ _ _ B) as (sa & sb & ES & _ & EU).
  assert (EC : content t = elems sa ++ kv :: elems sb).
  { unfold RobinOps.content. rewrite ES, !elems_app. reflexivity. }
  assert (EN : elems (seti (S_ t) i (Some (fst kv, v))) = elems sa ++ (fst kv, v) :: elems sb).
  { rewrite EU, !elems_app. reflexivity. }
  assert (D0 : distinct_keys K V keq (elems sa ++ kv :: elems sb)).
  { rewrite <- EC. now apply (rinv_dist hash keq q). }
  assert (EM : map (fun e => if keq k (fst e) then (fst e, v) else e) (content t)
    = elems sa ++ (fst kv, v) :: elems sb).
  { rewrite EC, map_app. cbn [map]. rewrite Hk.
    assert (U : forall e, In e (elems sa ++ elems sb) -> keq k (fst e) = false).
    { assert (D1 : distinct_keys K V keq (kv :: elems sa ++ elems sb)).
      { eapply (distinct_perm hash keq LW); [|exact D0]. symmetry. apply Permutation_middle. }
      destruct D1 as [D1 _]. rewrite has_false in D1. intros e He. specialize (D1 e He).
      rewrite (keq_subst hash keq LW _ _ _ Hk). exact D1. }
    f_equal; [|f_equal]; rewrite <- map_id; apply map_ext_in; intros e He; rewrite U; auto;
      apply in_or_app; auto. }
  split; [|split].
  - split; [apply I|]. right. exists b. split.
    + destruct X. split; rcbn; auto.
      * split.
        { intros j c Hj Hc. destruct (cs_used _ _ _ _ _ XC _ _ Hj Hc) as (kv1 & E1 & E2).
          rewrite geti_seti by auto. destruct (N.eqb_spec j i) as [->|].
          - rewrite B in E1. injection E1 as <-. exists (fst kv, v). auto.
          - exists kv1. auto. }
        { intros j c Hj Hc. destruct (cs_free _ _ _ _ _ XC _ _ Hj Hc) as (G1 & G2 & G3). repeat (split; auto).
          intros Hm. rewrite geti_seti by auto. destruct (N.eqb_spec j i) as [->|]; auto.
          rewrite G3 in B by auto. discriminate. }
        { apply (cs_order _ _ _ _ _ XC). }
        { rewrite seti_len. apply (cs_len _ _ _ _ _ XC). }
        { apply (cs_clen _ _ _ _ _ XC). }
      * rewrite EN, rb_size. change (elems (S_ t)) with (content t). rewrite EC, !app_length. reflexivity.
      * rewrite EN, <- EM. apply (spec_step_distinct keq (OAssign K V k v) (content t)) in rb_dist.
        cbn [spec_step fst] in rb_dist. unfold put in rb_dist.
        replace (has K V keq k (content t)) with true in rb_dist; auto.
        symmetry. apply has_true. eauto.
    + rcbn. rewrite EN, <- EM. apply spread_rekey; [|apply (rf_spread _ _ _ _ _ F)].
      intros e. destruct (keq k (fst e)); auto.
    + rcbn. apply (rf_thr _ _ _ _ _ F).
    + rcbn. apply (rf_fill _ _ _ _ _ F).
  - unfold RobinOps.content at 2. rcbn. rewrite EN, EM. reflexivity.
  - rcbn. now apply geti_seti_eq.
Qed.

(** find_and_erase. *)
Lemma erase_spec t k : rinv t ->
  exists t', r_erase K V hash keq k t = Ret t' (count K V keq k (content t))
    /\ rinv t' /\ Permutation (remove K V keq k (content t)) (content t').
Proof.
  intros I. unfold r_erase, count.
  destruct (search_inv t true k I) as [(i & kv & b & _ & A & F & B & D)|(i & n & A & St & HF)]; rewrite A.
  - pose proof (rf_rb _ _ _ _ _ F) as X. pose proof (rb_cs _ _ _ _ X) as XC.
    pose proof (geti_Some_lt _ _ _ B) as Hi. pose proof (cs_len _ _ _ _ _ XC) as HL.
    rewrite (rb_max _ _ _ _ X). destruct (N.eqb_spec i (mx b)) as [->|_]; [lia|].
    unfold r_erase_slot. rewrite B.
    destruct (cs_live _ _ _ _ _ _ _ XC B) as (c & Hc & Hu & _).
    destruct (shift_spec hash b (mx b) (S (length (C_ t))) (C_ t) (seti (S_ t) i None) i c)
      as (C' & S' & R1 & R2 & R3 & R4).
    + eapply cs_hole; eauto.
    + lia.
    + lia.
    + rewrite R1. cbn [rbind].
      assert (HK : keq k (fst kv) = true) by now apply (tm_sym _ _ LW).
      assert (Hin : In kv (content t)) by (apply In_elems; eauto).
      assert (EH : has K V keq k (content t) = true) by (apply has_true; eauto).
      rewrite EH.
      pose proof (elems_seti_None _ _ _ B) as P1.
      assert (P2 : Permutation (content t) (kv :: elems S')).
      { rewrite R4. symmetry. symmetry in P1. first [exact P1 | symmetry; exact P1]. }
      assert (D1 : distinct_keys K V keq (kv :: elems S')).
      { eapply (distinct_perm hash keq LW); [exact P2|]. now apply (rinv_dist hash keq q). }
      assert (P3 : Permutation (remove K V keq k (content t)) (elems S')).
      { unfold remove. rewrite (filter_perm _ _ _ P2). cbn [filter]. rewrite HK. cbn [negb].
        destruct D1 as [D1 _]. rewrite has_false in D1.
        replace (filter _ (elems S')) with (elems S'); [reflexivity|].
        symmetry. clear - D1 HK LW. induction (elems S') as [|e l IH]; [reflexivity|].
        cbn [filter]. rewrite (keq_subst hash keq LW _ _ _ HK), (D1 e) by (left; auto). cbn [negb].
        f_equal. apply IH. intros e' He'. apply D1. now right. }
      assert (ES : wsub (r_size _ _ t) 1 = N.of_nat (length (elems S'))).
      { rewrite (rb_size _ _ _ _ X). change (elems (S_ t)) with (content t).
        rewrite (Permutation_length P2). cbn [length].
        pose proof (elems_length_le S'). pose proof (cs_len _ _ _ _ _ R2). pose proof (rb_big _ _ _ _ X).
        rewrite wsub_small; [lia|lia|unfold two64; lia]. }
      eexists. split; [reflexivity|]. split; [|exact P3].
      split; [apply I|]. right. exists b. split.
      * destruct X. split; rcbn; auto.
        { now rewrite R3. }
        { apply D1. }
      * rcbn. eapply spread_perm; [exact P3|]. apply spread_filter. apply (rf_spread _ _ _ _ _ F).
      * rcbn. apply (rf_thr _ _ _ _ _ F).
      * rcbn. rewrite ES. pose proof (rf_fill _ _ _ _ _ F) as G. rewrite (rfull_size _ _ F) in G.
        rewrite (Permutation_length P2) in G. cbn [length] in G. nia.
  - specialize (HF eq_refl). pose proof (proj1 (fresh_has hash keq LW _ _) HF) as EH. rewrite EH.
    exists t. split; auto. split; auto. unfold remove.
    replace (filter _ (content t)) with (content t); [reflexivity|].
    rewrite has_false in EH. symmetry. clear - EH. induction (content t) as [|e l IH]; [reflexivity|].
    cbn [filter]. rewrite (EH e) by (left; auto). cbn [negb]. f_equal. apply IH. intros e' He'. apply EH. now right.
Qed.

(** Lookups. *)
Lemma lookup_spec t k : rinv t -> r_alloc _ _ t = true ->
  r_find_obs K V hash keq t k = Ok (get K V keq k (content t)).
Proof.
  intros I HA. unfold r_find_obs, r_find.
  pose proof (rinv_dist hash keq q _ I) as HD.
  destruct (search_inv t true k I) as [(i & kv & b & _ & A & F & B & D)|(i & n & A & St & HF)]; rewrite A; cbn [rbind].
  - pose proof (rf_rb _ _ _ _ _ F) as X. pose proof (rb_cs _ _ _ _ X) as XC.
    pose proof (geti_Some_lt _ _ _ B) as Hi. rewrite (cs_len _ _ _ _ _ XC) in Hi.
    unfold r_end. rewrite (rb_max _ _ _ _ X). destruct (N.eqb_spec i (mx b)); [lia|].
    unfold r_deref. rewrite B. cbn [rbind]. do 2 f_equal. symmetry.
    apply (get_In hash keq LW); auto.
    + apply In_elems. eauto.
    + now apply (tm_sym _ _ LW).
  - destruct I as [_ [E|[b F]]]; [rewrite (re_alloc _ E) in HA; discriminate|].
    pose proof (rf_rb _ _ _ _ _ F) as X. rewrite (rb_last _ _ _ _ X). cbn [rbind].
    unfold r_end. rewrite (rb_max _ _ _ _ X), N.eqb_refl. f_equal.
    specialize (HF eq_refl). pose proof (proj1 (fresh_has hash keq LW _ _) HF) as EH.
    rewrite has_get in EH. destruct (get K V keq k (content t)); [discriminate|reflexivity].
Qed.

Lemma contains_spec t k : rinv t ->
  r_contains K V hash keq t k = Ok (has K V keq k (content t)).
Proof.
  intros I. unfold r_contains.
  destruct (search_inv t true k I) as [(i & kv & b & _ & A & F & B & D)|(i & n & A & St & HF)]; rewrite A; cbn [rbind].
  - f_equal. symmetry. apply has_true. exists kv. split; [apply In_elems; eauto|]. now apply (tm_sym _ _ LW).
  - f_equal. symmetry. apply (fresh_has hash keq LW). auto.
Qed.

(** clear. *)
Lemma clear_spec t (destroy : bool) : rinv t -> r_alloc _ _ t = true ->
  exists t', r_clear K V destroy t = Ret t' tt /\ rinv t' /\ content t' = [].
Proof.
  intros I HA. unfold r_clear.
  destruct I as [M [E|[b F]]]; [rewrite (re_alloc _ E) in HA; discriminate|].
  destruct (_ && destroy).
  - eexists. split; [reflexivity|]. split; [|reflexivity]. split.
    + destruct M as (M1 & M2 & M3). unfold RobinOps.mlf_ok, r_destroyed. rcbn. auto.
    + left. split; reflexivity.
  - unfold r_clear_data. rewrite HA. pose proof (rf_rb _ _ _ _ _ F) as X.
    rewrite (rb_gc _ _ _ _ X), (rb_clen _ _ _ _ X). cbn [andb].
    replace (_ <=? _) with true by (unfold rGroupWidth; lia).
    rewrite skipn_all2, app_nil_r by (pose proof (rb_clen _ _ _ _ X); unfold rGroupWidth; lia).
    eexists. split; [reflexivity|]. rewrite (rb_slot_capacity _ _ _ _ X), (rb_look _ _ _ _ X).
    pose proof (cs_len _ _ _ _ _ (rb_cs _ _ _ _ X)) as HL.
    destruct (fresh_ctrls_spec (K := K) (V := V) hash b (rb_big _ _ _ _ X) (rb_b _ _ _ _ X)) as [H1 H2].
    replace (N.to_nat (mx b)) with (length (S_ t)) in H2 by lia.
    split; [|unfold RobinOps.content; rcbn; apply elems_repeat_None].
    split; [apply M|]. right. exists b. split.
    + destruct X. split; rcbn; auto; rewrite elems_repeat_None; [reflexivity|exact I].
    + rcbn. rewrite elems_repeat_None. apply spread_nil.
    + rcbn. apply (rf_thr _ _ _ _ _ F).
    + rcbn. lia.
Qed.

(** rehash and its callers. *)
Lemma size_bound (t : rmap) : rinv t -> r_size _ _ t <= 2 ^ 54.
Proof.
  intros I. destruct I as [M [E|[b F]]].
  - rewrite (re_size _ E). lia.
  - pose proof (rf_fill _ _ _ _ _ F). pose proof (rf_rb _ _ _ _ _ F) as X.
    pose proof (b_small b (rb_big _ _ _ _ X)) as Hb. pose proof (pow2_le b 54 Hb). nia.
Qed.

Lemma resize_spec alloc t n : sane alloc -> rinv t -> n <= 2 ^ 63 ->
  spread_all q (content t) -> q * r_size _ _ t <= n ->
  resized hash keq q t (r_rehash_impl K V hash keq true false alloc t n).
Proof.
  intros HA I Hn HP Hf. pose proof (size_bound t I).
  apply (rehash_spec hash keq LW q Hq true false); auto.
  - destruct Hq; nia.
  - intros b Hb Hnb. split; [|lia]. apply HP; auto. rewrite <- (rinv_size _ _ _ _ I). lia.
Qed.

Lemma min_require_ge (t : rmap) n : mlf_ok t -> n <= 2 ^ 54 ->
  q * n <= r_min_require K V t n /\ n <= r_min_require K V t n /\ r_min_require K V t n <= 2 ^ 56.
Proof.
  intros (A & B & D) Hn. unfold r_min_require. rewrite wmul_small by (unfold two64; nia).
  destruct Hq as [E|E].
  - rewrite E. nia.
  - destruct (D E) as [_ E2]. rewrite E2, E. lia.
Qed.

Lemma rehash_to_spec alloc t n : sane alloc -> rinv t -> n <= 2 ^ 54 ->
  (q = 1 \/ r_size _ _ t <= n) -> spread_all q (content t) ->
  resized hash keq q t (r_rehash K V hash keq alloc n t).
Proof.
  intros HA I Hn Hc HP. unfold r_rehash. pose proof (size_bound t I).
  destruct (min_require_ge t n (proj1 I) Hn) as (G1 & G2 & G3).
  apply resize_spec; auto.
  - lia.
  - destruct Hc as [E|Hc]; nia.
Qed.

Lemma shrink_spec alloc t (ro : bool) : sane alloc -> rinv t -> (q = 1 \/ ro = false) ->
  spread_all q (content t) -> resized hash keq q t (r_shrink K V hash keq alloc ro t).
Proof.
  intros HA I Hc HP. unfold r_shrink. pose proof (size_bound t I) as HB.
  destruct (min_require_ge t _ (proj1 I) HB) as (G1 & G2 & G3).
  assert (G : q * r_size _ _ t <= (if ro then r_size _ _ t else r_min_require K V t (r_size _ _ t))
    /\ (if ro then r_size _ _ t else r_min_require K V t (r_size _ _ t)) <= 2 ^ 63).
  { destruct ro; [|lia]. destruct Hc as [->|]; [lia|discriminate]. }
  apply resize_spec; auto; apply G.
Qed.

Lemma clamp_ok m : let '(mlf, rev) := r_clamp m in 77 <= mlf <= 154 /\ 427 <= rev <= 854.
Proof.
  unfold r_clamp. destruct (N.ltb_spec m 77); [lia|]. destruct (N.ltb_spec 153 m); [lia|].
  split; [lia|]. split.
  - apply N.div_le_lower_bound; lia.
  - assert ((65536 + m - 1) / m < 855); [|lia]. apply N.div_lt_upper_bound; lia.
Qed.

Lemma mlf_spec alloc t m : sane alloc -> rinv t -> q = 1 ->
  spread_all q (content t) -> resized hash keq q t (r_set_mlf K V hash keq alloc m t).
Proof.
  intros HA I E1 HP. unfold r_set_mlf. pose proof (clamp_ok m) as HC.
  destruct (r_clamp m) as [mlf rev]. cbv zeta.
  set (t' := mkR _ _ _ _ _ _ _ _ _ _ _ _).
  assert (I' : rinv t').
  { destruct I as [M [E|[b F]]]; (split; [split; [apply HC|split; [apply HC|rewrite E1; discriminate]]|]).
    - left. destruct E. split; auto.
    - right. exists b. destruct F as [X F1 F2 F3]. split; auto. destruct X. split; auto. }
  change (content t) with (content t').
  destruct (_ && _).
  - pose proof (rehash_to_spec alloc t' (r_size _ _ t') HA I') as H.
    apply H; auto. apply size_bound; auto.
  - right. exists t'. auto.
Qed.

(** ** One call *)

Definition follows (o : op K V) (t : rmap) (r : out rmap (obs K V)) : Prop :=
  match r with
  | Ret t' x => rinv t' /\ x = snd (spec_step K V keq o (content t))
      /\ Permutation (fst (spec_step K V keq o (content t))) (content t')
  | Throw _ => True
  | Fail _ => False
  end.

Lemma resized_follows o t r : resized hash keq q t r ->
  spec_step K V keq o (content t) = (content t, RUnit K V) -> follows o t (r_unit K V r).
Proof.
  intros [(t' & ->)|(t' & -> & I & P)] E; cbn [r_unit obind follows]; auto. rewrite E. cbn. auto.
Qed.

Lemma step_spec alloc o t : sane alloc -> rinv t -> r_client K V q o t ->
  spread_all q (fst (spec_step K V keq o (content t))) ->
  follows o t (r_step K V hash keq alloc o t).
Proof.
  intros HA I HC HP. pose proof (rinv_dist hash keq q _ I) as HD.
  assert (INS : forall (update : bool) k v,
    spread_all q (if update then put K V keq k v (content t) else put_new K V keq k v (content t)) ->
    match r_ins K V (r_emplace K V hash keq 64 alloc update k v t) with
    | Ret t' x => rinv t'
        /\ x = RIns K V (if update then (fst (the K V keq k v (content t)), v) else the K V keq k v (content t))
                    (negb (has K V keq k (content t)))
        /\ Permutation (if update then put K V keq k v (content t) else put_new K V keq k v (content t)) (content t')
    | Throw _ => True
    | Fail _ => False
    end).
  { intros update k v HP'. unfold the, put, put_new in *. rewrite has_get in HP'. rewrite has_get.
    destruct (get K V keq k (content t)) as [e|] eqn:EG.
    - apply get_Some in EG. destruct EG as [Hin Hk].
      destruct (emplace_old alloc update t k v 63 e I Hin Hk) as (t' & i & R1 & R2 & R3 & R4).
      change (S 63) with 64%nat in R1. rewrite R1. unfold r_ins. cbn [obind]. unfold r_deref. rewrite R4.
      cbn [r_lift]. destruct update; auto.
    - assert (HF : fresh_key keq (content t) k).
      { apply (fresh_has hash keq LW). rewrite has_get, EG. reflexivity. }
      destruct (emplace_new alloc update t k v 63 HA I HF) as [(t' & R & _)|(t' & i & R1 & R2 & R3 & R4)].
      + destruct update; exact HP'.
      + change (S 63) with 64%nat in R. rewrite R. exact Logic.I.
      + change (S 63) with 64%nat in R1. rewrite R1. unfold r_ins. cbn [obind]. unfold r_deref. rewrite R4.
        cbn [r_lift]. destruct update; auto. }
  destruct o; cbn [r_step]; cbn [spec_step fst snd] in HP.
  - apply (INS false k v HP).
  - apply (INS true k v HP).
  - destruct (erase_spec t k I) as (t' & R1 & R2 & R3). rewrite R1. cbn. auto.
  - cbn in HC. rewrite (lookup_spec t k I HC). cbn. auto.
  - rewrite (contains_spec t k I). cbn. auto.
  - cbn. rewrite (rinv_size _ _ _ _ I). auto.
  - cbn in HC. destruct (clear_spec t need_destroy I HC) as (t' & R1 & R2 & R3). rewrite R1. cbn. rewrite R3. auto.
  - cbn in HC. apply resized_follows; auto. apply rehash_to_spec; auto. lia. apply HC.
  - cbn in HC. apply resized_follows; auto. apply rehash_to_spec; auto. lia. apply HC.
  - cbn in HC. apply resized_follows; auto. apply shrink_spec; auto.
  - cbn in HC. apply resized_follows; auto. apply mlf_spec; auto.
Qed.

Lemma spread_all_perm l l' : Permutation l l' -> spread_all q l -> spread_all q l'.
Proof.
  intros P H b Hb Hf. eapply spread_perm; [exact P|]. apply H; auto. now rewrite (Permutation_length P).
Qed.

Lemma agrees_spec (fine : list (K * V) -> Prop) calls :
  (forall m, distinct_keys K V keq m -> fine m -> spread_all q m) ->
  Forall (fun c => sane (fst c)) calls -> forall t m, rinv t -> Permutation m (content t) ->
  r_agrees K V hash keq fine q calls t m.
Proof.
  intros HFine. induction calls as [|[alloc o] rest IH]; intros HS t m I P; [exact Logic.I|].
  inversion HS as [|? ? HS1 HS2]; subst. cbn [r_agrees].
  destruct (spec_step K V keq o m) as [m' r'] eqn:E. intros HC HP.
  assert (D : distinct_keys K V keq m).
  { eapply (distinct_perm hash keq LW); [symmetry; exact P|]. now apply (rinv_dist hash keq q). }
  destruct (spec_step_perm hash keq LW o m (content t) P D) as [P1 P2]. rewrite E in P1, P2. cbn [fst snd] in *.
  assert (D' : distinct_keys K V keq m').
  { pose proof (spec_step_distinct keq o m D) as H. now rewrite E in H. }
  pose proof (step_spec alloc o t HS1 I HC (spread_all_perm _ _ P1 (HFine _ D' HP))) as F. unfold follows in F.
  destruct (r_step K V hash keq alloc o t) as [t' x|t'|e]; auto.
  destruct F as (F1 & F2 & F3). split; [congruence|]. apply IH; auto. now rewrite P1.
Qed.

Lemma rinv_new : rinv (rnew K V).
Proof.
  split.
  - unfold RobinOps.mlf_ok, rnew. rcbn. unfold rDefaultMlf, rDefaultRev. lia.
  - left. split; reflexivity.
Qed.

(** ** Iteration *)

Lemma first_used_spec b t : rb hash keq b t -> forall len a,
  (a + len <= length (C_ t))%nat -> mx b <= N.of_nat (a + len) ->
  (r_first_used (C_ t) (map N.of_nat (seq a len)) = Ok None /\ elems (skipn a (S_ t)) = [])
  \/ exists j, r_first_used (C_ t) (map N.of_nat (seq a len)) = Ok (Some (N.of_nat j))
       /\ elems (skipn a (S_ t)) = elems (skipn j (S_ t))
       /\ exists kv, geti (S_ t) (N.of_nat j) = Some (Some kv).
Proof.
  intros X. pose proof (rb_cs _ _ _ _ X) as XC. pose proof (cs_len _ _ _ _ _ XC) as HSL.
  induction len as [|len IH]; intros a H1 H2; cbn [seq map r_first_used].
  - left. rewrite skipn_all2 by lia. auto.
  - destruct (geti_lt (C_ t) (N.of_nat a)) as [c Hc]; [lia|]. rewrite Hc.
    destruct (N.ltb_spec c 128) as [Hu|Hge].
    + right. destruct (cs_used _ _ _ _ _ XC _ _ Hc Hu) as (kv & E & _). exists a. eauto.
    + assert (EE : elems (skipn a (S_ t)) = elems (skipn (S a) (S_ t))).
      { destruct (N.lt_ge_cases (N.of_nat a) (mx b)) as [Hlt|Hge2].
        - destruct (cs_free _ _ _ _ _ XC _ _ Hc Hge) as (_ & _ & F). specialize (F Hlt).
          unfold geti in F. rewrite Nat2N.id in F. now rewrite (geti_skipn _ _ _ F).
        - rewrite !skipn_all2 by lia. reflexivity. }
      rewrite EE. apply IH; lia.
Qed.

Lemma next_spec b t : rb hash keq b t -> forall fuel i, i < mx b ->
  mx b <= N.of_nat fuel + i ->
  exists j, r_next fuel (C_ t) (mx b) i = Ok j /\ i < j
    /\ elems (skipn (N.to_nat (i + 1)) (S_ t)) = elems (skipn (N.to_nat j) (S_ t))
    /\ (j = mx b \/ exists kv, geti (S_ t) j = Some (Some kv)).
Proof.
  intros X. pose proof (rb_cs _ _ _ _ X) as XC. pose proof (cs_len _ _ _ _ _ XC) as HSL.
  pose proof (cs_clen _ _ _ _ _ XC) as HCL.
  induction fuel as [|fuel IH]; intros i Hi Hf; [lia|]. cbn [r_next].
  destruct (geti_lt (C_ t) (i + 1)) as [c Hc]; [lia|]. rewrite Hc.
  destruct (N.eqb_spec c cEmpty) as [->|Hne]; cbn [andb].
  - destruct (N.ltb_spec (i + 1) (mx b)) as [Hlt|Hge].
    + destruct (IH (i + 1) Hlt ltac:(lia)) as (j & R1 & R2 & R3 & R4).
      exists j. split; auto. split; [lia|]. split; auto. rewrite <- R3.
      destruct (cs_free _ _ _ _ _ XC _ _ Hc ltac:(unfold cEmpty; lia)) as (_ & _ & F). specialize (F Hlt).
      unfold geti in F. rewrite (geti_skipn _ _ _ F). cbn.
      now replace (N.to_nat (i + 1 + 1)) with (S (N.to_nat (i + 1))) by lia.
    + exists (i + 1). split; auto. split; [lia|]. split; auto. left. lia.
  - exists (i + 1). split; auto. split; [lia|]. split; auto.
    destruct (N.lt_ge_cases (i + 1) (mx b)) as [Hlt|Hge]; [|left; lia].
    right. destruct (N.lt_ge_cases c 128) as [Hu|Hu].
    + destruct (cs_used _ _ _ _ _ XC _ _ Hc Hu) as (kv & E & _). eauto.
    + destruct (cs_free _ _ _ _ _ XC _ _ Hc Hu) as (_ & [A|A] & _); [contradiction|lia].
Qed.

Lemma walk_spec b t : rb hash keq b t -> forall fuel j,
  (j = mx b \/ exists kv, geti (S_ t) j = Some (Some kv)) -> mx b < N.of_nat fuel + j ->
  r_walk K V fuel t j = Ok (elems (skipn (N.to_nat j) (S_ t))).
Proof.
  intros X. pose proof (rb_cs _ _ _ _ X) as XC. pose proof (cs_len _ _ _ _ _ XC) as HSL.
  pose proof (cs_clen _ _ _ _ _ XC) as HCL.
  induction fuel as [|fuel IH]; intros j Hj Hf.
  { destruct Hj as [->|[kv E]]; [lia|]. apply geti_Some_lt in E. lia. }
  cbn [r_walk]. unfold r_end. rewrite (rb_max _ _ _ _ X).
  destruct (N.eqb_spec j (mx b)) as [->|Hne].
  - rewrite skipn_all2 by lia. reflexivity.
  - destruct Hj as [|[kv E]]; [contradiction|]. pose proof (geti_Some_lt _ _ _ E) as Hj.
    unfold r_deref. rewrite E. cbn [rbind].
    destruct (next_spec b t X (S (length (C_ t))) j) as (j' & R1 & R2 & R3 & R4); [lia|lia|].
    rewrite R1. cbn [rbind]. rewrite (IH j' R4) by lia. cbn [rbind]. f_equal.
    unfold geti in E. rewrite (geti_skipn _ _ _ E). cbn [elems flat_map opt_list app]. f_equal.
    change (flat_map opt_list ?x) with (elems x). rewrite <- R3.
    now replace (N.to_nat (j + 1)) with (S (N.to_nat j)) by lia.
Qed.

Lemma traverse_spec t : rinv t -> r_traverse K V t = Ok (content t).
Proof.
  intros [_ [E|[b F]]].
  - rewrite (content_emp _ E). destruct t as [a c s l n m lk th ml rv]. destruct E. cbn in *. subst. reflexivity.
  - pose proof (rf_rb _ _ _ _ _ F) as X. unfold r_traverse, r_begin.
    rewrite (rb_gc _ _ _ _ X). pose proof (rb_clen _ _ _ _ X) as HC.
    pose proof (rb_cs _ _ _ _ X) as XC. pose proof (cs_clen _ _ _ _ _ XC) as HCL.
    unfold seqN, rGroupWidth.
    destruct (first_used_spec b t X (N.to_nat (gcount b * 32)) 0) as [[R1 R2]|(j & R1 & R2 & kv & E)].
    + lia.
    + unfold gcount. lia.
    + rewrite R1. cbn [rbind]. unfold r_end. rewrite (rb_max _ _ _ _ X).
      rewrite (walk_spec b t X); [|now left|lia]. f_equal. unfold RobinOps.content.
      cbn [skipn] in R2. rewrite R2. rewrite skipn_all2; [reflexivity|].
      pose proof (cs_len _ _ _ _ _ XC). lia.
    + rewrite R1. cbn [rbind]. rewrite (walk_spec b t X).
      * rewrite Nat2N.id. f_equal. symmetry. exact R2.
      * right. eauto.
      * lia.
Qed.

End Q.

(** ** Copying *)

Lemma two_q : 2 = 1 \/ 2 = 2.
Proof. auto. Qed.

Lemma unique_all_spec alloc b l : forall t, rfull hash keq 2 b t -> mlf_ok 2 t ->
  N.of_nat (length l) + r_size _ _ t <= r_thr _ _ t ->
  spread (2 ^ b) (l ++ content t) -> distinct_keys K V keq (l ++ content t) ->
  exists t', r_unique_insert_all K V hash keq alloc l t = Ret t' tt /\ rfull hash keq 2 b t'
    /\ mlf_ok 2 t' /\ Permutation (l ++ content t) (content t').
Proof.
  induction l as [|kv l IH]; intros t F M HL HS HD; cbn [app r_unique_insert_all length] in *.
  - exists t. auto.
  - destruct HD as [HD1 HD2]. cbn [r_unique_insert].
    assert (PM : Permutation (kv :: l ++ content t) (l ++ kv :: content t)) by apply Permutation_middle.
    assert (SP : spread (2 ^ b) (kv :: content t)).
    { eapply spread_tail with (l := l). eapply spread_perm; [exact PM|exact HS]. }
    assert (FK : fresh_key keq (content t) (fst kv)).
    { apply (fresh_has hash keq LW). rewrite has_false in *. intros e He. apply HD1. apply in_or_app. auto. }
    pose proof (rf_rb _ _ _ _ _ F) as X.
    destruct (search_spec hash keq LW b t false (fst kv) X (rf_spread _ _ _ _ _ F))
      as [(i & kv' & A & _)|(n & A & B & D & _)]; [discriminate|].
    change (r_unique_insert K V hash keq 64 alloc kv t) with
      (r_unique_insert K V hash keq (S 63) alloc kv t). cbn [r_unique_insert].
    rewrite A. cbv zeta.
    assert (G1 : r_need_grow K V t = false).
    { unfold r_need_grow. apply N.leb_gt. lia. }
    assert (G2 : (r_max_distance K V t <=? n) = false).
    { apply N.leb_gt. pose proof (maxd_gt 2 b t F). lia. }
    rewrite G1, G2. cbn [orb obind]. rewrite (rb_home _ _ _ _ _ X). unfold slot_plus. rewrite s8_used by lia.
    destruct (Z.ltb_spec (Z.of_N (hm hash b (fst kv)) + Z.of_N n) 0); [lia|]. cbn [rbind].
    replace (Z.to_N (Z.of_N (hm hash b (fst kv)) + Z.of_N n)) with (hm hash b (fst kv) + n) by lia.
    destruct (insert_at_spec hash keq LW false b t n kv X SP FK B D) as (C' & S' & R1 & R2 & R3 & _).
    cbv zeta in R1. rewrite R1. cbn [obind].
    assert (P2 : Permutation (kv :: l ++ content t) (l ++ elems S')).
    { rewrite PM. now apply Permutation_app_head. }
    destruct (IH (r_with K V t C' S' (r_size _ _ t + 1))) as (t' & A1 & A2 & A3 & A4).
    + eapply (rfull_insert 2); eauto. pose proof (rf_thr _ _ _ _ _ F). lia.
    + destruct M as (M1 & M2 & M3). unfold mlf_ok. rcbn. auto.
    + rcbn. lia.
    + unfold content. rcbn. eapply spread_perm; [exact P2|exact HS].
    + unfold content. rcbn. eapply (distinct_perm hash keq LW); [exact P2|]. cbn. auto.
    + exists t'. split; [exact A1|]. split; auto. split; auto. rewrite P2. exact A4.
Qed.

Lemma copy_spec q alloc t : sane alloc -> rinv hash keq q t -> q = 1 \/ q = 2 ->
  spread_all 2 (content t) ->
  (exists t', r_copy K V hash keq alloc t = Throw t')
  \/ exists t', r_copy K V hash keq alloc t = Ret t' tt /\ rinv hash keq 2 t'
       /\ Permutation (content t) (content t').
Proof.
  intros HA I Hq HP. unfold r_copy, r_reserve_for_insert.
  rewrite (traverse_spec q Hq t I). pose proof (size_bound q Hq t I) as HB.
  assert (ER : r_min_require K V (rnew K V) (r_size _ _ t) = 2 * r_size _ _ t).
  { unfold r_min_require, rnew. rcbn. unfold rDefaultRev. rewrite wmul_small by (unfold two64; lia). lia. }
  rewrite ER. pose proof (rinv_size hash keq q t I) as ES.
  destruct (N.eqb_spec (2 * r_size K V t) 0) as [E0|Hne].
  - cbn [obind]. assert (E : content t = []) by (destruct (content t); [auto|cbn in ES; lia]).
    rewrite E. right. exists (rnew K V). split; [reflexivity|]. split; [now apply rinv_new, two_q|reflexivity].
  - destruct (calc_capacity_spec (2 * r_size K V t) ltac:(lia)) as (b & E & Hb & Hnb & Hb63). rewrite E.
    destruct (create_spec (K := K) (V := V) hash keq alloc (rnew K V) b HA Hb Hb63)
      as [(t' & R)|(t0 & R & X & E0 & Em & Er & Et)]; rewrite R; cbn [obind]; [left; eauto|]. right.
    pose proof (b_small b (rb_big _ _ _ _ X)) as H54. pose proof (pow2_le b 54 H54).
    assert (Et2 : r_thr K V t0 = 2 ^ b / 2).
    { rewrite Et. unfold rnew. rcbn. unfold rDefaultMlf. rewrite wmul_small by (unfold two64; lia).
      replace (2 ^ b * 128 / 256) with (2 ^ b / 2) by lia. reflexivity. }
    assert (E00 : content t0 = []) by exact E0.
    destruct (unique_all_spec alloc b (content t) t0) as (t' & R1 & R2 & R3 & R4).
    + split; auto.
      * rewrite E0. apply spread_nil.
      * rewrite Et2. lia.
      * rewrite (rb_size _ _ _ _ X), E0. cbn. lia.
    + unfold mlf_ok. rewrite Em, Er. unfold rnew. rcbn. unfold rDefaultMlf, rDefaultRev. lia.
    + rewrite (rb_size _ _ _ _ X), E0, Et2, <- ES. cbn [length]. lia.
    + rewrite E00, app_nil_r. apply HP; auto. lia.
    + rewrite E00, app_nil_r. now apply (rinv_dist hash keq q).
    + exists t'. split; auto. rewrite E00, app_nil_r in R4. split; auto. split; auto. right. eauto.
Qed.

(** ** At most eleven entries *)

Lemma few_spread m : (length m <= 11)%nat -> spread_all 2 m.
Proof.
  intros Hm b Hb Hf a n Hn. unfold room. rewrite N.log2_pow2 by lia.
  assert (H1 : homes_in K V hash (2 ^ b) a n m <= N.of_nat (length m)).
  { unfold homes_in. clear. induction m as [|e m IH]; [reflexivity|]. cbn [filter length].
    destruct (_ && _); cbn [length]; lia. }
  destruct (N.lt_ge_cases b 5) as [Hlt|Hge].
  - assert (b = 2 \/ b = 3 \/ b = 4) as [-> |[-> | ->]] by lia.
    + change (2 ^ 2) with 4 in *. change (2 <? 16) with true. cbn iota. lia.
    + change (2 ^ 3) with 8 in *. change (3 <? 16) with true. cbn iota. lia.
    + change (2 ^ 4) with 16 in *. change (4 <? 16) with true. cbn iota. lia.
  - destruct (b <? 16); lia.
Qed.

(** ** Reachable maps *)

Lemma rinv_weaken (t : rmap) : rinv hash keq 2 t -> rinv hash keq 1 t.
Proof.
  intros [(A & B & _) D]. split; [split; [exact A|split; [exact B|discriminate]]|].
  destruct D as [E|[b F]]; [now left|]. right. exists b.
  destruct F as [F1 F2 F3 F4]. split; auto; lia.
Qed.

Lemma rinv_move q t : q = 1 \/ q = 2 -> rinv hash keq q t -> rinv hash keq q (fst (r_move K V t)).
Proof.
  intros Hq [M D]. split; [exact M|]. destruct D as [E|[b F]].
  - left. destruct E. split; auto.
  - right. exists b. destruct F as [F1 F2 F3 F4]. split; auto.
    + destruct F1. split; auto.
    + unfold r_move. cbn [fst]. rcbn. lia.
Qed.

Lemma reach_inv q t m : q = 1 \/ q = 2 -> r_reach K V hash keq q t m ->
  rinv hash keq q t /\ Permutation m (content t).
Proof.
  intros Hq. induction 1 as [|t m alloc o t' r R [I P] HA HC HP E|t m alloc t' R [I P] HA HP E|t m R [I P]].
  - split; [now apply rinv_new|]. reflexivity.
  - assert (D : distinct_keys K V keq m).
    { eapply (distinct_perm hash keq LW); [symmetry; exact P|]. now apply (rinv_dist hash keq q). }
    destruct (spec_step_perm hash keq LW o m (content t) P D) as [P1 P2].
    pose proof (step_spec q Hq alloc o t HA I HC (spread_all_perm q _ _ P1 HP)) as F. unfold follows in F.
    rewrite E in F. destruct F as (F1 & F2 & F3). split; auto. now rewrite P1.
  - destruct (copy_spec q alloc t HA I Hq) as [(t1 & E1)|(t1 & E1 & I1 & P1)].
    + eapply (spread_all_perm 2); eauto.
    + congruence.
    + assert (t1 = t') as -> by congruence. split.
      * destruct Hq as [->| ->]; [now apply rinv_weaken|auto].
      * now rewrite P.
  - split; [now apply rinv_move|]. exact P.
Qed.

Theorem reach_agrees q t m calls : q = 1 \/ q = 2 -> r_reach K V hash keq q t m ->
  Forall (fun c => sane (fst c)) calls ->
  r_agrees K V hash keq (spread_all q) q calls t m.
Proof.
  intros Hq R HS. destruct (reach_inv q t m Hq R) as [I P]. apply (agrees_spec q Hq); auto.
Qed.

Theorem reach_traverse q t m : q = 1 \/ q = 2 -> r_reach K V hash keq q t m ->
  exists l, r_traverse K V t = Ok l /\ Permutation l m /\ r_size _ _ t = N.of_nat (length l)
    /\ distinct_keys K V keq l.
Proof.
  intros Hq R. destruct (reach_inv q t m Hq R) as [I P]. exists (content t).
  split; [now apply (traverse_spec q)|]. split; [now symmetry|]. split; [now apply (rinv_size hash keq q)|].
  now apply (rinv_dist hash keq q).
Qed.

Theorem reach_copy_total q t m alloc : q = 1 \/ q = 2 -> r_reach K V hash keq q t m -> sane alloc ->
  spread_all 2 m ->
  match r_copy K V hash keq alloc t with
  | Ret t' _ => exists l, r_traverse K V t' = Ok l /\ Permutation l m
  | Throw _ => True
  | Fail _ => False
  end.
Proof.
  intros Hq R HA HP. destruct (reach_inv q t m Hq R) as [I P].
  destruct (copy_spec q alloc t HA I Hq) as [(t1 & E1)|(t1 & E1 & I1 & P1)].
  - eapply (spread_all_perm 2); eauto.
  - now rewrite E1.
  - rewrite E1. exists (content t1). split; [now apply (traverse_spec 2 two_q)|]. rewrite <- P1. now symmetry.
Qed.

Theorem reach_load q t m : q = 1 \/ q = 2 -> r_reach K V hash keq q t m ->
  q * r_size _ _ t <= r_slot_capacity K V t
  /\ (r_alloc _ _ t = true -> exists b, r_slot_capacity K V t = 2 ^ b).
Proof.
  intros Hq R. destruct (reach_inv q t m Hq R) as [[M [E|[b F]]] P].
  - rewrite (re_size _ E). split; [lia|]. rewrite (re_alloc _ E). discriminate.
  - rewrite (rb_slot_capacity _ _ _ _ (rf_rb _ _ _ _ _ F)). split; [apply (rf_fill _ _ _ _ _ F)|eauto].
Qed.

(** A search visits at most [room] + 2 positions. *)
Lemma scan_fuel C S key : forall f f' i d r, (f <= f')%nat ->
  r_scan K V keq f C S key i d = Ok r -> r_scan K V keq f' C S key i d = Ok r.
Proof.
  induction f as [|f IH]; intros f' i d r Hf H; [discriminate|].
  destruct f' as [|f']; [lia|]. cbn [r_scan] in *.
  destruct (geti C i) as [c|]; [|discriminate]. destruct (s8 d <=? s8 c)%Z; auto.
  destruct key as [k|].
  - destruct (geti S i) as [[kv|]|]; try discriminate. destruct (keq (fst kv) k); auto.
    apply IH; auto. lia.
  - apply IH; auto. lia.
Qed.

Lemma scan_short b t (cmp : bool) k : rb hash keq b t -> spread (2 ^ b) (content t) ->
  forall f n, n <= room (2 ^ b) + 1 -> room (2 ^ b) + 2 <= N.of_nat f + n ->
  (forall e, r_scan K V keq f (C_ t) (S_ t) (if cmp then Some k else None) (hm hash b k + n) n = Err e ->
     e <> ELoop).
Proof.
  intros X HS f. induction f as [|f IH]; intros n Hn Hf e; [lia|].
  cbn [r_scan]. destruct (geti (C_ t) (hm hash b k + n)) as [c|] eqn:Hc; [|congruence].
  pose proof (room_le b (rb_b _ _ _ _ X)) as [_ HR].
  destruct (Z.leb_spec (s8 n) (s8 c)) as [Hle|]; [|discriminate].
  rewrite s8_used in Hle by lia.
  assert (Hu : c < 128).
  { destruct (N.lt_ge_cases c 128) as [|Hge]; auto.
    destruct (cs_free _ _ _ _ _ (rb_cs _ _ _ _ X) _ _ Hc Hge) as (G & _ & _).
    pose proof (s8_neg c Hge G). lia. }
  rewrite s8_used in Hle by lia.
  pose proof (cs_room hash keq b t c _ X HS Hc Hu) as HR2.
  rewrite inc8_small by lia.
  replace (hm hash b k + n + 1) with (hm hash b k + (n + 1)) by lia.
  destruct cmp.
  - destruct (geti (S_ t) _) as [[kv|]|]; try congruence. destruct (keq (fst kv) k); [discriminate|].
    apply IH; lia.
  - apply IH; lia.
Qed.

Theorem reach_probe q t m (cmp : bool) k : q = 1 \/ q = 2 -> r_reach K V hash keq q t m ->
  r_alloc _ _ t = true ->
  exists r, r_scan K V keq (N.to_nat (room (r_slot_capacity K V t) + 2)) (C_ t) (S_ t)
              (if cmp then Some k else None) (r_home K V hash t k) 0 = Ok r
         /\ r_search K V hash keq t cmp k = Ok r.
Proof.
  intros Hq R HA. destruct (reach_inv q t m Hq R) as [I P]. pose proof I as I0.
  destruct I as [M [E|[b F]]]; [rewrite (re_alloc _ E) in HA; discriminate|].
  pose proof (rf_rb _ _ _ _ _ F) as X. pose proof (rf_spread _ _ _ _ _ F) as HS.
  rewrite (rb_slot_capacity _ _ _ _ X), (rb_home _ _ _ _ _ X).
  set (f := N.to_nat (room (2 ^ b) + 2)).
  assert (EL : forall e, r_scan K V keq f (C_ t) (S_ t) (if cmp then Some k else None) (hm hash b k) 0 = Err e -> False).
  { intros e He. pose proof (scan_short b t cmp k X HS f 0 ltac:(lia) ltac:(lia) e) as G.
    rewrite N.add_0_r in G. specialize (G He).
    (* more fuel would give the same error *)
    assert (ER : forall f f' i d e, (f <= f')%nat -> e <> ELoop ->
      r_scan K V keq f (C_ t) (S_ t) (if cmp then Some k else None) i d = Err e ->
      r_scan K V keq f' (C_ t) (S_ t) (if cmp then Some k else None) i d = Err e).
    { clear. induction f as [|f IH]; intros f' i d e Hf Hne H; [cbn in H; congruence|].
      destruct f' as [|f']; [lia|]. cbn [r_scan] in *.
      destruct (geti (C_ t) i) as [c|]; [|auto]. destruct (s8 d <=? s8 c)%Z; auto.
      destruct cmp.
      - destruct (geti (S_ t) i) as [[kv|]|]; auto. destruct (keq (fst kv) k); auto.
        apply IH; auto. lia.
      - apply IH; auto. lia. }
    pose proof (search_inv q t cmp k I0) as SI. unfold r_search in SI. rewrite (rb_home _ _ _ _ _ X) in SI.
    apply (ER f (Nat.max f (S (length (C_ t))))) in He; [|lia|auto].
    destruct SI as [(i & kv & b' & _ & A & _)|(i & n & A & _)];
      apply (scan_fuel _ _ _ _ (Nat.max f (S (length (C_ t))))) in A; try lia; congruence. }
  destruct (r_scan K V keq f (C_ t) (S_ t) (if cmp then Some k else None) (hm hash b k) 0) as [r|e] eqn:ER;
    [|exfalso; eauto].
  exists r. split; [reflexivity|].
  pose proof (search_inv q t cmp k I0) as SI. unfold r_search in *. rewrite (rb_home _ _ _ _ _ X) in *.
  apply (scan_fuel _ _ _ _ (Nat.max f (S (length (C_ t))))) in ER; [|lia].
  destruct SI as [(i & kv & b' & _ & A & _)|(i & n & A & _)]; rewrite A;
      apply (scan_fuel _ _ _ _ (Nat.max f (S (length (C_ t))))) in A; try lia; congruence.
Qed.

(** Calls that throw. *)
Lemma unit_throw (r : out rmap unit) t' : r_unit K V r = Throw t' -> r = Throw t'.
Proof. destruct r; cbn; congruence. Qed.

Lemma lift_throw {A} t (f : A -> obs K V) r t' : r_lift K V t f r <> Throw t'.
Proof. destruct r; discriminate. Qed.

Lemma ins_throw (r : out rmap (N * bool)) t' : r_ins K V r = Throw t' -> r = Throw t'.
Proof.
  destruct r as [t [i b]|t|e]; cbn [r_ins obind]; try congruence. intros E. now apply lift_throw in E.
Qed.

Lemma step_kept q alloc o t t' : q = 1 \/ q = 2 -> sane alloc -> rinv hash keq q t ->
  spread_all q (fst (spec_step K V keq o (content t))) ->
  r_step K V hash keq alloc o t = Throw t' -> kept t t'.
Proof.
  intros Hq HA I HP.
  assert (INS : forall (update : bool) k v,
    spread_all q (if update then put K V keq k v (content t) else put_new K V keq k v (content t)) ->
    r_emplace K V hash keq 64 alloc update k v t = Throw t' -> kept t t').
  { intros update k v HP' E. change 64%nat with (S 63) in E.
    destruct (has K V keq k (content t)) eqn:EH.
    - apply has_true in EH. destruct EH as (e & Hin & Hk).
      destruct (emplace_old q alloc update t k v 63 e I Hin Hk) as (t1 & i & R & _). congruence.
    - unfold put, put_new in HP'. rewrite EH in HP'.
      destruct (emplace_new q Hq alloc update t k v 63 HA I) as [(t1 & R & R1)|(t1 & i & R & _)].
      + now apply (fresh_has hash keq LW).
      + destruct update; exact HP'.
      + assert (t1 = t') as <- by congruence. exact R1.
      + congruence. }
  destruct o; cbn [r_step]; cbn [spec_step fst] in HP; intros E.
  - apply ins_throw in E. now apply (INS false k v).
  - apply ins_throw in E. now apply (INS true k v).
  - destruct (erase_spec q Hq t k I) as (t1 & R & _). rewrite R in E. discriminate.
  - now apply lift_throw in E.
  - now apply lift_throw in E.
  - discriminate.
  - apply unit_throw in E. unfold r_clear in E. destruct (_ && _); [discriminate|].
    unfold r_clear_data in E. cbv zeta in E. destruct (_ && _) in E; discriminate.
  - apply unit_throw in E. eapply rehash_kept. exact E.
  - apply unit_throw in E. eapply rehash_kept. exact E.
  - apply unit_throw in E. eapply rehash_kept. exact E.
  - apply unit_throw in E. unfold r_set_mlf in E. destruct (r_clamp _) as [mlf rev]. cbv zeta in E.
    destruct (_ && _); [|discriminate]. apply rehash_kept in E. exact E.
Qed.

Theorem reach_throw_keeps q t m alloc o t' k : q = 1 \/ q = 2 -> r_reach K V hash keq q t m -> sane alloc ->
  r_client K V q o t -> spread_all q (fst (spec_step K V keq o m)) ->
  r_step K V hash keq alloc o t = Throw t' ->
  r_contains K V hash keq t' k = Ok (has K V keq k m) /\ r_size _ _ t' = r_size _ _ t
  /\ r_slots _ _ t' = r_slots _ _ t.
Proof.
  intros Hq R HA _ HP E. destruct (reach_inv q t m Hq R) as [I P].
  assert (D : distinct_keys K V keq m).
  { eapply (distinct_perm hash keq LW); [symmetry; exact P|]. now apply (rinv_dist hash keq q). }
  destruct (spec_step_perm hash keq LW o m (content t) P D) as [P1 _].
  destruct (step_kept q alloc o t t' Hq HA I (spread_all_perm q _ _ P1 HP) E) as (E1 & E2 & E3 & E4).
  split; [|auto].
  assert (EC : r_contains K V hash keq t' k = r_contains K V hash keq t k).
  { unfold r_contains, r_search, r_home. now rewrite E1, E2, E3. }
  rewrite EC, (contains_spec q t k I). f_equal. symmetry. now apply has_perm.
Qed.

Theorem reach_find_end q t m k : q = 1 \/ q = 2 -> r_reach K V hash keq q t m -> r_alloc _ _ t = true ->
  has K V keq k m = false <-> r_find K V hash keq t k = Ok (r_end K V t).
Proof.
  intros Hq R HA. destruct (reach_inv q t m Hq R) as [I P].
  rewrite (has_perm keq k _ _ P).
  pose proof (lookup_spec q Hq t k I HA) as L. unfold r_find_obs in L. rewrite has_get.
  destruct (r_find K V hash keq t k) as [i|e]; [|discriminate]. cbn [rbind] in L.
  destruct (N.eqb_spec i (r_end K V t)) as [Hi|Hne].
  - injection L as <-. rewrite Hi. split; auto.
  - destruct (r_deref K V t i) as [kv|]; [|discriminate]. cbn [rbind] in L. injection L as <-.
    split; [discriminate|]. intros E. injection E. congruence.
Qed.

Theorem reach_move_agrees q t m calls : q = 1 \/ q = 2 -> r_reach K V hash keq q t m ->
  Forall (fun c => sane (fst c)) calls ->
  (exists l, r_traverse K V (fst (r_move K V t)) = Ok l /\ Permutation l m)
  /\ r_agrees K V hash keq (spread_all q) q calls (fst (r_move K V t)) m.
Proof.
  intros Hq R HS. assert (R' : r_reach K V hash keq q (fst (r_move K V t)) m) by now constructor.
  split; [|now apply reach_agrees].
  destruct (reach_traverse q _ m Hq R') as (l & E & P & _). eauto.
Qed.

Theorem reach_clear q t m b : q = 1 \/ q = 2 -> r_reach K V hash keq q t m -> r_alloc _ _ t = true ->
  exists t', r_clear K V b t = Ret t' tt /\ r_traverse K V t' = Ok [] /\ r_size _ _ t' = 0
    /\ forall k, r_contains K V hash keq t' k = Ok false.
Proof.
  intros Hq R HA. destruct (reach_inv q t m Hq R) as [I P].
  destruct (clear_spec q Hq t b I HA) as (t' & E & I' & EC). exists t'. split; auto.
  rewrite (traverse_spec q Hq t' I'), (rinv_size hash keq q t' I'), EC. split; auto. split; auto.
  intros k. rewrite (contains_spec q t' k I'), EC. reflexivity.
Qed.

Theorem robin_agrees q calls : q = 1 \/ q = 2 -> Forall (fun c => sane (fst c)) calls ->
  r_agrees K V hash keq (spread_all q) q calls (rnew K V) [].
Proof.
  intros Hq HS. apply (agrees_spec q Hq); auto.
  - now apply rinv_new.
Qed.

Theorem robin_few calls : Forall (fun c => sane (fst c)) calls ->
  r_agrees K V hash keq (fun m => (length m <= 11)%nat) 2 calls (rnew K V) [].
Proof.
  intros HS. apply (agrees_spec 2 two_q); auto.
  - intros m _. apply few_spread.
  - apply rinv_new; auto.
Qed.

End Refine.

(** ** Swapping *)

Section Swap.

Context {K V : Type} (hash : K -> N) (keq : K -> K -> bool).

Lemma walk_take a b : forall fuel i, r_walk K V fuel (r_take K V a b) i = r_walk K V fuel b i.
Proof.
  induction fuel as [|fuel IH]; intros i; [reflexivity|]. cbn [r_walk].
  change (r_end K V (r_take K V a b)) with (r_end K V b). destruct (i =? r_end K V b); [reflexivity|].
  change (r_deref K V (r_take K V a b) i) with (r_deref K V b i).
  change (r_ctrls K V (r_take K V a b)) with (r_ctrls K V b).
  change (r_max_slot_capacity K V (r_take K V a b)) with (r_max_slot_capacity K V b).
  destruct (r_deref K V b i) as [kv|]; [|reflexivity]. cbn [rbind].
  destruct (r_next _ _ _ _) as [j|]; [|reflexivity]. cbn [rbind]. now rewrite IH.
Qed.

Lemma traverse_take a b : r_traverse K V (r_take K V a b) = r_traverse K V b.
Proof.
  unfold r_traverse. change (r_begin K V (r_take K V a b)) with (r_begin K V b).
  destruct (r_begin K V b) as [i|]; [|reflexivity]. cbn [rbind].
  change (r_ctrls K V (r_take K V a b)) with (r_ctrls K V b). apply walk_take.
Qed.

Theorem swap_swaps a b :
  r_traverse K V (fst (r_swap K V a b)) = r_traverse K V b
  /\ r_traverse K V (snd (r_swap K V a b)) = r_traverse K V a
  /\ (forall k, r_contains K V hash keq (fst (r_swap K V a b)) k = r_contains K V hash keq b k)
  /\ (forall k, r_contains K V hash keq (snd (r_swap K V a b)) k = r_contains K V hash keq a k)
  /\ r_size _ _ (fst (r_swap K V a b)) = r_size _ _ b
  /\ r_size _ _ (snd (r_swap K V a b)) = r_size _ _ a.
Proof.
  cbn [r_swap fst snd]. split; [apply traverse_take|]. split; [apply traverse_take|]. auto.
Qed.

End Swap.
