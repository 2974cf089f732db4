(** The lifetimes of LifeModel.v: while the keys are spread, every call does what
    RobinModel.v says. *)
From Coq Require Import NArith ZArith List Bool Lia Permutation.
From Coq Require Import ZifyBool ZifyNat ZifyN.
From Verif Require Import Base BaseFacts BitsModel BitsFacts GroupModel TableModel TableInv
  MapSpec MapFacts FallbackFacts ReachModel RobinModel RobinSpec RobinFacts RobinOps RobinRefine
  LifeModel LifeSpec LifeFacts.
Import ListNotations.
Open Scope N_scope.
Ltac Zify.zify_post_hook ::= Z.div_mod_to_equations.

Section Refine.

Context {K V : Type} (hash : K -> N) (keq : K -> K -> bool) (LW : lawful hash keq).
Context (tr : traits) (HO : owns_spare tr = false).

Notation rmap := (rmap K V).
Notation C_ := (r_ctrls K V).
Notation S_ := (r_slots K V).
Notation spread := (spread K V hash).
Notation spread_all := (spread_all K V hash).
Notation content := (@content K V).
Notation rb := (rb hash keq).

(** ** Insertions *)

Lemma insert_no_grow_l b t kv : rb b t ->
  spread (2 ^ b) (kv :: elems (S_ t)) -> fresh_key keq (elems (S_ t)) (fst kv) ->
  l_insert_no_grow K V hash keq tr t kv = r_insert_no_grow K V hash keq t kv.
Proof.
  intros X HS HF. unfold r_insert_no_grow, l_insert_no_grow.
  destruct (search_spec hash keq LW b t false (fst kv) X (spread_cons _ _ _ _ HS))
    as [(i & kv' & A & _)|(n & A & B & D & _)]; [discriminate|].
  rewrite A. cbn [rbind]. rewrite (rb_home _ _ _ _ _ X). unfold slot_plus. rewrite s8_used by lia.
  destruct (Z.ltb_spec (Z.of_N (hm hash b (fst kv)) + Z.of_N n) 0); [lia|]. cbn [rbind].
  replace (Z.to_N (Z.of_N (hm hash b (fst kv)) + Z.of_N n)) with (hm hash b (fst kv) + n) by lia.
  destruct (insert_at_spec hash keq LW false b t n kv X HS HF B D) as (C' & S' & R1 & _).
  cbv zeta in R1. destruct (insert_at_sim tr true _ _ _ _ _ _ HO R1) as [-> ->]. reflexivity.
Qed.

Lemma insert_all_l b l : forall t, rb b t ->
  spread (2 ^ b) (l ++ elems (S_ t)) -> distinct_keys K V keq (l ++ elems (S_ t)) ->
  l_insert_all K V hash keq tr l t = r_insert_all K V hash keq l t.
Proof.
  induction l as [|kv l IH]; intros t X HS HD; cbn [app r_insert_all l_insert_all] in *; [reflexivity|].
  destruct HD as [HD1 HD2].
  assert (PM : Permutation (kv :: l ++ elems (S_ t)) (l ++ kv :: elems (S_ t))) by apply Permutation_middle.
  assert (H1 : spread (2 ^ b) (kv :: elems (S_ t))).
  { eapply spread_tail with (l := l). eapply spread_perm; [exact PM|exact HS]. }
  assert (H2 : fresh_key keq (elems (S_ t)) (fst kv)).
  { apply (fresh_has hash keq LW). rewrite has_false in *. intros e He. apply HD1. apply in_or_app. auto. }
  rewrite (insert_no_grow_l b) by auto.
  destruct (insert_no_grow_spec hash keq LW b t kv X H1 H2) as (C' & S' & R1 & R2 & R3).
  cbv zeta in *. rewrite R1. cbn [rbind].
  assert (P2 : Permutation (kv :: l ++ elems (S_ t)) (l ++ elems S')).
  { rewrite PM. now apply Permutation_app_head. }
  apply IH; auto.
  - rcbn. eapply spread_perm; [exact P2|exact HS].
  - rcbn. eapply (distinct_perm hash keq LW); [exact P2|]. cbn. auto.
Qed.

(** ** The destruction of all elements *)

Lemma emptied_l b t n : rb b t -> mx b <= n -> n <= N.of_nat (length (C_ t)) ->
  l_emptied K V tr t (seqN n) = Ok tt.
Proof.
  intros X Hn HnC. unfold l_emptied. destruct (tr_trivial tr); [reflexivity|].
  pose proof (rb_cs _ _ _ _ X) as XC.
  destruct (destroy_used_spec (C_ t) (seqN n) (mkM K V (map (cell_of K V) (S_ t)) (Raw K V)))
    as (m' & A & B & D & F).
  - apply seqN_NoDup.
  - intros i Hi. apply seqN_In in Hi. destruct (geti_lt (C_ t) i) as [c Hc]; [lia|]. exists c. split; auto.
    intros Hu. destruct (cs_used _ _ _ _ _ XC _ _ Hc Hu) as (kv & E & _). exists (Some kv).
    cbn [m_slots]. rewrite geti_map, E. reflexivity.
  - rewrite A. cbn [rbind]. rewrite all_raw_spec; [reflexivity|]. intros i c Hc.
    destruct (D i) as [G|G]; rewrite G in Hc; [congruence|]. cbn [m_slots] in Hc.
    rewrite geti_map in Hc. destruct (geti (S_ t) i) as [[kv|]|] eqn:E; cbn [option_map cell_of] in Hc;
      [|congruence|discriminate].
    destruct (cs_live _ _ _ _ _ _ _ XC E) as (ci & Hci & Hu & _).
    pose proof (geti_Some_lt _ _ _ E) as Hl. rewrite (cs_len _ _ _ _ _ XC) in Hl.
    specialize (F i ci). rewrite F in G; auto; [|apply seqN_In; lia].
    cbn [m_slots] in G. rewrite geti_map, E in G. discriminate.
Qed.

Lemma visited_l q t : rinv hash keq q t -> l_emptied K V tr t (l_visited K V t) = Ok tt.
Proof.
  intros [_ [E|[b F]]]; unfold l_visited.
  - unfold r_slot_capacity. rewrite (re_mask _ E). cbn [N.eqb]. rewrite (re_alloc _ E).
    unfold l_emptied. rewrite (re_slots _ E). destruct (tr_trivial tr); reflexivity.
  - pose proof (rf_rb _ _ _ _ _ F) as X.
    rewrite (rb_slot_capacity _ _ _ _ X), (rb_gc _ _ _ _ X), (rb_max _ _ _ _ X), (rb_alloc _ _ _ _ X).
    pose proof (rb_clen _ _ _ _ X) as HC. pose proof (cs_clen _ _ _ _ _ (rb_cs _ _ _ _ X)).
    unfold rGroupWidth, gcount in *.
    destruct (32 <=? 2 ^ b); apply (emptied_l b); auto; lia.
Qed.

Lemma clear_slots_l q t : rinv hash keq q t -> l_clear_slots K V tr t = Ok tt.
Proof.
  intros [_ [E|[b F]]]; unfold l_clear_slots.
  - unfold l_emptied, r_max_slot_capacity, r_slot_capacity.
    rewrite (re_mask _ E), (re_look _ E), (re_slots _ E), (re_ctrls _ E).
    destruct (tr_trivial tr); reflexivity.
  - pose proof (rf_rb _ _ _ _ _ F) as X. rewrite (rb_max _ _ _ _ X).
    pose proof (cs_clen _ _ _ _ _ (rb_cs _ _ _ _ X)). apply (emptied_l b); auto; lia.
Qed.

(** ** Other capacities *)

Section Q.

Context (q : N) (Hq : q = 1 \/ q = 2).

Notation rinv := (rinv hash keq q).

Lemma rehash_impl_l (shrink always : bool) alloc t n : sane alloc -> rinv t ->
  (forall b, r_calc_capacity n = Ok (2 ^ b) -> 2 <= b -> b <= 63 -> spread (2 ^ b) (content t)) ->
  (exists b, r_calc_capacity n = Ok (2 ^ b) /\ 2 <= b /\ b <= 63) ->
  l_rehash_impl K V hash keq tr shrink always alloc t n
  = r_rehash_impl K V hash keq shrink always alloc t n.
Proof.
  intros HA I HS (b & E & Hb & Hb63). specialize (HS b E Hb Hb63).
  unfold l_rehash_impl, r_rehash_impl. rewrite E. destruct (_ || _ || _); [|reflexivity].
  destruct (create_spec hash keq alloc t b HA Hb Hb63) as [(t' & R)|(t0 & R & X & E0 & _)]; rewrite R; cbn [obind];
    [reflexivity|].
  rewrite (rinv_elements _ _ _ _ I). cbn [rbind]. rewrite (visited_l q) by auto.
  rewrite (insert_all_l b); auto.
  - rewrite E0, app_nil_r. exact HS.
  - rewrite E0, app_nil_r. now apply (rinv_dist hash keq q).
Qed.

Lemma resize_l alloc t n : sane alloc -> rinv t -> n <= 2 ^ 63 ->
  spread_all q (content t) -> q * r_size _ _ t <= n ->
  l_rehash_impl K V hash keq tr true false alloc t n
  = r_rehash_impl K V hash keq true false alloc t n.
Proof.
  intros HA I Hn HP Hf. destruct (calc_capacity_spec n Hn) as (b & E & Hb & Hnb & Hb63).
  apply rehash_impl_l; auto.
  - intros b' E' Hb' _. rewrite E in E'. injection E' as E'. rewrite <- E'.
    apply HP; auto. rewrite <- (rinv_size _ _ _ _ I). lia.
  - eauto.
Qed.

Lemma grow_l alloc t : sane alloc -> rinv t ->
  (forall b, 2 <= b -> q * (r_size _ _ t + 1) <= 2 ^ b -> spread (2 ^ b) (content t)) ->
  l_grow K V hash keq tr alloc t = r_grow K V hash keq alloc t.
Proof.
  intros HA I HS. unfold l_grow, r_grow.
  assert (HC : exists b, r_calc_capacity (wmul (wadd (r_mask K V t) 1) 2) = Ok (2 ^ b) /\ 2 <= b /\ b <= 63
    /\ q * (r_size _ _ t + 1) <= 2 ^ b).
  { destruct I as [_ [E|[b F]]].
    - exists 2. rewrite (re_mask _ E), (re_size _ E). split; [reflexivity|]. destruct Hq as [->| ->]; lia.
    - pose proof (rf_rb _ _ _ _ _ F) as X. pose proof (rb_b _ _ _ _ X) as Hb.
      pose proof (b_small b (rb_big _ _ _ _ X)) as Hs.
      pose proof (pow_ge4 b Hb) as H4. pose proof (pow2_le b 54 Hs) as H54.
      rewrite (rb_mask _ _ _ _ X). rewrite wadd_small by (unfold two64; lia).
      rewrite wmul_small by (unfold two64; lia).
      replace ((2 ^ b - 1 + 1) * 2) with (2 ^ (b + 1)) by (rewrite N.pow_add_r; lia).
      exists (b + 1). unfold r_calc_capacity, rMinCapacity.
      assert (H1 : 2 ^ (b + 1) = 2 * 2 ^ b) by (rewrite N.pow_add_r; lia).
      replace (N.max (2 ^ (b + 1)) 4) with (2 ^ (b + 1)) by lia.
      assert (P2 : is_pow2 (2 ^ (b + 1)) = true).
      { apply is_pow2_spec; [lia|unfold two64; lia|eauto]. }
      rewrite P2. split; [reflexivity|]. split; [lia|]. split; [lia|].
      pose proof (rf_fill _ _ _ _ _ F). destruct Hq as [->| ->]; lia. }
  destruct HC as (b & E & Hb & Hb63 & Hf). apply rehash_impl_l; auto.
  - intros b' E' Hb' _. rewrite E in E'. injection E' as E'. rewrite <- E'. auto.
  - eauto.
Qed.

(** ** Calls *)

Lemma emplace_new_l alloc (update : bool) t k v fuel : sane alloc -> rinv t ->
  fresh_key keq (content t) k -> spread_all q ((k, v) :: content t) ->
  l_emplace K V hash keq (S fuel) tr alloc update k v t
  = r_emplace K V hash keq (S fuel) alloc update k v t.
Proof.
  intros HA I HF HP. cbn [r_emplace l_emplace].
  destruct (search_inv hash keq LW q t true k I) as [(i & kv & b & _ & A & F & B & D)|(i & n & A & St & _)].
  { exfalso. rewrite (HF kv) in D; [discriminate|]. apply In_elems. eauto. }
  rewrite A. cbv zeta.
  assert (EG : l_grow K V hash keq tr alloc t = r_grow K V hash keq alloc t).
  { apply grow_l; auto. intros b Hb Hf. eapply spread_cons. apply (HP b Hb). cbn [length].
    rewrite (rinv_size _ _ _ _ I) in Hf. lia. }
  rewrite EG.
  destruct (prep_spec hash keq LW q Hq alloc t k v i n HA I St HF HP)
    as [(t' & E)|(t1 & n1 & b & E1 & E2 & Hn & S1 & F & M & P & Hf & _)]; cbv zeta in *.
  - rewrite E. reflexivity.
  - rewrite E1. cbn [obind]. rewrite E2.
    assert (PC : Permutation ((k, v) :: content t) ((k, v) :: content t1)) by now constructor.
    assert (SP : spread (2 ^ b) ((k, v) :: content t1)).
    { eapply spread_perm; [exact PC|]. apply (HP b).
      - apply (rb_b _ _ _ _ (rf_rb _ _ _ _ _ F)).
      - cbn [length]. rewrite (rinv_size _ _ _ _ I) in Hf. lia. }
    destruct (insert_at_spec hash keq LW false b t1 n1 (k, v) (rf_rb _ _ _ _ _ F) SP)
      as (C' & S' & R1 & _).
    + cbn [fst]. eapply fresh_perm; eauto.
    + auto.
    + auto.
    + cbv zeta in *. cbn [fst] in *. destruct (insert_at_sim tr false _ _ _ _ _ _ HO R1) as [-> ->]. reflexivity.
Qed.

Lemma emplace_old_l alloc (update : bool) t k v fuel kv : rinv t ->
  In kv (content t) -> keq k (fst kv) = true ->
  l_emplace K V hash keq (S fuel) tr alloc update k v t
  = r_emplace K V hash keq (S fuel) alloc update k v t.
Proof.
  intros I Hin Hk. cbn [r_emplace l_emplace].
  destruct (search_inv hash keq LW q t true k I) as [(i & kv' & b & _ & A & F & B & D)|(i & n & A & St & HF)].
  2:{ exfalso. specialize (HF eq_refl kv Hin). rewrite (keq_sym_eq hash keq LW) in HF. congruence. }
  rewrite A, B. reflexivity.
Qed.

Lemma emplace_l alloc (update : bool) t k v : sane alloc -> rinv t ->
  spread_all q (if update then put K V keq k v (content t) else put_new K V keq k v (content t)) ->
  l_emplace K V hash keq 64 tr alloc update k v t = r_emplace K V hash keq 64 alloc update k v t.
Proof.
  intros HA I HP'. unfold put, put_new in *. rewrite has_get in HP'. change 64%nat with (S 63).
  destruct (get K V keq k (content t)) as [e|] eqn:EG.
  - apply get_Some in EG. destruct EG as [Hin Hk]. eapply emplace_old_l; eauto.
  - apply emplace_new_l; auto.
    + apply (fresh_has hash keq LW). rewrite has_get, EG. reflexivity.
    + destruct update; exact HP'.
Qed.

Lemma shift_l fuel : forall C S i C' S', i < N.of_nat (length S) -> geti S i = Some None ->
  r_shift K V fuel C S i = Ok (C', S') ->
  l_shift K V fuel tr C (mkM K V (map (cell_of K V) S) (Raw K V)) i
  = Ok (C', mkM K V (map (cell_of K V) S') (Raw K V)).
Proof.
  induction fuel as [|fuel IH]; intros C S i C' S' Hi E R; cbn [r_shift l_shift] in *; [discriminate|].
  destruct (geti C (i + 1)) as [c|]; [|discriminate].
  destruct (s8 c <=? 0)%Z; [now injection R as <- <-|].
  destruct (geti S (i + 1)) as [[kv|]|] eqn:E1; try discriminate.
  pose proof (geti_Some_lt _ _ _ E1) as Hi1.
  assert (T : transfer K V tr (PSlot i) (PSlot (i + 1)) (mkM K V (map (cell_of K V) S) (Raw K V))
    = Ok (mkM K V (map (cell_of K V) (seti (seti S i (Some kv)) (i + 1) None)) (Raw K V))).
  { rewrite !map_seti. unfold transfer, move_construct, destroy.
    assert (NE : (i =? i + 1) = false) by lia. assert (NE' : (i + 1 =? i) = false) by lia.
    destruct (tr_trivial tr);
      repeat (cbn [rbind ptr_eq load store m_slots m_buf option_map cell_of];
        rewrite ?geti_seti by (rewrite ?seti_len, ?map_length; auto);
        rewrite ?geti_map, ?E, ?E1, ?NE, ?NE', ?N.eqb_refl); rewrite ?seti_seti; reflexivity. }
  rewrite T. cbn [rbind]. apply IH; auto.
  - rewrite !seti_len. auto.
  - apply geti_seti_eq. rewrite seti_len. auto.
Qed.

Lemma erase_l t k : rinv t -> l_erase K V hash keq tr k t = r_erase K V hash keq k t.
Proof.
  intros I. pose proof (erase_spec hash keq LW q Hq t k I) as (t' & R & _). revert R.
  unfold l_erase, r_erase. destruct (r_search K V hash keq t true k) as [[i|i n]|]; auto.
  destruct (i =? r_max_slot_capacity K V t); auto.
  unfold l_erase_slot, r_erase_slot, destroy. cbn [load m_slots]. rewrite geti_map.
  destruct (geti (S_ t) i) as [[kv|]|] eqn:E; cbn [option_map cell_of]; try discriminate.
  pose proof (geti_Some_lt _ _ _ E) as Hi.
  cbn [store rbind m_slots m_buf].
  replace (seti (map (cell_of K V) (S_ t)) i (Raw K V)) with (map (cell_of K V) (seti (S_ t) i None))
    by (rewrite map_seti; reflexivity).
  destruct (r_shift K V _ (C_ t) (seti (S_ t) i None) i) as [[C' S']|] eqn:ES; cbn [rbind]; [|discriminate].
  rewrite (shift_l _ _ _ _ C' S'); auto.
  - cbn [rbind m_slots]. rewrite slots_of_cells. reflexivity.
  - rewrite seti_len. auto.
  - apply geti_seti_eq. auto.
Qed.

Lemma step_l alloc o t : sane alloc -> rinv t -> r_client K V q o t ->
  spread_all q (fst (spec_step K V keq o (content t))) ->
  l_step K V hash keq tr alloc o t = r_step K V hash keq alloc o t.
Proof.
  intros HA I HC HP. destruct o; cbn [r_step l_step]; cbn [spec_step fst snd] in HP.
  - rewrite (emplace_l alloc false); auto.
  - rewrite (emplace_l alloc true); auto.
  - now rewrite erase_l.
  - reflexivity.
  - reflexivity.
  - reflexivity.
  - unfold l_clear. rewrite (clear_slots_l q); auto.
  - cbn in HC. f_equal. unfold l_rehash, r_rehash. pose proof (size_bound hash keq q Hq t I).
    destruct (min_require_ge q Hq t n (proj1 I) ltac:(lia)) as (G1 & G2 & G3).
    apply resize_l; auto; [lia|]. destruct HC as [_ [->|Hc]]; nia.
  - cbn in HC. f_equal. unfold l_rehash, r_rehash. pose proof (size_bound hash keq q Hq t I).
    destruct (min_require_ge q Hq t n (proj1 I) ltac:(lia)) as (G1 & G2 & G3).
    apply resize_l; auto; [lia|]. destruct HC as [_ [->|Hc]]; nia.
  - cbn in HC. f_equal. unfold l_shrink, r_shrink. pose proof (size_bound hash keq q Hq t I) as HB.
    destruct (min_require_ge q Hq t _ (proj1 I) HB) as (G1 & G2 & G3).
    apply resize_l; auto.
    + destruct read_only; lia.
    + destruct read_only; [|lia]. destruct HC as [->|]; [lia|discriminate].
  - cbn in HC. f_equal. unfold l_set_mlf, r_set_mlf. pose proof (clamp_ok q Hq m) as HCl.
    destruct (r_clamp m) as [mlf rev]. cbv zeta.
    set (t' := mkR _ _ _ _ _ _ _ _ _ _ _ _).
    assert (I' : rinv t').
    { destruct I as [M [E|[b F]]]; (split; [split; [apply HCl|split; [apply HCl|rewrite HC; discriminate]]|]).
      - left. destruct E. split; auto.
      - right. exists b. destruct F as [X F1 F2 F3]. split; auto. destruct X. split; auto. }
    destruct (_ && _); [|reflexivity].
    unfold l_rehash, r_rehash. pose proof (size_bound hash keq q Hq t' I') as HB.
    destruct (min_require_ge q Hq t' _ (proj1 I') HB) as (G1 & G2 & G3).
    apply resize_l; auto; [lia|]. rewrite HC. lia.
Qed.

Lemma agrees_l (fine : list (K * V) -> Prop) calls :
  (forall m, distinct_keys K V keq m -> fine m -> spread_all q m) ->
  Forall (fun c => sane (fst c)) calls -> forall t m, rinv t -> Permutation m (content t) ->
  l_agrees K V hash keq tr fine q calls t m.
Proof.
  intros HFine. induction calls as [|[alloc o] rest IH]; intros HS t m I P.
  { cbn [l_agrees]. now apply (clear_slots_l q). }
  inversion HS as [|? ? HS1 HS2]; subst. cbn [l_agrees].
  destruct (spec_step K V keq o m) as [m' r'] eqn:E. intros HC HP.
  assert (D : distinct_keys K V keq m).
  { eapply (distinct_perm hash keq LW); [symmetry; exact P|]. now apply (rinv_dist hash keq q). }
  destruct (spec_step_perm hash keq LW o m (content t) P D) as [P1 P2]. rewrite E in P1, P2. cbn [fst snd] in *.
  assert (D' : distinct_keys K V keq m').
  { pose proof (spec_step_distinct keq o m D) as H. now rewrite E in H. }
  pose proof (spread_all_perm hash q _ _ P1 (HFine _ D' HP)) as HP1.
  pose proof (step_spec hash keq LW q Hq alloc o t HS1 I HC HP1) as F. unfold follows in F.
  rewrite (step_l alloc o t HS1 I HC HP1).
  destruct (r_step K V hash keq alloc o t) as [t' x|t'|e]; auto.
  destruct F as (F1 & F2 & F3). split; [congruence|]. apply IH; auto. now rewrite P1.
Qed.

End Q.

Theorem life_agrees q calls : q = 1 \/ q = 2 -> Forall (fun c => sane (fst c)) calls ->
  l_agrees K V hash keq tr (spread_all q) q calls (rnew K V) [].
Proof.
  intros Hq HS. apply (agrees_l q Hq); auto.
  - now apply rinv_new.
Qed.

Theorem life_few calls : Forall (fun c => sane (fst c)) calls ->
  l_agrees K V hash keq tr (fun m => (length m <= 11)%nat) 2 calls (rnew K V) [].
Proof.
  intros HS. apply (agrees_l 2 (or_intror eq_refl)); auto.
  - intros m _. apply few_spread.
  - apply rinv_new; auto.
Qed.

Theorem life_reach q t m alloc o : q = 1 \/ q = 2 -> r_reach K V hash keq q t m ->
  l_destroy K V tr t = Ok tt
  /\ (sane alloc -> r_client K V q o t -> spread_all q (fst (spec_step K V keq o m)) ->
      l_step K V hash keq tr alloc o t = r_step K V hash keq alloc o t).
Proof.
  intros Hq R. destruct (reach_inv hash keq LW q t m Hq R) as [I P]. split.
  - now apply (clear_slots_l q).
  - intros HA HC HP. apply (step_l q Hq); auto.
    assert (D : distinct_keys K V keq m).
    { eapply (distinct_perm hash keq LW); [symmetry; exact P|]. now apply (rinv_dist hash keq q). }
    destruct (spec_step_perm hash keq LW o m (content t) P D) as [P1 _].
    now apply (spread_all_perm hash q _ _ P1).
Qed.

End Refine.

(** ** Displacement in any state *)

Section Displace.

Context {K V : Type}.

Theorem life_displace tr rehashing (t : rmap K V) ins d C S : owns_spare tr = false ->
  r_insert_to_place K V rehashing t ins d = Ok (C, S, true) ->
  l_insert_to_place K V tr rehashing t ins d = Ok (C, S, true).
Proof.
  intros HO E. destruct (insert_to_place_sim tr rehashing t ins d C S true HO E) as [A _]. auto.
Qed.

Theorem life_trivial tr rehashing (t : rmap K V) ins d C S ok : tr_trivial tr = true ->
  r_insert_to_place K V rehashing t ins d = Ok (C, S, ok) ->
  l_insert_to_place K V tr rehashing t ins d = Ok (C, S, ok).
Proof.
  intros HT E. assert (HO : owns_spare tr = false) by (unfold owns_spare; rewrite HT; reflexivity).
  destruct (insert_to_place_sim tr rehashing t ins d C S ok HO E) as [A _]. auto.
Qed.

Theorem life_trivial_at tr rehashing (t : rmap K V) i si d kv t' ok : tr_trivial tr = true ->
  r_insert_at K V rehashing t i si d kv = Ok (t', ok) ->
  l_insert_at K V tr rehashing t i si d kv = Ok (t', ok).
Proof.
  intros HT. unfold r_insert_at, l_insert_at.
  destruct (r_alloc K V t); [|discriminate].
  destruct (geti (r_ctrls K V t) i) as [c|]; [|discriminate].
  destruct (c =? cEmpty); [auto|]. destruct (i =? si); [|discriminate].
  destruct (r_insert_to_place K V rehashing t i d) as [[[C S] b]|] eqn:E; cbn [rbind]; [|discriminate].
  rewrite (life_trivial tr rehashing t i d C S b HT E). cbn [rbind]. auto.
Qed.

Theorem life_no_place tr rehashing (t : rmap K V) ins d C S : tr_trivial tr = false ->
  tr_plain tr || tr_swap tr || tr_small tr = true ->
  r_insert_to_place K V rehashing t ins d = Ok (C, S, false) ->
  l_insert_to_place K V tr rehashing t ins d = Err EUndef.
Proof.
  intros HT HI E. assert (HO : owns_spare tr = false).
  { unfold owns_spare. rewrite HT. destruct (tr_plain tr), (tr_swap tr), (tr_small tr); try reflexivity. discriminate. }
  destruct (insert_to_place_sim tr rehashing t ins d C S false HO E) as [_ A]. auto.
Qed.

End Displace.
