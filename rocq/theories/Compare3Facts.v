(** The robin hood map with any key equality. *)
From Coq Require Import NArith ZArith List Bool Lia Permutation.
From Coq Require Import ZifyBool ZifyNat ZifyN.
From Verif Require Import Base BaseFacts BitsModel BitsFacts GroupModel TableModel TableInv
  MapSpec MapFacts FallbackFacts ReachModel RobinModel RobinSpec RobinFacts RobinOps RobinRefine
  CompareModel CompareSpec CompareFacts Compare2Model Compare3Model Compare3Spec.
Import ListNotations.
Open Scope N_scope.
Ltac Zify.zify_post_hook ::= Z.div_mod_to_equations.

Section Facts.

Context {K V : Type} (hash : K -> N).

Notation slots := (list (option (K * V))).
Notation rmap := (rmap K V).
Notation C_ := (r_ctrls K V).
Notation S_ := (r_slots K V).
Notation spread := (spread K V hash).
Notation spread_all := (spread_all K V hash).
Notation content := (@content K V).
Notation never := (fun _ _ : K => false).

Lemma r_never_tame : (forall k, hash k < two64) -> tame hash never.
Proof. constructor; auto; discriminate. Qed.

Lemma distinct_never (l : list (K * V)) : distinct_keys K V never l.
Proof. induction l as [|e l IH]; [exact I|]. split; auto. apply has_false. auto. Qed.

Section Cmp.
Context (cmp : comparison K).

(** ** The search *)

Section Arrays.
Variables b M : N.
Notation hm := (hm hash b).
Notation cs := (@cs K V hash b M).

Lemma stop_denied C S k n : cs C S -> stopat C (hm k) n ->
  (forall j kv, j < n -> geti S (hm k + j) = Some (Some kv) -> said false cmp k (fst kv)) ->
  all_denied hash cmp k (elems S).
Proof.
  intros X [H1 (cn & H2 & H3)] Hn e He EH. apply In_elems in He. destruct He as (i & Hi).
  destruct (cs_live _ _ _ _ _ _ _ X Hi) as (c & Hc & Hu & Ei).
  assert (Eh : hm (fst e) = hm k) by (unfold RobinFacts.hm; now rewrite EH).
  rewrite Eh in Ei.
  destruct (N.lt_ge_cases c n) as [Hlt|Hge].
  - rewrite Ei in Hi. eauto.
  - exfalso. destruct (cs_chain _ _ _ _ _ X (c - n) _ _ Hc Hu ltac:(lia)) as (c' & E' & L' & B').
    replace (i - (c - n)) with (hm k + n) in E' by lia. rewrite E' in H2.
    injection H2 as ->. lia.
Qed.

Lemma scan_c_spec C S k : cs C S -> calm C -> hm k <= M ->
  forall fuel n seen, n <= 127 -> N.of_nat (length C) < N.of_nat fuel + hm k + n ->
  (forall j, j < n -> exists c, geti C (hm k + j) = Some c /\ j <= c /\ c < 128) ->
  (forall j kv, j < n -> geti S (hm k + j) = Some (Some kv) -> said false cmp k (fst kv)) ->
  exists seen' r, r_scan_c K V cmp fuel C S k (hm k + n) n seen = Ok (seen', r) /\
  match r with
  | RHit i => exists kv, geti S i = Some (Some kv) /\ said true cmp k (fst kv)
  | RStop i d => r_scan K V never fuel C S (Some k) (hm k + n) n = Ok (Stop i d)
      /\ i = hm k + d /\ d <= 127 /\ stopat C (hm k) d /\ all_denied hash cmp k (elems S)
  | RThrown => exists i kv s, geti S i = Some (Some kv) /\ cmp s k (fst kv) = None
  end.
Proof.
  intros X Cl Hh. induction fuel as [|fuel IH]; intros n seen Hn Hf Hp Hk.
  { exfalso. destruct (N.eq_dec n 0) as [->|Hn0].
    - pose proof (cs_clen _ _ _ _ _ X). lia.
    - destruct (Hp (n - 1)) as (c & E & _); [lia|]. apply geti_Some_lt in E. lia. }
  cbn [r_scan_c r_scan].
  assert (Hlt : hm k + n < N.of_nat (length C)).
  { pose proof (cs_clen _ _ _ _ _ X). destruct (N.eq_dec n 0) as [->|Hn0]; [lia|].
    destruct (Hp (n - 1)) as (c & E & _ & Hc); [lia|].
    apply (cs_used_lt _ _ _ _ _ _ _ X) in E; auto. lia. }
  destruct (geti_lt C (hm k + n) Hlt) as [c Hc]. rewrite Hc.
  rewrite (s8_used n) by lia.
  destruct (Z.leb_spec (Z.of_N n) (s8 c)) as [Hle|Hgt].
  - assert (Hu : c < 128).
    { destruct (N.lt_ge_cases c 128) as [|Hge]; auto.
      destruct (cs_free _ _ _ _ _ X _ _ Hc Hge) as (H255 & _).
      pose proof (s8_neg c Hge H255). lia. }
    rewrite s8_used in Hle by auto.
    pose proof (Cl _ _ Hc Hu) as Hc127.
    assert (HP : forall j, j < n + 1 -> exists c, geti C (hm k + j) = Some c /\ j <= c /\ c < 128).
    { intros j Hj. destruct (N.eq_dec j n) as [->|]; [exists c; split; [auto|lia]|apply Hp; lia]. }
    rewrite inc8_small by lia.
    replace (hm k + n + 1) with (hm k + (n + 1)) by lia.
    destruct (cs_used _ _ _ _ _ X _ _ Hc Hu) as (kv & Es & _). rewrite Es.
    destruct (cmp seen k (fst kv)) as [[|]|] eqn:E.
    + eexists _, _. split; [reflexivity|]. exists kv. split; auto. exists seen. auto.
    + apply IH; auto; try lia. intros j kv' Hj Hkv.
      destruct (N.eq_dec j n) as [->|]; [|apply (Hk j); auto; lia].
      rewrite Es in Hkv. injection Hkv as <-. exists seen. auto.
    + eexists _, _. split; [reflexivity|]. exists (hm k + n), kv, seen. auto.
  - eexists _, _. split; [reflexivity|]. split; [reflexivity|]. split; [reflexivity|]. split; [lia|].
    assert (SA : stopat C (hm k) n).
    { split; [exact Hp|]. exists c. split; [exact Hc|].
      destruct (N.lt_ge_cases c 128) as [Hu|]; auto. rewrite s8_used in Hgt by auto. lia. }
    split; [exact SA|]. eapply stop_denied; eauto.
Qed.

(** No element is compared twice, and only elements that want the same position or an
    earlier one. *)
Lemma skipn_geti (S : slots) i o : geti S i = Some o -> skipn (N.to_nat i) S = o :: skipn (N.to_nat (i + 1)) S.
Proof.
  intros H. destruct (geti_split _ _ _ H) as (a & c & -> & EL & _).
  replace (N.to_nat i) with (length a) by lia. replace (N.to_nat (i + 1)) with (length (a ++ [o])).
  2:{ rewrite app_length. cbn [length]. lia. }
  rewrite skipn_app, Nat.sub_diag, skipn_all. cbn [app skipn].
  replace (a ++ o :: c) with ((a ++ [o]) ++ c) by now rewrite <- app_assoc.
  rewrite skipn_app, Nat.sub_diag, skipn_all. reflexivity.
Qed.

Lemma scan_c_once C S k D : cs C S -> D <= 126 ->
  (forall i c, geti C i = Some c -> c < 128 -> c <= D) ->
  forall fuel n seen seen' r, n <= D + 1 -> r_scan_c K V cmp fuel C S k (hm k + n) n seen = Ok (seen', r) ->
  exists new, seen' = new ++ seen
    /\ (exists rest, Permutation (new ++ rest) (map fst (elems (skipn (N.to_nat (hm k + n)) S))))
    /\ N.of_nat (length new) + n <= D + 1
    /\ Forall (fun k' => hm k' <= hm k) new.
Proof.
  intros X HD HC. induction fuel as [|fuel IH]; intros n seen seen' r Hn H; [discriminate|].
  cbn [r_scan_c] in H. destruct (geti C (hm k + n)) as [c|] eqn:Hc; [|discriminate].
  rewrite (s8_used n) in H by lia. revert H.
  destruct (Z.leb_spec (Z.of_N n) (s8 c)) as [Hle|Hgt].
  - assert (Hu : c < 128).
    { destruct (N.lt_ge_cases c 128) as [|Hge]; auto.
      destruct (cs_free _ _ _ _ _ X _ _ Hc Hge) as (H255 & _).
      pose proof (s8_neg c Hge H255). lia. }
    rewrite s8_used in Hle by auto. pose proof (HC _ _ Hc Hu) as HcD.
    destruct (cs_used _ _ _ _ _ X _ _ Hc Hu) as (kv & Es & Ei). rewrite Es.
    assert (Hhk : hm (fst kv) <= hm k) by lia.
    rewrite (skipn_geti _ _ _ Es). cbn [elems flat_map opt_list app map]. fold (elems (skipn (N.to_nat (hm k + n + 1)) S)).
    assert (ONE : exists new, fst kv :: seen = new ++ seen
      /\ (exists rest, Permutation (new ++ rest) (fst kv :: map fst (elems (skipn (N.to_nat (hm k + n + 1)) S))))
      /\ N.of_nat (length new) + n <= D + 1 /\ Forall (fun k' => hm k' <= hm k) new).
    { exists [fst kv]. split; [reflexivity|]. split; [cbn [app]; eexists; apply Permutation_refl|]. split; [cbn [length]; lia|auto]. }
    destruct (cmp seen k (fst kv)) as [[|]|].
    + intros H. injection H as <- _. exact ONE.
    + rewrite inc8_small by lia. replace (hm k + n + 1) with (hm k + (n + 1)) by lia.
      intros H. destruct (IH (n + 1) _ _ _ ltac:(lia) H) as (new & -> & (rest & P) & HL & HF).
      exists (new ++ [fst kv]). split; [now rewrite <- app_assoc|]. split; [|split].
      * exists rest. rewrite <- P, <- app_assoc. symmetry. apply Permutation_middle.
      * rewrite app_length. cbn [length]. lia.
      * apply Forall_app. auto.
    + intros H. injection H as <- _. exact ONE.
  - intros H. injection H as <- _. exists []. split; [reflexivity|]. split; [cbn [app]; eexists; apply Permutation_refl|].
    split; [cbn [length]; lia|constructor].
Qed.

End Arrays.

Section Q.
Variable q : N.
Hypothesis Hq : q = 1 \/ q = 2.
Context (H64 : forall k, hash k < two64).

Notation rinv := (rinv hash never q).
Notation rfull := (rfull hash never q).
Notation mlf_ok := (@mlf_ok K V q).

Lemma search_c_spec t k seen : rinv t ->
  exists seen' r, r_search_c K V hash cmp t k seen = Ok (seen', r) /\
  match r with
  | RHit i => exists b kv, rfull b t /\ geti (S_ t) i = Some (Some kv) /\ said true cmp k (fst kv)
  | RStop i d => r_search K V hash never t true k = Ok (Stop i d) /\ stopped hash never q t k i d
      /\ all_denied hash cmp k (content t)
  | RThrown => exists kv s, In kv (content t) /\ cmp s k (fst kv) = None
  end.
Proof.
  intros [_ [E|[b F]]].
  - unfold r_search_c, r_search, r_home. rewrite (re_mask _ E), N.land_0_r, (re_ctrls _ E).
    eexists _, _. split; [reflexivity|]. split; [reflexivity|]. split; [now left|].
    intros e. rewrite (content_emp _ E). intros [].
  - pose proof (rf_rb _ _ _ _ _ F) as X. pose proof (rf_spread _ _ _ _ _ F) as HS.
    pose proof (rb_calm hash never b t X HS) as Cl. pose proof (rb_cs _ _ _ _ X) as XC.
    pose proof (hm_lt hash b k) as Hh.
    assert (HM : hm hash b k <= mx b) by (unfold mx; lia).
    unfold r_search_c, r_search. rewrite (rb_home _ _ _ _ _ X).
    destruct (scan_c_spec b (mx b) (C_ t) (S_ t) k XC Cl HM (S (length (C_ t))) 0 seen) as (seen' & r & A & B).
    + lia.
    + lia.
    + intros j Hj. lia.
    + intros j kv Hj. lia.
    + rewrite N.add_0_r in A, B. exists seen', r. split; auto. destruct r as [i|i d|].
      * destruct B as (kv & E1 & E2). exists b, kv. auto.
      * destruct B as (B1 & B2 & B3 & B4 & B5). split; auto. split; auto. right. exists b. auto.
      * destruct B as (i & kv & s & E1 & E2). exists kv, s. split; auto. apply In_elems. eauto.
Qed.

(** Another value for an element. *)
Lemma update_full b t i kv v : rfull b t -> geti (S_ t) i = Some (Some kv) ->
  rfull b (r_with K V t (C_ t) (seti (S_ t) i (Some (fst kv, v))) (r_size _ _ t))
  /\ exists rest, Permutation (content t) (kv :: rest)
       /\ Permutation (elems (seti (S_ t) i (Some (fst kv, v)))) ((fst kv, v) :: rest).
Proof.
  intros F B. pose proof (rf_rb _ _ _ _ _ F) as X. pose proof (rb_cs _ _ _ _ X) as XC.
  pose proof (geti_Some_lt _ _ _ B) as Hi.
  destruct (geti_split _ _ _ B) as (sa & sb & ES & _ & EU).
  assert (EC : content t = elems sa ++ kv :: elems sb).
  { unfold RobinOps.content. rewrite ES, !elems_app. reflexivity. }
  assert (EN : elems (seti (S_ t) i (Some (fst kv, v))) = elems sa ++ (fst kv, v) :: elems sb).
  { rewrite EU, !elems_app. reflexivity. }
  split.
  2:{ exists (elems sa ++ elems sb). rewrite EC, EN. split; symmetry; apply Permutation_middle. }
  split.
  - destruct X. split; rcbn; auto.
    + split.
      * intros j c Hj Hc. destruct (cs_used _ _ _ _ _ XC _ _ Hj Hc) as (kv1 & E1 & E2).
        rewrite geti_seti by auto. destruct (N.eqb_spec j i) as [->|].
        -- rewrite B in E1. injection E1 as <-. exists (fst kv, v). auto.
        -- exists kv1. auto.
      * intros j c Hj Hc. destruct (cs_free _ _ _ _ _ XC _ _ Hj Hc) as (G1 & G2 & G3). repeat (split; auto).
        intros Hm. rewrite geti_seti by auto. destruct (N.eqb_spec j i) as [->|]; auto.
        rewrite G3 in B by auto. discriminate.
      * apply (cs_order _ _ _ _ _ XC).
      * rewrite seti_len. apply (cs_len _ _ _ _ _ XC).
      * apply (cs_clen _ _ _ _ _ XC).
    + rewrite EN, rb_size. change (elems (S_ t)) with (content t). rewrite EC, !app_length. reflexivity.
    + apply distinct_never.
  - rcbn. rewrite EN. pose proof (rf_spread _ _ _ _ _ F) as HS. change (elems (S_ t)) with (content t) in HS.
    rewrite EC in HS. revert HS. unfold RobinSpec.spread, homes_in. intros HS a n Hn. specialize (HS a n Hn).
    rewrite filter_app, app_length in *. cbn [filter fst] in *.
    destruct (_ && _); cbn [length] in *; lia.
  - rcbn. apply (rf_thr _ _ _ _ _ F).
  - rcbn. apply (rf_fill _ _ _ _ _ F).
Qed.

(** ** One call *)

Definition followed (o : op K V) (t : rmap) (r : out rmap (option (obs K V))) : Prop :=
  (exists t', r = Throw t')
  \/ exists t' x, r = Ret t' x /\ rinv t' /\
      match x with
      | Some x => exists m, bag_step hash cmp o (content t) x m /\ Permutation (content t') m
      | None => t' = t /\ exists k e seen, concerns o k /\ In e (content t) /\ cmp seen k (fst e) = None
      end.

Lemma insert_followed (update : bool) alloc t k v fuel : sane alloc -> rinv t ->
  spread_all q ((k, v) :: content t) ->
  followed (if update then OAssign K V k v else OInsert K V k v) t
    (r_ins_c K V (r_emplace_c K V hash cmp (S fuel) alloc update k v [] t)).
Proof.
  intros HA I HP. cbn [r_emplace_c].
  destruct (search_c_spec t k [] I) as (seen' & r & A & B). rewrite A.
  destruct r as [i|i d|].
  - right. destruct B as (b & kv & F & Ei & Hs). rewrite Ei. unfold r_ins_c, r_obs_c. cbn [obind].
    destruct (update_full b t i kv v F Ei) as (F' & rest & P1 & P2).
    destruct update.
    + unfold r_deref. rcbn. rewrite geti_seti_eq by (eapply geti_Some_lt; eauto). cbn [rbind].
      eexists _, _. split; [reflexivity|]. split; [split; [apply I|right; exists b; exact F']|].
      exists ((fst kv, v) :: rest). split; [|exact P2]. cbn [bag_step]. left. exists kv, rest. auto.
    + unfold r_deref. rewrite Ei. cbn [rbind]. eexists _, _. split; [reflexivity|]. split; auto.
      exists (content t). split; auto. cbn [bag_step]. left. exists kv. split; [apply In_elems; eauto|auto].
  - destruct B as (_ & St & HDn). cbv zeta.
    assert (HF : fresh_key never (content t) k) by (intros e He; reflexivity).
    destruct (prep_spec hash never (r_never_tame H64) q Hq alloc t k v i d HA I St HF HP)
      as [(t' & E)|(t1 & n1 & b & E1 & E2 & Hn & S1 & F & M & P & Hf & _)]; cbv zeta in *.
    + left. exists t'. rewrite E. reflexivity.
    + right. rewrite E1. cbn [obind]. rewrite E2.
      assert (ES : r_size _ _ t1 = r_size _ _ t).
      { rewrite (rfull_size _ _ _ _ _ F), (rinv_size _ _ _ _ I). now rewrite (Permutation_length P). }
      assert (PC : Permutation ((k, v) :: content t) ((k, v) :: content t1)) by now constructor.
      assert (SP : spread (2 ^ b) ((k, v) :: content t1)).
      { eapply spread_perm; [exact PC|]. apply (HP b).
        - apply (rb_b _ _ _ _ (rf_rb _ _ _ _ _ F)).
        - cbn [length]. rewrite (rinv_size _ _ _ _ I) in Hf. lia. }
      destruct (insert_at_spec hash never (r_never_tame H64) false b t1 n1 (k, v) (rf_rb _ _ _ _ _ F) SP)
        as (C' & S' & R1 & R2 & R3 & R4).
      * intros e He. reflexivity.
      * auto.
      * auto.
      * cbv zeta in *. cbn [fst] in *. rewrite R1. unfold r_ins_c, r_obs_c. cbn [obind].
        unfold r_deref. rcbn. rewrite R4. cbn [rbind]. eexists _, _. split; [reflexivity|]. split.
        -- split; [destruct M as (M1 & M2 & M3); unfold RobinOps.mlf_ok; rcbn; auto|].
           right. exists b. eapply rfull_insert; eauto. now rewrite ES.
        -- exists ((k, v) :: content t). split; [destruct update; cbn [bag_step]; right; auto|].
           rewrite PC. symmetry. exact R3.
  - right. destruct B as (kv & s & B1 & B2). eexists _, _. split; [reflexivity|]. split; auto. split; auto.
    exists k, kv, s. destruct update; cbn [concerns]; auto.
Qed.

Lemma erase_slot_inv b t i kv : rinv t -> rfull b t -> geti (S_ t) i = Some (Some kv) ->
  exists t', r_erase_slot K V t i = Ok t' /\ rinv t' /\ Permutation (content t) (kv :: content t')
    /\ i < r_max_slot_capacity K V t.
Proof.
  intros I F B. pose proof (rf_rb _ _ _ _ _ F) as X. pose proof (rb_cs _ _ _ _ X) as XC.
  pose proof (geti_Some_lt _ _ _ B) as Hi. pose proof (cs_len _ _ _ _ _ XC) as HL.
  unfold r_erase_slot. rewrite B.
  destruct (cs_live _ _ _ _ _ _ _ XC B) as (c & Hc & Hu & _).
  destruct (shift_spec hash b (mx b) (S (length (C_ t))) (C_ t) (seti (S_ t) i None) i c)
    as (C' & S' & R1 & R2 & R3 & R4).
  - eapply cs_hole; eauto.
  - lia.
  - lia.
  - rewrite R1. cbn [rbind].
    pose proof (elems_seti_None _ _ _ B) as P1.
    assert (P2 : Permutation (content t) (kv :: elems S')).
    { rewrite R4. symmetry. symmetry in P1. first [exact P1 | symmetry; exact P1]. }
    assert (ES : wsub (r_size _ _ t) 1 = N.of_nat (length (elems S'))).
    { rewrite (rb_size _ _ _ _ X). change (elems (S_ t)) with (content t).
      rewrite (Permutation_length P2). cbn [length].
      pose proof (elems_length_le S'). pose proof (cs_len _ _ _ _ _ R2). pose proof (rb_big _ _ _ _ X).
      rewrite wsub_small; [lia|lia|unfold two64; lia]. }
    eexists. split; [reflexivity|]. split; [|split; [exact P2|rewrite (rb_max _ _ _ _ X); lia]].
    split; [apply I|]. right. exists b. split.
    + destruct X. split; rcbn; auto.
      { now rewrite R3. }
      { apply distinct_never. }
    + rcbn. eapply spread_cons. eapply spread_perm; [exact P2|]. apply (rf_spread _ _ _ _ _ F).
    + rcbn. apply (rf_thr _ _ _ _ _ F).
    + rcbn. rewrite ES. pose proof (rf_fill _ _ _ _ _ F) as G. rewrite (rfull_size _ _ _ _ _ F) in G.
      rewrite (Permutation_length P2) in G. cbn [length] in G. nia.
Qed.

Lemma step_c_followed alloc o t : sane alloc -> rinv t -> r_client K V q o t ->
  spread_all q (at_most o (content t)) ->
  followed o t (r_step_c K V hash cmp alloc o t).
Proof.
  intros HA I HC HP.
  assert (OTHER : (forall m, bag_step hash cmp o m (snd (spec_step K V never o m)) (fst (spec_step K V never o m))) ->
    (forall m : list (K * V), fst (spec_step K V never o m) = m \/ fst (spec_step K V never o m) = []) ->
    spread_all q (content t) ->
    followed o t (obind (r_step K V hash never alloc o t) (fun t' r => Ret t' (Some r)))).
  { intros HB HX HP'.
    assert (HP2 : spread_all q (fst (spec_step K V never o (content t)))).
    { destruct (HX (content t)) as [->| ->]; auto. intros b Hb _. apply spread_nil. }
    pose proof (step_spec hash never (r_never_tame H64) q Hq alloc o t HA I HC HP2) as H. unfold follows in H.
    destruct (r_step K V hash never alloc o t) as [t' x|t'|e]; cbn [obind]; [|left; eauto|contradiction].
    destruct H as (I' & -> & P). right. eexists _, _. split; [reflexivity|]. split; auto.
    eexists. split; [apply HB|]. now symmetry. }
  destruct o as [k v|k v|k|k|k| |need|n|n|ro|x]; cbn [r_step_c]; cbn [at_most] in HP;
    try (apply OTHER; auto; intros m; cbn; auto; fail).
  - exact (insert_followed false alloc t k v 63 HA I HP).
  - exact (insert_followed true alloc t k v 63 HA I HP).
  - unfold r_erase_c. destruct (search_c_spec t k [] I) as (seen' & r & A & B). rewrite A. right.
    destruct r as [i|i d|]; unfold r_obs_c.
    + destruct B as (b & kv & F & Ei & Hs).
      destruct (erase_slot_inv b t i kv I F Ei) as (t' & E & I' & P & Hi). rewrite E.
      destruct (N.eqb_spec i (r_max_slot_capacity K V t)); [lia|].
      cbn [obind]. eexists _, _. split; [reflexivity|]. split; auto.
      exists (content t'). split; auto. cbn [bag_step]. left. exists kv. auto.
    + cbn [obind]. eexists _, _. split; [reflexivity|]. split; auto. exists (content t). split; auto.
      cbn [bag_step]. right. tauto.
    + destruct B as (kv & s & B1 & B2). cbn [obind]. eexists _, _. split; [reflexivity|]. split; auto. split; auto.
      exists k, kv, s. cbn [concerns]. auto.
  - unfold r_lookup_c. destruct (search_c_spec t k [] I) as (seen' & r & A & B). rewrite A. right. cbn in HC.
    destruct r as [i|i d|]; unfold r_obs_c.
    + destruct B as (b & kv & F & Ei & Hs).
      pose proof (rf_rb _ _ _ _ _ F) as X. pose proof (rb_cs _ _ _ _ X) as XC.
      pose proof (geti_Some_lt _ _ _ Ei) as Hi. rewrite (cs_len _ _ _ _ _ XC) in Hi.
      unfold r_end. rewrite (rb_max _ _ _ _ X). destruct (N.eqb_spec i (mx b)); [lia|].
      unfold r_deref. rewrite Ei. cbn [obind].
      eexists _, _. split; [reflexivity|]. split; auto. exists (content t). split; auto.
      cbn [bag_step]. split; auto. left. exists kv. split; auto. apply In_elems. eauto.
    + pose proof I as [_ [E|[b F]]]; [rewrite (re_alloc _ E) in HC; discriminate|].
      pose proof (rf_rb _ _ _ _ _ F) as X. rewrite (rb_last _ _ _ _ X).
      unfold r_end. rewrite (rb_max _ _ _ _ X), N.eqb_refl. cbn [obind].
      eexists _, _. split; [reflexivity|]. split; auto. exists (content t). split; auto.
      cbn [bag_step]. split; auto. right. tauto.
    + destruct B as (kv & s & B1 & B2). cbn [obind]. eexists _, _. split; [reflexivity|]. split; auto. split; auto.
      exists k, kv, s. cbn [concerns]. auto.
  - unfold r_contains_c. destruct (search_c_spec t k [] I) as (seen' & r & A & B). rewrite A. right.
    destruct r as [i|i d|]; unfold r_obs_c; cbn [obind].
    + destruct B as (b & kv & F & Ei & Hs). eexists _, _. split; [reflexivity|]. split; auto.
      exists (content t). split; auto. cbn [bag_step]. split; auto. left. exists kv.
      split; auto. apply In_elems. eauto.
    + eexists _, _. split; [reflexivity|]. split; auto. exists (content t). split; auto.
      cbn [bag_step]. split; auto. right. tauto.
    + destruct B as (kv & s & B1 & B2). eexists _, _. split; [reflexivity|]. split; auto. split; auto.
      exists k, kv, s. cbn [concerns]. auto.
Qed.

Lemma search_c_once t k seen' r : rinv t -> r_search_c K V hash cmp t k [] = Ok (seen', r) ->
  (exists rest, Permutation (seen' ++ rest) (map fst (content t)))
  /\ N.of_nat (length seen') <= r_size _ _ t
  /\ (r_alloc _ _ t = true -> N.of_nat (length seen') <= room (r_slot_capacity K V t) + 1)
  /\ Forall (fun k' => hash k' mod r_slot_capacity K V t <= hash k mod r_slot_capacity K V t) seen'.
Proof.
  intros I H. pose proof (rinv_size _ _ _ _ I) as HZ. destruct I as [_ [E|[b F]]].
  - unfold r_search_c, r_home in H. rewrite (re_mask _ E), N.land_0_r, (re_ctrls _ E) in H.
    injection H as <- _. rewrite (content_emp _ E). split; [exists []; reflexivity|]. cbn [length].
    split; [lia|]. split; [lia|constructor].
  - pose proof (rf_rb _ _ _ _ _ F) as X. pose proof (rb_cs _ _ _ _ X) as XC.
    unfold r_search_c in H. rewrite (rb_home _ _ _ _ _ X) in H.
    pose proof (room_le b (rb_b _ _ _ _ X)) as [_ HR].
    rewrite <- (N.add_0_r (hm hash b k)) in H.
    apply (scan_c_once b (mx b) _ _ _ (room (2 ^ b)) XC HR) in H.
    + destruct H as (new & EQ & (rest & P) & HL & HF). rewrite app_nil_r in EQ. subst new.
      assert (PP : exists rest, Permutation (seen' ++ rest) (map fst (content t))).
      { exists (rest ++ map fst (elems (firstn (N.to_nat (hm hash b k + 0)) (S_ t)))).
        rewrite app_assoc, P. rewrite Permutation_app_comm, <- map_app, <- elems_app, firstn_skipn. reflexivity. }
      split; [exact PP|]. rewrite (rb_slot_capacity _ _ _ _ X). split; [|split; [lia|exact HF]].
      destruct PP as (rest' & P'). apply Permutation_length in P'. rewrite app_length, map_length in P'.
      rewrite HZ. lia.
    + intros i c Hc Hu. exact (cs_room hash never b t c i X (rf_spread _ _ _ _ _ F) Hc Hu).
    + lia.
Qed.

End Q.
End Cmp.

(** ** Runs *)

Context (H64 : forall k, hash k < two64).

Lemma r_run_c_bag q (calls : list (@call_c K V)) : q = 1 \/ q = 2 -> forall t,
  Forall (fun c => sane (fst (fst c))) calls -> rinv hash never q t -> r_obeys_c hash q calls t ->
  match r_run_c hash calls t with
  | Ret t' outs => rinv hash never q t' /\ bag_run hash calls outs (content t) (content t')
  | Throw _ => True
  | Fail _ => False
  end.
Proof.
  intros Hq. induction calls as [|[[alloc cmp] o] calls IH]; intros t HA I Ho; cbn [r_run_c].
  - split; [auto|]. constructor. reflexivity.
  - inversion HA as [|? ? HA1 HA2]; subst. cbn [fst] in HA1. cbn [r_obeys_c] in Ho.
    destruct Ho as [(Ho1 & m & Em & Hm) Ho2].
    rewrite (traverse_spec hash never q Hq t I) in Em. injection Em as <-.
    destruct (step_c_followed cmp q Hq H64 alloc o t HA1 I Ho1 Hm) as [(t' & E)|(t' & x & E & I' & HX)];
      rewrite E in *; cbn [obind]; auto.
    pose proof (IH t' HA2 I' Ho2) as H.
    destruct (r_run_c hash calls t') as [t2 outs|t2|e]; cbn [obind]; auto.
    destruct H as [H1 H2]. split; auto. destruct x as [x|].
    + destruct HX as (m & Hb & HP). econstructor; eauto. eapply bag_run_perm; eauto.
    + destruct HX as [-> _]. constructor. auto.
Qed.

Lemma r_reached_inv q (t : rmap) : q = 1 \/ q = 2 -> r_reached_c hash q t -> rinv hash never q t.
Proof.
  intros Hq (calls & outs & HA & Ho & E).
  pose proof (r_run_c_bag q calls Hq (rnew K V) HA (rinv_new hash never q Hq) Ho) as H. rewrite E in H. tauto.
Qed.

End Facts.
