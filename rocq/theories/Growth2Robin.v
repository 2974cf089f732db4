(** The robin hood map: growth is amortised while nothing is erased. *)
From Coq Require Import NArith ZArith List Bool Lia Permutation.
From Coq Require Import ZifyBool ZifyNat ZifyN.
From Verif Require Import Base BaseFacts BitsModel BitsFacts GroupModel TableModel TableInv
  MapSpec MapFacts FallbackFacts ReachModel RobinModel RobinSpec RobinFacts RobinOps RobinRefine
  WitnessModel WitnessFacts RobinWitness ReserveSpec RobinReserve GrowthSpec Growth2Spec Growth2Facts.
Import ListNotations.
Open Scope N_scope.
Ltac Zify.zify_post_hook ::= Z.div_mod_to_equations.

Section Growth.

Context {K V : Type} (hash : K -> N) (keq : K -> K -> bool) (LW : tame hash keq).

Notation rmap := (rmap K V).
Notation C_ := (r_ctrls K V).
Notation S_ := (r_slots K V).
Notation spread := (spread K V hash).
Notation spread_all := (spread_all K V hash).
Notation content := (@content K V).
Notation rfull := (rfull hash keq 2).
Notation rinv := (rinv hash keq 2).
Notation cap := (r_slot_capacity K V).
Notation size := (r_size K V).
Notation thr := (r_thr K V).
Notation step := (fun (c : (N -> bool) * op K V) t => r_step K V hash keq (fst c) (snd c) t).

Definition steady (t : rmap) : Prop := rinv t /\ 2 * thr t = cap t.

Definition plain (c : (N -> bool) * op K V) (t : rmap) : Prop :=
  sane (fst c) /\ adds K V (snd c) = true /\ r_client K V 2 (snd c) t
  /\ forall l, r_traverse K V t = Ok l -> spread_all 2 (fst (spec_step K V keq (snd c) l)).

Lemma cap_emp t : remp t -> cap t = 0.
Proof. intros E. unfold r_slot_capacity. now rewrite (re_mask _ E). Qed.

Lemma cap_full b t : rfull b t -> cap t = 2 ^ b.
Proof. intros F. apply (rb_slot_capacity _ _ _ _ (rf_rb _ _ _ _ _ F)). Qed.

Lemma room_steady t : steady t -> 2 * size t <= cap t.
Proof.
  intros [[_ [E|[b F]]] _].
  - rewrite (re_size _ E). lia.
  - rewrite (cap_full _ _ F). apply (rf_fill _ _ _ _ _ F).
Qed.

Lemma calc_pow b : 2 <= b -> b <= 60 -> r_calc_capacity (2 ^ b) = Ok (2 ^ b).
Proof.
  intros H2 H60. unfold r_calc_capacity, rMinCapacity.
  pose proof (pow_ge4 b H2). pose proof (pow2_le b 60 H60).
  replace (N.max (2 ^ b) 4) with (2 ^ b) by lia.
  replace (is_pow2 (2 ^ b)) with true; auto. symmetry. apply is_pow2_spec; [lia|unfold two64; lia|eauto].
Qed.

(** The bits of the next capacity. *)
Definition next (t : rmap) (c : N) : Prop :=
  (remp t /\ c = 2) \/ (exists b, rfull b t /\ c = b + 1).

Lemma half_pow b : 2 <= b -> b <= 54 -> 2 * (wmul (2 ^ b) 128 / 256) = 2 ^ b.
Proof.
  intros Hb H54. pose proof (pow2_le b 54 H54). rewrite wmul_small by (unfold two64; lia).
  assert (exists c, 2 ^ b = 2 * c) as (c & ->).
  { exists (2 ^ (b - 1)). rewrite <- N.pow_succ_r'. f_equal. lia. }
  lia.
Qed.

Lemma grow_exact alloc t c : sane alloc -> rinv t -> next t c -> spread (2 ^ c) (content t) ->
  (exists t', r_grow K V hash keq alloc t = Throw t')
  \/ exists t', r_grow K V hash keq alloc t = Ret t' tt /\ rfull c t' /\ mlf_ok 2 t'
       /\ Permutation (content t) (content t') /\ 2 * thr t' = 2 ^ c.
Proof.
  intros HA I HN HS. unfold r_grow, r_rehash_impl.
  assert (HC : r_calc_capacity (wmul (wadd (r_mask K V t) 1) 2) = Ok (2 ^ c) /\ 2 <= c /\ c <= 55 /\ 2 * size t <= 2 ^ c).
  { destruct HN as [(E & ->)|(b & F & ->)].
    - rewrite (re_mask _ E), (re_size _ E). split; [reflexivity|]. lia.
    - pose proof (rf_rb _ _ _ _ _ F) as X. pose proof (rb_b _ _ _ _ X) as Hb.
      pose proof (b_small b (rb_big _ _ _ _ X)) as Hs.
      pose proof (pow_ge4 b Hb) as H4. pose proof (pow2_le b 54 Hs) as H54.
      rewrite (rb_mask _ _ _ _ X). rewrite wadd_small by (unfold two64; lia).
      rewrite wmul_small by (unfold two64; lia).
      replace ((2 ^ b - 1 + 1) * 2) with (2 ^ (b + 1)) by (rewrite N.pow_add_r; lia).
      split; [apply calc_pow; lia|]. split; [lia|]. split; [lia|].
      pose proof (rf_fill _ _ _ _ _ F). rewrite N.pow_add_r. lia. }
  destruct HC as (EC & Hc & Hc55 & Hf). rewrite EC. cbn [orb].
  destruct (rebuild_spec hash keq LW 2 (or_intror eq_refl) alloc t c HA I Hc ltac:(lia) HS Hf)
    as [(t' & R)|(t' & R1 & R2 & R3 & R4)].
  - left. exists t'. exact R.
  - right. exists t'. split; auto. split; auto. split; auto. split; auto.
    destruct (create_spec hash keq alloc t c HA Hc ltac:(lia)) as [(t1 & E1)|(t0 & E1 & X0 & _ & _ & _ & Et)];
      rewrite E1 in R1; [discriminate|].
    cbn [obind] in R1. rewrite (rinv_elements hash keq 2 t I) in R1. cbn [rbind] in R1.
    destruct (r_insert_all K V hash keq (RobinOps.content t) t0) as [t2|] eqn:E2; [|discriminate].
    injection R1 as <-. rewrite (insert_all_thr hash keq _ _ _ E2), Et.
    destruct I as [(_ & _ & MQ) _]. destruct (MQ eq_refl) as [-> _].
    apply half_pow; auto. apply b_small. apply (rb_big _ _ _ _ X0).
Qed.

Lemma prep_half alloc t k v i n : sane alloc -> steady t -> stopped hash keq 2 t k i n ->
  fresh_key keq (content t) k -> spread_all 2 ((k, v) :: content t) ->
  let grow := r_need_grow K V t || (r_max_distance K V t <=? n) in
  (exists t', (if grow then r_grow K V hash keq alloc t else Ret t tt) = Throw t')
  \/ exists t1 n1 b, (if grow then r_grow K V hash keq alloc t else Ret t tt) = Ret t1 tt
       /\ (if grow then r_search K V hash keq t1 false k else Ok (Stop i n)) = Ok (Stop (hm hash b k + n1) n1)
       /\ n1 <= 127 /\ stopat (C_ t1) (hm hash b k) n1 /\ rfull b t1 /\ mlf_ok 2 t1
       /\ Permutation (content t) (content t1) /\ 2 * (size t + 1) <= 2 ^ b /\ 2 * thr t1 = 2 ^ b
       /\ 2 ^ b = (if cap t =? 0 then 4 else if 2 * size t =? cap t then 2 * cap t else cap t).
Proof.
  intros HA [I HT] HS HF HP. cbv zeta.
  assert (HL : N.of_nat (length ((k, v) :: content t)) = size t + 1).
  { cbn [length]. rewrite (rinv_size hash keq 2 t I). fold (content t). lia. }
  assert (GR : forall c, next t c -> 2 <= c -> 2 * (size t + 1) <= 2 ^ c ->
    2 ^ c = (if cap t =? 0 then 4 else if 2 * size t =? cap t then 2 * cap t else cap t) ->
    (exists t', r_grow K V hash keq alloc t = Throw t')
    \/ exists t1 n1 b, r_grow K V hash keq alloc t = Ret t1 tt
       /\ r_search K V hash keq t1 false k = Ok (Stop (hm hash b k + n1) n1)
       /\ n1 <= 127 /\ stopat (C_ t1) (hm hash b k) n1 /\ rfull b t1 /\ mlf_ok 2 t1
       /\ Permutation (content t) (content t1) /\ 2 * (size t + 1) <= 2 ^ b /\ 2 * thr t1 = 2 ^ b
       /\ 2 ^ b = (if cap t =? 0 then 4 else if 2 * size t =? cap t then 2 * cap t else cap t)).
  { intros c HN Hc Hf E.
    assert (SP : spread (2 ^ c) (content t)).
    { eapply spread_cons. apply (HP c Hc). rewrite HL. exact Hf. }
    destruct (grow_exact alloc t c HA I HN SP) as [H|(t1 & E1 & F & M & P & HT1)]; auto.
    right. destruct (search_spec hash keq LW c t1 false k (rf_rb _ _ _ _ _ F) (rf_spread _ _ _ _ _ F))
      as [(j & kv & A & _)|(n1 & A & B & D & _)]; [discriminate|].
    exists t1, n1, c. do 9 (split; [solve [auto]|]). exact E. }
  destruct HS as [E|(b & F & Ei & Hn & St)].
  - assert (EG : r_need_grow K V t = true).
    { unfold r_need_grow. now rewrite (re_thr _ E), (re_size _ E). }
    rewrite EG. cbn [orb]. apply (GR 2).
    + now left.
    + lia.
    + rewrite (re_size _ E). lia.
    + now rewrite (cap_emp _ E).
  - pose proof (maxd_gt hash keq 2 b t F) as HD. rewrite (cap_full _ _ F) in *.
    pose proof (rb_b _ _ _ _ (rf_rb _ _ _ _ _ F)) as Hb. pose proof (pow_ge4 b Hb) as H4.
    pose proof (rf_fill _ _ _ _ _ F) as HL2.
    replace (r_max_distance K V t <=? n) with false by lia. rewrite orb_false_r.
    replace (2 ^ b =? 0) with false in * by lia.
    unfold r_need_grow. destruct (N.eqb_spec (2 * size t) (2 ^ b)) as [E|NE].
    + replace (thr t <=? size t) with true by lia. apply (GR (b + 1)).
      * right. eauto.
      * lia.
      * rewrite N.pow_add_r. change (2 ^ 1) with 2. lia.
      * rewrite N.pow_add_r. change (2 ^ 1) with 2. lia.
    + replace (thr t <=? size t) with false by lia. right. exists t, n, b. rewrite <- Ei.
      do 5 (split; [solve [auto]|]). split; [apply I|]. split; [auto|]. split; [lia|]. auto.
Qed.

(** emplace_impl, of a key that is not there. *)
Lemma emplace_half alloc (update : bool) t k v fuel : sane alloc -> steady t ->
  fresh_key keq (content t) k -> spread_all 2 ((k, v) :: content t) ->
  (exists t', r_emplace K V hash keq (S fuel) alloc update k v t = Throw t')
  \/ exists t' i b, r_emplace K V hash keq (S fuel) alloc update k v t = Ret t' (i, true)
       /\ rfull b t' /\ mlf_ok 2 t' /\ Permutation ((k, v) :: content t) (content t')
       /\ geti (S_ t') i = Some (Some (k, v)) /\ 2 * thr t' = 2 ^ b
       /\ 2 ^ b = (if cap t =? 0 then 4 else if 2 * size t =? cap t then 2 * cap t else cap t).
Proof.
  intros HA J HF HP. pose proof (proj1 J) as I. cbn [r_emplace].
  destruct (search_inv hash keq LW 2 t true k I) as [(i & kv & b & _ & A & F & B & D)|(i & n & A & St & _)].
  { exfalso. rewrite (HF kv) in D; [discriminate|]. apply In_elems. eauto. }
  rewrite A. cbv zeta.
  destruct (prep_half alloc t k v i n HA J St HF HP)
    as [(t' & E)|(t1 & n1 & b & E1 & E2 & Hn & S1 & F & M & P & Hf & HT & EC)]; cbv zeta in *.
  - left. exists t'. now rewrite E.
  - right. rewrite E1. cbn [obind]. rewrite E2.
    assert (ES : size t1 = size t).
    { rewrite (rfull_size hash keq 2 _ _ F), (rinv_size hash keq 2 _ I). now rewrite (Permutation_length P). }
    assert (PC : Permutation ((k, v) :: content t) ((k, v) :: content t1)) by now constructor.
    assert (SP : spread (2 ^ b) ((k, v) :: content t1)).
    { eapply spread_perm; [exact PC|]. apply (HP b).
      - apply (rb_b _ _ _ _ (rf_rb _ _ _ _ _ F)).
      - cbn [length]. rewrite (rinv_size hash keq 2 _ I) in Hf. fold (content t) in Hf. lia. }
    destruct (insert_at_spec hash keq LW false b t1 n1 (k, v) (rf_rb _ _ _ _ _ F) SP)
      as (C' & S' & R1 & R2 & R3 & R4).
    + cbn [fst]. eapply fresh_perm; eauto.
    + auto.
    + auto.
    + cbv zeta in *. cbn [fst] in *. rewrite R1. eexists _, _, b. split; [reflexivity|].
      split; [|split; [|split; [|split; [|split]]]].
      * eapply rfull_insert; eauto. now rewrite ES.
      * destruct M as (M1 & M2 & M3). unfold RobinOps.mlf_ok. rcbn. auto.
      * rewrite PC. exact R3.
      * exact R4.
      * exact HT.
      * exact EC.
Qed.

(** emplace_impl, of a key that is there. *)
Lemma emplace_keeps alloc (update : bool) t k v fuel kv : rinv t -> In kv (content t) -> keq k (fst kv) = true ->
  exists t' i, r_emplace K V hash keq (S fuel) alloc update k v t = Ret t' (i, false)
    /\ size t' = size t /\ thr t' = thr t /\ cap t' = cap t.
Proof.
  intros I Hin Hk. cbn [r_emplace].
  destruct (search_inv hash keq LW 2 t true k I) as [(i & kv' & b & _ & A & F & B & D)|(i & n & A & St & HF)].
  2:{ exfalso. specialize (HF eq_refl kv Hin). rewrite (keq_sym_eq hash keq LW) in HF. congruence. }
  rewrite A, B. eexists _, i. split; [reflexivity|]. destruct update; auto.
Qed.

Lemma grown_emplace alloc (update : bool) k v t f : sane alloc -> steady t ->
  spread_all 2 (fst (spec_step K V keq (if update then OAssign K V k v else OInsert K V k v) (content t))) ->
  match r_ins K V (r_emplace K V hash keq (S f) alloc update k v t) with
  | Ret t' _ => steady t' /\ doubles cap size t t'
  | Throw _ => True
  | Fail _ => False
  end.
Proof.
  intros HA J HN. pose proof J as [I HT].
  destruct (has K V keq k (content t)) eqn:Hh.
  - apply has_true in Hh. destruct Hh as (kv & Hin & Hk).
    destruct (emplace_old hash keq LW 2 alloc update t k v f kv I Hin Hk) as (t' & i & E & I' & _ & ES).
    destruct (emplace_keeps alloc update t k v f kv I Hin Hk) as (t2 & i2 & EK & K1 & K2 & K3).
    rewrite E in EK. injection EK as <- <-.
    rewrite E. unfold r_ins. cbn [obind]. unfold r_deref. rewrite ES. cbn [r_lift].
    split; [split; [exact I'|lia]|left; lia].
  - assert (EN : spread_all 2 ((k, v) :: content t)).
    { destruct update; cbn [spec_step fst] in HN; unfold put, put_new in HN; now rewrite Hh in HN. }
    assert (HF : fresh_key keq (content t) k) by (apply (fresh_has hash keq LW); auto).
    destruct (emplace_half alloc update t k v f HA J HF EN) as [(t' & E)|(t' & i & b & E & F & M & P & ES & HT' & EC)];
      rewrite E; unfold r_ins; cbn [obind]; [exact Logic.I|].
    unfold r_deref. rewrite ES. cbn [r_lift].
    assert (EZ : size t' = size t + 1).
    { rewrite (rfull_size hash keq 2 _ _ F), (rinv_size hash keq 2 _ I), <- (Permutation_length P). cbn [length].
      fold (content t). lia. }
    pose proof (cap_full _ _ F) as EP. pose proof (room_steady _ J) as HR.
    split.
    + split; [split; [exact M|right; eauto]|lia].
    + unfold doubles. rewrite EP, EC, EZ.
      destruct (N.eqb_spec (cap t) 0) as [E0|N0].
      * right. right. assert (size t = 0) by lia. lia.
      * assert (4 <= cap t).
        { destruct I as [_ [E'|[b' F']]]; [now rewrite (cap_emp _ E') in N0|].
          rewrite (cap_full _ _ F'). apply pow_ge4, (rb_b _ _ _ _ (rf_rb _ _ _ _ _ F')). }
        destruct (N.eqb_spec (2 * size t) (cap t)); [right; left; lia|left; lia].
Qed.

Lemma grown_step c t : steady t -> plain c t ->
  match step c t with Ret t' _ => steady t' /\ doubles cap size t t' | Throw _ => True | Fail _ => False end.
Proof.
  intros J (HA & HO & HC & HN). destruct c as [alloc o]. cbn [fst snd] in *.
  assert (SAME : steady t /\ doubles cap size t t) by (split; [auto|left; lia]).
  specialize (HN (content t) (traverse_spec hash keq 2 (or_intror eq_refl) t (proj1 J))).
  assert (NF : adds K V o = true ->
    match r_step K V hash keq alloc o t with Fail _ => False | _ => True end).
  { intros _. pose proof (step_spec hash keq LW 2 (or_intror eq_refl) alloc o t HA (proj1 J) HC HN) as F.
    unfold follows in F. destruct (r_step K V hash keq alloc o t); auto. }
  destruct o; try discriminate; cbn [r_step] in *.
  - apply (grown_emplace alloc false _ _ _ 63); auto.
  - apply (grown_emplace alloc true _ _ _ 63); auto.
  - specialize (NF eq_refl). unfold r_lift in *. destruct (r_find_obs _ _ _ _ t _); auto.
  - specialize (NF eq_refl). unfold r_lift in *. destruct (r_contains _ _ _ _ t _); auto.
  - exact SAME.
Qed.

Theorem robin_growth calls : obeys2 step plain calls (rnew K V) ->
  match costs2 step cap size calls (rnew K V) with
  | Ret t (r, m) => 2 * size t <= cap t /\ m <= 2 * size t
      /\ ((r = 0 /\ cap t = 0) \/ (cap t = 2 ^ (r + 1) /\ cap t <= 4 * size t))
  | Throw _ => True
  | Fail _ => False
  end.
Proof.
  intros O.
  assert (J : steady (rnew K V)).
  { split; [apply (rinv_new hash keq 2 (or_intror eq_refl))|reflexivity]. }
  pose proof (costs_bound step cap size plain steady room_steady grown_step calls _ J O) as H.
  destruct (costs2 _ _ _ calls _) as [t [r m]| |]; auto.
  destruct H as (H1 & H2 & H3). split; auto. split; auto.
  change (cap (rnew K V)) with 0 in H3. change (N.max 0 2) with (2 ^ 1) in H3.
  now rewrite <- N.pow_add_r in H3.
Qed.

End Growth.
