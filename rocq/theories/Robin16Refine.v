(** The robin16 map: every call agrees with the abstract map. *)
From Coq Require Import NArith ZArith List Bool Lia Permutation.
From Coq Require Import ZifyBool ZifyNat ZifyN.
From Verif Require Import Base BaseFacts BitsModel BitsFacts GroupModel TableInv TableModel MapSpec MapFacts
  HashModel Flat16Model Flat16Spec Flat16Calls RobinFacts RobinOps Robin16Model Robin16Spec Robin16Ring Robin16Scan
  Robin16Facts Robin16Moves Robin16Ops.
Import ListNotations.
Open Scope N_scope.

Section Refine.

Context {K V : Type} (hash : K -> N) (keq : K -> K -> bool) (LW : tame hash keq) (wide trivial : bool).

Notation qmap := (qmap K V).
Notation cells := (list (option (N * (K * V)))).
Notation hq := (hq (V := V) hash).
Notation words b := (words (V := V) hash b).
Notation slots b := (slots (K := K) (V := V) trivial b).
Notation stored b := (stored (V := V) hash trivial b).
Notation roomy b := (roomy hq (2 ^ b) 128).
Notation fine := (q_fine K V hash).
Notation gcount b := ((2 ^ b + 15) / 16).

Definition mlf_ok (t : qmap) : Prop :=
  (13108 <= q_mlf _ _ t /\ q_mlf _ _ t <= 52429) /\ 65536 <= q_rev _ _ t /\ q_rev _ _ t <= 327680.

Record good (b : N) (t : qmap) (A : cells) : Prop := {
  g_b2 : 2 <= b;
  g_b44 : b <= 44;
  g_st : stored b t A;
  g_size : q_size _ _ t = N.of_nat (length (ents A));
  g_dist : distinct_keys K V keq (ents A);
  g_thr : q_thr _ _ t < 2 ^ b
}.

Lemma b50 b : b <= 44 -> b <= 50.
Proof. lia. Qed.

Lemma cap44 b : b <= 44 -> 2 ^ b <= 2 ^ 44.
Proof. intros H. now apply pow2_le. Qed.

Lemma good_len b t A : good b t A -> N.of_nat (length (ents A)) <= 2 ^ b.
Proof.
  intros X. pose proof (g_st _ _ _ X) as (_ & W & _). pose proof (w_alen _ _ _ _ W).
  unfold ents. rewrite map_length. pose proof (elems_length_le A). lia.
Qed.

Lemma good_cap b t A : good b t A -> q_cap _ _ t = 2 ^ b.
Proof.
  intros X. apply geo_cap; [apply (g_b2 _ _ _ X)|apply b50, (g_b44 _ _ _ X)|apply (g_st _ _ _ X)].
Qed.

(** ** Conditions on the entries *)

Lemma spread_roomy b m : q_spread K V hash (2 ^ b) m <-> roomy b m.
Proof. reflexivity. Qed.

Lemma roomy_tail b l m : roomy b (l ++ m) -> roomy b m.
Proof.
  intros H a n Ha H1 H2. specialize (H a n Ha H1 H2). rewrite cnt_app in H. lia.
Qed.

Lemma fine_perm m l : Permutation m l -> fine m -> fine l.
Proof.
  intros P H b Hb Hl. apply spread_roomy. apply (roomy_perm hash b _ m); auto.
  apply H; auto. now rewrite (Permutation_length P).
Qed.

(** The values of the entries do not matter. *)
Lemma fine_rekey f m : (forall e : K * V, fst (f e) = fst e) -> fine m -> fine (map f m).
Proof.
  intros Hf H b Hb Hl a n Ha H1 H2. rewrite map_length in Hl. specialize (H b Hb Hl a n Ha H1 H2).
  unfold q_wanted in *. replace (length (filter _ (map f m)))
    with (length (filter (fun e : K * V => (hash (fst e) mod 2 ^ b + 2 ^ b - a) mod 2 ^ b <? n) m)); auto.
  clear - Hf. induction m as [|e m IH]; [reflexivity|]. cbn [map filter]. rewrite Hf.
  destruct (_ <? n); cbn [length]; auto.
Qed.

(** ** Creation *)

Lemma calc_spec n : n <= 2 ^ 63 ->
  exists b, q_calc_capacity n = Ok (2 ^ b) /\ 2 <= b /\ n <= 2 ^ b /\ b <= 63.
Proof. exact (RobinOps.calc_capacity_spec n). Qed.

Lemma create_spec alloc t b : f_sane alloc -> 2 <= b -> b <= 63 -> mlf_ok t ->
  (exists t', q_create K V alloc t (2 ^ b) = Throw t')
  \/ exists t', q_create K V alloc t (2 ^ b) = Ret t' tt /\ good b t' (repeat None (N.to_nat (2 ^ b)))
       /\ mlf_ok t' /\ q_size _ _ t' = 0
       /\ q_thr _ _ t' = 2 ^ b * q_mlf _ _ t' / 65536.
Proof.
  intros HA Hb Hb63 M. unfold q_create.
  destruct (alloc true _); [|left; eauto].
  destruct (alloc false (2 ^ b)) eqn:EA; [|left; eauto]. right.
  apply HA in EA. assert (Hb44 : b <= 44) by (apply (N.pow_le_mono_r_iff 2); lia).
  pose proof (b50 b Hb44) as Hb50. pose proof (cap4 b Hb Hb50) as C4. pose proof (cap44 b Hb44) as HC.
  pose proof (gcount_range b Hb Hb50) as HG.
  change (2 ^ 44) with 17592186044416 in HC.
  unfold qGroupWidth. change (16 - 1) with 15.
  rewrite (wadd_small (2 ^ b) 15) by (unfold two64; lia).
  destruct M as [[M1 M2] M3].
  rewrite (wsub_small (2 ^ b) 1) by (unfold two64; lia).
  rewrite (wsub_small (gcount b) 1) by (unfold two64; lia).
  assert (W1 : 2 ^ b * q_mlf _ _ t <= 2 ^ b * 52429) by (apply N.mul_le_mono_l; lia).
  rewrite (wmul_small (2 ^ b)) by (unfold two64; lia).
  eexists. split; [reflexivity|]. split; [|split; [|split; reflexivity]].
  - split; auto.
    + split; [split; reflexivity|]. split; [now apply fresh_words|].
      split; [|split; [now apply empty_ring|now apply empty_low]].
      apply empty_slots; auto.
      * cbn [q_slots]. rewrite repeat_length. lia.
      * cbn [q_slots]. intros _ s Hs. now apply repeat_spec in Hs.
    + rewrite empty_ents. reflexivity.
    + rewrite empty_ents. exact I.
    + cbn [q_thr]. unfold qAmplify. apply N.div_lt_upper_bound; lia.
  - split; [split|]; cbn [q_mlf q_rev]; auto.
Qed.

(** ** Rehashing *)

Definition resized (l : list (K * V)) (r : out qmap unit) : Prop :=
  (exists t', r = Throw t')
  \/ exists t' b A', r = Ret t' tt /\ good b t' A' /\ mlf_ok t' /\ Permutation (ents A') l.

Lemma fill_spec alloc t A b b' nt : good b t A -> f_sane alloc ->
  good b' nt (repeat None (N.to_nat (2 ^ b'))) -> q_size _ _ nt = 0 ->
  N.of_nat (length (ents A)) <= 2 ^ b' -> roomy b' (ents A) ->
  exists t' A', match rbind (q_used_positions K V wide t)
                  (fun is => q_transfer K V hash keq wide trivial (q_slots _ _ t) is nt) with
          | Ok (old, nt') => if q_no_leak K V trivial old then Ret nt' tt else Fail ELeak
          | Err e => Fail e
          end = Ret t' tt /\ good b' t' A' /\ Permutation (ents A') (ents A)
     /\ q_thr _ _ t' = q_thr _ _ nt /\ q_mlf _ _ t' = q_mlf _ _ nt /\ q_rev _ _ t' = q_rev _ _ nt.
Proof.
  intros X HA Y Z HL HR. pose proof (g_b2 _ _ _ X) as Hb2. pose proof (b50 _ (g_b44 _ _ _ X)) as Hb50.
  pose proof (g_b2 _ _ _ Y) as Hb2'. pose proof (b50 _ (g_b44 _ _ _ Y)) as Hb50'.
  pose proof (g_st _ _ _ X) as (G & W & SS & RG & LO).
  rewrite (used_positions_spec hash wide b Hb2 Hb50 t A G W). cbn [rbind].
  pose proof (w_alen _ _ _ _ W) as HAl.
  assert (F : Forall2 (fun i e => geti (q_slots _ _ t) i = Some (Some e))
                (filter (used_at A) (seqN (2 ^ b))) (ents A)).
  { rewrite (ents_positions A), HAl. pose proof (ents_forall2 A (seqN (2 ^ b))) as F.
    clear - F SS HAl. induction F as [|i e is es (d & Hd) F IH]; constructor; auto.
    assert (Hi : i < 2 ^ b) by (rewrite <- HAl; eapply geti_Some_lt; eauto).
    destruct (s_cell _ _ _ _ SS i _ Hi Hd) as (s & Hs & Hss). cbn in Hss. now subst s. }
  destruct (transfer_spec hash keq LW wide trivial b' Hb2' Hb50' nt Z _ _ _ nt
    (repeat None (N.to_nat (2 ^ b'))) [] F)
    as (old' & t' & A' & R1 & R2 & (C' & S' & R3) & R4 & R5 & R6).
  - apply NoDup_filter, seqN_NoDup.
  - apply (g_st _ _ _ Y).
  - exists (q_ctrls _ _ nt), (q_slots _ _ nt). destruct nt. cbn in *. now subst.
  - rewrite empty_ents. reflexivity.
  - cbn [length]. lia.
  - now rewrite app_nil_r.
  - rewrite R1. rewrite app_nil_r in R4. cbn [length] in R3.
    assert (NL : q_no_leak K V trivial old' = true).
    { unfold q_no_leak. destruct trivial eqn:Ht; [reflexivity|]. cbn [orb]. apply forallb_forall.
      intros s Hs. apply In_geti in Hs. destruct Hs as (i & Hi).
      pose proof (geti_Some_lt _ _ _ Hi) as Hlt. rewrite R5 in Hlt.
      rewrite (R6 eq_refl i Hlt) in Hi. pose proof (s_len _ _ _ _ SS) as HSl. rewrite HSl in Hlt.
      destruct (in_dec _ _ _) as [I1|I1]; [injection Hi as <-; reflexivity|].
      destruct (geti_lt A i) as (o & Ho); [lia|].
      destruct (s_cell _ _ _ _ SS i _ Hlt Ho) as (s' & Hs' & Hss). rewrite Hi in Hs'. injection Hs' as <-.
      destruct o as [[d e]|].
      - exfalso. apply I1. apply filter_In. split; [now apply seqN_In|]. unfold used_at. now rewrite Ho.
      - cbn in Hss. now rewrite Hss. }
    rewrite NL. exists t', A'. split; [reflexivity|]. split; [|split; [exact R4|rewrite R3; auto]].
    split; auto.
    + apply (g_b44 _ _ _ Y).
    + rewrite R3, (Permutation_length R4). reflexivity.
    + apply (distinct_perm hash keq LW (ents A)); [now symmetry|apply (g_dist _ _ _ X)].
    + rewrite R3. apply (g_thr _ _ _ Y).
Qed.

Lemma rehash_spec (shrink always : bool) alloc t A b n : good b t A -> mlf_ok t -> f_sane alloc ->
  n <= 2 ^ 63 ->
  (forall b', 2 <= b' -> n <= 2 ^ b' -> N.of_nat (length (ents A)) <= 2 ^ b' /\ roomy b' (ents A)) ->
  (exists t', q_rehash_impl K V hash keq wide trivial shrink always alloc t n = Throw t')
  \/ exists t' b' A', q_rehash_impl K V hash keq wide trivial shrink always alloc t n = Ret t' tt
       /\ good b' t' A' /\ mlf_ok t' /\ Permutation (ents A') (ents A)
       /\ (always = true -> n <= 2 ^ b' /\ q_thr _ _ t' = 2 ^ b' * q_mlf _ _ t' / 65536).
Proof.
  intros X M HA Hn HB. unfold q_rehash_impl.
  destruct (calc_spec n Hn) as (b' & -> & Hb2' & Hnb & Hb63).
  destruct (always || negb shrink && (q_cap K V t <? 2 ^ b') || shrink && negb (2 ^ b' =? q_cap K V t)) eqn:EC.
  - destruct (create_spec alloc t b' HA Hb2' Hb63 M) as [(t' & ->)|(nt & -> & Y & M' & Z & HT)]; [left; eauto|].
    right. destruct (HB b' Hb2' Hnb) as [HB1 HB2].
    destruct (fill_spec alloc t A b b' nt X HA Y Z HB1 HB2) as (t' & A' & E & G & P & E1 & E2 & E3).
    exists t', b', A'. split; [exact E|]. split; auto. split.
    { unfold mlf_ok in *. now rewrite E2, E3. }
    split; auto. intros _. split; auto. now rewrite E1, E2.
  - right. exists t, b, A. split; auto. split; auto. split; auto. split; auto.
    intros ->. discriminate.
Qed.

Lemma grow_spec alloc t A b : good b t A -> mlf_ok t -> f_sane alloc ->
  (forall b', b < b' -> roomy b' (ents A)) ->
  (exists t', q_grow K V hash keq wide trivial alloc t = Throw t')
  \/ exists t' b' A', q_grow K V hash keq wide trivial alloc t = Ret t' tt
       /\ good b' t' A' /\ mlf_ok t' /\ Permutation (ents A') (ents A)
       /\ 2 ^ b * 2 <= 2 ^ b' /\ q_thr _ _ t' = 2 ^ b' * q_mlf _ _ t' / 65536.
Proof.
  intros X M HA HB. unfold q_grow. fold (q_cap _ _ t). rewrite (good_cap _ _ _ X).
  pose proof (cap44 b (g_b44 _ _ _ X)) as HC. change (2 ^ 44) with 17592186044416 in HC.
  rewrite wmul_small by (unfold two64; lia).
  destruct (rehash_spec false true alloc t A b (2 ^ b * 2) X M HA) as [H|(t' & b' & A' & E & G & M' & P & Q)].
  - change (2 ^ 63) with 9223372036854775808. lia.
  - intros b' Hb' Hn. pose proof (good_len _ _ _ X). split; [lia|]. apply HB.
    apply (N.pow_lt_mono_r_iff 2 b b'); [lia|]. pose proof (pow2_pos b). lia.
  - auto.
  - right. exists t', b', A'. destruct (Q eq_refl). auto 10.
Qed.

(** ** find_or_prepare_insert *)

Definition prepared (b0 : N) (k : K) (l : list (K * V)) (r : out qmap (N * N * bool)) : Prop :=
  (exists t', r = Throw t')
  \/ exists t' b A' n, r = Ret t' ((hash k mod 2 ^ b + n) mod 2 ^ b, n mod 2 ^ b, false)
       /\ good b t' A' /\ mlf_ok t' /\ Permutation (ents A') l
       /\ q_size _ _ t' < q_thr _ _ t' /\ stopat (2 ^ b) A' (hash k mod 2 ^ b) n /\ b0 <= b.

Lemma seen_spec b t A k : good b t A -> q_seen K V hash k t ->
  16 <= 2 ^ b \/ q_tag K hash k <> 0.
Proof. intros X. unfold q_seen. now rewrite (good_cap _ _ _ X). Qed.

(** A search for a key. *)
Lemma look_spec b t A k singles : good b t A -> 16 <= 2 ^ b \/ q_tag K hash k <> 0 ->
  (singles = 2 \/ singles = 4)%nat ->
  (exists i d kv, q_search K V hash keq wide singles t (Some k) k = Ok (QHit i) /\ i < 2 ^ b
      /\ geti A i = Some (Some (d, kv)) /\ geti (q_slots _ _ t) i = Some (Some kv)
      /\ In kv (ents A) /\ keq k (fst kv) = true)
  \/ (exists n, q_search K V hash keq wide singles t (Some k) k
         = Ok (QStop ((hash k mod 2 ^ b + n) mod 2 ^ b) (n mod 2 ^ b))
      /\ stopat (2 ^ b) A (hash k mod 2 ^ b) n /\ has K V keq k (ents A) = false).
Proof.
  intros X Hs Hn. pose proof (g_b2 _ _ _ X) as Hb2. pose proof (b50 _ (g_b44 _ _ _ X)) as Hb50.
  pose proof (g_st _ _ _ X) as (G & W & SS & RG & LO).
  destruct (search_spec hash keq LW wide trivial b Hb2 Hb50 t A G W SS LO k (Some k) (or_introl eq_refl)
    (fun _ => Hs) singles Hn) as (s & Es & HS).
  destruct s as [i|i d|]; [| |contradiction].
  - left. destruct HS as (_ & Hi & d & kv & Ha & Hk). exists i, d, kv.
    destruct (s_cell _ _ _ _ SS i _ Hi Ha) as (s & E & Hss). cbn in Hss. subst s.
    split; auto. split; auto. split; auto. split; auto. split.
    + unfold ents. apply in_map_iff. exists (d, kv). split; auto. apply In_elems. eauto.
    + now apply (tm_sym _ _ LW).
  - right. destruct HS as (n & St & Pa & -> & ->). exists n. split; auto. split; auto.
    apply has_false. intros e He. rewrite (keq_sym_eq hash keq LW).
    apply (stop_nokey hash keq LW b Hb2 Hb50 A RG k (Some k) n eq_refl St Pa e He).
Qed.

Lemma prepare_exact alloc k : f_sane alloc -> forall f fuel t A b, (f < fuel)%nat ->
  good b t A -> mlf_ok t -> 16 <= 2 ^ b \/ q_tag K hash k <> 0 -> has K V keq k (ents A) = false ->
  q_thr _ _ t = 2 ^ b * q_mlf _ _ t / 65536 ->
  8 * (q_size _ _ t + 1) <= 2 ^ b * 2 ^ N.of_nat f ->
  (forall b', b < b' -> roomy b' (ents A)) ->
  prepared b k (ents A) (q_prepare K V hash keq wide trivial fuel alloc k t).
Proof.
  intros HA f. induction f as [|f IH]; intros fuel t A b Hf X M Hs Hh HT HZ HB;
    (destruct fuel as [|fuel]; [lia|]); cbn [q_prepare];
    (destruct (look_spec b t A k 4 X Hs (or_intror eq_refl)) as [(i & d & kv & _ & _ & _ & _ & Hin & Hk)|(n & -> & St & _)];
      [exfalso; rewrite has_false in Hh; rewrite (Hh kv Hin) in Hk; discriminate|]);
    unfold q_need_grow; destruct (N.leb_spec (q_thr _ _ t) (q_size _ _ t)) as [Hge|Hlt].
  - exfalso. rewrite HT in Hge. destruct M as [[M1 M2] _]. change (2 ^ N.of_nat 0) with 1 in HZ.
    rewrite N.mul_1_r in HZ.
    assert (Q : q_size _ _ t + 1 <= 2 ^ b * q_mlf _ _ t / 65536); [|lia].
    apply N.div_le_lower_bound; [lia|]. nia.
  - right. exists t, b, A, n. repeat (split; [solve [auto]|]). lia.
  - destruct (grow_spec alloc t A b X M HA HB) as [(t' & ->)|(t' & b' & A' & -> & X' & M' & P & Hc & HT')];
      cbn [obind]; [left; eauto|].
    assert (ES : q_size _ _ t' = q_size _ _ t).
    { rewrite (g_size _ _ _ X'), (g_size _ _ _ X). now rewrite (Permutation_length P). }
    assert (Hb : b < b').
    { apply (N.pow_lt_mono_r_iff 2 b b'); [lia|]. pose proof (pow2_pos b). lia. }
    destruct (IH fuel t' A' b') as [(t2 & E)|(t2 & b2 & A2 & n2 & E & X2 & M2 & P2 & T2 & S2 & LB)]; auto.
    + lia.
    + destruct Hs as [Hs|Hs]; [left; lia|now right].
    + now rewrite (has_perm _ _ _ _ P).
    + rewrite ES. etransitivity; [exact HZ|].
      replace (N.of_nat (S f)) with (N.succ (N.of_nat f)) by lia. rewrite N.pow_succ_r'.
      etransitivity; [|apply N.mul_le_mono_r, Hc]. lia.
    + intros b2 Hb2. apply (roomy_perm hash b2 _ (ents A)); [now symmetry|]. apply HB. lia.
    + left. eauto.
    + right. exists t2, b2, A2, n2. split; auto. split; auto. split; auto. split; [now rewrite P2|]. split; auto. split; auto. lia.
  - right. exists t, b, A, n. repeat (split; [solve [auto]|]). lia.
Qed.

Lemma prepare_new alloc k t A b fuel : f_sane alloc -> good b t A -> mlf_ok t ->
  16 <= 2 ^ b \/ q_tag K hash k <> 0 -> has K V keq k (ents A) = false ->
  (forall b', b < b' -> roomy b' (ents A)) -> (4 < fuel)%nat ->
  prepared b k (ents A) (q_prepare K V hash keq wide trivial fuel alloc k t).
Proof.
  intros HA X M Hs Hh HB Hf. destruct fuel as [|fuel]; [lia|]. cbn [q_prepare].
  destruct (look_spec b t A k 4 X Hs (or_intror eq_refl)) as [(i & d & kv & _ & _ & _ & _ & Hin & Hk)|(n & -> & St & _)];
    [exfalso; rewrite has_false in Hh; rewrite (Hh kv Hin) in Hk; discriminate|].
  unfold q_need_grow. destruct (N.leb_spec (q_thr _ _ t) (q_size _ _ t)) as [Hge|Hlt].
  2:{ right. exists t, b, A, n. repeat (split; [solve [auto]|]). lia. }
  destruct (grow_spec alloc t A b X M HA HB) as [(t' & ->)|(t' & b' & A' & -> & X' & M' & P & Hc & HT')];
    cbn [obind]; [left; eauto|].
  assert (Hb : b < b').
  { apply (N.pow_lt_mono_r_iff 2 b b'); [lia|]. pose proof (pow2_pos b). lia. }
  destruct (prepare_exact alloc k HA 3 fuel t' A' b') as [(t2 & E)|(t2 & b2 & A2 & n2 & E & X2 & M2 & P2 & T2 & S2 & LB)]; auto.
  - lia.
  - destruct Hs as [Hs|Hs]; [left; lia|now right].
  - now rewrite (has_perm _ _ _ _ P).
  - rewrite (g_size _ _ _ X'), (Permutation_length P). pose proof (good_len _ _ _ X).
    pose proof (cap4 b (g_b2 _ _ _ X) (b50 _ (g_b44 _ _ _ X))). change (2 ^ N.of_nat 3) with 8. lia.
  - intros b2 Hb2. apply (roomy_perm hash b2 _ (ents A)); [now symmetry|]. apply HB. lia.
  - left. eauto.
  - right. exists t2, b2, A2, n2. split; auto. split; auto. split; auto. split; [now rewrite P2|]. split; auto. split; auto. lia.
Qed.

Lemma prepare_old alloc k t i fuel : q_search K V hash keq wide 4 t (Some k) k = Ok (QHit i) -> (0 < fuel)%nat ->
  q_prepare K V hash keq wide trivial fuel alloc k t = Ret t (i, 0, true).
Proof. intros H Hf. destruct fuel as [|fuel]; [lia|]. cbn [q_prepare]. now rewrite H. Qed.

(** ** emplace_impl *)

Lemma good_insert b t A C S A' kv : good b t A -> has K V keq (fst kv) (ents A) = false ->
  N.of_nat (length (ents A)) < 2 ^ b ->
  stored b (q_with K V t C S (wadd (q_size _ _ t) 1)) A' -> Permutation (ents A') (kv :: ents A) ->
  good b (q_with K V t C S (wadd (q_size _ _ t) 1)) A'.
Proof.
  intros X Hh HL ST P. split; auto.
  - apply (g_b2 _ _ _ X).
  - apply (g_b44 _ _ _ X).
  - cbn [q_size q_with]. rewrite (g_size _ _ _ X), (Permutation_length P). cbn [length].
    pose proof (cap44 b (g_b44 _ _ _ X)) as HC. change (2 ^ 44) with 17592186044416 in HC.
    rewrite wadd_small by (unfold two64; lia). lia.
  - apply (distinct_perm hash keq LW (kv :: ents A)); [now symmetry|]. split; auto. apply (g_dist _ _ _ X).
  - cbn [q_thr q_with]. apply (g_thr _ _ _ X).
Qed.

Lemma emplace_new alloc (update : bool) t A b k v fuel : f_sane alloc -> good b t A -> mlf_ok t ->
  16 <= 2 ^ b \/ q_tag K hash k <> 0 -> has K V keq k (ents A) = false -> fine ((k, v) :: ents A) ->
  (exists t', q_emplace K V hash keq wide trivial (S fuel) alloc update k v t = Throw t')
  \/ exists t' i b' A', q_emplace K V hash keq wide trivial (S fuel) alloc update k v t = Ret t' (i, true)
       /\ good b' t' A' /\ mlf_ok t' /\ Permutation (ents A') ((k, v) :: ents A)
       /\ geti (q_slots _ _ t') i = Some (Some (k, v)) /\ b <= b'.
Proof.
  intros HA X M Hs Hh HF. cbn [q_emplace].
  destruct (prepare_new alloc k t A b 64 HA X M Hs Hh) as [(t' & ->)|(t1 & b1 & A1 & n & -> & X1 & M1 & P1 & T1 & St & LB)].
  - intros b' Hb'. apply (roomy_tail b' [(k, v)]). refine (HF b' _ _).
    + pose proof (g_b2 _ _ _ X). lia.
    + cbn [length]. pose proof (good_len _ _ _ X).
      assert (2 ^ b < 2 ^ b') by (apply N.pow_lt_mono_r; lia). lia.
  - lia.
  - left. cbn [obind]. eauto.
  - right. cbn [obind].
    assert (HL : N.of_nat (length (ents A1)) < 2 ^ b1).
    { rewrite <- (g_size _ _ _ X1). pose proof (g_thr _ _ _ X1). lia. }
    destruct (insert_at_spec hash trivial b1 (g_b2 _ _ _ X1) (b50 _ (g_b44 _ _ _ X1)) false t1 A1 (hash k mod 2 ^ b1) n (k, v))
      as (C & S & A' & E1 & E2 & E3 & E4); auto.
    + apply (g_st _ _ _ X1).
    + apply N.mod_lt. apply N.pow_nonzero. lia.
    + apply (roomy_perm hash b1 _ ((k, v) :: ents A)); [constructor; now symmetry|]. refine (HF b1 _ _).
      * apply (g_b2 _ _ _ X1).
      * cbn [length]. rewrite (Permutation_length P1) in HL. lia.
    + rewrite E1. eexists _, _, b1, A'. split; [reflexivity|]. split; [|split; [exact M1|split; [|split; [exact E2|exact LB]]]].
      * apply (good_insert b1 t1 A1 C S A' (k, v)); auto. cbn [fst]. now rewrite (has_perm _ _ _ _ P1).
      * rewrite E4. now constructor.
Qed.

Lemma distinct_value (la : list (K * V)) kv lb v : distinct_keys K V keq (la ++ kv :: lb) ->
  distinct_keys K V keq (la ++ (fst kv, v) :: lb).
Proof.
  induction la as [|e la IH]; cbn [app distinct_keys fst]; [auto|].
  intros [H1 H2]. split; auto. apply has_false. rewrite has_false in H1. intros x Hx.
  apply in_app_or in Hx. cbn [In] in Hx. destruct Hx as [Hx|[<-|Hx]]; [|apply (H1 kv)|];
    try (apply H1); apply in_or_app; cbn [In]; auto.
Qed.

(** The value of an element is replaced. *)
Lemma good_put b t A i d kv v : good b t A -> i < 2 ^ b -> geti A i = Some (Some (d, kv)) ->
  good b (q_with K V t (q_ctrls _ _ t) (seti (q_slots _ _ t) i (Some (fst kv, v))) (q_size _ _ t))
       (seti A i (Some (d, (fst kv, v))))
  /\ exists la lb, ents A = la ++ kv :: lb /\ ents (seti A i (Some (d, (fst kv, v)))) = la ++ (fst kv, v) :: lb.
Proof.
  intros X Hi Ha. pose proof (g_b2 _ _ _ X) as Hb2. pose proof (b50 _ (g_b44 _ _ _ X)) as Hb50.
  pose proof (g_st _ _ _ X) as (G & W & SS & RG & LO). pose proof (w_alen _ _ _ _ W) as HAl.
  pose proof (cap4 b Hb2 Hb50) as C4.
  destruct (geti_split _ _ _ Ha) as (sa & sb & ES & _ & EU).
  assert (EC : ents A = ents sa ++ kv :: ents sb).
  { unfold ents. rewrite ES, !elems_app, map_app. reflexivity. }
  assert (EN : ents (seti A i (Some (d, (fst kv, v)))) = ents sa ++ (fst kv, v) :: ents sb).
  { unfold ents. rewrite EU, !elems_app, map_app. reflexivity. }
  split; [|eauto].
  assert (Hp : i mod 2 ^ b = i) by now apply N.mod_small.
  split; auto; cbn [q_with q_size q_thr].
  - apply (g_b44 _ _ _ X).
  - split; [exact G|]. cbn [q_ctrls q_slots q_with]. split; [|split; [|split]].
    + split.
      * apply (w_len _ _ _ _ W).
      * rewrite seti_len. exact HAl.
      * intros j o Hj. rewrite geti_seti by lia. destruct (N.eqb_spec j i) as [->|]; [|now apply (w_cell _ _ _ _ W)].
        intros E. injection E as <-. exact (w_cell _ _ _ _ W _ _ Hi Ha).
      * apply (w_mirror _ _ _ _ W).
      * apply (w_tail _ _ _ _ W).
    + apply slots_put; auto. reflexivity.
    + split.
      * rewrite seti_len. exact HAl.
      * intros p d' e'. rewrite <- Hp. rewrite (at_seti hq (2 ^ b) C4) by auto. rewrite !Hp.
        destruct (N.eqb_spec (p mod 2 ^ b) i) as [Q|Q]; [|apply (r_home _ _ _ RG)].
        intros E. injection E as <- <-. apply (r_home _ _ _ RG p d kv). unfold at_. now rewrite Q.
      * intros p d' e'. rewrite <- Hp. rewrite !(at_seti hq (2 ^ b) C4) by auto. rewrite !Hp.
        assert (O : forall d1 e1, at_ (2 ^ b) A (p + 1) = Some (Some (d1, e1)) -> 0 < d1 ->
          exists d0 e0, (if p mod 2 ^ b =? i then Some (Some (d, (fst kv, v))) else at_ (2 ^ b) A p)
            = Some (Some (d0, e0)) /\ d1 <= d0 + 1).
        { intros d1 e1 H1 H2. destruct (r_order _ _ _ RG p d1 e1 H1 H2) as (d0 & e0 & H3 & H4).
          destruct (N.eqb_spec (p mod 2 ^ b) i) as [Q|Q]; [|eauto].
          unfold at_ in H3. rewrite Q, Ha in H3. injection H3 as <- <-. eauto. }
        destruct (N.eqb_spec ((p + 1) mod 2 ^ b) i) as [Q|Q]; [|apply O].
        intros E H2. injection E as <- <-. apply (O d kv); auto. unfold at_. now rewrite Q.
    + intros j d' e'. rewrite geti_seti by lia. destruct (N.eqb_spec j i) as [->|]; [|apply LO].
      intros E. injection E as <- <-. apply (LO _ _ _ Ha).
  - rewrite (g_size _ _ _ X), EN, EC, !app_length. reflexivity.
  - rewrite EN. apply (distinct_value _ kv); auto. rewrite <- EC. apply (g_dist _ _ _ X).
  - apply (g_thr _ _ _ X).
Qed.

Lemma good_assign b t A i d kv v : good b t A -> i < 2 ^ b -> geti A i = Some (Some (d, kv)) ->
  keq (fst kv) (fst kv) = true ->
  good b (q_with K V t (q_ctrls _ _ t) (seti (q_slots _ _ t) i (Some (fst kv, v))) (q_size _ _ t))
       (seti A i (Some (d, (fst kv, v))))
  /\ Permutation (ents (seti A i (Some (d, (fst kv, v)))))
       (map (fun e => if keq (fst kv) (fst e) then (fst e, v) else e) (ents A)).
Proof.
  intros X Hi Ha HR. destruct (good_put b t A i d kv v X Hi Ha) as (G & la & lb & EC & EN). split; auto.
  rewrite EN. pose proof (g_dist _ _ _ X) as D0.
  assert (EM : map (fun e => if keq (fst kv) (fst e) then (fst e, v) else e) (ents A) = la ++ (fst kv, v) :: lb).
  { rewrite EC in D0. rewrite EC, map_app. cbn [map]. rewrite HR.
    assert (U : forall e, In e (la ++ lb) -> keq (fst kv) (fst e) = false).
    { assert (D1 : distinct_keys K V keq (kv :: la ++ lb)).
      { eapply (distinct_perm hash keq LW); [|exact D0]. symmetry. apply Permutation_middle. }
      destruct D1 as [D1 _]. rewrite has_false in D1. auto. }
    f_equal; [|f_equal]; rewrite <- map_id; apply map_ext_in; intros e He; rewrite U; auto;
      apply in_or_app; auto. }
  now rewrite EM.
Qed.

Lemma emplace_old alloc (update : bool) t A b k v fuel : good b t A -> mlf_ok t ->
  16 <= 2 ^ b \/ q_tag K hash k <> 0 -> has K V keq k (ents A) = true ->
  exists t' i kv A', q_emplace K V hash keq wide trivial (S fuel) alloc update k v t = Ret t' (i, false)
     /\ get K V keq k (ents A) = Some kv
     /\ good b t' A' /\ mlf_ok t'
     /\ Permutation (ents A') (if update then map (fun e => if keq k (fst e) then (fst e, v) else e) (ents A)
                               else ents A)
     /\ geti (q_slots _ _ t') i = Some (Some (if update then (fst kv, v) else kv)).
Proof.
  intros X M Hs Hh. cbn [q_emplace].
  destruct (look_spec b t A k 4 X Hs (or_intror eq_refl))
    as [(i & d & kv & E & Hi & Ha & Hsl & Hin & Hk)|(n & _ & _ & E)]; [|congruence].
  rewrite (prepare_old _ _ _ _ _ E) by lia. cbn [obind]. unfold q_read. rewrite Hsl.
  pose proof (get_In hash keq LW k (ents A) kv (g_dist _ _ _ X) Hin Hk) as EG.
  destruct update.
  - destruct (good_assign b t A i d kv v X Hi Ha (tm_trans _ _ LW _ k _ (tm_sym _ _ LW _ _ Hk) Hk)) as [G1 G2].
    eexists _, i, kv, _. split; [reflexivity|]. split; auto. split; [exact G1|]. split; [exact M|]. split.
    + rewrite G2. replace (map (fun e => if keq k (fst e) then (fst e, v) else e) (ents A))
        with (map (fun e => if keq (fst kv) (fst e) then (fst e, v) else e) (ents A)); [reflexivity|].
      apply map_ext. intros e. now rewrite (keq_subst hash keq LW _ _ _ Hk).
    + cbn [q_slots q_with]. apply geti_seti_eq. eapply geti_Some_lt; eauto.
  - exists t, i, kv, A. auto 10.
Qed.

(** ** Erasure *)

Lemma remove_perm k kv l l' : distinct_keys K V keq l -> Permutation l (kv :: l') -> keq k (fst kv) = true ->
  Permutation l' (remove K V keq k l).
Proof.
  intros D P HK. assert (D1 : distinct_keys K V keq (kv :: l')) by (eapply (distinct_perm hash keq LW); eauto).
  unfold remove. rewrite (filter_perm _ _ _ P). cbn [filter]. rewrite HK. cbn [negb].
  destruct D1 as [D1 _]. rewrite has_false in D1.
  replace (filter _ l') with l'; [reflexivity|].
  symmetry. clear - D1 HK LW. induction l' as [|e l IH]; [reflexivity|].
  cbn [filter]. rewrite (keq_subst hash keq LW _ _ _ HK), (D1 e) by (left; auto). cbn [negb].
  f_equal. apply IH. intros e' He'. apply D1. now right.
Qed.

Lemma remove_none k l : has K V keq k l = false -> remove K V keq k l = l.
Proof.
  rewrite has_false. intros EH. unfold remove. induction l as [|e l IH]; [reflexivity|].
  cbn [filter]. rewrite (EH e) by (left; auto). cbn [negb]. f_equal. apply IH. intros e' He'. apply EH. now right.
Qed.

(** [q_cut] on the stored map and [cut] on the ring. *)
Lemma word_home b t A j : good b t A -> j < 2 ^ b ->
  home_or_free (geti A j) <-> exists d x, geti (q_ctrls _ _ t) j = Some (d, x) /\ (d = 0 \/ d = 255).
Proof.
  intros X Hj. pose proof (g_st _ _ _ X) as (G & W & SS & RG & LO).
  destruct (geti_lt A j) as (o & Ho); [rewrite (w_alen _ _ _ _ W); lia|].
  destruct (w_cell _ _ _ _ W _ _ Hj Ho) as ([d x] & Hc & Hw). rewrite Ho. split.
  - intros [E|(e & E)]; injection E as ->; cbn in Hw.
    + exists d, x. auto.
    + destruct Hw as [_ E]. injection E as -> ->. exists 0, (q_tag K hash (fst e)). auto.
  - intros (d' & x' & Hc' & Hd). rewrite Hc in Hc'. injection Hc' as <- <-.
    destruct o as [[d' e]|]; [|now left]. cbn in Hw. destruct Hw as [H1 E]. injection E as -> ->.
    right. exists e. destruct Hd as [-> | ->]; [reflexivity|lia].
Qed.

Lemma cut_spec b t A i d kv : good b t A -> i < 2 ^ b -> geti A i = Some (Some (d, kv)) ->
  (exists j d' x', i < j /\ j <= 2 ^ b /\ geti (q_ctrls _ _ t) (j mod 2 ^ b) = Some (d', x')
     /\ (d' = 0 \/ d' = 255)) <-> cut b (seti A i None) i d.
Proof.
  intros X Hi Ha. pose proof (g_b2 _ _ _ X) as Hb2. pose proof (b50 _ (g_b44 _ _ _ X)) as Hb50.
  pose proof (cap4 b Hb2 Hb50) as C4.
  pose proof (g_st _ _ _ X) as (G & W & SS & RG & LO). pose proof (w_alen _ _ _ _ W) as HAl.
  assert (NE : forall j, j <> i -> geti (seti A i None) j = geti A j).
  { intros j Hj. apply geti_seti_neq. congruence. }
  unfold cut. split.
  - intros (j & d' & x' & H1 & H2 & H3 & H4). destruct (N.eq_dec j (2 ^ b)) as [->|].
    + rewrite N.mod_same in H3 by lia. destruct (N.eq_dec i 0) as [->|].
      * right. right. split; auto. destruct (w_cell _ _ _ _ W _ _ Hi Ha) as (c & Hc & Hw & Ec).
        rewrite H3 in Hc. injection Hc as <-. injection Ec as -> _. destruct H4 as [|H4]; [auto|lia].
      * right. left. split; [lia|]. rewrite NE by auto. apply (word_home b t A 0 X); [lia|eauto].
    + rewrite N.mod_small in H3 by lia. left. exists j. split; auto. split; [lia|].
      rewrite NE by lia. apply (word_home b t A j X); [lia|eauto].
  - intros [(j & H1 & H2 & H3)|[(H1 & H3)|(-> & ->)]].
    + rewrite NE in H3 by lia. apply (word_home b t A j X H2) in H3. destruct H3 as (d' & x' & H3 & H4).
      exists j, d', x'. rewrite N.mod_small by lia. split; auto. split; [lia|auto].
    + rewrite NE in H3 by lia. apply (word_home b t A 0 X ltac:(lia)) in H3. destruct H3 as (d' & x' & H3 & H4).
      exists (2 ^ b), d', x'. rewrite N.mod_same by lia. split; auto. split; [lia|auto].
    + destruct (w_cell _ _ _ _ W _ _ Hi Ha) as (c & Hc & Hw & Ec).
      exists (2 ^ b), 0, (q_tag K hash (fst kv)). rewrite N.mod_same by lia. subst c.
      split; [lia|]. split; [lia|auto].
Qed.

Lemma good_erase b t A C S A' e : good b t A -> Permutation (ents A) (e :: ents A') ->
  stored b (q_with K V t C S (wsub (q_size _ _ t) 1)) A' ->
  good b (q_with K V t C S (wsub (q_size _ _ t) 1)) A'.
Proof.
  intros X P ST. split; auto.
  - apply (g_b2 _ _ _ X).
  - apply (g_b44 _ _ _ X).
  - cbn [q_size q_with]. rewrite (g_size _ _ _ X), (Permutation_length P). cbn [length].
    pose proof (good_len _ _ _ X) as HL. rewrite (Permutation_length P) in HL. cbn [length] in HL.
    pose proof (cap44 b (g_b44 _ _ _ X)) as HC. change (2 ^ 44) with 17592186044416 in HC.
    rewrite wsub_small; [lia|lia|unfold two64; lia].
  - pose proof (distinct_perm hash keq LW _ _ P (g_dist _ _ _ X)) as D. apply D.
  - cbn [q_thr q_with]. apply (g_thr _ _ _ X).
Qed.

Lemma erase_spec b t A k : good b t A -> 16 <= 2 ^ b \/ q_tag K hash k <> 0 -> q_cut K V keq k t ->
  exists t' A', q_erase K V hash keq wide trivial k t = Ok (t', count K V keq k (ents A))
    /\ good b t' A' /\ q_mlf _ _ t' = q_mlf _ _ t /\ q_rev _ _ t' = q_rev _ _ t
    /\ Permutation (ents A') (remove K V keq k (ents A)).
Proof.
  intros X Hs HC. unfold q_erase, q_find_index, count.
  destruct (look_spec b t A k 2 X Hs (or_introl eq_refl))
    as [(i & d & kv & -> & Hi & Ha & Hsl & Hin & Hk)|(n & -> & _ & E)]; cbn [rbind].
  - assert (EH : has K V keq k (ents A) = true) by (apply has_true; eauto). rewrite EH.
    pose proof (g_st _ _ _ X) as (G & W & SS & RG & LO).
    destruct (w_cell _ _ _ _ W _ _ Hi Ha) as (c & Hc & Hw & Ec). subst c.
    destruct (HC i d (q_tag K hash (fst kv)) kv) as (j & d' & x' & J1 & J2 & J3 & J4); auto.
    { now rewrite (good_cap _ _ _ X). }
    { now apply (tm_sym _ _ LW). }
    rewrite (good_cap _ _ _ X) in J2, J3.
    destruct (erase_slot_spec hash trivial b (g_b2 _ _ _ X) (b50 _ (g_b44 _ _ _ X)) t A i d kv (g_st _ _ _ X) Hi Ha)
      as [H1 _].
    destruct H1 as (C & S & A' & E1 & E2 & E3).
    { apply (cut_spec b t A i d kv X Hi Ha). eauto 10. }
    rewrite E1. cbn [rbind]. eexists _, A'. split; [reflexivity|]. split; [eapply good_erase; eauto|].
    split; auto. split; auto. apply (remove_perm k kv); auto. apply (g_dist _ _ _ X).
  - rewrite E. exists t, A. split; auto. split; auto. split; auto. split; auto. now rewrite remove_none.
Qed.

(** ** Lookups *)

Lemma lookup_spec b t A k : good b t A -> 16 <= 2 ^ b \/ q_tag K hash k <> 0 ->
  q_find_obs K V hash keq wide t k = Ok (get K V keq k (ents A)).
Proof.
  intros X Hs. unfold q_find_obs, q_find_index.
  destruct (look_spec b t A k 2 X Hs (or_introl eq_refl))
    as [(i & d & kv & -> & Hi & Ha & Hsl & Hin & Hk)|(n & -> & _ & E)]; cbn [rbind].
  - unfold q_deref, q_read. rewrite Hsl. cbn [rbind]. do 2 f_equal. symmetry.
    apply (get_In hash keq LW); auto. apply (g_dist _ _ _ X).
  - rewrite has_get in E. destruct (get K V keq k (ents A)); [discriminate|reflexivity].
Qed.

Lemma contains_spec b t A k : good b t A -> 16 <= 2 ^ b \/ q_tag K hash k <> 0 ->
  exists r, q_find_index K V hash keq wide t k = Ok r
    /\ match r with Some _ => true | None => false end = has K V keq k (ents A).
Proof.
  intros X Hs. unfold q_find_index.
  destruct (look_spec b t A k 2 X Hs (or_introl eq_refl))
    as [(i & d & kv & -> & Hi & Ha & Hsl & Hin & Hk)|(n & -> & _ & E)]; cbn [rbind]; eexists; (split; [reflexivity|]).
  - symmetry. apply has_true. eauto.
  - now rewrite E.
Qed.

(** ** Destruction and clear *)

Lemma destroy_loop_spec b t A : good b t A -> trivial = false -> forall is S,
  Forall (fun i => i < 2 ^ b) is -> NoDup is -> length S = length (q_slots _ _ t) ->
  (forall i, In i is -> geti S i = geti (q_slots _ _ t) i) ->
  exists S', q_destroy_loop K V trivial (q_ctrls _ _ t) is S = Ok S' /\ length S' = length S
    /\ (forall i, geti S' i = if in_dec N.eq_dec i is then Some None else geti S i).
Proof.
  intros X Ht. pose proof (g_st _ _ _ X) as (G & W & SS & RG & LO).
  induction is as [|i is IH]; intros S F ND HL HS.
  { exists S. split; [reflexivity|]. split; [reflexivity|]. intros i. destruct (in_dec _ _ _) as [[]|]; auto. }
  inversion F; subst. apply NoDup_cons_iff in ND. destruct ND as [NI ND].
  rename H1 into Hi, H2 into F'. cbn [q_destroy_loop].
  destruct (words_used hash b (g_b2 _ _ _ X) (b50 _ (g_b44 _ _ _ X)) _ _ _ W Hi) as (c & Hc & _ & Hu & _). rewrite Hc, Hu.
  destruct (geti_lt A i) as (o & Ho); [rewrite (w_alen _ _ _ _ W); lia|].
  destruct (s_cell _ _ _ _ SS i _ Hi Ho) as (s & Hs & Hss).
  assert (ES : geti S i = Some s) by (rewrite HS; [auto|now left]).
  assert (Hlt : i < N.of_nat (length S)) by (eapply geti_Some_lt; eauto).
  unfold used_at. rewrite Ho. destruct o as [[d e]|]; cbn in Hss.
  - subst s. unfold q_drop. rewrite ES, Ht. cbn [rbind].
    destruct (IH (seti S i None)) as (S' & R1 & R2 & R3); auto.
    + now rewrite seti_length.
    + intros j Hj. rewrite geti_seti_neq; [apply HS; now right|]. intros ->. contradiction.
    + exists S'. rewrite Ht in R1. split; [exact R1|]. split; [now rewrite R2, seti_length|].
      intros j. rewrite R3. destruct (in_dec N.eq_dec j is) as [I1|I1], (in_dec N.eq_dec j (i :: is)) as [I2|I2]; auto.
      * exfalso. apply I2. now right.
      * destruct I2 as [->|]; [|contradiction]. now apply geti_seti_eq.
      * apply geti_seti_neq. intros ->. apply I2. now left.
  - specialize (Hss Ht). subst s. destruct (IH S) as (S' & R1 & R2 & R3); auto.
    { intros j Hj. apply HS. now right. }
    exists S'. split; auto. split; auto. intros j. rewrite R3.
    destruct (in_dec N.eq_dec j is) as [I1|I1], (in_dec N.eq_dec j (i :: is)) as [I2|I2]; auto.
    + exfalso. apply I2. now right.
    + destruct I2 as [->|]; [|contradiction]. now rewrite ES.
Qed.

Lemma destroy_slots_spec b t A : good b t A ->
  exists S', q_destroy_slots K V trivial t = Ok S' /\ N.of_nat (length S') = 2 ^ b
    /\ (trivial = false -> forall s, In s S' -> s = None).
Proof.
  intros X. pose proof (g_st _ _ _ X) as (G & W & SS & RG & LO). pose proof (s_len _ _ _ _ SS) as HL.
  pose proof (cap4 b (g_b2 _ _ _ X) (b50 _ (g_b44 _ _ _ X))) as C4.
  unfold q_destroy_slots. destruct (q_slots _ _ t) as [|s0 sl] eqn:ES; [cbn [length] in HL; lia|].
  rewrite <- ES in *. destruct trivial eqn:Ht.
  - exists (q_slots _ _ t). split; auto. split; auto. discriminate.
  - rewrite (good_cap _ _ _ X).
    destruct (destroy_loop_spec b t A X Ht (seqN (2 ^ b)) (q_slots _ _ t)) as (S' & R1 & R2 & R3); auto.
    + apply Forall_forall. intros i Hi. now apply seqN_In in Hi.
    + apply seqN_NoDup.
    + rewrite Ht in R1. exists S'. split; auto. split; [now rewrite R2|]. intros _ s Hs.
      apply In_geti in Hs. destruct Hs as (i & Hi). pose proof (geti_Some_lt _ _ _ Hi) as Hlt.
      rewrite R2, HL in Hlt. rewrite R3 in Hi. destruct (in_dec _ _ _) as [_|I1]; [congruence|].
      exfalso. apply I1. now apply seqN_In.
Qed.

Lemma destroy_spec b t A : good b t A -> q_destroy K V trivial t = Ok tt.
Proof.
  intros X. unfold q_destroy. destruct (destroy_slots_spec b t A X) as (S' & -> & _ & H). cbn [rbind].
  assert (E : q_no_leak K V trivial S' = true); [|now rewrite E].
  unfold q_no_leak. destruct trivial; [reflexivity|]. cbn [orb]. apply forallb_forall.
  intros s Hs. now rewrite (H eq_refl s Hs).
Qed.

(** clear of a small map leaves the last sixteen control words as they are. *)
Lemma clear_small b t A S' : good b t A -> 2 ^ b < 16 -> N.of_nat (length S') = 2 ^ b ->
  (trivial = false -> forall s, In s S' -> s = None) ->
  good b (q_with K V t (q_clear_groups K V t) S' 0) (repeat None (N.to_nat (2 ^ b))).
Proof.
  intros X H16 HL HN. pose proof (g_b2 _ _ _ X) as Hb2. pose proof (b50 _ (g_b44 _ _ _ X)) as Hb50.
  pose proof (cap4 b Hb2 Hb50) as C4. pose proof (g_st _ _ _ X) as (G & W & SS & RG & LO).
  pose proof (w_len _ _ _ _ W) as HC. rewrite (gcount_one b Hb2 Hb50 H16) in HC.
  split; auto.
  - apply (g_b44 _ _ _ X).
  - split; [exact G|]. cbn [q_with q_ctrls q_slots].
    split; [|split; [now apply empty_slots|split; [now apply empty_ring|now apply empty_low]]].
    unfold q_clear_groups. destruct (q_ctrls _ _ t) as [|c0 cs] eqn:EC; [cbn [length] in HC; lia|].
    rewrite <- EC in *. clear c0 cs EC. rewrite (geo_gc b Hb2 Hb50 _ G), (gcount_one b Hb2 Hb50 H16).
    cbv zeta. change (N.to_nat (1 * 16)) with 16%nat. unfold qEmpty.
    assert (LE : length (repeat (255, 0) 16) = 16%nat) by apply repeat_length.
    assert (GL : forall i, i < 16 -> geti (repeat (255, 0) 16 ++ skipn 16 (q_ctrls _ _ t)) i = Some (255, 0)).
    { intros i Hi. rewrite geti_app_l by (rewrite LE; lia). apply geti_repeat. lia. }
    assert (GR : forall i, 16 <= i -> geti (repeat (255, 0) 16 ++ skipn 16 (q_ctrls _ _ t)) i = geti (q_ctrls _ _ t) i).
    { intros i Hi. assert (E : i = N.of_nat (length (repeat (255, 0) 16)) + (i - 16)) by (rewrite LE; lia).
      rewrite E at 1. rewrite geti_app_r. change (skipn 16) with (@skipn ctrl (N.to_nat 16)).
      rewrite (geti_skipn_add (2 ^ b) C4). replace (16 + (i - 16)) with i by lia. reflexivity. }
    assert (C8 : 2 ^ b <= 8) by (destruct (b_cases b Hb2) as [[Q _]|[-> | ->]]; lia).
    apply (empty_words hash b Hb2 Hb50).
    + rewrite app_length, skipn_length, LE, (gcount_one b Hb2 Hb50 H16). lia.
    + intros i Hi. exists 0. apply GL. lia.
    + intros i Hi _. rewrite !GL by lia. reflexivity.
    + intros _ i Hi Hi32. destruct (N.lt_ge_cases i 16) as [Lt|Ge].
      * exists 255. split; [now apply GL|lia].
      * rewrite GR by auto. apply (w_tail _ _ _ _ W H16 i Hi Hi32).
  - rewrite empty_ents. reflexivity.
  - rewrite empty_ents. exact I.
  - apply (g_thr _ _ _ X).
Qed.

Lemma clear_spec alloc b t A (destroy : bool) : f_sane alloc -> good b t A -> mlf_ok t ->
  destroy = true \/ 2 ^ b < 16 -> resized [] (q_clear K V trivial alloc destroy t).
Proof.
  intros HA X M HC. unfold q_clear. rewrite (good_cap _ _ _ X).
  pose proof (g_b2 _ _ _ X) as Hb2. pose proof (b50 _ (g_b44 _ _ _ X)) as Hb50.
  pose proof (cap4 b Hb2 Hb50) as C4.
  assert (REST : 2 ^ b < 16 -> resized [] match q_destroy_slots K V trivial t with
    | Err e => Fail e | Ok sl => Ret (q_with K V t (q_clear_groups K V t) sl 0) tt end).
  { intros H16. destruct (destroy_slots_spec b t A X) as (S' & -> & H1 & H2). right.
    eexists _, b, _. split; [reflexivity|]. split; [now apply (clear_small b t A S' X)|]. split; [exact M|].
    now rewrite empty_ents. }
  destruct (qDefaultCapacity <? 2 ^ b) eqn:EC; cbn [andb]; [destruct destroy|].
  - rewrite (destroy_spec b t A X). unfold qDefaultCapacity. change 4 with (2 ^ 2).
    destruct (create_spec alloc t 2 HA ltac:(lia) ltac:(lia) M) as [(t' & ->)|(t' & -> & Y & M' & _)].
    + left. eauto.
    + right. exists t', 2, (repeat None (N.to_nat (2 ^ 2))). split; [reflexivity|]. split; [exact Y|]. split; [exact M'|].
      now rewrite empty_ents.
  - destruct HC as [|HC]; [discriminate|]. apply REST. exact HC.
  - apply REST. unfold qDefaultCapacity in EC. lia.
Qed.

(** ** Capacity and load factor *)

Lemma resize_spec alloc b t A n : f_sane alloc -> good b t A -> mlf_ok t -> fine (ents A) -> n <= 2 ^ 63 ->
  q_size _ _ t <= n ->
  resized (ents A) (q_rehash_impl K V hash keq wide trivial true false alloc t n).
Proof.
  intros HA X M HF Hn Hs. rewrite (g_size _ _ _ X) in Hs.
  destruct (rehash_spec true false alloc t A b n X M HA Hn) as [H|(t' & b' & A' & E & G & M' & P & _)].
  - intros b' Hb' Hnb. split; [lia|]. refine (HF b' _ _); lia.
  - left. exact H.
  - right. exists t', b', A'. auto.
Qed.

Lemma min_require_ge rev n : 65536 <= rev -> rev <= 327680 -> n <= 2 ^ 44 ->
  n <= q_min_require rev n /\ q_min_require rev n <= 2 ^ 47.
Proof.
  intros H1 H2 Hn. change (2 ^ 44) with 17592186044416 in Hn. change (2 ^ 47) with 140737488355328.
  unfold q_min_require, qAmplify.
  assert (W1 : n * rev <= n * 327680) by (apply N.mul_le_mono_l; lia).
  assert (W2 : n * 65536 <= n * rev) by (apply N.mul_le_mono_l; lia).
  rewrite wmul_small by (unfold two64; lia). split.
  - apply N.div_le_lower_bound; lia.
  - assert (n * rev / 65536 < 140737488355329); [|lia]. apply N.div_lt_upper_bound; lia.
Qed.

Lemma size_bound b t A : good b t A -> q_size _ _ t <= 2 ^ 44.
Proof.
  intros X. rewrite (g_size _ _ _ X). pose proof (good_len _ _ _ X). pose proof (cap44 b (g_b44 _ _ _ X)). lia.
Qed.

Lemma rehash_to_spec alloc b t A (ro : bool) n : f_sane alloc -> good b t A -> mlf_ok t -> fine (ents A) -> n <= 2 ^ 44 ->
  resized (ents A) (q_rehash K V hash keq wide trivial alloc ro n t).
Proof.
  intros HA X M HF Hn. unfold q_rehash. pose proof (size_bound _ _ _ X) as HS.
  destruct M as [M1 [M2 M3]]. destruct (min_require_ge _ n M2 M3 Hn) as [_ G].
  change (2 ^ 44) with 17592186044416 in *. change (2 ^ 47) with 140737488355328 in *.
  apply (resize_spec alloc b t A); auto; [split; auto| |lia].
  change (2 ^ 63) with 9223372036854775808. destruct ro; lia.
Qed.

Lemma shrink_spec alloc b t A (ro : bool) : f_sane alloc -> good b t A -> mlf_ok t -> fine (ents A) ->
  resized (ents A) (q_shrink K V hash keq wide trivial alloc ro t).
Proof.
  intros HA X M HF. unfold q_shrink. pose proof (size_bound _ _ _ X) as HS.
  destruct M as [M1 [M2 M3]]. destruct (min_require_ge _ _ M2 M3 HS) as [G1 G2].
  change (2 ^ 44) with 17592186044416 in *. change (2 ^ 47) with 140737488355328 in *.
  apply (resize_spec alloc b t A); auto; [split; auto| |].
  - change (2 ^ 63) with 9223372036854775808. destruct ro; lia.
  - destruct ro; lia.
Qed.

Lemma mlf_spec alloc b t A x : f_sane alloc -> good b t A -> fine (ents A) ->
  resized (ents A) (q_set_mlf K V hash keq wide trivial alloc x t).
Proof.
  intros HA X HF. unfold q_set_mlf. cbv zeta. set (t' := mkQ _ _ _ _ _ _ _ _ _ _).
  assert (X' : good b t' A) by (destruct X; split; auto).
  assert (M' : mlf_ok t').
  { pose proof (mlf_of_bound x) as B1. pose proof (rev_of_bound x) as B2. split; cbn; lia. }
  destruct (_ && _).
  - apply (rehash_to_spec alloc b t' A false); auto. apply (size_bound b t' A X').
  - right. exists t', b, A. auto.
Qed.

(** ** Copying *)

Lemma insert_unique_spec alloc b t A kv fuel : good b t A -> has K V keq (fst kv) (ents A) = false ->
  N.of_nat (length (ents A)) < 2 ^ b -> roomy b (kv :: ents A) -> (0 < fuel)%nat ->
  exists t' A', q_insert_unique K V hash keq wide trivial fuel alloc kv t = Ret t' tt
    /\ good b t' A' /\ q_mlf _ _ t' = q_mlf _ _ t /\ q_rev _ _ t' = q_rev _ _ t
    /\ Permutation (ents A') (kv :: ents A).
Proof.
  intros X Hh HL HR Hf. destruct fuel as [|fuel]; [lia|]. cbn [q_insert_unique].
  destruct (place_new hash keq LW wide trivial b (g_b2 _ _ _ X) (b50 _ (g_b44 _ _ _ X)) false t A kv (g_st _ _ _ X) HL HR)
    as (i & d & C & S & A' & E1 & E2 & E3 & E4).
  rewrite E1, E2. eexists _, A'. split; [reflexivity|]. split; [|auto].
  apply (good_insert b t A C S A' kv); auto.
Qed.

Lemma insert_unique_all_spec alloc : forall l b t A, good b t A ->
  distinct_keys K V keq (l ++ ents A) -> N.of_nat (length (l ++ ents A)) <= 2 ^ b -> roomy b (l ++ ents A) ->
  exists t' A', q_insert_unique_all K V hash keq wide trivial alloc l t = Ret t' tt
    /\ good b t' A' /\ q_mlf _ _ t' = q_mlf _ _ t /\ q_rev _ _ t' = q_rev _ _ t
    /\ Permutation (ents A') (l ++ ents A).
Proof.
  induction l as [|kv l IH]; intros b t A X HD HL HR.
  - exists t, A. auto.
  - cbn [q_insert_unique_all app] in *.
    assert (PM : Permutation (kv :: l ++ ents A) (l ++ kv :: ents A)) by apply Permutation_middle.
    assert (HD' : distinct_keys K V keq (l ++ kv :: ents A)) by (eapply (distinct_perm hash keq LW); eauto).
    destruct HD as [HD1 HD2].
    destruct (insert_unique_spec alloc b t A kv 64 X) as (t1 & A1 & E1 & X1 & M1 & M2 & P1).
    + rewrite has_false in *. intros e He. apply HD1. apply in_or_app. auto.
    + cbn [length] in HL. rewrite app_length in HL. lia.
    + apply (roomy_tail b l). eapply roomy_perm; [exact PM|exact HR].
    + lia.
    + rewrite E1. cbn [obind].
      assert (P2 : Permutation (l ++ kv :: ents A) (l ++ ents A1)) by (apply Permutation_app_head; now symmetry).
      destruct (IH b t1 A1 X1) as (t2 & A2 & E2 & X2 & M3 & M4 & P3).
      * eapply (distinct_perm hash keq LW); eauto.
      * rewrite <- (Permutation_length P2), <- (Permutation_length PM). exact HL.
      * eapply roomy_perm; [exact P2|]. eapply roomy_perm; [exact PM|exact HR].
      * exists t2, A2. split; auto. split; auto. split; [congruence|]. split; [congruence|].
        rewrite P3, <- P2. now symmetry.
Qed.

Lemma blank_ok : mlf_ok (q_blank K V).
Proof. unfold mlf_ok. cbn. unfold qDefaultMlf, qDefaultRev. lia. Qed.

Lemma new_spec alloc n : f_sane alloc -> n <= 2 ^ 63 ->
  (exists t', q_new K V alloc n = Throw t')
  \/ exists t b, q_new K V alloc n = Ret t tt /\ good b t (repeat None (N.to_nat (2 ^ b))) /\ mlf_ok t
       /\ n <= 2 ^ b.
Proof.
  intros HA Hn. unfold q_new, q_create_init. destruct (calc_spec n Hn) as (b & -> & Hb2 & Hnb & Hb63).
  destruct (create_spec alloc (q_blank K V) b HA Hb2 Hb63 blank_ok) as [H|(t & E & X & M & _)]; [auto|].
  right. exists t, b. auto.
Qed.

Lemma copy_spec alloc b t A : f_sane alloc -> good b t A -> fine (ents A) ->
  resized (ents A) (q_copy K V hash keq wide trivial alloc t).
Proof.
  intros HA X HF. unfold q_copy. fold (q_new K V alloc (q_min_require qDefaultRev (q_size _ _ t))).
  destruct (min_require_ge qDefaultRev (q_size _ _ t)) as [G1 G2];
    [unfold qDefaultRev; lia|unfold qDefaultRev; lia|apply (size_bound _ _ _ X)|].
  destruct (new_spec alloc (q_min_require qDefaultRev (q_size _ _ t)) HA) as [(t' & ->)|(nt & b' & -> & Y & M & Hb)].
  - etransitivity; [exact G2|]. apply pow2_le. lia.
  - left. cbn [obind]. eauto.
  - right. cbn [obind].
    rewrite (traverse_spec hash wide trivial b (g_b2 _ _ _ X) (b50 _ (g_b44 _ _ _ X)) t A (g_st _ _ _ X)).
    assert (HL : N.of_nat (length (ents A)) <= 2 ^ b') by (rewrite <- (g_size _ _ _ X); lia).
    destruct (insert_unique_all_spec alloc (ents A) b' nt _ Y) as (t' & A' & E & X' & M1 & M2 & P);
      try (rewrite empty_ents, app_nil_r).
    + apply (g_dist _ _ _ X).
    + exact HL.
    + refine (HF b' _ HL). apply (g_b2 _ _ _ Y).
    + exists t', b', A'. split; auto. split; auto. split.
      * unfold mlf_ok in *. now rewrite M1, M2.
      * rewrite P, empty_ents, app_nil_r. reflexivity.
Qed.

(** ** One call *)

(** The invariant of the maps with the entries [m]. *)
Definition qinv (t : qmap) (m : list (K * V)) : Prop :=
  mlf_ok t /\ fine m /\ exists b A, good b t A /\ Permutation (ents A) m.

Definition follows (o : op K V) (m : list (K * V)) (r : out qmap (obs K V)) : Prop :=
  match r with
  | Ret t' x => x = snd (spec_step K V keq o m) /\ qinv t' (fst (spec_step K V keq o m))
  | Throw _ => True
  | Fail _ => False
  end.

Lemma resized_follows o m r : resized (fst (spec_step K V keq o m)) r -> fine (fst (spec_step K V keq o m)) ->
  snd (spec_step K V keq o m) = RUnit K V -> follows o m (q_unit K V r).
Proof.
  intros [(t' & ->)|(t' & b & A & -> & X & M & P)] HF E; cbn [q_unit obind follows]; auto.
  split; auto. split; auto. split; auto. exists b, A. auto.
Qed.

Lemma step_ents alloc o t b A : f_sane alloc -> good b t A -> mlf_ok t -> fine (ents A) -> q_client K V hash keq o t ->
  fine (fst (spec_step K V keq o (ents A))) ->
  follows o (ents A) (q_step K V hash keq wide trivial alloc o t).
Proof.
  intros HA X M HF HC HF'.
  assert (INS : forall (update : bool) k v,
    let o' := if update then OAssign K V k v else OInsert K V k v in
    q_seen K V hash k t -> fine (fst (spec_step K V keq o' (ents A))) ->
    follows o' (ents A) (q_ins K V (q_emplace K V hash keq wide trivial 64 alloc update k v t))).
  { intros update k v o' Hs HF2. apply (seen_spec b t A k X) in Hs.
    destruct (has K V keq k (ents A)) eqn:EH.
    - destruct (emplace_old alloc update t A b k v 63 X M Hs EH) as (t' & i & kv & A' & E & EG & X' & M' & P & ES).
      rewrite E. cbn [q_ins obind]. unfold q_deref, q_read. rewrite ES. cbn [q_lift follows].
      assert (E1 : spec_step K V keq o' (ents A)
        = (if update then map (fun e => if keq k (fst e) then (fst e, v) else e) (ents A) else ents A,
           RIns K V (if update then (fst kv, v) else kv) false)).
      { unfold o'. destruct update; cbn [spec_step]; unfold put, put_new, the; now rewrite EG, EH. }
      rewrite E1 in *. cbn [fst snd] in *. split; [reflexivity|]. split; [exact M'|]. split; [exact HF2|].
      exists b, A'. auto.
    - assert (EN : fst (spec_step K V keq o' (ents A)) = (k, v) :: ents A).
      { unfold o'. destruct update; cbn [spec_step fst]; unfold put, put_new; now rewrite EH. }
      rewrite EN in HF2.
      assert (EG : get K V keq k (ents A) = None).
      { rewrite has_get in EH. destruct (get K V keq k (ents A)); [discriminate|reflexivity]. }
      destruct (emplace_new alloc update t A b k v 63 HA X M Hs EH HF2)
        as [(t' & E)|(t' & i & b' & A' & E & X' & M' & P & ES & _)]; rewrite E; cbn [q_ins obind follows]; auto.
      unfold q_deref, q_read. rewrite ES. cbn [q_lift follows]. rewrite EN. split.
      + unfold o'. destruct update; cbn [spec_step snd]; unfold the; now rewrite EG, EH.
      + split; auto. split; auto. exists b', A'. auto. }
  destruct o as [k v|k v|k|k|k| |d|n|n|d|x]; cbn [q_step q_client] in *.
  - exact (INS false k v HC HF').
  - exact (INS true k v HC HF').
  - destruct HC as [Hs HC]. apply (seen_spec b t A k X) in Hs.
    destruct (erase_spec b t A k X Hs HC) as (t' & A' & -> & X' & M1 & M2 & P). cbn [follows spec_step fst snd] in *.
    split; auto. split; [unfold mlf_ok in *; now rewrite M1, M2|]. split; auto. exists b, A'. auto.
  - apply (seen_spec b t A k X) in HC. rewrite (lookup_spec b t A k X HC). cbn [q_lift follows spec_step fst snd] in *.
    split; auto. split; auto. split; auto. exists b, A. auto.
  - apply (seen_spec b t A k X) in HC. destruct (contains_spec b t A k X HC) as (r & -> & E).
    cbn [q_lift follows spec_step fst snd] in *.
    split; [now rewrite E|]. split; auto. split; auto. exists b, A. auto.
  - cbn [follows spec_step fst snd] in *. split; [now rewrite (g_size _ _ _ X)|].
    split; auto. split; auto. exists b, A. auto.
  - apply resized_follows; auto. cbn [spec_step fst]. apply (clear_spec alloc b t A d); auto.
    now rewrite (good_cap _ _ _ X) in HC.
  - apply resized_follows; auto. cbn [spec_step fst]. now apply (rehash_to_spec alloc b t A false).
  - apply resized_follows; auto. cbn [spec_step fst]. now apply (rehash_to_spec alloc b t A false).
  - apply resized_follows; auto. cbn [spec_step fst]. now apply (shrink_spec alloc b t A).
  - apply resized_follows; auto. cbn [spec_step fst]. now apply (mlf_spec alloc b t A).
Qed.

Lemma qinv_perm t m m' : Permutation m m' -> qinv t m -> qinv t m'.
Proof.
  intros P (M & HF & b & A & X & P'). split; auto. split; [eapply fine_perm; eauto|].
  exists b, A. split; auto. now rewrite P'.
Qed.

Lemma step_spec alloc o t m : f_sane alloc -> qinv t m -> q_client K V hash keq o t ->
  fine (fst (spec_step K V keq o m)) -> follows o m (q_step K V hash keq wide trivial alloc o t).
Proof.
  intros HA (M & HF & b & A & X & P) HC HF'.
  destruct (spec_step_perm hash keq LW o (ents A) m P (g_dist _ _ _ X)) as [P1 P2].
  pose proof (step_ents alloc o t b A HA X M (fine_perm _ _ (Permutation_sym P) HF) HC
    (fine_perm _ _ (Permutation_sym P1) HF')) as F.
  unfold follows in *. destruct (q_step _ _ _ _ _ _ _ _ _); auto.
  destruct F as [F1 F2]. split; [congruence|]. now apply (qinv_perm _ _ _ P1).
Qed.

Lemma fine_nil : fine [].
Proof. intros b Hb Hl a n Ha H1 H2. unfold q_wanted. cbn. lia. Qed.

Lemma agrees_spec : forall calls t m, (forall c, In c calls -> f_sane (fst c)) -> qinv t m ->
  q_agrees K V hash keq wide trivial fine (q_client K V hash keq) calls t m.
Proof.
  induction calls as [|[alloc o] calls IH]; intros t m HA I; cbn [q_agrees]; [exact Logic.I|].
  destruct (spec_step K V keq o m) as [m' r'] eqn:E. intros HC HF.
  pose proof (step_spec alloc o t m (HA _ (or_introl eq_refl)) I HC) as F. rewrite E in F. specialize (F HF).
  destruct (q_step K V hash keq wide trivial alloc o t) as [t' r|t'|]; auto.
  unfold follows in F. rewrite E in F. destruct F as [F1 F2]. split; auto. apply IH; auto.
  intros c Hc. apply HA. now right.
Qed.

Lemma new_inv alloc n t : f_sane alloc -> n <= 2 ^ 44 -> q_new K V alloc n = Ret t tt -> qinv t [].
Proof.
  intros HA Hn E. destruct (new_spec alloc n HA) as [(t' & E')|(t' & b & E' & X & M & _)].
  - etransitivity; [exact Hn|]. apply pow2_le. lia.
  - congruence.
  - rewrite E in E'. injection E' as <-. split; auto. split; [apply fine_nil|].
    exists b, (repeat None (N.to_nat (2 ^ b))). split; auto. now rewrite empty_ents.
Qed.

Lemma built_inv t m : q_built K V hash keq wide trivial t m -> qinv t m.
Proof.
  induction 1 as [alloc n t HA Hn E|t m alloc o t' r B IH HA HC HF E|t m alloc t' B IH HA E|t m B IH].
  - eapply new_inv; eauto.
  - pose proof (step_spec alloc o t m HA IH HC HF) as F. rewrite E in F. apply F.
  - destruct IH as (M & HF & b & A & X & P).
    destruct (copy_spec alloc b t A HA X (fine_perm _ _ (Permutation_sym P) HF)) as [(t2 & E2)|(t2 & b2 & A2 & E2 & X2 & M2 & P2)].
    + congruence.
    + rewrite E in E2. injection E2 as <-. split; auto. split; auto. exists b2, A2. split; auto. now rewrite P2.
  - exact IH.
Qed.

End Refine.
