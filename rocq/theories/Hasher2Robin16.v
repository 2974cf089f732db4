(** robin16_hash_map with a hasher that throws. *)
From Coq Require Import NArith ZArith List Bool Lia Permutation.
From Coq Require Import ZifyBool ZifyNat ZifyN.
From Verif Require Import Base BaseFacts BitsModel BitsFacts GroupModel TableInv TableModel MapSpec MapFacts
  HashModel Flat16Model Flat16Spec Flat16Calls RobinFacts Robin16Model Robin16Spec Robin16Ring Robin16Scan
  Robin16Facts Robin16Moves Robin16Ops Robin16Refine Hasher2Model Hasher2Spec Hasher2Flat16.
From Verif Require Flat16Ops.
Import ListNotations.
Open Scope N_scope.

Section Robin16.

Context {K V : Type} (hash : K -> N) (keq : K -> K -> bool) (LW : lawful hash keq) (wide trivial : bool).

Notation qmap := (qmap K V).
Notation slots := (list (option (K * V))).
Notation cells := (list (option (N * (K * V)))).
Notation hq := (hq (V := V) hash).
Notation roomy b := (roomy hq (2 ^ b) 128).
Notation fine := (q_fine K V hash).
Notation good := (good hash keq trivial).
Notation mlf_ok := (@mlf_ok K V).
Notation cap := (q_cap K V).

Lemma q_transfer_h_spec : forall is (old : slots) t m old' t',
  q_transfer K V hash keq wide trivial old is t = Ok (old', t') ->
  q_transfer_h K V hash keq wide trivial m old is t
  = if (length is <=? m)%nat then Some (Ok (old', t', (m - length is)%nat)) else None.
Proof.
  induction is as [|i is IH]; intros old t m old' t' H; cbn [length].
  - cbn [q_transfer] in H. injection H as <- <-. cbn [q_transfer_h].
    replace (0 <=? m)%nat with true by (symmetry; apply Nat.leb_le; lia). now rewrite Nat.sub_0_r.
  - cbn [q_transfer q_transfer_h] in *. destruct (q_read K V old i) as [kv|]; [|discriminate]. cbn [rbind] in H.
    destruct m as [|m]; [reflexivity|].
    destruct (q_move_insert K V hash keq wide trivial t kv) as [t1|e]; [|discriminate]. cbn [rbind] in *.
    destruct (q_drop K V trivial old i) as [old1|e]; [|discriminate]. cbn [rbind] in *.
    now rewrite (IH _ _ m _ _ H).
Qed.

Lemma used_count b t A : good b t A ->
  exists is, q_used_positions K V wide t = Ok is /\ N.of_nat (length is) = q_size _ _ t.
Proof.
  intros X. pose proof (g_b2 _ _ _ _ _ _ X) as Hb2. pose proof (b50 _ (g_b44 _ _ _ _ _ _ X)) as Hb50.
  pose proof (g_st _ _ _ _ _ _ X) as (G & W & SS & RG & LO).
  rewrite (used_positions_spec hash wide b Hb2 Hb50 t A G W). eexists. split; [reflexivity|].
  rewrite (g_size _ _ _ _ _ _ X), (ents_positions A), (w_alen _ _ _ _ W).
  pose proof (ents_forall2 A (seqN (2 ^ b))) as F. f_equal. clear -F.
  induction F; cbn [length]; auto.
Qed.

Lemma calc_min n : n <= 2 ^ 62 -> exists b, q_calc_capacity n = Ok (2 ^ b) /\ 2 <= b /\ n <= 2 ^ b /\ b <= 63
  /\ forall b', 2 <= b' -> n <= 2 ^ b' -> b <= b'.
Proof. exact (Flat16Ops.calc_spec n). Qed.

Lemma q_create_cap alloc t n t' : q_create K V alloc t n = Throw t' -> cap t' = cap t.
Proof.
  unfold q_create. destruct (alloc true _); [destruct (alloc false _); [discriminate|]|];
    intros E; injection E as <-; reflexivity.
Qed.

Lemma q_rehash_h_spec (shrink always : bool) alloc b t A n m : good b t A -> mlf_ok t -> f_sane alloc ->
  n <= 2 ^ 62 ->
  (forall b', 2 <= b' -> n <= 2 ^ b' -> N.of_nat (length (ents A)) <= 2 ^ b' /\ roomy b' (ents A)) ->
  match q_rehash_impl K V hash keq wide trivial shrink always alloc t n with
  | Ret t' _ =>
      (always = false /\ cap t' = cap t
       /\ q_rehash_impl_h K V hash keq wide trivial m shrink always alloc t n = Some (Ret t' m))
      \/ ((always = true \/ cap t' <> cap t) /\ (exists b' A', good b' t' A' /\ mlf_ok t' /\ Permutation (ents A') (ents A)
           /\ n <= 2 ^ b' /\ forall b2, 2 <= b2 -> n <= 2 ^ b2 -> b' <= b2) /\
         q_rehash_impl_h K V hash keq wide trivial m shrink always alloc t n
         = if q_size _ _ t <=? N.of_nat m then Some (Ret t' (m - N.to_nat (q_size _ _ t))%nat) else None)
  | Throw t' => cap t' = cap t
      /\ q_rehash_impl_h K V hash keq wide trivial m shrink always alloc t n = Some (Throw t')
  | Fail _ => False
  end.
Proof.
  intros X M HA Hn HB. unfold q_rehash_impl, q_rehash_impl_h.
  destruct (calc_min n Hn) as (b' & -> & Hb2' & Hnb & Hb63 & HMIN).
  destruct (always || negb shrink && (cap t <? 2 ^ b') || shrink && negb (2 ^ b' =? cap t)) eqn:EC.
  2:{ left. apply orb_false_iff in EC. destruct EC as [EC _]. apply orb_false_iff in EC. destruct EC as [-> _]. auto. }
  destruct (create_spec hash keq trivial alloc t b' HA Hb2' Hb63 M) as [(t' & E)|(nt & -> & Y & M' & Z & HT)].
  { rewrite E. split; [eapply q_create_cap; eauto|reflexivity]. }
  destruct (HB b' Hb2' Hnb) as [HB1 HB2].
  destruct (fill_spec hash keq LW wide trivial alloc t A b b' nt X HA Y Z HB1 HB2) as (t' & A' & E & G & P & E1 & E2 & E3).
  rewrite E. destruct (used_count b t A X) as (is & EU & HLen). rewrite EU in *. cbn [rbind] in E.
  destruct (q_transfer K V hash keq wide trivial (q_slots _ _ t) is nt) as [[old nt']|] eqn:ET; [|discriminate].
  rewrite (q_transfer_h_spec _ _ _ m _ _ ET).
  destruct (q_no_leak K V trivial old) eqn:NL; [|discriminate]. injection E as ->.
  right. split; [|split].
  - destruct always; [auto|]. right. cbn [orb] in EC. rewrite (good_cap _ _ _ _ _ _ G).
    apply orb_true_iff in EC. lia.
  - exists b', A'. split; [exact G|]. split; [unfold Robin16Refine.mlf_ok in *; now rewrite E2, E3|]. auto.
  - destruct (Nat.leb_spec (length is) m) as [L|L].
    + replace (q_size K V t <=? N.of_nat m) with true by (symmetry; apply N.leb_le; lia).
      rewrite NL. do 2 f_equal. lia.
    + replace (q_size K V t <=? N.of_nat m) with false by (symmetry; apply N.leb_gt; lia). reflexivity.
Qed.

Lemma q_grow_h_spec alloc b t A m : good b t A -> mlf_ok t -> f_sane alloc ->
  (forall b', b < b' -> roomy b' (ents A)) ->
  match q_grow K V hash keq wide trivial alloc t with
  | Ret t' _ => cap t' = 2 * cap t /\ (exists A', good (b + 1) t' A' /\ mlf_ok t' /\ Permutation (ents A') (ents A))
      /\ q_grow_h K V hash keq wide trivial m alloc t
         = if q_size _ _ t <=? N.of_nat m then Some (Ret t' (m - N.to_nat (q_size _ _ t))%nat) else None
  | Throw t' => cap t' = cap t /\ q_grow_h K V hash keq wide trivial m alloc t = Some (Throw t')
  | Fail _ => False
  end.
Proof.
  intros X M HA HB. unfold q_grow, q_grow_h. fold (q_cap K V t). rewrite (good_cap _ _ _ _ _ _ X).
  pose proof (cap44 b (g_b44 _ _ _ _ _ _ X)) as HC. change (2 ^ 44) with 17592186044416 in HC.
  rewrite wmul_small by (unfold two64; lia).
  assert (E2 : 2 ^ (b + 1) = 2 * 2 ^ b) by (rewrite N.pow_add_r; change (2 ^ 1) with 2; lia).
  pose proof (q_rehash_h_spec false true alloc b t A (2 ^ b * 2) m X M HA) as H.
  specialize (H ltac:(change (2 ^ 62) with 4611686018427387904; lia)).
  match type of H with ?P -> _ => assert (HP : P) end.
  { intros b' Hb' Hn. pose proof (good_len _ _ _ _ _ _ X). split; [lia|]. apply HB.
    apply (N.pow_lt_mono_r_iff 2 b b'); [lia|]. pose proof (pow2_pos b). lia. }
  specialize (H HP).
  destruct (q_rehash_impl K V hash keq wide trivial false true alloc t (2 ^ b * 2)) as [t' u|t'|]; auto.
  - destruct H as [(H & _)|(_ & (b' & A' & G & M' & P & H1 & H2) & H3)]; [discriminate|].
    assert (b' = b + 1) as ->.
    { pose proof (H2 (b + 1) ltac:(pose proof (g_b2 _ _ _ _ _ _ X); lia) ltac:(lia)) as L.
      enough (b < b') by lia. apply (N.pow_lt_mono_r_iff 2 b b'); [lia|]. pose proof (pow2_pos b). lia. }
    split; [rewrite (good_cap _ _ _ _ _ _ G); lia|]. split; [eauto|exact H3].
  - now rewrite (good_cap _ _ _ _ _ _ X) in H.
Qed.

(** [hashed_until] without the failures; [f] is the result with the number of calls left. *)
Definition q_counted {A B} (f : B -> A) (t : qmap) (n : N) (r : out qmap A) (h : option (out qmap B)) : Prop :=
  match r with
  | Ret t' x => exists g, cap t' = 2 ^ g * cap t
      /\ if 1 + g * (q_size _ _ t + 1) <=? n then exists y, h = Some (Ret t' y) /\ f y = x else h = None
  | Throw t' => exists g, cap t' = 2 ^ g * cap t
      /\ h = if 1 + g * (q_size _ _ t + 1) <=? n then Some (Throw t') else None
  | Fail _ => True
  end.

Lemma q_counted_same {A B} (f : B -> A) t (y : B) x n : 1 <= n -> f y = x ->
  q_counted f t n (Ret t x) (Some (Ret t y)).
Proof.
  intros Hn E. exists 0. split; [now rewrite N.pow_0_r, N.mul_1_l|].
  replace (1 + 0 * (q_size K V t + 1) <=? n) with true by (symmetry; apply N.leb_le; lia). eauto.
Qed.

Lemma q_counted_0 {A B} (f : B -> A) t (r : out qmap A) :
  match r with Ret t' _ | Throw t' => exists g, cap t' = 2 ^ g * cap t | Fail _ => True end ->
  q_counted f t 0 r None.
Proof.
  intros H. unfold q_counted. destruct r as [t' x|t'|]; auto; destruct H as (g & Hg); exists g; (split; [exact Hg|]);
    replace (1 + g * (q_size K V t + 1) <=? 0) with false by (symmetry; apply N.leb_gt; lia); reflexivity.
Qed.

Lemma q_prepare_0 alloc k : f_sane alloc -> forall fuel b t A, good b t A -> mlf_ok t ->
  (forall b', b < b' -> roomy b' (ents A)) ->
  match q_prepare K V hash keq wide trivial fuel alloc k t with
  | Ret t' _ | Throw t' => exists g, cap t' = 2 ^ g * cap t
  | Fail _ => True
  end.
Proof.
  intros HA. induction fuel as [|fuel IH]; intros b t A X M HB; cbn [q_prepare]; [exact I|].
  assert (SAME : exists g, cap t = 2 ^ g * cap t) by (exists 0; now rewrite N.pow_0_r, N.mul_1_l).
  assert (GROW : match obind (q_grow K V hash keq wide trivial alloc t)
      (fun t' _ => q_prepare K V hash keq wide trivial fuel alloc k t') with
    | Ret t' _ | Throw t' => exists g, cap t' = 2 ^ g * cap t
    | Fail _ => True
    end).
  { pose proof (q_grow_h_spec alloc b t A 0 X M HA HB) as GH.
    destruct (q_grow K V hash keq wide trivial alloc t) as [t1 u|t1|]; cbn [obind]; auto.
    - destruct GH as (GC & (A1 & X1 & M1 & P1) & _).
      assert (HB1 : forall b', b + 1 < b' -> roomy b' (ents A1)).
      { intros b' Hb'. apply (roomy_perm hash b' _ (ents A)); [now symmetry|]. apply HB. lia. }
      specialize (IH (b + 1) t1 A1 X1 M1 HB1).
      destruct (q_prepare K V hash keq wide trivial fuel alloc k t1) as [t' x|t'|]; auto;
        destruct IH as (g & IH); exists (g + 1); rewrite IH, GC, N.pow_add_r; change (2 ^ 1) with 2; lia.
    - destruct GH as [GC _]. exists 0. now rewrite GC, N.pow_0_r, N.mul_1_l. }
  destruct (q_search K V hash keq wide 4 t (Some k) k) as [[i|i d|]|]; auto.
  destruct (q_need_grow K V t); auto.
Qed.

Lemma q_prepare_h_spec alloc k : f_sane alloc -> forall fuel b t A n, good b t A -> mlf_ok t ->
  (forall b', b < b' -> roomy b' (ents A)) ->
  q_counted fst t (N.of_nat n) (q_prepare K V hash keq wide trivial fuel alloc k t)
                         (q_prepare_h K V hash keq wide trivial fuel n alloc k t).
Proof.
  intros HA. induction fuel as [|fuel IH]; intros b t A n X M HB; [exact I|].
  destruct n as [|n].
  { apply q_counted_0. eapply q_prepare_0; eauto. }
  cbn [q_prepare q_prepare_h]. cbv zeta.
  assert (H1 : 1 <= N.of_nat (S n)) by lia.
  set (s := q_size _ _ t).
  assert (GROW : q_counted fst t (N.of_nat (S n))
    (obind (q_grow K V hash keq wide trivial alloc t) (fun t' _ => q_prepare K V hash keq wide trivial fuel alloc k t'))
    (match q_grow_h K V hash keq wide trivial n alloc t with
     | None => None
     | Some (Ret t' more1) => q_prepare_h K V hash keq wide trivial fuel more1 alloc k t'
     | Some (Throw t') => Some (Throw t')
     | Some (Fail e) => Some (Fail e)
     end)).
  { pose proof (q_grow_h_spec alloc b t A n X M HA HB) as GH.
    destruct (q_grow K V hash keq wide trivial alloc t) as [t1 u|t1|]; cbn [obind]; [| |contradiction].
    - destruct GH as (GC & (A1 & X1 & M1 & P1) & GH).
      assert (EZ : q_size _ _ t1 = s).
      { unfold s. rewrite (g_size _ _ _ _ _ _ X1), (g_size _ _ _ _ _ _ X). now rewrite (Permutation_length P1). }
      assert (HB1 : forall b', b + 1 < b' -> roomy b' (ents A1)).
      { intros b' Hb'. apply (roomy_perm hash b' _ (ents A)); [now symmetry|]. apply HB. lia. }
      fold s in GH. rewrite GH. destruct (N.leb_spec s (N.of_nat n)) as [L|L].
      + specialize (IH (b + 1) t1 A1 (n - N.to_nat s)%nat X1 M1 HB1).
        unfold q_counted in *. fold s. rewrite EZ, GC in IH.
        assert (EL : forall g, (1 + (g + 1) * (s + 1) <=? N.of_nat (S n))
          = (1 + g * (s + 1) <=? N.of_nat (n - N.to_nat s))).
        { intros g. replace (N.of_nat (S n)) with (N.of_nat n + 1) by (clear; lia).
          replace (N.of_nat (n - N.to_nat s)) with (N.of_nat n - s) by (clear; lia). now apply round_le. }
        destruct (q_prepare K V hash keq wide trivial fuel alloc k t1) as [t' x|t'|]; auto;
          destruct IH as (g & IG & IH); exists (g + 1); rewrite EL;
          (split; [rewrite IG, N.pow_add_r; change (2 ^ 1) with 2; lia|exact IH]).
      + pose proof (q_prepare_0 alloc k HA fuel (b + 1) t1 A1 X1 M1 HB1) as P0. unfold q_counted. fold s.
        destruct (q_prepare K V hash keq wide trivial fuel alloc k t1) as [t' x|t'|]; auto;
          destruct P0 as (g & P0); exists (g + 1);
          (split; [rewrite P0, GC, N.pow_add_r; change (2 ^ 1) with 2; lia|]);
          rewrite (round_lt g s (N.of_nat (S n))) by (clear -L; lia); reflexivity.
    - destruct GH as [GC ->]. exists 0. split; [now rewrite GC, N.pow_0_r, N.mul_1_l|].
      fold s. now replace (1 + 0 * (s + 1) <=? N.of_nat (S n)) with true by (symmetry; apply N.leb_le; lia). }
  destruct (q_search K V hash keq wide 4 t (Some k) k) as [[i|i d|]|]; auto.
  - now apply q_counted_same.
  - destruct (q_need_grow K V t); auto. now apply q_counted_same.
  - exact I.
Qed.

Lemma insert_at_cap t i d kv t2 f : q_insert_at K V hash trivial false t i d kv = Ok (t2, f) -> cap t2 = cap t.
Proof.
  unfold q_insert_at. destruct (geti _ _) as [c|]; [|discriminate].
  match goal with |- rbind ?r _ = _ -> _ => destruct r as [[[cs sl] g]|]; [|discriminate] end. cbn [rbind].
  destruct (g && negb false); [intros E; injection E as <- <-; reflexivity|].
  destruct (q_build K V trivial sl i kv); [|discriminate]. cbn [rbind]. intros E. injection E as <- <-. reflexivity.
Qed.

(** What follows find_or_prepare_insert. *)
Lemma q_emplace_counted (t : qmap) n (r : out qmap (N * N * bool)) (h : option (out qmap (N * N * bool * nat)))
    (F : qmap -> N * N * bool -> out qmap (N * bool)) (F' : qmap -> N * N * bool * nat -> option (out qmap (N * bool))) :
  q_counted fst t n r h ->
  match r with
  | Ret t1 x =>
      match F t1 x with
      | Ret t2 y => cap t2 = cap t1 /\ forall m, F' t1 (x, m) = Some (Ret t2 y)
      | Throw _ => False
      | Fail _ => True
      end
  | _ => True
  end ->
  match obind r F with
  | Ret t' _ | Throw t' => exists g, cap t' = 2 ^ g * cap t
      /\ match h with
         | None => None
         | Some (Throw t') => Some (Throw t')
         | Some (Fail e) => Some (Fail e)
         | Some (Ret t1 y) => F' t1 y
         end = if 1 + g * (q_size _ _ t + 1) <=? n then Some (obind r F) else None
  | Fail _ => True
  end.
Proof.
  unfold q_counted. generalize (q_size _ _ t) as s. intros s HP HF.
  destruct r as [t1 x|t1|]; cbn [obind]; auto.
  - destruct HP as (g & HG & HP).
    destruct (F t1 x) as [t2 y|t2|] eqn:EP; [|contradiction|exact I]. destruct HF as [HC HF].
    exists g. split; [congruence|]. destruct (_ <=? _); [|now rewrite HP].
    destruct HP as ([x' m] & -> & EX). cbn in EX. subst x'. apply HF.
  - destruct HP as (g & HG & ->). exists g. split; auto. destruct (_ <=? _); reflexivity.
Qed.

Lemma roomy_bigger b t A k v : good b t A -> fine (put_new K V keq k v (ents A)) ->
  forall b', b < b' -> roomy b' (ents A).
Proof.
  intros X HF b' Hb'. pose proof (g_b2 _ _ _ _ _ _ X) as H2. pose proof (good_len _ _ _ _ _ _ X) as HL.
  assert (2 ^ b < 2 ^ b') by (apply N.pow_lt_mono_r; lia). unfold put_new in HF.
  destruct (has K V keq k (ents A)).
  - refine (HF b' _ _); lia.
  - apply (roomy_tail hash b' [(k, v)]). refine (HF b' _ _); [lia|]. cbn [length]. lia.
Qed.

Lemma prepare_fits alloc b t A k v : f_sane alloc -> good b t A -> mlf_ok t ->
  16 <= 2 ^ b \/ q_tag K hash k <> 0 -> fine (put_new K V keq k v (ents A)) ->
  match q_prepare K V hash keq wide trivial 64 alloc k t with
  | Ret t1 (i, d, false) => exists t2, q_insert_at K V hash trivial false t1 i d (k, v) = Ok (t2, false)
  | _ => True
  end.
Proof.
  intros HA X M Hs HF. pose proof (roomy_bigger b t A k v X HF) as HB. unfold put_new in HF.
  destruct (has K V keq k (ents A)) eqn:Hh.
  - destruct (look_spec hash keq LW wide trivial b t A k 4 X Hs (or_intror eq_refl))
      as [(i & d & kv & E & _)|(n & _ & _ & E)]; [|congruence].
    rewrite (prepare_old hash keq wide trivial _ _ _ _ _ E) by lia. exact I.
  - destruct (prepare_new hash keq LW wide trivial alloc k t A b 64 HA X M Hs Hh HB ltac:(lia))
      as [(t' & ->)|(t1 & b1 & A1 & n & -> & X1 & M1 & P1 & T1 & St & LB)]; [exact I|].
    assert (HL : N.of_nat (length (ents A1)) < 2 ^ b1).
    { rewrite <- (g_size _ _ _ _ _ _ X1). pose proof (g_thr _ _ _ _ _ _ X1). lia. }
    destruct (insert_at_spec hash trivial b1 (g_b2 _ _ _ _ _ _ X1) (b50 _ (g_b44 _ _ _ _ _ _ X1)) false t1 A1 (hash k mod 2 ^ b1) n (k, v))
      as (C & S & A' & E1 & E2 & E3 & E4); auto.
    + apply (g_st _ _ _ _ _ _ X1).
    + apply N.mod_lt. apply N.pow_nonzero. lia.
    + apply (roomy_perm hash b1 _ ((k, v) :: ents A)); [constructor; now symmetry|]. refine (HF b1 _ _).
      * apply (g_b2 _ _ _ _ _ _ X1).
      * cbn [length]. rewrite (Permutation_length P1) in HL. lia.
    + eauto.
Qed.

Lemma q_emplace_not_fail alloc (update : bool) b t A k v fuel e : f_sane alloc -> good b t A -> mlf_ok t ->
  16 <= 2 ^ b \/ q_tag K hash k <> 0 -> fine (put_new K V keq k v (ents A)) ->
  q_emplace K V hash keq wide trivial (S fuel) alloc update k v t <> Fail e.
Proof.
  intros HA X M Hs HF. unfold put_new in HF. destruct (has K V keq k (ents A)) eqn:Hh.
  - destruct (emplace_old hash keq LW wide trivial alloc update t A b k v fuel X M Hs Hh) as (t' & i & kv & A' & -> & _). discriminate.
  - destruct (emplace_new hash keq LW wide trivial alloc update t A b k v fuel HA X M Hs Hh HF) as [(t' & ->)|(t' & i & b' & A' & -> & _)];
      discriminate.
Qed.

Lemma q_until_out {A} (t : qmap) n (r : out qmap A) h :
  match r with
  | Ret t' _ | Throw t' => exists g, cap t' = 2 ^ g * cap t
      /\ h = if 1 + g * (q_size _ _ t + 1) <=? n then Some r else None
  | Fail _ => True
  end -> (forall e, r <> Fail e) -> hashed_until cap (cap t) (q_size _ _ t) n r h.
Proof. intros H NF. unfold hashed_until. destruct r as [t' x|t'|e]; auto. now apply (NF e). Qed.

Lemma q_emplace_h_spec alloc (update : bool) b t A k v fuel n : f_sane alloc -> good b t A -> mlf_ok t ->
  16 <= 2 ^ b \/ q_tag K hash k <> 0 -> fine (put_new K V keq k v (ents A)) ->
  hashed_until cap (cap t) (q_size _ _ t) (N.of_nat n) (q_emplace K V hash keq wide trivial (S fuel) alloc update k v t)
    (q_emplace_h K V hash keq wide trivial (S fuel) n alloc update k v t).
Proof.
  intros HA X M Hs HF. apply q_until_out; [|intros e; eapply q_emplace_not_fail; eauto].
  pose proof (q_prepare_h_spec alloc k HA 64 b t A n X M (roomy_bigger b t A k v X HF)) as CT.
  pose proof (prepare_fits alloc b t A k v HA X M Hs HF) as FT.
  cbn [q_emplace q_emplace_h]. revert CT FT.
  generalize (q_prepare K V hash keq wide trivial 64 alloc k t) as r.
  generalize (q_prepare_h K V hash keq wide trivial 64 n alloc k t) as h. intros h r CT FT.
  apply (q_emplace_counted t (N.of_nat n) r h _ (fun t1 '(i, d, exists_, more1) =>
    if exists_ : bool then
      Some (match q_read K V (q_slots K V t1) i with
      | Ok kv =>
          if update
          then Ret (q_with K V t1 (q_ctrls K V t1) (seti (q_slots K V t1) i (Some (fst kv, v)))
                           (q_size K V t1)) (i, false)
          else Ret t1 (i, false)
      | Err _ => if update then Fail EUndef else Ret t1 (i, false)
      end)
    else
      match q_insert_at K V hash trivial false t1 i d (k, v) with
      | Err e => Some (Fail e)
      | Ok (t2, false) => Some (Ret t2 (i, true))
      | Ok (t2, true) =>
          match q_grow_h K V hash keq wide trivial more1 alloc t2 with
          | None => None
          | Some (Throw t') => Some (Throw t')
          | Some (Fail e) => Some (Fail e)
          | Some (Ret t3 more3) => q_emplace_h K V hash keq wide trivial fuel more3 alloc update k v t3
          end
      end) CT).
  destruct r as [t1 [[i d] ex]|t1|]; auto. destruct ex.
  - destruct (q_read K V (q_slots K V t1) i) as [kv|]; destruct update; auto.
  - destruct FT as (t2 & E). rewrite E. split; [eapply insert_at_cap; eauto|reflexivity].
Qed.

Theorem robin16_emplace_h t m alloc (update : bool) k v n : q_built K V hash keq wide trivial t m -> f_sane alloc ->
  q_client K V hash keq (OInsert K V k v) t -> fine (put_new K V keq k v m) ->
  hashed_until cap (cap t) (N.of_nat (length m)) (N.of_nat n) (q_emplace K V hash keq wide trivial 64 alloc update k v t)
    (q_emplace_h K V hash keq wide trivial 64 n alloc update k v t).
Proof.
  intros HB HA HC HF. destruct (built_inv hash keq LW wide trivial t m HB) as (M & _ & b & A & X & P).
  rewrite <- (Permutation_length P), <- (g_size _ _ _ _ _ _ X).
  apply (q_emplace_h_spec alloc update b t A k v 63); auto.
  - exact (seen_spec hash keq trivial b t A k X HC).
  - eapply (fine_perm hash); [|exact HF]. unfold put_new. rewrite (has_perm keq k _ _ P).
    destruct (has _ _ _ _ _); [now symmetry|constructor; now symmetry].
Qed.

Theorem robin16_rehash_h t m alloc n more : q_built K V hash keq wide trivial t m -> f_sane alloc -> n <= 2 ^ 44 ->
  rehashed_until cap (cap t) (N.of_nat (length m)) more
    (q_rehash K V hash keq wide trivial alloc false n t) (q_rehash_h K V hash keq wide trivial more alloc n t).
Proof.
  intros HB HA Hn. destruct (built_inv hash keq LW wide trivial t m HB) as (M & HF & b & A & X & P).
  rewrite <- (Permutation_length P), <- (g_size _ _ _ _ _ _ X).
  pose proof (size_bound hash keq trivial b t A X) as HS.
  destruct (min_require_ge _ n (proj1 (proj2 M)) (proj2 (proj2 M)) Hn) as [_ G].
  unfold q_rehash, q_rehash_h. set (c := N.max (q_min_require (q_rev K V t) n) (q_size K V t)).
  pose proof (q_rehash_h_spec true false alloc b t A c more X M HA) as H.
  assert (H1 : c <= 2 ^ 62).
  { subst c. change (2 ^ 44) with 17592186044416 in *. change (2 ^ 47) with 140737488355328 in *.
    change (2 ^ 62) with 4611686018427387904. lia. }
  specialize (H H1).
  match type of H with ?P -> _ => assert (HP : P) end.
  { intros b' Hb' Hc. assert (L : N.of_nat (length (ents A)) <= 2 ^ b').
    { rewrite <- (g_size _ _ _ _ _ _ X). subst c. lia. }
    split; [exact L|]. apply (roomy_perm hash b' _ m); [now symmetry|]. refine (HF b' Hb' _).
    now rewrite <- (Permutation_length P). }
  specialize (H HP). unfold rehashed_until.
  destruct (q_rehash_impl K V hash keq wide trivial true false alloc t c) as [t' u|t'|]; [|apply H|exact H].
  destruct H as [(_ & E1 & E2)|([H|H] & _ & H3)]; [|discriminate|].
  - rewrite E1, N.eqb_refl. exact E2.
  - apply N.eqb_neq in H. rewrite H. exact H3.
Qed.

End Robin16.
