(** The flat16 map: traversal, destruction, capacity and the abstract map. *)
From Coq Require Import NArith ZArith List Bool Lia Permutation.
From Coq Require Import ZifyBool ZifyNat ZifyN.
From Verif Require Import Base BaseFacts BitsModel BitsFacts GroupModel GroupFacts TableModel TableInv
  MapSpec MapFacts FallbackFacts RobinFacts Flat16Model Flat16Spec Flat16Facts Flat16Ops Flat16Refine.
Import ListNotations.
Open Scope N_scope.
Ltac Zify.zify_post_hook ::= Z.div_mod_to_equations.

(** ** Load factors *)

Lemma mlf_of_bound x : 13108 <= f_mlf_of x <= 52429.
Proof. unfold f_mlf_of, cdiv, f_clamp. lia. Qed.

Lemma rne_bound a b : b <> 0 -> a / b <= rne a b <= a / b + 1.
Proof.
  intros H. unfold rne. generalize (a / b), (a mod b). intros q r.
  destruct (_ <? _); [lia|]. destruct (_ <? _); lia.
Qed.

Lemma cdiv_mono a a' b : b <> 0 -> a <= a' -> cdiv a b <= cdiv a' b.
Proof.
  intros Hb H. unfold cdiv. apply N.div_le_mono; [auto|lia].
Qed.

Lemma div_between a x lo hi : 0 < lo -> lo <= x <= hi -> a / hi <= a / x <= a / lo.
Proof. intros H0 [H1 H2]. split; apply N.div_le_compat_l; lia. Qed.

Lemma rev_between s x lo hi c d : 0 < lo -> lo <= x <= hi ->
  c <= cdiv (2 ^ (26 + s) / hi) (2 ^ (s - 16)) -> cdiv (2 ^ (26 + s) / lo + 1) (2 ^ (s - 16)) <= d ->
  c <= cdiv (rne (2 ^ (26 + s)) x) (2 ^ (s - 16)) <= d.
Proof.
  intros H0 H1 Hc Hd. pose proof (rne_bound (2 ^ (26 + s)) x ltac:(lia)) as R.
  pose proof (div_between (2 ^ (26 + s)) x lo hi H0 H1) as D.
  split; (eapply N.le_trans; [eassumption|] || (eapply N.le_trans; [|eassumption])); apply cdiv_mono; try lia; apply N.pow_nonzero; discriminate.
Qed.

Lemma rev_of_bound x : 81920 <= f_rev_of x <= 327680.
Proof.
  unfold f_rev_of. assert (HB : 13421773 <= f_clamp x <= 53687092) by (unfold f_clamp; lia).
  destruct (N.ltb_spec (2 ^ 26) (2 * f_clamp x)) as [G|G].
  - apply (rev_between 23 _ 33554432 53687092); try lia; vm_compute; discriminate.
  - destruct (N.ltb_spec (2 ^ 26) (4 * f_clamp x)) as [G'|G'].
    + apply (rev_between 22 _ 16777216 33554432); try lia; vm_compute; discriminate.
    + apply (rev_between 21 _ 13421773 16777216); try lia; vm_compute; discriminate.
Qed.

Lemma require_bound rev n : 81920 <= rev <= 327680 -> n <= 2 ^ 44 ->
  n + n / 4 <= f_min_require rev n <= 5 * n.
Proof.
  intros HR Hn. unfold f_min_require, fAmplify.
  assert (n * rev <= n * 327680) by (apply N.mul_le_mono_l; lia).
  assert (n * 81920 <= n * rev) by (apply N.mul_le_mono_l; lia).
  rewrite wmul_small by (unfold two64; lia). lia.
Qed.

(** ** Skipping free slots *)

Lemma elems_skip {A} (L : list (option A)) a j : a <= j ->
  (forall x kv, a <= x < j -> geti L x <> Some (Some kv)) ->
  elems (skipn (N.to_nat a) L) = elems (skipn (N.to_nat j) L).
Proof.
  intros Ha H.
  assert (ONE : forall n (M : list (option A)), (forall kv, nth_error M n <> Some (Some kv)) ->
    elems (skipn n M) = elems (skipn (S n) M)).
  { induction n as [|n IH]; intros [|s M] HM; try reflexivity.
    - cbn [skipn]. destruct s as [kv|]; [|reflexivity]. now destruct (HM kv).
    - change (skipn (S n) (s :: M)) with (skipn n M). change (skipn (S (S n)) (s :: M)) with (skipn (S n) M).
      apply IH. exact HM. }
  assert (G : forall n, (n <= N.to_nat (j - a))%nat ->
    elems (skipn (N.to_nat a) L) = elems (skipn (N.to_nat a + n) L)).
  { induction n as [|n IH]; intros Hn.
    - now rewrite Nat.add_0_r.
    - rewrite IH by lia. replace (N.to_nat a + S n)%nat with (S (N.to_nat a + n)) by lia. apply ONE.
      intros kv E. apply (H (a + N.of_nat n) kv); [lia|]. unfold geti.
      replace (N.to_nat (a + N.of_nat n)) with (N.to_nat a + n)%nat by lia. exact E. }
  rewrite (G (N.to_nat (j - a))) by lia. do 2 f_equal. lia.
Qed.

Lemma elems_at {A} (L : list (option A)) i kv : geti L i = Some (Some kv) ->
  elems (skipn (N.to_nat i) L) = kv :: elems (skipn (N.to_nat (i + 1)) L).
Proof.
  intros E. unfold geti in E. replace (N.to_nat (i + 1)) with (S (N.to_nat i)) by lia.
  revert E. generalize (N.to_nat i). intros n. revert L. induction n as [|n IH]; intros [|s L] E; try discriminate.
  - cbn in E. injection E as ->. reflexivity.
  - cbn [skipn]. now apply IH.
Qed.

Section Calls.

Context {K V : Type} (hash : K -> N) (keq : K -> K -> bool) (mix : N -> N) (LW : tame hash keq).

Notation slots := (list (option (K * V))).
Notation fmap := (fmap K V).
Notation C_ := (f_ctrls K V).
Notation S_ := (f_slots K V).
Notation oracle := (bool -> N -> bool).
Notation core := (@core K V hash mix).
Notation f_near := (f_near K V hash).
Notation f_tidy := (f_tidy K V).
Notation f_roomy := (f_roomy K V).
Notation content := (@content K V).
Notation tidied := (@tidied K V).
Notation exact_left := (@exact_left K V).

(** ** Iteration *)

Lemma clen_slots b t x : core b t -> x < 2 ^ b -> x < clen b.
Proof. intros _ H. pose proof (clen_le b). lia. Qed.

(** Positions at which an iterator may stand. *)
Definition stop (b : N) (t : fmap) (j : N) : Prop :=
  j = 2 ^ b \/ exists kv, geti (S_ t) j = Some (Some kv).

Lemma is_free_byte c : c < 256 -> is_free c = (128 <=? c) && (c <? 255).
Proof.
  intros H. apply (all_bytes (fun c => Bool.eqb (is_free c) ((128 <=? c) && (c <? 255)))) in H; [now apply eqb_prop|].
  vm_compute. reflexivity.
Qed.

Lemma incr_spec b t : core b t -> forall fuel i, i < 2 ^ b -> (N.to_nat (2 ^ b - i) <= fuel)%nat ->
  exists j, f_incr fuel (C_ t) i = Ok j /\ stop b t j /\ i < j <= 2 ^ b
    /\ forall x kv, i < x < j -> geti (S_ t) x <> Some (Some kv).
Proof.
  intros X. pose proof (core_55 _ _ _ _ X) as Hb. pose proof (co_b2 _ _ _ _ X) as H2.
  pose proof (co_fc _ _ _ _ X) as XF. pose proof (core_bound _ _ _ _ X) as HB.
  pose proof (fc_slen _ _ _ _ _ XF) as HSL. pose proof (clen_le b) as HCL.
  induction fuel as [|fuel IH]; intros i Hi Hf; [lia|]. cbn [f_incr].
  destruct (N.eq_dec (i + 1) (2 ^ b)) as [E|E].
  - (* the end *)
    destruct (geti_lt (C_ t) 0) as (c0 & E0); [rewrite (fc_len _ _ _ _ _ XF); lia|].
    pose proof (fc_end _ _ _ _ _ XF _ E0) as EE. rewrite E, EE.
    assert (EF : is_free (if c0 <? 128 then c0 else fEndOf) = false).
    { destruct (N.ltb_spec c0 128); [|reflexivity]. rewrite is_free_byte by lia. lia. }
    rewrite EF. exists (2 ^ b). split; auto. split; [now left|]. split; [lia|]. intros; lia.
  - destruct (fc_slot hash mix b _ _ (i + 1) XF ltac:(lia)) as ([kv|] & Es).
    + rewrite (fc_used _ _ _ _ _ XF _ _ Es). pose proof (tag_lt hash mix (fst kv)).
      rewrite is_free_byte by lia. destruct (N.leb_spec 128 (f_tag K hash mix (fst kv))); [lia|]. cbn [andb].
      exists (i + 1). split; auto. split; [right; eauto|]. split; [lia|]. intros; lia.
    + assert (EF : exists c, geti (C_ t) (i + 1) = Some c /\ is_free c = true).
      { destruct (fc_free _ _ _ _ _ XF _ Es) as [-> | ->]; eexists; split; reflexivity. }
      destruct EF as (c & -> & ->).
      destruct (IH (i + 1)) as (j & A & B & D & G); [lia|lia|].
      exists j. split; auto. split; auto. split; [lia|]. intros x kv Hx.
      destruct (N.eq_dec x (i + 1)) as [->|]; [congruence|]. apply G. lia.
Qed.

Lemma walk_spec b t : core b t -> forall fuel i, stop b t i -> (N.to_nat (2 ^ b - i) <= fuel)%nat ->
  f_walk K V fuel t i = Ok (elems (skipn (N.to_nat i) (S_ t))).
Proof.
  intros X. pose proof (co_fc _ _ _ _ X) as XF. pose proof (fc_slen _ _ _ _ _ XF) as HSL.
  pose proof (fc_len _ _ _ _ _ XF) as HCN. pose proof (clen_le b) as HCL.
  assert (E0 : forall fuel, f_walk K V fuel t (2 ^ b) = Ok (elems (skipn (N.to_nat (2 ^ b)) (S_ t)))).
  { intros fuel. rewrite skipn_all2 by lia. destruct fuel; cbn [f_walk]; unfold f_end;
      rewrite (core_cap _ _ _ _ X), N.eqb_refl; reflexivity. }
  induction fuel as [|fuel IH]; intros i HS Hf.
  - destruct HS as [->|(kv & E)]; [apply E0|]. pose proof (geti_Some_lt _ _ _ E). lia.
  - destruct HS as [->|(kv & E)]; [apply E0|]. pose proof (geti_Some_lt _ _ _ E) as Hi.
    cbn [f_walk]. unfold f_end. rewrite (core_cap _ _ _ _ X). destruct (N.eqb_spec i (2 ^ b)); [lia|].
    unfold f_deref. rewrite E. cbn [rbind].
    destruct (incr_spec b t X (f_fuel K V t) i) as (j & A & HS & Hj & G); [lia|unfold f_fuel; lia|].
    rewrite A. cbn [rbind]. rewrite IH by (auto; lia). cbn [rbind].
    rewrite (elems_at _ _ _ E), (elems_skip (S_ t) (i + 1) j); [reflexivity|lia|].
    intros x kv' Hx. apply G. lia.
Qed.

Lemma filter_first (f : N -> bool) n : forall a,
  match filter f (range a n) with
  | [] => forall x, N.of_nat a <= x < N.of_nat (a + n) -> f x = false
  | j :: _ => f j = true /\ N.of_nat a <= j < N.of_nat (a + n) /\ forall x, N.of_nat a <= x < j -> f x = false
  end.
Proof.
  induction n as [|n IH]; intros a.
  - cbn. intros x Hx. lia.
  - change (range a (S n)) with (N.of_nat a :: range (S a) n). cbn [filter].
    destruct (f (N.of_nat a)) eqn:E.
    + split; auto. split; [lia|]. intros; lia.
    + specialize (IH (S a)). destruct (filter f (range (S a) n)) as [|j l].
      * intros x Hx. destruct (N.eq_dec x (N.of_nat a)) as [->|]; auto. apply IH. lia.
      * destruct IH as (A & B & D). split; auto. split; [lia|]. intros x Hx.
        destruct (N.eq_dec x (N.of_nat a)) as [->|]; auto. apply D. lia.
Qed.

Lemma begin_spec b t : core b t -> exists j, f_begin K V t = Ok j /\ stop b t j /\ j <= 2 ^ b
  /\ forall x kv, x < j -> geti (S_ t) x <> Some (Some kv).
Proof.
  intros X. pose proof (core_55 _ _ _ _ X) as Hb. pose proof (co_b2 _ _ _ _ X) as H2.
  pose proof (co_fc _ _ _ _ X) as XF. pose proof (core_bound _ _ _ _ X) as HB.
  pose proof (fc_slen _ _ _ _ _ XF) as HSL. pose proof (fc_len _ _ _ _ _ XF) as HCN.
  pose proof (clen_le b) as HCL. unfold f_begin. rewrite (core_gc _ _ _ _ X).
  assert (HN : 16 * nw b <= clen b /\ 2 ^ b <= 16 * nw b).
  { destruct (nw_cases b H2 Hb) as [[? ?]|[? ?]]; unfold nw in *; lia. }
  change 0 with (N.of_nat 0) at 1. rewrite used_groups by lia. cbn [rbind].
  pose proof (filter_first (usedb (C_ t)) (16 * N.to_nat (nw b)) 0) as F.
  assert (U : forall x kv, geti (S_ t) x = Some (Some kv) -> usedb (C_ t) x = true).
  { intros x kv E. apply (usedb_slot hash mix b _ (S_ t)); eauto. pose proof (geti_Some_lt _ _ _ E). lia. }
  destruct (filter _ _) as [|j l].
  - exists (2 ^ b). unfold f_end. rewrite (core_cap _ _ _ _ X). split; auto. split; [now left|]. split; [lia|].
    intros x kv Hx E. apply U in E. rewrite F in E by lia. discriminate.
  - destruct F as (F1 & F2 & F3). exists j. split; auto.
    assert (Hj : j < 2 ^ b).
    { destruct (N.lt_ge_cases j (2 ^ b)) as [|G]; auto. exfalso.
      destruct (fc_see hash mix b H2 Hb _ _ j XF ltac:(lia)) as (c & Ec & HH).
      unfold usedb in F1. rewrite Ec in F1.
      destruct HH as [(Hw & kv & E & _)|[(_ & _ & _ & [-> | ->] & _)|(-> & _)]]; try discriminate.
      unfold wrap in E. destruct (N.ltb_spec j (2 ^ b)); [lia|]. apply U in E. rewrite F3 in E by lia. discriminate. }
    split; [right; now apply (usedb_slot hash mix b (C_ t))|]. split; [lia|].
    intros x kv Hx E. apply U in E. rewrite F3 in E by lia. discriminate.
Qed.

Lemma traverse_spec b t : core b t -> f_traverse K V t = Ok (content t).
Proof.
  intros X. destruct (begin_spec b t X) as (j & A & B & D & G). unfold f_traverse. rewrite A. cbn [rbind].
  pose proof (fc_len _ _ _ _ _ (co_fc _ _ _ _ X)) as HCN. pose proof (clen_le b) as HCL.
  rewrite (walk_spec b t X) by (auto; unfold f_fuel; lia).
  rewrite <- (elems_skip (S_ t) 0 j); [reflexivity|lia|]. intros x kv Hx. apply G. lia.
Qed.

(** ** Destruction *)

Lemma destroy_loop_spec b t : core b t -> forall is (sl : slots), NoDup is ->
  (forall i, In i is -> i < 2 ^ b /\ geti sl i = geti (S_ t) i) ->
  N.of_nat (length sl) = 2 ^ b ->
  exists sl', f_destroy_loop K V (C_ t) is sl = Ok sl' /\ length sl' = length sl
    /\ forall j, geti sl' j = (if existsb (N.eqb j) is then Some None else geti sl j).
Proof.
  intros X. pose proof (co_fc _ _ _ _ X) as XF. pose proof (fc_slen _ _ _ _ _ XF) as HSL.
  induction is as [|i is IH]; intros sl ND HI HL.
  - exists sl. auto.
  - inversion ND as [|? ? N1 N2]; subst. destruct (HI i (or_introl eq_refl)) as [Hi Ei].
    assert (NE : existsb (N.eqb i) is = false).
    { apply not_true_iff_false. intros E. apply existsb_exists in E. destruct E as (y & Hy & Ey).
      apply N.eqb_eq in Ey. now subst y. }
    cbn [f_destroy_loop]. destruct (fc_slot hash mix b _ _ i XF Hi) as ([kv|] & Es).
    + rewrite (fc_used _ _ _ _ _ XF _ _ Es), Ei, Es. pose proof (tag_lt hash mix (fst kv)).
      rewrite is_used_lt by lia. destruct (N.ltb_spec (f_tag K hash mix (fst kv)) 128); [|lia].
      destruct (IH (seti sl i None)) as (sl' & A & B & D); auto.
      * intros j Hj. rewrite geti_seti by lia. destruct (N.eqb_spec j i) as [->|Nj]; [contradiction|].
        apply HI. now right.
      * now rewrite seti_length.
      * exists sl'. split; auto. rewrite seti_length in B. split; auto. intros j. rewrite D. cbn [existsb].
        rewrite geti_seti by lia. destruct (N.eqb_spec j i) as [->|Nj]; cbn [orb]; [now destruct (existsb _ is)|reflexivity].
    + assert (EF : exists c, geti (C_ t) i = Some c /\ is_used c = false).
      { destruct (fc_free _ _ _ _ _ XF _ Es) as [-> | ->]; eexists; split; reflexivity. }
      destruct EF as (c & -> & EU). rewrite Ei, Es, EU.
      destruct (IH sl) as (sl' & A & B & D); auto.
      { intros j Hj. apply HI. now right. }
      exists sl'. split; auto. split; auto. intros j. rewrite D. cbn [existsb].
      destruct (N.eqb_spec j i) as [->|Nj]; cbn [orb]; [|reflexivity]. now rewrite NE, Ei.
Qed.

Lemma destroy_slots_spec b t : core b t ->
  exists sl, f_destroy_slots K V t = Ok sl /\ forallb is_none sl = true /\ N.of_nat (length sl) = 2 ^ b.
Proof.
  intros X. pose proof (fc_slen _ _ _ _ _ (co_fc _ _ _ _ X)) as HSL.
  unfold f_destroy_slots. rewrite (core_cap _ _ _ _ X).
  destruct (destroy_loop_spec b t X (seqN (2 ^ b)) (S_ t)) as (sl & A & B & D); auto.
  - apply seqN_NoDup.
  - intros i Hi. apply seqN_In in Hi. auto.
  - exists sl. split; auto. split; [|lia]. apply forallb_forall. intros [kv|] Hin; auto.
    apply In_geti in Hin. destruct Hin as (j & E). pose proof (geti_Some_lt _ _ _ E) as Hj. rewrite D in E.
    replace (existsb (N.eqb j) (seqN (2 ^ b))) with true in E; [discriminate|].
    symmetry. apply existsb_exists. exists j. split; [apply seqN_In; lia|apply N.eqb_refl].
Qed.

Lemma destroy_spec b t : core b t -> f_destroy K V t = Ok tt.
Proof.
  intros X. destruct (destroy_slots_spec b t X) as (sl & A & B & _). unfold f_destroy. rewrite A. cbn [rbind].
  now rewrite B.
Qed.

(** ** Capacity *)

Definition resized (b : N) (t : fmap) (r : out fmap unit) : Prop :=
  (exists t', r = Throw t')
  \/ exists b' t', r = Ret t' tt /\ core b' t' /\ Permutation (content t) (content t')
       /\ (exact_left t -> exact_left t').

Lemma rehash_resized alloc b t n : f_sane alloc -> core b t -> n <= 2 ^ 62 ->
  (forall e, 2 <= e -> n <= 2 ^ e -> f_size _ _ t + 1 <= 2 ^ e) ->
  resized b t (f_rehash_impl K V hash mix true false alloc t n).
Proof.
  intros HA X Hn Hz. destruct (rehash_spec hash mix true false alloc b t n X Hn Hz HA)
    as [(t' & E)|[(_ & E & _)|(b' & t' & E & _ & _ & X' & T' & P' & _)]].
  - left. eauto.
  - right. exists b, t. auto.
  - right. exists b', t'. split; auto. split; auto. split; auto. intros _. split; [apply T'|now right].
Qed.

Lemma spare_room t n e : f_spare K V t -> 2 <= e -> N.max n (f_size _ _ t) <= 2 ^ e -> f_size _ _ t + 1 <= 2 ^ e.
Proof. intros HS He Hn. specialize (HS e He). lia. Qed.

Lemma more_room z n e : z + 1 <= N.max n 4 -> 2 <= e -> n <= 2 ^ e -> z + 1 <= 2 ^ e.
Proof. intros Hz He Hn. pose proof (pow2_le 2 e He). lia. Qed.

Lemma rehash_cap alloc b t n t' : f_sane alloc -> core b t -> n <= 2 ^ 44 -> f_size _ _ t <= n \/ f_spare K V t ->
  f_rehash K V hash mix alloc false n t = Ret t' tt -> n <= f_cap K V t'.
Proof.
  intros HA X Hn HS E. unfold f_rehash in E. pose proof (core_size_le _ _ _ _ X). pose proof (core_bound _ _ _ _ X).
  pose proof (require_bound (f_rev _ _ t) n (co_rev _ _ _ _ X) ltac:(lia)) as HR.
  assert (HZ : forall e, 2 <= e -> N.max (f_min_require (f_rev _ _ t) n) (f_size _ _ t) <= 2 ^ e ->
    f_size _ _ t + 1 <= 2 ^ e).
  { intros e He HM. destruct HS as [HS|HS]; [|eapply spare_room; eauto]. eapply more_room; eauto. lia. }
  destruct (rehash_spec hash mix true false alloc b t (N.max (f_min_require (f_rev _ _ t) n) (f_size _ _ t)) X ltac:(lia) HZ HA)
    as [(t1 & E1)|[(_ & E1 & HC)|(b' & t1 & E1 & _ & HC & X' & _)]]; [congruence| |].
  - assert (t' = t) as -> by congruence. rewrite (core_cap _ _ _ _ X). lia.
  - assert (t' = t1) as -> by congruence. rewrite (core_cap _ _ _ _ X'). lia.
Qed.

Lemma rehash_to alloc b t n : f_sane alloc -> core b t -> n <= 2 ^ 44 -> f_size _ _ t <= n \/ f_spare K V t ->
  resized b t (f_rehash K V hash mix alloc false n t).
Proof.
  intros HA X Hn HS. unfold f_rehash. pose proof (core_size_le _ _ _ _ X). pose proof (core_bound _ _ _ _ X).
  pose proof (require_bound (f_rev _ _ t) n (co_rev _ _ _ _ X) ltac:(lia)) as HR.
  apply rehash_resized; auto.
  - lia.
  - intros e He HM. destruct HS as [HS|HS]; [|eapply spare_room; eauto].
    eapply more_room; eauto. lia.
Qed.

Lemma shrink_spec alloc b t ro : f_sane alloc -> core b t -> ro = false \/ f_spare K V t ->
  resized b t (f_shrink K V hash mix alloc ro t).
Proof.
  intros HA X HS. unfold f_shrink. pose proof (core_size_le _ _ _ _ X). pose proof (core_bound _ _ _ _ X).
  pose proof (require_bound (f_rev _ _ t) (f_size _ _ t) (co_rev _ _ _ _ X) ltac:(lia)) as HR.
  apply rehash_resized; auto; [destruct ro; lia|]. intros e He HM. destruct ro.
  - destruct HS as [HS|HS]; [discriminate|]. eapply spare_room; eauto. rewrite N.max_id. exact HM.
  - eapply more_room; eauto. lia.
Qed.

Lemma mlf_spec alloc b t x : f_sane alloc -> core b t -> f_tidy t ->
  (exists t', f_set_mlf K V hash mix alloc x t = Throw t')
  \/ exists b' t', f_set_mlf K V hash mix alloc x t = Ret t' tt /\ core b' t'
       /\ Permutation (content t) (content t') /\ (exact_left t -> f_cap K V t <= 32 -> exact_left t').
Proof.
  intros HA X HT. unfold f_set_mlf. set (t1 := mkF K V _ _ _ _ _ _ _ _).
  pose proof (core_size_le _ _ _ _ X). pose proof (core_bound _ _ _ _ X).
  assert (X1 : core b t1).
  { destruct X. split; auto; [apply mlf_of_bound|apply rev_of_bound]. }
  assert (E1 : exact_left t -> f_cap K V t <= 32 -> exact_left t1).
  { intros [D _] H32. split; [exact D|]. now left. }
  destruct (_ <? _).
  - replace ((f_cap K V t1 <=? 32) || (wsub (f_slot_used K V t) (f_size K V t1) <? f_cap K V t1 / 8)) with true.
    + cbn [orb].
      destruct (rehash_to alloc b t1 (f_size K V t1) HA X1) as [(t' & ->)|(b' & t' & -> & X' & P' & L')].
      * change (f_size K V t1) with (f_size K V t). lia.
      * left. lia.
      * left. eauto.
      * right. exists b', t'. split; auto.
    + symmetry. apply orb_true_iff. change (f_cap K V t1) with (f_cap K V t).
      change (f_size K V t1) with (f_size K V t).
      destruct HT as [HT|HT]; [left; now apply N.leb_le|right; now apply N.ltb_lt].
  - right. exists b, t1. split; auto.
Qed.

Lemma clear_spec (trivial : bool) alloc b t : core b t -> 4 < f_cap K V t ->
  (exists t', f_clear K V trivial alloc true t = Throw t')
  \/ exists t', f_clear K V trivial alloc true t = Ret t' tt /\ core 2 t' /\ content t' = [] /\ tidied t'.
Proof.
  intros X HC. unfold f_clear, fDefaultCapacity. destruct (N.ltb_spec 4 (f_cap K V t)); [|lia]. cbn [andb].
  rewrite (destroy_spec b t X). change 4 with (2 ^ 2).
  destruct (create_ok hash mix alloc t 2 ltac:(lia) ltac:(lia) (co_mlf _ _ _ _ X) (co_rev _ _ _ _ X))
    as [(t' & ->)|(t' & -> & X1 & D1 & E1 & M1 & R1 & L1)]; [left; eexists; reflexivity|].
  right. exists t'. split; auto. split; auto. split; auto. split; auto.
  rewrite L1, (co_size _ _ _ _ X1), E1. destruct (core_thr _ _ _ _ X1) as [T1 T2].
  pose proof (core_bound _ _ _ _ X1). rewrite wsub_small; cbn [length]; unfold two64; lia.
Qed.

Lemma new_spec alloc n t : f_sane alloc -> n <= 2 ^ 44 -> f_new K V alloc n = Ret t tt ->
  exists b, core b t /\ content t = [] /\ tidied t /\ f_mlf _ _ t = 32768
    /\ f_calc_capacity n = Ok (2 ^ b).
Proof.
  intros HA Hn E. unfold f_new, f_create_init in E.
  destruct (calc_spec n ltac:(lia)) as (b & EC & H2 & Hn' & H63 & HMIN). rewrite EC in E.
  assert (Hb : b <= 44) by (apply HMIN; lia).
  destruct (create_ok hash mix alloc (f_blank K V) b H2 Hb) as [(t' & E')|(t' & E' & X1 & D1 & E1 & M1 & R1 & L1)].
  - cbn. unfold fDefaultMlf. lia.
  - cbn. unfold fDefaultRev. lia.
  - congruence.
  - assert (t' = t) as -> by congruence. exists b. split; auto. split; auto. split; [|auto]. split; auto.
    rewrite L1, (co_size _ _ _ _ X1), E1. destruct (core_thr _ _ _ _ X1) as [T1 T2].
    pose proof (core_bound _ _ _ _ X1). rewrite wsub_small; cbn [length]; unfold two64; lia.
Qed.

(** ** Copying *)

Lemma insert_all_spec b : forall l t, core b t -> nodel (C_ t) ->
  f_size _ _ t + N.of_nat (length l) + 1 <= 2 ^ b ->
  exists t', f_insert_unique_all K V hash mix l t = Ok t' /\ core b t' /\ nodel (C_ t')
    /\ Permutation (l ++ content t) (content t').
Proof.
  induction l as [|kv l IH]; intros t X D Hz; cbn [length] in Hz.
  - exists t. cbn. auto.
  - cbn [f_insert_unique_all].
    destruct (insert_unique_spec hash mix b t kv X D ltac:(lia)) as (t1 & -> & X1 & D1 & P1 & Z1 & _). cbn [rbind].
    destruct (IH t1 X1 D1 ltac:(lia)) as (t' & A & X' & D' & P'). exists t'. split; auto. split; auto. split; auto.
    rewrite <- P'. unfold Flat16Ops.content. rewrite <- P1. cbn [app]. apply Permutation_middle.
Qed.

Lemma copy_spec alloc b t : f_sane alloc -> core b t ->
  (exists t', f_copy K V hash mix alloc t = Throw t')
  \/ exists b' t', f_copy K V hash mix alloc t = Ret t' tt /\ core b' t' /\ nodel (C_ t')
       /\ Permutation (content t) (content t').
Proof.
  intros HA X. unfold f_copy, f_create_init. pose proof (core_size_le _ _ _ _ X) as HZ. pose proof (core_bound _ _ _ _ X) as HB.
  pose proof (require_bound fDefaultRev (f_size _ _ t) ltac:(unfold fDefaultRev; lia) ltac:(lia)) as HR.
  assert (ER : f_min_require fDefaultRev (f_size _ _ t) = 2 * f_size _ _ t).
  { unfold f_min_require, fDefaultRev, fAmplify. rewrite wmul_small by (unfold two64; lia). lia. }
  destruct (calc_spec (f_min_require fDefaultRev (f_size _ _ t)) ltac:(lia)) as (b' & -> & H2 & Hn' & H63 & HMIN).
  destruct (N.le_gt_cases b' 44) as [G|G].
  2:{ left. unfold f_create. destruct (alloc true _); [|cbn [obind]; eauto].
      destruct (alloc false (2 ^ b')) eqn:EA; [|cbn [obind]; eauto].
      apply HA in EA. pose proof (pow2_lt 44 b' G). lia. }
  destruct (create_ok hash mix alloc (f_blank K V) b' H2 G) as [(t' & ->)|(nt & -> & X1 & D1 & E1 & M1 & R1 & L1)].
  - cbn. unfold fDefaultMlf. lia.
  - cbn. unfold fDefaultRev. lia.
  - left. cbn [obind]. eauto.
  - right. cbn [obind]. rewrite (traverse_spec b t X).
    destruct (insert_all_spec b' (content t) nt X1 D1) as (t' & -> & X' & D' & P').
    { pose proof (co_size _ _ _ _ X) as Z1. pose proof (co_size _ _ _ _ X1) as Z2. rewrite E1 in Z2. cbn [length] in Z2.
      unfold Flat16Ops.content. rewrite <- Z1, Z2. pose proof (core_bound _ _ _ _ X1). lia. }
    exists b', t'. split; auto. split; auto. split; auto.
    unfold Flat16Ops.content in P' at 2. rewrite E1, app_nil_r in P'. exact P'.
Qed.

End Calls.
