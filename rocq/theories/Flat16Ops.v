(** The flat16 map: the invariant of the map, growing and its member functions. *)
From Coq Require Import NArith ZArith List Bool Lia Permutation.
From Coq Require Import ZifyBool ZifyNat ZifyN.
From Verif Require Import Base BaseFacts BitsModel BitsFacts GroupModel GroupFacts TableModel TableInv
  MapSpec MapFacts FallbackFacts RobinFacts Flat16Model Flat16Facts.
Import ListNotations.
Open Scope N_scope.
Ltac Zify.zify_post_hook ::= Z.div_mod_to_equations.

Ltac fcbn := unfold f_with, f_use_empty; cbn [f_ctrls f_gmask f_slots f_size f_mask f_left f_mlf f_rev].

Lemma small_cases n (P : N -> Prop) : (forall k, In k (seqN n) -> P k) -> forall i, i < n -> P i.
Proof. intros H i Hi. apply H. now apply seqN_In. Qed.

Lemma calc_spec n : n <= 2 ^ 62 -> exists b, f_calc_capacity n = Ok (2 ^ b) /\ 2 <= b /\ n <= 2 ^ b /\ b <= 63
  /\ forall b', 2 <= b' -> n <= 2 ^ b' -> b <= b'.
Proof.
  intros Hn. unfold f_calc_capacity, fMinCapacity. set (m := N.max n 4).
  assert (Hm : 4 <= m <= 2 ^ 62) by lia.
  destruct (is_pow2 m) eqn:E.
  - apply is_pow2_spec in E; [|lia|unfold two64; lia]. destruct E as (k & Ek). exists k. rewrite <- Ek.
    split; [reflexivity|]. split; [|split; [lia|]].
    + destruct (N.le_gt_cases 2 k); auto. pose proof (pow2_lt k 2 ltac:(lia)). lia.
    + split.
      * destruct (N.le_gt_cases k 63); auto. pose proof (pow2_lt 63 k ltac:(lia)). lia.
      * intros b' Hb' Hn'. destruct (N.le_gt_cases k b') as [|G]; auto. exfalso.
        pose proof (pow2_lt b' k G). pose proof (pow2_le 2 b' Hb'). lia.
  - destruct (round_up_spec 4 m) as (k & A & B & D & G); [lia|lia|]. exists k. split; [exact A|].
    assert (2 <= k).
    { destruct (N.le_gt_cases 2 k); auto. pose proof (pow2_lt k 2 ltac:(lia)). lia. }
    split; [auto|]. split; [lia|]. split; [lia|].
    intros b' Hb' Hn'. destruct (N.le_gt_cases k b') as [|G']; auto. exfalso.
    pose proof (pow2_le b' (k - 1) ltac:(lia)). pose proof (pow2_le 2 b' Hb'). lia.
Qed.

Lemma free_not_0 {A} (L : list (option A)) : (length (elems L) + 2 <= length L)%nat ->
  exists j, 0 < j /\ geti L j = Some None.
Proof.
  destruct L as [|s L]; cbn [length]; [lia|]. intros H.
  destruct (elems_free L) as (j & E).
  - assert (length (elems L) <= length (elems (s :: L)))%nat.
    { change (s :: L) with ([s] ++ L). rewrite elems_app, app_length. lia. }
    lia.
  - exists (j + 1). split; [lia|]. unfold geti in *. replace (N.to_nat (j + 1)) with (S (N.to_nat j)) by lia.
    exact E.
Qed.

Section Ops.

Context {K V : Type} (hash : K -> N) (keq : K -> K -> bool) (mix : N -> N) (LW : tame hash keq).

Notation slots := (list (option (K * V))).
Notation fmap := (fmap K V).
Notation C_ := (f_ctrls K V).
Notation S_ := (f_slots K V).
Notation oracle := (bool -> N -> bool).
Notation fc := (fc hash mix).
Notation chain := (chain hash).
Notation tag := (f_tag K hash mix).

Definition nodel (C : list N) : Prop := forall x, geti C x <> Some fDeleted.

(** The structure of a map with 2^b slots. *)
Record core (b : N) (t : fmap) : Prop := {
  co_b2 : 2 <= b;
  co_b : b <= 44;
  co_mask : f_mask _ _ t = 2 ^ b - 1;
  co_gmask : f_gmask _ _ t = nw b - 1;
  co_fc : fc b (C_ t) (S_ t);
  co_chain : chain b (C_ t) (S_ t);
  co_size : f_size _ _ t = N.of_nat (length (elems (S_ t)));
  co_mlf : 13108 <= f_mlf _ _ t <= 52429;
  co_rev : 81920 <= f_rev _ _ t <= 327680
}.

Lemma pow_bound b : 2 <= b -> b <= 44 -> 4 <= 2 ^ b <= 17592186044416.
Proof. intros H1 H2. pose proof (pow2_le 2 b H1). pose proof (pow2_le b 44 H2). lia. Qed.

Lemma core_bound b t : core b t -> 4 <= 2 ^ b <= 17592186044416.
Proof. intros X. apply pow_bound; apply X. Qed.

Lemma core_cap b t : core b t -> f_cap K V t = 2 ^ b.
Proof.
  intros X. pose proof (core_bound b t X). unfold f_cap. rewrite (co_mask _ _ X).
  rewrite wadd_small by (unfold two64; lia). lia.
Qed.

Lemma nw_bound b : 2 <= b -> b <= 44 -> 1 <= nw b <= 17592186044416.
Proof. intros H1 H2. pose proof (pow_bound b H1 H2). unfold nw. lia. Qed.

Lemma core_gc b t : core b t -> f_group_count K V t = nw b.
Proof.
  intros X. pose proof (nw_bound b (co_b2 _ _ X) (co_b _ _ X)). unfold f_group_count. rewrite (co_gmask _ _ X).
  rewrite wadd_small by (unfold two64; lia). lia.
Qed.

Lemma core_thr b t : core b t -> f_threshold K V t = 2 ^ b * f_mlf _ _ t / 65536 /\ f_threshold K V t < 2 ^ b.
Proof.
  intros X. pose proof (core_bound b t X) as HB. pose proof (co_mlf _ _ X) as HM. unfold f_threshold, fAmplify.
  rewrite (core_cap _ _ X).
  assert (2 ^ b * f_mlf _ _ t <= 2 ^ b * 52429) by (apply N.mul_le_mono_l; lia).
  rewrite wmul_small by (unfold two64; lia). split; [reflexivity|]. lia.
Qed.

Lemma core_size_le b t : core b t -> f_size _ _ t <= 2 ^ b.
Proof.
  intros X. rewrite (co_size _ _ X), <- (fc_slen _ _ _ _ _ (co_fc _ _ X)).
  pose proof (elems_length_le (S_ t)). lia.
Qed.

(** ** New groups *)

Lemma fresh_fc b : 2 <= b -> b <= 44 ->
  fc b (f_fresh (2 ^ b) (nw b)) (repeat (@None (K * V)) (N.to_nat (2 ^ b))) /\ nodel (f_fresh (2 ^ b) (nw b)).
Proof.
  intros H2 Hb. pose proof (pow_bound b H2 Hb) as HB.
  assert (HG : exists L, f_fresh (2 ^ b) (nw b) = L /\ N.of_nat (length L) = clen b /\
     forall x, x < clen b -> geti L x = Some (if (x =? 2 ^ b) || (2 * 2 ^ b <=? x) then fEndOf else fEmpty)).
  { eexists. split; [reflexivity|].
    destruct (N.lt_ge_cases (2 ^ b) 16) as [G|G].
    - assert (b = 2 \/ b = 3) as [->| ->].
      { destruct (N.le_gt_cases b 3); [lia|]. pose proof (pow2_le 4 b ltac:(lia)). lia. }
      + split; [reflexivity|].
        apply (small_cases (clen 2)). vm_compute.
        intros k Hk. repeat (destruct Hk as [<-|Hk]; [reflexivity|]). destruct Hk.
      + split; [reflexivity|].
        apply (small_cases (clen 3)). vm_compute.
        intros k Hk. repeat (destruct Hk as [<-|Hk]; [reflexivity|]). destruct Hk.
    - destruct (nw_cases b H2 ltac:(lia)) as [[? ?]|[E Hn]]; [lia|].
      unfold f_fresh, clen, fGroupWidth. destruct (N.leb_spec 16 (2 ^ b)); [|lia]. destruct (N.ltb_spec (2 ^ b) 16); [lia|].
      rewrite <- repeat_app. set (m := (N.to_nat (nw b * 16) + 16)%nat).
      assert (Hm : N.of_nat m = 2 ^ b + 16) by lia.
      split; [now rewrite seti_length, repeat_length|]. intros x Hx.
      rewrite geti_seti by (rewrite repeat_length; lia). rewrite (geti_repeat fEmpty m x) by lia.
      destruct (N.eqb_spec x (2 ^ b)); [reflexivity|].
      destruct (N.leb_spec (2 * 2 ^ b) x); [lia|reflexivity]. }
  destruct HG as (L & -> & HL & HG). split.
  - assert (HCL : 2 ^ b + 16 <= clen b \/ 2 ^ b < 16 /\ clen b = 32).
    { unfold clen. destruct (N.ltb_spec (2 ^ b) 16); lia. }
    split.
    + auto.
    + rewrite repeat_length. lia.
    + intros i kv E. pose proof (geti_Some_lt _ _ _ E) as Hi. rewrite repeat_length in Hi.
      rewrite geti_repeat in E by lia. discriminate.
    + intros i E. pose proof (geti_Some_lt _ _ _ E) as Hi. rewrite repeat_length in Hi. left.
      rewrite HG by lia. destruct (N.eqb_spec i (2 ^ b)); [lia|].
      destruct (N.leb_spec (2 * 2 ^ b) i); [lia|]. reflexivity.
    + intros c E. rewrite HG in E by lia. destruct (N.eqb_spec 0 (2 ^ b)); [lia|].
      destruct (N.leb_spec (2 * 2 ^ b) 0); [lia|]. injection E as <-. rewrite HG by lia.
      rewrite N.eqb_refl. reflexivity.
    + intros i H0 Hi. rewrite !HG by lia. destruct (N.eqb_spec i (2 ^ b)); [lia|].
      destruct (N.eqb_spec (2 ^ b + i) (2 ^ b)); [lia|].
      destruct (N.leb_spec (2 * 2 ^ b) i); [lia|]. destruct (N.leb_spec (2 * 2 ^ b) (2 ^ b + i)); [lia|]. reflexivity.
    + intros i [Hi Hc]. rewrite HG by auto. destruct (N.leb_spec (2 * 2 ^ b) i); [|lia].
      now rewrite orb_true_r.
  - intros x E. pose proof (geti_Some_lt _ _ _ E) as Hi. rewrite HL in Hi. rewrite HG in E by auto.
    destruct (_ || _); discriminate.
Qed.

Lemma create_ok (alloc : oracle) (t : fmap) b : 2 <= b -> b <= 44 ->
  13108 <= f_mlf _ _ t <= 52429 -> 81920 <= f_rev _ _ t <= 327680 ->
  (exists t', f_create K V alloc t (2 ^ b) = Throw t')
  \/ exists t', f_create K V alloc t (2 ^ b) = Ret t' tt /\ core b t' /\ nodel (C_ t')
       /\ elems (S_ t') = [] /\ f_mlf _ _ t' = f_mlf _ _ t /\ f_rev _ _ t' = f_rev _ _ t
       /\ f_left _ _ t' = f_threshold K V t'.
Proof.
  intros H2 Hb HM HR. pose proof (pow_bound b H2 Hb) as HB. pose proof (nw_bound b H2 Hb) as HN.
  unfold f_create, fGroupWidth. rewrite wadd_small by (unfold two64; lia).
  replace ((2 ^ b + (16 - 1)) / 16) with (nw b) by (unfold nw; f_equal; lia).
  destruct (alloc true _); [|eauto]. destruct (alloc false _); [|eauto]. right.
  eexists. split; [reflexivity|]. destruct (fresh_fc b H2 Hb) as [F1 F2].
  assert (EM : wsub (2 ^ b) 1 = 2 ^ b - 1) by (apply wsub_small; unfold two64; lia).
  assert (EG : wsub (nw b) 1 = nw b - 1) by (apply wsub_small; unfold two64; lia).
  fcbn. rewrite EM, EG, elems_repeat_None. split.
  - split; fcbn; auto.
    + intros j kv w E. pose proof (geti_Some_lt _ _ _ E) as Hi. rewrite repeat_length in Hi.
      rewrite geti_repeat in E by lia. discriminate.
    + now rewrite elems_repeat_None.
  - repeat (split; [auto; fail|]). unfold f_threshold, f_cap. fcbn.
    rewrite wadd_small by (unfold two64; lia). now replace (2 ^ b - 1 + 1) with (2 ^ b) by lia.
Qed.

(** ** insert_unique *)

Lemma core_put b t i kv left' : core b t -> spot b (C_ t) (S_ t) (home hash b (fst kv)) i ->
  left' = f_left _ _ t ->
  exists C', f_construct K V hash mix t i kv
     = Ok (f_with K V t C' (seti (S_ t) i (Some kv)) (f_size _ _ t + 1) left')
   /\ core b (f_with K V t C' (seti (S_ t) i (Some kv)) (f_size _ _ t + 1) left')
   /\ wrote b (C_ t) C' i (tag (fst kv)) (tag (fst kv)).
Proof.
  intros X HS ->. pose proof (core_bound b t X) as HB.
  assert (HI : geti (S_ t) i = Some None) by apply HS.
  destruct (construct_spec hash mix b (co_b2 _ _ X) ltac:(pose proof (co_b _ _ X); lia) t i kv (co_fc _ _ X)
     (core_cap _ _ X) (co_chain _ _ X) HS) as (C' & A & W & F & CH).
  pose proof (core_size_le _ _ X) as HZ.
  rewrite wadd_small in A by (unfold two64; lia). exists C'. split; auto. split; auto.
  destruct X. split; fcbn; auto.
  rewrite (Permutation_length (elems_seti_Some _ _ kv HI)). cbn [length]. lia.
Qed.

Lemma nodel_wrote b C C' i c c' : wrote b C C' i c c' -> c <> fDeleted -> c' <> fDeleted -> nodel C -> nodel C'.
Proof.
  intros W Hc Hc' H x. rewrite (proj2 W). destruct (x =? i); [congruence|]. destruct (_ && _); [congruence|apply H].
Qed.

Lemma tag_ne k : tag k <> fDeleted /\ tag k <> fEmpty.
Proof. pose proof (tag_lt hash mix k). unfold fDeleted, fEmpty. lia. Qed.

Lemma seen b t h : core b t -> nodel (C_ t) -> h < 2 ^ b -> f_size _ _ t + 2 <= 2 ^ b ->
  exists w, w < nw b /\ ~ shut (C_ t) (win b h w).
Proof.
  intros X HD Hh Hz. pose proof (core_bound b t X) as HB.
  pose proof (fc_slen _ _ _ _ _ (co_fc _ _ X)) as HS.
  destruct (free_not_0 (S_ t)) as (j & H0 & Ej).
  { rewrite (co_size _ _ X) in Hz. lia. }
  pose proof (geti_Some_lt _ _ _ Ej) as Hj.
  destruct (fc_free _ _ _ _ _ (co_fc _ _ X) _ Ej) as [E|E]; [|now apply HD in E].
  apply (visible hash mix b (co_b2 _ _ X) ltac:(pose proof (co_b _ _ X); lia) _ _ h j (co_fc _ _ X)); auto.
  lia.
Qed.

Lemma insert_unique_spec b t kv : core b t -> nodel (C_ t) -> f_size _ _ t + 2 <= 2 ^ b ->
  exists t', f_insert_unique K V hash mix t kv = Ok t' /\ core b t' /\ nodel (C_ t')
    /\ Permutation (kv :: elems (S_ t)) (elems (S_ t'))
    /\ f_size _ _ t' = f_size _ _ t + 1 /\ f_left _ _ t' = f_left _ _ t
    /\ f_mlf _ _ t' = f_mlf _ _ t /\ f_rev _ _ t' = f_rev _ _ t.
Proof.
  intros X HD Hz. assert (Hb : b <= 55) by (pose proof (co_b _ _ X); lia).
  unfold f_insert_unique.
  destruct (first_empty_spec hash mix b (co_b2 _ _ X) Hb t (fst kv) (co_fc _ _ X) (co_mask _ _ X)) as (i & A & SP & Ei).
  { apply seen; auto. apply home_lt'; [apply X|auto]. }
  rewrite A. cbn [rbind].
  destruct (core_put b t i kv _ X SP eq_refl) as (C' & B & X' & W). rewrite B.
  eexists. split; [reflexivity|]. split; auto. fcbn. split.
  - eapply nodel_wrote; eauto; apply tag_ne.
  - split; [|auto]. symmetry. apply elems_seti_Some. apply SP.
Qed.

(** ** Moving the elements of another table *)

Lemma transfer_spec b : forall is (old : slots) t, NoDup is ->
  (forall i kv, geti old i = Some (Some kv) -> In i is) ->
  (forall i, In i is -> exists kv, geti old i = Some (Some kv)) ->
  core b t -> nodel (C_ t) ->
  f_size _ _ t + N.of_nat (length (elems old)) + 1 <= 2 ^ b ->
  exists old' t', f_transfer K V hash mix old is t = Ok (old', t') /\ forallb is_none old' = true
    /\ core b t' /\ nodel (C_ t') /\ Permutation (elems old ++ elems (S_ t)) (elems (S_ t'))
    /\ f_left _ _ t' = f_left _ _ t /\ f_mlf _ _ t' = f_mlf _ _ t /\ f_rev _ _ t' = f_rev _ _ t.
Proof.
  induction is as [|i is IH]; intros old t ND H1 H2 X HD Hz.
  - exists old, t. cbn [f_transfer]. split; [reflexivity|].
    assert (HN : forallb is_none old = true).
    { apply forallb_forall. intros [kv|] Hin; auto. apply In_geti in Hin. destruct Hin as (j & E).
      destruct (H1 j kv E). }
    split; auto. split; auto. split; auto. split; auto.
    replace (elems old) with (@nil (K * V)); [reflexivity|].
    destruct (elems old) as [|e l] eqn:EE; auto. exfalso.
    assert (Hin : In e (elems old)) by (rewrite EE; now left). apply In_elems in Hin.
    destruct Hin as (j & E). destruct (H1 _ _ E).
  - inversion ND as [|? ? N1 N2]; subst. destruct (H2 i (or_introl eq_refl)) as (kv & Ei).
    cbn [f_transfer]. rewrite Ei. pose proof (geti_Some_lt _ _ _ Ei) as Hi.
    pose proof (elems_seti_None _ _ _ Ei) as PE. pose proof (Permutation_length PE) as LE. cbn [length] in LE.
    destruct (insert_unique_spec b t kv X HD) as (t1 & A & X1 & D1 & P1 & Z1 & L1 & M1 & R1); [lia|].
    rewrite A. cbn [rbind].
    destruct (IH (seti old i None) t1) as (old' & t' & B & F & X' & D' & P' & L' & M' & R'); auto.
    + intros j kv' E. rewrite geti_seti in E by auto. destruct (N.eqb_spec j i) as [->|Nj]; [discriminate|].
      destruct (H1 _ _ E) as [G|G]; [congruence|auto].
    + intros j Hj. rewrite geti_seti by auto. destruct (N.eqb_spec j i) as [->|Nj]; [contradiction|].
      apply H2. now right.
    + lia.
    + exists old', t'. split; auto. split; auto. split; auto. split; auto. split; [|split; [congruence|split; congruence]].
      rewrite <- P', <- P1, <- PE. cbn [app]. apply Permutation_middle.
Qed.

(** ** The used positions *)

Definition usedb (C : list N) (i : N) : bool := match geti C i with Some c => c <? 128 | None => false end.

Lemma is_used_lt c : c < 256 -> is_used c = (c <? 128).
Proof.
  intros H. apply (all_bytes (fun c => Bool.eqb (is_used c) (c <? 128))) in H; [now apply eqb_prop|].
  vm_compute. reflexivity.
Qed.

Definition range (a n : nat) : list N := map N.of_nat (seq a n).

Lemma range_app a n m : range a (n + m) = range a n ++ range (a + n) m.
Proof. unfold range. now rewrite seq_app, map_app. Qed.

Lemma seq_plus a : forall n k, seq (a + k) n = map (fun x => (a + x)%nat) (seq k n).
Proof.
  induction n; intros k; cbn [seq map]; auto. f_equal. rewrite <- IHn. f_equal. lia.
Qed.

Lemma range_shift n a : range a n = map (fun p => N.of_nat a + p) (seqN (N.of_nat n)).
Proof.
  unfold range, seqN. rewrite Nat2N.id, map_map. replace (seq a n) with (seq (a + 0) n) by (f_equal; lia).
  rewrite seq_plus, map_map. apply map_ext. lia.
Qed.

Lemma used_group C base : (base + 16 <= length C)%nat ->
  map (fun p => N.of_nat base + p) (positions (match_used (window C (N.of_nat base))))
  = filter (usedb C) (range base 16).
Proof.
  intros H. assert (HL : length (window C (N.of_nat base)) = 16%nat).
  { unfold window. rewrite firstn_length, skipn_length. lia. }
  rewrite match_used_map by auto. unfold positions.
  rewrite (mask_positions_spec 16); [|lia|].
  2:{ pose proof (movemask_bound (map (fun c => c <? 128) (window C (N.of_nat base)))) as HB.
      rewrite map_length, HL in HB. exact HB. }
  assert (E : range base 16 = map (fun p => N.of_nat base + p) (seqN 16)).
  { apply (range_shift 16). }
  rewrite E, filter_map. f_equal. change (N.of_nat 16) with 16.
  apply filter_ext_in. intros p Hp. apply seqN_In in Hp. rewrite movemask_map_spec.
  unfold usedb. now rewrite window_geti.
Qed.

Lemma used_groups C : forall n base, (base + 16 * n <= length C)%nat ->
  f_used_in_groups n C (N.of_nat base) = Ok (filter (usedb C) (range base (16 * n))).
Proof.
  induction n as [|n IH]; intros base H.
  - reflexivity.
  - cbn [f_used_in_groups]. unfold f_group.
    destruct (N.leb_spec (N.of_nat base + 16) (N.of_nat (length C))); [|lia].
    cbn [rbind]. fold (window C (N.of_nat base)).
    replace (N.of_nat base + 16) with (N.of_nat (base + 16)) by lia. rewrite IH by lia. cbn [rbind].
    rewrite used_group by lia. replace (16 * S n)%nat with (16 + 16 * n)%nat by lia.
    now rewrite range_app, filter_app.
Qed.

Lemma used_in_spec C is : (forall i, In i is -> exists c, geti C i = Some c /\ c < 256) ->
  f_used_in C is = Ok (filter (usedb C) is).
Proof.
  induction is as [|i is IH]; intros H; [reflexivity|].
  cbn [f_used_in filter]. destruct (H i (or_introl eq_refl)) as (c & E & Hc).
  unfold usedb at 1. rewrite E, IH by (intros; apply H; now right). cbn [rbind].
  now rewrite is_used_lt.
Qed.

Lemma seqN_range n : seqN n = range 0 (N.to_nat n).
Proof. reflexivity. Qed.

Lemma clen_le b : 2 ^ b + 16 <= clen b.
Proof. clear mix. unfold clen. destruct (N.ltb_spec (2 ^ b) 16); lia. Qed.

Lemma used_positions_spec b t : core b t ->
  f_used_positions K V t = Ok (filter (usedb (C_ t)) (seqN (2 ^ b))).
Proof.
  intros X. pose proof (core_bound b t X) as HB. pose proof (fc_len _ _ _ _ _ (co_fc _ _ X)) as HL.
  pose proof (clen_le b). assert (Hb : b <= 55) by (pose proof (co_b _ _ X); lia).
  unfold f_used_positions, fGroupWidth. rewrite (core_cap _ _ X).
  destruct (N.leb_spec 16 (2 ^ b)).
  - rewrite (core_gc _ _ X). destruct (nw_cases b (co_b2 _ _ X) Hb) as [[? ?]|[E ?]]; [lia|].
    change 0 with (N.of_nat 0). rewrite used_groups by lia. rewrite seqN_range. do 3 f_equal. lia.
  - apply used_in_spec. intros i Hi. apply seqN_In in Hi.
    destruct (geti_lt (C_ t) i) as (c & E); [lia|]. exists c. split; auto.
    eapply (fc_byte hash mix b (co_b2 _ _ X) Hb); eauto. apply X.
Qed.

Lemma usedb_slot b C (S : slots) i : fc b C S -> i < 2 ^ b -> (usedb C i = true <-> exists kv, geti S i = Some (Some kv)).
Proof.
  intros X Hi. destruct (geti_lt S i) as ([kv|] & E); [now rewrite (fc_slen _ _ _ _ _ X)| |].
  - unfold usedb. rewrite (fc_used _ _ _ _ _ X _ _ E). pose proof (tag_lt hash mix (fst kv)).
    split; [eauto|]. intros _. lia.
  - split.
    + unfold usedb. destruct (fc_free _ _ _ _ _ X _ E) as [-> | ->]; discriminate.
    + intros (kv & E'). congruence.
Qed.

(** ** rehash_impl *)

Definition content (t : fmap) : list (K * V) := elems (S_ t).

(** A map right after rehash_impl. *)
Definition tidied (t : fmap) : Prop :=
  nodel (C_ t) /\ f_left _ _ t = wsub (f_threshold K V t) (f_size _ _ t).

Lemma rehash_spec (shrink always : bool) (alloc : oracle) b t n : core b t ->
  n <= 2 ^ 62 -> (forall e, 2 <= e -> n <= 2 ^ e -> f_size _ _ t + 1 <= 2 ^ e) -> (forall m, alloc false m = true -> m <= 2 ^ 44) ->
  (exists t', f_rehash_impl K V hash mix shrink always alloc t n = Throw t')
  \/ (always = false /\ f_rehash_impl K V hash mix shrink always alloc t n = Ret t tt
      /\ n <= 2 ^ b)
  \/ exists b' t', f_rehash_impl K V hash mix shrink always alloc t n = Ret t' tt
       /\ f_calc_capacity n = Ok (2 ^ b') /\ n <= 2 ^ b'
       /\ core b' t' /\ tidied t' /\ Permutation (content t) (content t')
       /\ f_mlf _ _ t' = f_mlf _ _ t /\ f_rev _ _ t' = f_rev _ _ t.
Proof.
  intros X Hn Hz HA. unfold f_rehash_impl.
  destruct (calc_spec n Hn) as (b' & -> & H2 & Hn' & H63 & HMIN).
  destruct (always || _ || _) eqn:EC.
  2:{ right. left. apply orb_false_iff in EC. destruct EC as [EC EC3]. apply orb_false_iff in EC.
      destruct EC as [-> EC2]. split; auto. split; auto. rewrite (core_cap _ _ X) in *.
      destruct shrink; cbn [negb andb] in EC2, EC3.
      - apply negb_false_iff, N.eqb_eq in EC3. lia.
      - apply N.ltb_ge in EC2. lia. }
  destruct (N.le_gt_cases b' 44) as [G|G].
  2:{ left. unfold f_create. destruct (alloc true _); [|eauto]. destruct (alloc false (2 ^ b')) eqn:EA; [|eauto].
      apply HA in EA. pose proof (pow2_lt 44 b' G). lia. }
  destruct (create_ok alloc t b' H2 G (co_mlf _ _ X) (co_rev _ _ X)) as [(t' & ->)|(nt & -> & X1 & D1 & E1 & M1 & R1 & L1)];
    [left; eauto|].
  right. right. rewrite (used_positions_spec _ _ X). cbn [rbind].
  pose proof (fc_slen _ _ _ _ _ (co_fc _ _ X)) as HSL.
  destruct (transfer_spec b' (filter (usedb (C_ t)) (seqN (2 ^ b))) (S_ t) nt) as (old & t' & A & F & X' & D' & P' & L' & M' & R').
  - apply NoDup_filter. apply seqN_NoDup.
  - intros i kv E. apply filter_In. pose proof (geti_Some_lt _ _ _ E). rewrite seqN_In. split; [lia|].
    apply (usedb_slot b _ (S_ t)); eauto; [apply X|lia].
  - intros i Hi. apply filter_In in Hi. destruct Hi as [Hi HU]. apply seqN_In in Hi.
    apply (usedb_slot b (C_ t)); auto. apply X.
  - auto.
  - auto.
  - rewrite (co_size _ _ X1), E1, <- (co_size _ _ X). cbn [length].
    specialize (Hz b' H2 Hn'). lia.
  - rewrite A, F. exists b'. eexists. split; [reflexivity|]. split; auto. split; auto.
    rewrite E1, app_nil_r in P'.
    assert (XT : core b' (f_with K V t' (C_ t') (S_ t') (f_size _ _ t') (wsub (f_left _ _ t') (f_size _ _ t')))).
    { destruct X'. split; fcbn; auto. }
    split; [exact XT|]. split; [|split; [exact P'|fcbn; split; congruence]].
    split; [exact D'|]. rewrite (proj1 (core_thr _ _ XT)). fcbn.
    now rewrite L', L1, (proj1 (core_thr _ _ X1)), M'.
Qed.

End Ops.
