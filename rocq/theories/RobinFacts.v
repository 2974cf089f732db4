(** The robin hood map: the invariant, search, insertion and deletion on the two
    arrays. *)
From Coq Require Import NArith ZArith List Bool Lia Permutation.
From Coq Require Import ZifyBool ZifyNat ZifyN.
From Verif Require Import Base BaseFacts BitsModel BitsFacts GroupModel TableModel TableInv
  MapSpec MapFacts RobinModel RobinSpec.
Import ListNotations.
Open Scope N_scope.

Lemma s8_used c : c < 128 -> s8 c = Z.of_N c.
Proof. intros H. unfold s8. destruct (N.ltb_spec c 128); lia. Qed.

Lemma s8_neg c : 128 <= c -> c <= 255 -> (s8 c < 0)%Z.
Proof. intros H H'. unfold s8. destruct (N.ltb_spec c 128); lia. Qed.

Lemma inc8_small d : d < 255 -> inc8 d = d + 1.
Proof. intros H. unfold inc8. apply N.mod_small. lia. Qed.

Lemma dec8_small d : 0 < d -> d < 256 -> dec8 d = d - 1.
Proof.
  intros H H'. unfold dec8. replace (d + 255) with (d - 1 + 1 * 256) by lia.
  rewrite N.mod_add by discriminate. apply N.mod_small. lia.
Qed.

Lemma geti_seti {A} (l : list A) i j x : i < N.of_nat (length l) ->
  geti (seti l i x) j = if j =? i then Some x else geti l j.
Proof.
  intros H. destruct (N.eqb_spec j i) as [->|].
  - now apply geti_seti_eq.
  - apply geti_seti_neq. congruence.
Qed.

Lemma seti_len {A} (l : list A) i x : N.of_nat (length (seti l i x)) = N.of_nat (length l).
Proof. now rewrite seti_length. Qed.

Section Arrays.

Context {K V : Type} (hash : K -> N) (keq : K -> K -> bool) (LW : tame hash keq).

Notation slots := (list (option (K * V))).

(** Capacity 2^b, total number of slots M. *)
Variables b M : N.

Definition hm (k : K) : N := hash k mod 2 ^ b.

Lemma hm_lt k : hm k < 2 ^ b.
Proof. apply N.mod_lt. pose proof (pow2_pos b). lia. Qed.

Lemma hm_keq k k' : keq k k' = true -> hm k = hm k'.
Proof. intros H. unfold hm. now rewrite (tm_compat _ _ LW _ _ H). Qed.

Record cs (C : list N) (S : slots) : Prop := {
  cs_used : forall i c, geti C i = Some c -> c < 128 ->
      exists kv, geti S i = Some (Some kv) /\ i = hm (fst kv) + c;
  cs_free : forall i c, geti C i = Some c -> 128 <= c ->
      c <= 255 /\ (c = 255 \/ M <= i) /\ (i < M -> geti S i = Some None);
  cs_order : forall i c c', geti C i = Some c -> geti C (i + 1) = Some c' ->
      0 < c' -> c' < 128 -> c < 128 /\ c' <= c + 1;
  cs_len : N.of_nat (length S) = M;
  cs_clen : M < N.of_nat (length C)
}.

Lemma cs_used_lt C S i c : cs C S -> geti C i = Some c -> c < 128 -> i < M.
Proof.
  intros X H Hc. destruct (cs_used _ _ X _ _ H Hc) as (kv & E & _).
  apply geti_Some_lt in E. rewrite (cs_len _ _ X) in E. exact E.
Qed.

Lemma cs_live C S i kv : cs C S -> geti S i = Some (Some kv) ->
  exists c, geti C i = Some c /\ c < 128 /\ i = hm (fst kv) + c.
Proof.
  intros X H. pose proof (geti_Some_lt _ _ _ H) as Hl. rewrite (cs_len _ _ X) in Hl.
  pose proof (cs_clen _ _ X).
  destruct (geti_lt C i) as [c Hc]; [lia|]. exists c. split; auto.
  destruct (N.lt_ge_cases c 128) as [Hu|Hu].
  - split; auto. destruct (cs_used _ _ X _ _ Hc Hu) as (kv' & E & E'). congruence.
  - destruct (cs_free _ _ X _ _ Hc Hu) as (_ & _ & F). rewrite F in H by auto. discriminate.
Qed.

(** All positions between the home of an element and the element are used, and
    their distances are large enough. *)
Lemma cs_chain C S : cs C S -> forall n p c, geti C p = Some c -> c < 128 -> n <= c ->
  exists c', geti C (p - n) = Some c' /\ c' < 128 /\ c <= c' + n.
Proof.
  intros X n. induction n as [|n IH] using N.peano_ind; intros p c H Hc Hn.
  - exists c. replace (p - 0) with p by lia. split; [auto|lia].
  - destruct (cs_used _ _ X _ _ H Hc) as (kv & _ & Ep).
    assert (H1 : geti C (p - 1 + 1) = Some c) by (rewrite <- H; f_equal; lia).
    destruct (geti_lt C (p - 1)) as [c1 Hc1].
    { apply geti_Some_lt in H. lia. }
    destruct (cs_order _ _ X _ _ _ Hc1 H1) as [A B]; [lia|lia|].
    destruct (N.le_gt_cases n c1) as [Hle|Hgt].
    + destruct (IH _ _ Hc1 A Hle) as (c' & E & L & B').
      exists c'. split; [|lia]. rewrite <- E. f_equal. lia.
    + lia.
Qed.

(** ** The search loop *)

Definition stopat (C : list N) (h n : N) : Prop :=
  (forall j, j < n -> exists c, geti C (h + j) = Some c /\ j <= c /\ c < 128)
  /\ exists c, geti C (h + n) = Some c /\ (128 <= c \/ c < n).

Definition calm (C : list N) : Prop := forall i c, geti C i = Some c -> c < 128 -> c < 127.

Definition nokey (S : slots) (k : K) : Prop :=
  forall i kv, geti S i = Some (Some kv) -> keq (fst kv) k = false.

Lemma stop_absent C S k n : cs C S -> stopat C (hm k) n ->
  (forall j kv, j < n -> geti S (hm k + j) = Some (Some kv) -> keq (fst kv) k = false) ->
  nokey S k.
Proof.
  intros X [H1 (cn & H2 & H3)] Hn i kv Hi.
  destruct (keq (fst kv) k) eqn:E; auto. exfalso.
  destruct (cs_live _ _ _ _ X Hi) as (c & Hc & Hu & Ei).
  rewrite (hm_keq _ _ E) in Ei.
  destruct (N.lt_ge_cases c n) as [Hlt|Hge].
  - rewrite Ei in Hi. rewrite (Hn _ _ Hlt Hi) in E. discriminate.
  - destruct (cs_chain _ _ X (c - n) _ _ Hc Hu ltac:(lia)) as (c' & E' & L' & B').
    replace (i - (c - n)) with (hm k + n) in E' by lia. rewrite E' in H2.
    injection H2 as ->. lia.
Qed.

Lemma scan_spec C S key k : cs C S -> calm C -> hm k <= M ->
  (key = None \/ key = Some k) ->
  forall fuel n, n <= 127 -> N.of_nat (length C) < N.of_nat fuel + hm k + n ->
  (forall j, j < n -> exists c, geti C (hm k + j) = Some c /\ j <= c /\ c < 128) ->
  (key = Some k -> forall j kv, j < n -> geti S (hm k + j) = Some (Some kv) -> keq (fst kv) k = false) ->
  (exists i kv, key = Some k /\ r_scan K V keq fuel C S key (hm k + n) n = Ok (Found i)
     /\ geti S i = Some (Some kv) /\ keq (fst kv) k = true)
  \/ (exists n', r_scan K V keq fuel C S key (hm k + n) n = Ok (Stop (hm k + n') n')
     /\ n' <= 127 /\ stopat C (hm k) n' /\ (key = Some k -> nokey S k)).
Proof.
  intros X Cl Hh Hkey. induction fuel as [|fuel IH]; intros n Hn Hf Hp Hk.
  { exfalso. destruct (N.eq_dec n 0) as [->|Hn0].
    - pose proof (cs_clen _ _ X). lia.
    - destruct (Hp (n - 1)) as (c & E & _); [lia|]. apply geti_Some_lt in E. lia. }
  cbn [r_scan].
  assert (Hlt : hm k + n < N.of_nat (length C)).
  { pose proof (cs_clen _ _ X). destruct (N.eq_dec n 0) as [->|Hn0]; [lia|].
    destruct (Hp (n - 1)) as (c & E & _ & Hc); [lia|].
    apply (cs_used_lt _ _ _ _ X) in E; auto. lia. }
  destruct (geti_lt C (hm k + n) Hlt) as [c Hc]. rewrite Hc.
  rewrite (s8_used n) by lia.
  destruct (Z.leb_spec (Z.of_N n) (s8 c)) as [Hle|Hgt].
  - assert (Hu : c < 128).
    { destruct (N.lt_ge_cases c 128) as [|Hge]; auto.
      destruct (cs_free _ _ X _ _ Hc Hge) as (H255 & _).
      pose proof (s8_neg c Hge H255). lia. }
    rewrite s8_used in Hle by auto.
    pose proof (Cl _ _ Hc Hu) as Hc127.
    assert (HP : forall j, j < n + 1 -> exists c, geti C (hm k + j) = Some c /\ j <= c /\ c < 128).
    { intros j Hj. destruct (N.eq_dec j n) as [->|]; [exists c; split; [auto|lia]|apply Hp; lia]. }
    rewrite inc8_small by lia.
    replace (hm k + n + 1) with (hm k + (n + 1)) by lia.
    destruct (cs_used _ _ X _ _ Hc Hu) as (kv & Es & _).
    destruct Hkey as [-> | ->].
    + apply IH; auto; try lia. discriminate.
    + rewrite Es. destruct (keq (fst kv) k) eqn:E.
      * left. exists (hm k + n), kv. auto.
      * apply IH; auto; try lia. intros _ j kv' Hj Hkv.
        destruct (N.eq_dec j n) as [->|]; [congruence|apply (Hk eq_refl) with j; auto; lia].
  - right. exists n. split; [reflexivity|]. split; [lia|].
    assert (SA : stopat C (hm k) n).
    { split; [exact Hp|]. exists c. split; [exact Hc|].
      destruct (N.lt_ge_cases c 128) as [Hu|]; auto. rewrite s8_used in Hgt by auto. lia. }
    split; [exact SA|]. intros E. eapply stop_absent; eauto.
Qed.

(** ** Putting an element at a position *)

(** The element may be put at position i with distance r. *)
Definition fits (C : list N) (i r : N) (kv : K * V) : Prop :=
  r < 128 /\ i = hm (fst kv) + r
  /\ (0 < r -> exists c, geti C (i - 1) = Some c /\ c < 128 /\ r <= c + 1).

Lemma put_cs C S i r kv c : cs C S -> fits C i r kv -> i < M ->
  geti C i = Some c -> (c = 255 \/ c < r) ->
  cs (seti C i r) (seti S i (Some kv)).
Proof.
  intros X (Hr & Ei & Hf) Hi Hc Hcr.
  pose proof (cs_len _ _ X) as HL. pose proof (cs_clen _ _ X) as HCL.
  assert (HiC : i < N.of_nat (length C)) by lia.
  assert (HiS : i < N.of_nat (length S)) by lia.
  split.
  - intros j cj. rewrite !geti_seti by auto. destruct (N.eqb_spec j i) as [->|Hne].
    + intros E _. injection E as <-. exists kv. auto.
    + apply (cs_used _ _ X).
  - intros j cj. rewrite !geti_seti by auto. destruct (N.eqb_spec j i) as [->|Hne].
    + intros E. injection E as <-. lia.
    + apply (cs_free _ _ X).
  - intros j cj cj' . rewrite !geti_seti by auto.
    destruct (N.eqb_spec j i) as [->|Hne].
    + destruct (N.eqb_spec (i + 1) i); [lia|].
      intros E Hj' P1 P2. injection E as <-. split; [auto|].
      destruct (cs_order _ _ X _ _ _ Hc Hj' P1 P2). destruct Hcr; lia.
    + destruct (N.eqb_spec (j + 1) i) as [E1|Hne1].
      * intros E E'. injection E' as <-. intros P1 P2. destruct (Hf P1) as (c1 & E2 & L & B).
        replace (i - 1) with j in E2 by lia. rewrite E in E2. injection E2 as <-. auto.
      * apply (cs_order _ _ X).
  - rewrite seti_len. auto.
  - rewrite seti_len. auto.
Qed.

(** ** Crowding *)

Definition cnt {A} (f : A -> bool) (l : list A) : N := N.of_nat (length (filter f l)).

Lemma cnt_perm {A} (f : A -> bool) l l' : Permutation l l' -> cnt f l = cnt f l'.
Proof. intros P. unfold cnt. now rewrite (Permutation_length (filter_perm f _ _ P)). Qed.

Lemma cnt_app {A} (f : A -> bool) l l' : cnt f (l ++ l') = cnt f l + cnt f l'.
Proof. unfold cnt. rewrite filter_app, app_length. lia. Qed.

Lemma cnt_full (f : K * V -> bool) (S : slots) :
  (forall i o, geti S i = Some o -> exists kv, o = Some kv /\ f kv = true) ->
  cnt f (elems S) = N.of_nat (length S).
Proof.
  induction S as [|o S IH]; intros H; [reflexivity|].
  destruct (H 0 o eq_refl) as (kv & -> & E). cbn [elems flat_map opt_list app].
  unfold cnt in *. cbn [filter]. rewrite E. cbn [length]. unfold elems in IH. rewrite Nat2N.inj_succ.
  rewrite IH; [lia|]. intros i o Ho. apply (H (i + 1)). unfold geti in *.
  now replace (N.to_nat (i + 1)) with (Datatypes.S (N.to_nat i)) by lia.
Qed.

Lemma geti_app_r {A} (l l' : list A) i : geti (l ++ l') (N.of_nat (length l) + i) = geti l' i.
Proof.
  unfold geti. rewrite nth_error_app2 by lia. f_equal. lia.
Qed.

Lemma geti_app_l {A} (l l' : list A) i : i < N.of_nat (length l) -> geti (l ++ l') i = geti l i.
Proof. intros H. unfold geti. apply nth_error_app1. lia. Qed.

Lemma cnt_range (f : K * V -> bool) (S : slots) a n : a + n <= N.of_nat (length S) ->
  (forall i, a <= i -> i < a + n -> exists kv, geti S i = Some (Some kv) /\ f kv = true) ->
  n <= cnt f (elems S).
Proof.
  intros HL H.
  pose (A := firstn (N.to_nat a) S). pose (B := firstn (N.to_nat n) (skipn (N.to_nat a) S)).
  pose (D := skipn (N.to_nat n) (skipn (N.to_nat a) S)).
  assert (E : S = A ++ B ++ D) by (unfold A, B, D; now rewrite !firstn_skipn).
  assert (LA : N.of_nat (length A) = a) by (unfold A; rewrite firstn_length; lia).
  assert (LB : N.of_nat (length B) = n).
  { unfold B. rewrite firstn_length, skipn_length. lia. }
  rewrite E, !elems_app, !cnt_app. rewrite (cnt_full f B); [lia|].
  intros i o Ho. pose proof (geti_Some_lt _ _ _ Ho).
  destruct (H (a + i)) as (kv & E1 & E2); [lia|lia|].
  rewrite E in E1. rewrite <- LA in E1 at 1. rewrite geti_app_r, geti_app_l in E1 by lia.
  exists kv. split; congruence.
Qed.

(** The run of used positions that ends at p. *)
Lemma crowd C S : cs C S -> forall p c, geti C p = Some c -> c < 128 ->
  exists a, a + c <= p /\ forall i, a <= i -> i <= p ->
    exists kv, geti S i = Some (Some kv) /\ a <= hm (fst kv) /\ hm (fst kv) + c <= p.
Proof.
  intros X p. induction p as [|p IH] using N.peano_ind; intros c H Hc.
  - exists 0. destruct (cs_used _ _ X _ _ H Hc) as (kv & E & Ep). split; [lia|].
    intros i Hi1 Hi2. replace i with 0 by lia. exists kv. split; auto. lia.
  - destruct (cs_used _ _ X _ _ H Hc) as (kv & E & Ep).
    destruct (N.eq_dec c 0) as [->|Hc0].
    + exists (N.succ p). split; [lia|]. intros i Hi1 Hi2. replace i with (N.succ p) by lia.
      exists kv. split; auto. lia.
    + destruct (geti_lt C p) as [c1 Hc1]. { apply geti_Some_lt in H. lia. }
      replace (N.succ p) with (p + 1) in * by lia.
      destruct (cs_order _ _ X _ _ _ Hc1 H) as [A B]; [lia|lia|].
      destruct (IH c1 Hc1 A) as (a & Ha & Hall). exists a. split.
      * lia.
      * intros i Hi1 Hi2. destruct (N.eq_dec i (p + 1)) as [->|].
        -- exists kv. split; auto. lia.
        -- destruct (Hall i) as (kv' & E1 & E2 & E3); [lia|lia|]. exists kv'. split; auto. lia.
Qed.

Definition inwin (a n : N) (e : K * V) : bool := (a <=? hm (fst e)) && (hm (fst e) <? a + n).

(** An element that fits at i is not further from home than the room allows. *)
Lemma fits_room C S i r kv D l : cs C S -> fits C i r kv ->
  Permutation l (kv :: elems S) ->
  (forall a n, 1 <= n -> cnt (inwin a n) l <= n + D) -> r <= D.
Proof.
  intros X (Hr & Ei & Hf) P HS. destruct (N.eq_dec r 0) as [->|Hr0]; [lia|].
  destruct Hf as (c & Hc & Hu & Hb); [lia|].
  destruct (crowd _ _ X _ _ Hc Hu) as (a & Ha & Hall).
  assert (a <= hm (fst kv)) by lia.
  pose proof (HS a (hm (fst kv) - a + 1) ltac:(lia)) as HC.
  rewrite (cnt_perm _ _ _ P) in HC. unfold cnt in HC. cbn [filter] in HC.
  assert (E1 : inwin a (hm (fst kv) - a + 1) kv = true) by (unfold inwin; lia).
  rewrite E1 in HC. cbn [length] in HC.
  assert (HN : i - a <= cnt (inwin a (hm (fst kv) - a + 1)) (elems S)).
  { apply cnt_range with a.
    - apply (cs_used_lt _ _ _ _ X) in Hc; auto. rewrite (cs_len _ _ X). lia.
    - intros j Hj1 Hj2. destruct (Hall j) as (kv' & E2 & E3 & E4); [lia|lia|].
      exists kv'. split; auto. unfold inwin. lia. }
  unfold cnt in HN. lia.
Qed.

(** ** insert_to_place *)

Lemma Perm_swap_at (S : slots) i old new : geti S i = Some (Some old) ->
  Permutation (old :: elems (seti S i (Some new))) (new :: elems S).
Proof.
  intros H.
  assert (Hi : i < N.of_nat (length S)) by (eapply geti_Some_lt; eauto).
  pose proof (elems_seti_None S i old H) as P1.
  assert (H2 : geti (seti S i None) i = Some None) by now apply geti_seti_eq.
  pose proof (elems_seti_Some (seti S i None) i new H2) as P2. rewrite seti_seti in P2.
  rewrite P2. rewrite <- P1. apply perm_swap.
Qed.

Lemma place_spec rehashing maxd ins kv D (Hmax : 255 < maxd) (Hroom : 2 ^ b + D <= M) (HD : D <= 126) :
  forall fuel C S i rich car l,
  ins < i -> N.of_nat (length C) < N.of_nat fuel + i ->
  cs C (seti S ins (Some kv)) -> ins < N.of_nat (length S) ->
  fits C i rich car ->
  (forall j c, i <= j -> geti C j = Some c -> c < 128 -> c < 127) ->
  Permutation l (car :: elems (seti S ins (Some kv))) ->
  (forall a n, 1 <= n -> cnt (inwin a n) l <= n + D) ->
  exists C' S', r_place K V fuel rehashing maxd M ins C S i rich car = Ok (C', S', true)
    /\ geti S' ins = Some None /\ length C' = length C
    /\ cs C' (seti S' ins (Some kv)) /\ Permutation l (elems (seti S' ins (Some kv))).
Proof.
  induction fuel as [|fuel IH]; intros C S i rich car l Hins Hfu X HinsS F Cl P HS.
  { pose proof (fits_room _ _ _ _ _ _ _ X F P HS). destruct F as (F1 & F2 & F3).
    pose proof (hm_lt (fst car)). pose proof (cs_clen _ _ X). lia. }
  cbn [r_place].
  pose proof (fits_room _ _ _ _ _ _ _ X F P HS) as HrD.
  assert (HiM : i < M). { destruct F as (F1 & F2 & F3). pose proof (hm_lt (fst car)). lia. }
  destruct (N.ltb_spec i M); [|lia].
  pose proof (cs_clen _ _ X) as HCL. pose proof (cs_len _ _ X) as HSL. rewrite seti_len in HSL.
  destruct (geti_lt C i) as [c Hc]; [lia|]. rewrite Hc.
  assert (Gneq : geti (seti S ins (Some kv)) i = geti S i) by (apply geti_seti_neq; lia).
  assert (SWAP : forall x, seti (seti S i x) ins (Some kv) = seti (seti S ins (Some kv)) i x).
  { intros x. apply seti_comm. lia. }
  destruct (N.eqb_spec c cEmpty) as [->|Hne].
  - destruct (cs_free _ _ X _ _ Hc ltac:(unfold cEmpty; lia)) as (_ & _ & Hfree).
    specialize (Hfree HiM). rewrite Gneq in Hfree. rewrite Hfree.
    exists (seti C i rich), (seti (seti S i (Some car)) ins None). split; [reflexivity|].
    split; [apply geti_seti_eq; rewrite seti_len; lia|]. split; [apply seti_length|].
    rewrite seti_seti, SWAP. split.
    + eapply put_cs; eauto.
    + rewrite P. symmetry. apply elems_seti_Some. now rewrite Gneq.
  - assert (Hu : c < 128).
    { destruct (N.lt_ge_cases c 128) as [|Hge]; auto.
      destruct (cs_free _ _ X _ _ Hc Hge) as (_ & [A|A] & _); [contradiction|lia]. }
    pose proof (Cl i c ltac:(lia) Hc Hu) as Hc127.
    assert (HF : fits C i rich car) by exact F.
    destruct F as (F1 & F2 & F3).
    rewrite (s8_used c), (s8_used rich) by lia.
    destruct (Z.ltb_spec (Z.of_N c) (Z.of_N rich)) as [Hlt|Hge].
    + destruct (cs_used _ _ X _ _ Hc Hu) as (kv' & E & Ei).
      pose proof E as Ei0. rewrite Gneq in E. rewrite E.
      rewrite inc8_small by lia.
      destruct (N.leb_spec maxd (c + 1)); [lia|]. rewrite andb_false_r.
      assert (X' : cs (seti C i rich) (seti (seti S i (Some car)) ins (Some kv))).
      { rewrite SWAP. eapply put_cs; eauto. right. lia. }
      destruct (IH (seti C i rich) (seti S i (Some car)) (i + 1) (c + 1) kv' l)
        as (C' & S' & R & R1 & R2 & R3 & R4); auto.
      * lia.
      * rewrite seti_len. lia.
      * rewrite seti_len. lia.
      * split; [lia|]. split; [lia|]. intros _. exists rich.
        replace (i + 1 - 1) with i by lia. rewrite geti_seti_eq by lia. split; [auto|lia].
      * intros j cj Hj. rewrite geti_seti_neq by lia. apply Cl. lia.
      * rewrite SWAP. rewrite P. symmetry. now apply Perm_swap_at.
      * exists C', S'. rewrite R2, seti_length. auto.
    + rewrite inc8_small by lia.
      destruct (N.leb_spec maxd (rich + 1)); [lia|]. rewrite andb_false_r.
      apply IH; auto; try lia.
      * split; [lia|]. split; [lia|]. intros _. exists c.
        replace (i + 1 - 1) with i by lia. split; [auto|lia].
      * intros j cj Hj. apply Cl. lia.
Qed.

(** ** erase_slot *)

Record hole (C : list N) (S : slots) (i c0 : N) : Prop := {
  h_used : forall j c, j <> i -> geti C j = Some c -> c < 128 ->
      exists kv, geti S j = Some (Some kv) /\ j = hm (fst kv) + c;
  h_free : forall j c, j <> i -> geti C j = Some c -> 128 <= c ->
      c <= 255 /\ (c = 255 \/ M <= j) /\ (j < M -> geti S j = Some None);
  h_order : forall j c c', j <> i -> j + 1 <> i -> geti C j = Some c -> geti C (j + 1) = Some c' ->
      0 < c' -> c' < 128 -> c < 128 /\ c' <= c + 1;
  h_len : N.of_nat (length S) = M;
  h_clen : M < N.of_nat (length C);
  h_raw : geti S i = Some None;
  h_c0 : c0 < 128;
  h_prev : 0 < c0 -> exists c, 0 < i /\ geti C (i - 1) = Some c /\ c < 128 /\ c0 <= c + 1;
  h_next : forall c', geti C (i + 1) = Some c' -> 0 < c' -> c' < 128 -> c' <= c0 + 1
}.

Lemma cs_hole C S i kv c : cs C S -> geti S i = Some (Some kv) -> geti C i = Some c -> c < 128 ->
  hole C (seti S i None) i c.
Proof.
  intros X Hs Hc Hu. pose proof (geti_Some_lt _ _ _ Hs) as Hi.
  split; auto.
  - intros j cj Hj. rewrite geti_seti_neq by auto. apply (cs_used _ _ X).
  - intros j cj Hj. rewrite geti_seti_neq by auto. apply (cs_free _ _ X).
  - intros j cj cj' _ _. apply (cs_order _ _ X).
  - rewrite seti_len. apply (cs_len _ _ X).
  - apply (cs_clen _ _ X).
  - apply geti_seti_eq; auto.
  - intros H0. destruct (cs_used _ _ X _ _ Hc Hu) as (kv' & _ & Ei).
    destruct (cs_chain _ _ X 1 _ _ Hc Hu ltac:(lia)) as (c' & E & L & B).
    exists c'. split; [lia|]. auto.
  - intros c' Hc' P1 P2. destruct (cs_order _ _ X _ _ _ Hc Hc' P1 P2). auto.
Qed.

Lemma hole_close C S i c0 : hole C S i c0 -> i < M ->
  (forall c, geti C (i + 1) = Some c -> 0 < c -> c < 128 -> False) ->
  cs (seti C i cEmpty) S.
Proof.
  intros X Hi Hn. pose proof (h_clen _ _ _ _ X). split.
  - intros j c. rewrite geti_seti by lia. destruct (N.eqb_spec j i) as [->|Hne].
    + intros E. injection E as <-. unfold cEmpty. lia.
    + intros. eapply (h_used _ _ _ _ X); eauto.
  - intros j c. rewrite geti_seti by lia. destruct (N.eqb_spec j i) as [->|Hne].
    + intros E. injection E as <-. unfold cEmpty. intros _. split; [lia|]. split; [lia|].
      intros _. apply (h_raw _ _ _ _ X).
    + apply (h_free _ _ _ _ X); auto.
  - intros j c c'. rewrite !geti_seti by lia. destruct (N.eqb_spec (j + 1) i) as [E1|Hne1].
    + intros _ E. injection E as <-. unfold cEmpty. lia.
    + destruct (N.eqb_spec j i) as [->|Hne].
      * intros _ E P1 P2. destruct (Hn _ E P1 P2).
      * apply (h_order _ _ _ _ X); auto.
  - apply (h_len _ _ _ _ X).
  - rewrite seti_len. auto.
Qed.

Lemma hole_move C S i c0 c kv : hole C S i c0 -> i < M ->
  geti C (i + 1) = Some c -> 0 < c -> c < 128 -> geti S (i + 1) = Some (Some kv) ->
  i + 1 = hm (fst kv) + c ->
  hole (seti C i (c - 1)) (seti (seti S i (Some kv)) (i + 1) None) (i + 1) c.
Proof.
  intros X Hi Hc P1 P2 Hkv Ei.
  pose proof (h_clen _ _ _ _ X) as HCL. pose proof (h_len _ _ _ _ X) as HSL.
  pose proof (geti_Some_lt _ _ _ Hkv) as Hi1.
  pose proof (h_next _ _ _ _ X _ Hc P1 P2) as Hn.
  assert (GS : forall j, geti (seti (seti S i (Some kv)) (i + 1) None) j =
    if j =? i + 1 then Some None else if j =? i then Some (Some kv) else geti S j).
  { intros j. rewrite geti_seti by (rewrite seti_len; lia). destruct (N.eqb_spec j (i + 1)); auto.
    now rewrite geti_seti by lia. }
  split; rewrite ?seti_len; auto.
  - intros j cj Hj. rewrite GS, geti_seti by lia. destruct (N.eqb_spec j (i + 1)); [contradiction|].
    destruct (N.eqb_spec j i) as [->|].
    + intros E _. injection E as <-. exists kv. split; auto. lia.
    + intros. eapply (h_used _ _ _ _ X); eauto.
  - intros j cj Hj. rewrite GS, geti_seti by lia. destruct (N.eqb_spec j (i + 1)); [contradiction|].
    destruct (N.eqb_spec j i) as [->|].
    + intros E. injection E as <-. lia.
    + apply (h_free _ _ _ _ X); auto.
  - intros j cj cj' Hj1 Hj2. rewrite !geti_seti by lia.
    destruct (N.eqb_spec j i); [lia|]. destruct (N.eqb_spec (j + 1) i) as [E1|].
    + intros E E'. injection E' as <-. intros Q1 Q2.
      destruct (h_prev _ _ _ _ X) as (cp & Hi0 & Ep & Lp & Bp); [lia|].
      replace (i - 1) with j in Ep by lia. rewrite E in Ep. injection Ep as <-. lia.
    + apply (h_order _ _ _ _ X); auto.
  - rewrite GS. now rewrite N.eqb_refl.
  - intros _. exists (c - 1). split; [lia|]. replace (i + 1 - 1) with i by lia.
    rewrite geti_seti_eq by lia. split; auto. lia.
  - intros c'. rewrite geti_seti_neq by lia. intros Hc' Q1 Q2.
    destruct (h_order _ _ _ _ X (i + 1) c c') as [A B]; auto; lia.
Qed.

Lemma shift_spec : forall fuel C S i c0, hole C S i c0 -> i < M ->
  N.of_nat (length C) <= N.of_nat fuel + i ->
  exists C' S', r_shift K V fuel C S i = Ok (C', S') /\ cs C' S'
    /\ length C' = length C /\ Permutation (elems S') (elems S).
Proof.
  induction fuel as [|fuel IH]; intros C S i c0 X Hi Hf.
  { pose proof (h_clen _ _ _ _ X). lia. }
  cbn [r_shift]. pose proof (h_clen _ _ _ _ X) as HCL.
  destruct (geti_lt C (i + 1)) as [c Hc]; [lia|]. rewrite Hc.
  destruct (N.lt_ge_cases c 128) as [Hu|Hge].
  - rewrite s8_used by auto. destruct (Z.leb_spec (Z.of_N c) 0) as [Hz|Hpos].
    + exists (seti C i cEmpty), S. split; [auto|]. split; [|split; [apply seti_length|auto]].
      eapply hole_close; eauto. intros c' E. rewrite Hc in E. injection E as <-. lia.
    + destruct (h_used _ _ _ _ X (i + 1) c ltac:(lia) Hc Hu) as (kv & E & Ei). rewrite E.
      rewrite dec8_small by lia.
      pose proof (hole_move _ _ _ _ _ _ X Hi Hc ltac:(lia) Hu E Ei) as X'.
      pose proof (geti_Some_lt _ _ _ E) as Hi1. rewrite (h_len _ _ _ _ X) in Hi1.
      destruct (IH _ _ _ _ X') as (C' & S' & R1 & R2 & R3 & R4); [auto|rewrite seti_len; lia|].
      exists C', S'. split; [auto|]. split; [auto|]. split; [now rewrite R3, seti_length|].
      rewrite R4. rewrite seti_comm by lia.
      assert (HS : N.of_nat (length S) = M) by apply (h_len _ _ _ _ X).
      rewrite elems_seti_Some.
      * now apply elems_seti_None.
      * rewrite geti_seti_neq by lia. apply (h_raw _ _ _ _ X).
  - destruct (h_free _ _ _ _ X (i + 1) c ltac:(lia) Hc Hge) as (H255 & _).
    pose proof (s8_neg c Hge H255). destruct (Z.leb_spec (s8 c) 0); [|lia].
    exists (seti C i cEmpty), S. split; [auto|]. split; [|split; [apply seti_length|auto]].
    eapply hole_close; eauto. intros c' E. rewrite Hc in E. injection E as <-. lia.
Qed.

End Arrays.
