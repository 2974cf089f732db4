(** Insertion and erasure in a robin16 map, as operations on the stored ring. *)
From Coq Require Import NArith ZArith List Bool Lia Permutation.
From Coq Require Import ZifyBool ZifyNat ZifyN.
From Verif Require Import Base BaseFacts BitsModel BitsFacts GroupModel TableInv TableModel MapSpec MapFacts
  HashModel Flat16Model RobinFacts Robin16Model Robin16Ring Robin16Scan Robin16Facts.
Import ListNotations.
Open Scope N_scope.

Lemma ents_put {E} (A : list (option (N * E))) i d e : geti A i = Some None ->
  Permutation (ents (seti A i (Some (d, e)))) (e :: ents A).
Proof.
  intros H. unfold ents. destruct (geti_split _ _ _ H) as (l1 & l2 & -> & HL & HS).
  rewrite HS, !elems_app, !map_app. cbn. symmetry. apply Permutation_middle.
Qed.

Lemma ents_take {E} (A : list (option (N * E))) i d e : geti A i = Some (Some (d, e)) ->
  Permutation (ents A) (e :: ents (seti A i None)).
Proof.
  intros H. unfold ents. destruct (geti_split _ _ _ H) as (l1 & l2 & -> & HL & HS).
  rewrite HS, !elems_app, !map_app. cbn. symmetry. apply Permutation_middle.
Qed.

Lemma ents_swap {E} (A : list (option (N * E))) i d e d' e' : geti A i = Some (Some (d, e)) ->
  Permutation (e :: ents (seti A i (Some (d', e')))) (e' :: ents A).
Proof.
  intros H. rewrite (ents_take _ _ _ _ H).
  assert (H1 : geti (seti A i None) i = Some None) by (apply geti_seti_eq, (geti_Some_lt _ _ _ H)).
  pose proof (ents_put _ _ d' e' H1) as P. rewrite seti_seti in P. rewrite P. apply perm_swap.
Qed.

Lemma ents_move {E} (A : list (option (N * E))) i j d e d' : i <> j ->
  geti A i = Some None -> geti A j = Some (Some (d, e)) ->
  Permutation (ents (seti (seti A i (Some (d', e))) j None)) (ents A).
Proof.
  intros Hij Hi Hj. rewrite seti_comm by auto.
  assert (H1 : geti (seti A j None) i = Some None) by (rewrite geti_seti_neq; auto).
  rewrite (ents_put _ _ _ _ H1). symmetry. eapply ents_take; eauto.
Qed.

Lemma mod_apart c T m f : m < f -> f < c -> (T + f) mod c <> (T + m) mod c.
Proof.
  intros H1 H2. replace (T + f) with (T + m + (f - m)) by lia. apply mod_near; lia.
Qed.

Section Moves.

Context {K V : Type} (hash : K -> N) (keq : K -> K -> bool) (wide trivial : bool).

Notation qmap := (qmap K V).
Notation cells := (list (option (N * (K * V)))).
Notation tag k := (q_tag K hash k).
Notation hq := (hq (V := V) hash).

Variable b : N.
Hypothesis Hb2 : 2 <= b.
Hypothesis Hb50 : b <= 50.

Notation cap := (2 ^ b).
Notation at_ := (at_ cap).
Notation words := (words (V := V) hash b).
Notation slots := (slots (K := K) (V := V) trivial b).
Notation low := (low (K := K) (V := V) b).
Notation ring := (ring hq cap).
Notation word_of := (word_of (V := V) hash).
Notation slot_of := (slot_of (K := K) (V := V) trivial).

Let C4 : 4 <= cap := cap4 b Hb2 Hb50.
Let C0 : cap <> 0 := cap_nz b Hb2 Hb50.

(** ** Writing one cell *)

Definition put_word (C : list ctrl) (i : N) (c : ctrl) : list ctrl :=
  if i <? 16 then seti (seti C i c) (cap + i) c else seti C i c.

Lemma words_len C A i : words C A -> i < cap -> i < N.of_nat (length C)
  /\ (i < 16 -> cap + i < N.of_nat (length C)).
Proof.
  intros W Hi. rewrite (w_len _ _ _ _ W). pose proof (gcount_range b Hb2 Hb50). lia.
Qed.

Lemma put_word_geti C A i c j : words C A -> i < cap ->
  geti (put_word C i c) j = if (j =? i) || ((i <? 16) && (j =? cap + i)) then Some c else geti C j.
Proof.
  intros W Hi. destruct (words_len _ _ _ W Hi) as [L1 L2]. unfold put_word.
  destruct (N.ltb_spec i 16) as [L|L].
  - rewrite geti_seti by (rewrite seti_len; auto). rewrite geti_seti by auto. cbn [andb].
    destruct (j =? cap + i), (j =? i); auto.
  - cbn [andb]. rewrite orb_false_r. now rewrite geti_seti.
Qed.

Lemma put_word_len C i c : length (put_word C i c) = length C.
Proof. unfold put_word. destruct (i <? 16); now rewrite ?seti_length. Qed.

Lemma words_put C A i o c : words C A -> i < cap -> word_of o c ->
  words (put_word C i c) (seti A i o).
Proof.
  intros W Hi Hw. pose proof (w_alen _ _ _ _ W) as HA. split.
  - rewrite put_word_len. apply (w_len _ _ _ _ W).
  - rewrite seti_len. exact HA.
  - intros j o' Hj. rewrite geti_seti by lia. rewrite (put_word_geti _ _ _ _ _ W Hi).
    destruct (N.eqb_spec j i) as [->|Hij].
    + intros E. injection E as <-. exists c. auto.
    + intros E. destruct (w_cell _ _ _ _ W j o' Hj E) as (c' & Hc' & Hw'). exists c'. split; auto.
      destruct (N.eqb_spec j (cap + i)); [lia|]. rewrite andb_false_r. exact Hc'.
  - intros j Hj Hj16. rewrite !(put_word_geti _ _ _ _ _ W Hi).
    destruct (N.eqb_spec j i) as [->|Hij].
    + destruct (N.eqb_spec (cap + i) i); [lia|]. rewrite N.eqb_refl.
      destruct (N.ltb_spec i 16); [reflexivity|lia].
    + destruct (N.eqb_spec (cap + j) i); [lia|]. destruct (N.eqb_spec (cap + j) (cap + i)); [lia|].
      destruct (N.eqb_spec j (cap + i)); [lia|]. rewrite !andb_false_r. cbn [orb].
      now apply (w_mirror _ _ _ _ W).
  - intros L j Hj1 Hj2. rewrite (put_word_geti _ _ _ _ _ W Hi).
    destruct (N.eqb_spec j i); [lia|]. destruct (N.eqb_spec j (cap + i)); [lia|].
    rewrite andb_false_r. now apply (w_tail _ _ _ _ W).
Qed.

Lemma q_set_eq C A i c : words C A -> i < cap -> q_set cap C i c = Ok (put_word C i c).
Proof.
  intros W Hi. destruct (words_len _ _ _ W Hi) as [L1 L2]. pose proof (cap_two64 b Hb2 Hb50).
  unfold q_set, q_put. destruct (N.ltb_spec i (N.of_nat (length C))); [|lia]. cbn [rbind].
  unfold q_mirror, put_word, qGroupWidth. destruct (N.ltb_spec i 16); [|reflexivity].
  unfold q_put. rewrite wadd_small by lia. rewrite seti_len, (N.add_comm i cap).
  destruct (N.ltb_spec (cap + i) (N.of_nat (length C))); [reflexivity|lia].
Qed.

Lemma q_unset_eq C A i c : words C A -> i < cap -> geti C i = Some c ->
  q_unset cap C i = Ok (put_word C i (255, snd c)).
Proof.
  intros W Hi Hc. destruct (words_len _ _ _ W Hi) as [L1 L2]. pose proof (cap_two64 b Hb2 Hb50).
  unfold q_unset, q_put_dist. rewrite Hc. cbn [rbind].
  unfold put_word, qGroupWidth, qEmpty. destruct (N.ltb_spec i 16); [|reflexivity].
  rewrite wadd_small by lia. rewrite (N.add_comm i cap).
  rewrite geti_seti_neq by lia. rewrite (w_mirror _ _ _ _ W) by auto. rewrite Hc. reflexivity.
Qed.

Lemma slots_put S A i o s : slots S A -> N.of_nat (length A) = cap -> i < cap -> slot_of o s ->
  slots (seti S i s) (seti A i o).
Proof.
  intros W HA Hi Hw. pose proof (s_len _ _ _ _ W) as HL. split.
  - now rewrite seti_len.
  - intros j o' Hj. rewrite !geti_seti by lia. destruct (N.eqb_spec j i) as [->|Hij].
    + intros E. injection E as <-. exists s. auto.
    + apply (s_cell _ _ _ _ W); auto.
Qed.

Lemma low_put A i d e : low A -> N.of_nat (length A) = cap -> i < cap -> d <= 128 -> d < cap ->
  low (seti A i (Some (d, e))).
Proof.
  intros L HA Hi H1 H2 j d' e'. rewrite geti_seti by lia. destruct (j =? i); [|apply L].
  intros E. injection E as <- <-. auto.
Qed.

Lemma low_take A i : low A -> N.of_nat (length A) = cap -> i < cap -> low (seti A i None).
Proof.
  intros L HA Hi j d' e'. rewrite geti_seti by lia. destruct (j =? i); [discriminate|apply L].
Qed.

(** ** Insertion *)

Section Insert.

Variable t : qmap.
Hypothesis HG : geo b t.

Lemma build_ok S i kv : N.of_nat (length S) = cap -> i < cap ->
  (trivial = false -> geti S i = Some None) ->
  q_build K V trivial S i kv = Ok (seti S i (Some kv)).
Proof.
  intros HL Hi H. unfold q_build. destruct (geti_lt S i ltac:(lia)) as (s & Hs). rewrite Hs.
  destruct s; auto. destruct trivial; auto. specialize (H eq_refl). congruence.
Qed.

(** The state of the loop of insert_to_place at position [T + m]: the cell of the new
    element [kv] has its control word already, its slot is still free; [car] looks for
    a place and would have the distance [r]; there is a free cell ahead. *)
Record moving (kv : K * V) (T : N) (C : list ctrl) (S : list (option (K * V))) (A : cells)
    (m r : N) (car : K * V) (l : list (K * V)) (f : N) : Prop := {
  m_words : words C A;
  m_slen : N.of_nat (length S) = cap;
  m_slots : slots (seti S (T mod cap) (Some kv)) A;
  m_raw : trivial = false -> geti S (T mod cap) = Some None;
  m_ring : ring A;
  m_low : low A;
  m_fits : fits hq cap A (T + m) r car;
  m_perm : Permutation (car :: ents A) l;
  m_m : 1 <= m;
  m_f : m <= f;
  m_fc : f < cap;
  m_free : at_ A (T + f) = Some None
}.

Lemma swap_moving kv T C S A m r car l f d e :
  words C A -> N.of_nat (length S) = cap -> slots (seti S (T mod cap) (Some kv)) A ->
  (trivial = false -> geti S (T mod cap) = Some None) ->
  ring A -> low A -> Permutation (e :: ents A) l -> m < f -> f < cap ->
  at_ A (T + f) = Some None ->
  at_ A (T + m) = Some (Some (d, car)) -> r <= d ->
  (hq e + r) mod cap = (T + m) mod cap ->
  moving kv T C S A (m + 1) (r + 1) e l f.
Proof.
  intros. split; auto; try lia. split.
  - rewrite N.add_assoc. rewrite (mod_shift cap _ (T + m)) by auto. f_equal. lia.
  - intros _. exists d, car. split; [|lia]. rewrite <- H9. apply at_cong.
    replace (T + (m + 1) + (cap - 1)) with (T + m + cap) by lia. now apply mod_up.
Qed.

Lemma roomy_perm B (l l' : list (K * V)) : Permutation l l' -> roomy hq cap B l -> roomy hq cap B l'.
Proof. intros P H a n Ha H1 H2. rewrite <- (cnt_perm _ _ _ P). auto. Qed.

Lemma moving_r kv T C S A m r car l f : moving kv T C S A m r car l f -> roomy hq cap 128 l ->
  r <= 128 /\ r < cap.
Proof.
  intros M R. split.
  - apply (fits_bound hq cap C4 A (T + m) r car 128 l ((T + f) mod cap)).
    + apply (m_ring _ _ _ _ _ _ _ _ _ _ M).
    + apply (m_fits _ _ _ _ _ _ _ _ _ _ M).
    + now apply N.mod_lt.
    + rewrite <- (m_free _ _ _ _ _ _ _ _ _ _ M). apply at_cong. now apply N.mod_mod.
    + symmetry. apply (m_perm _ _ _ _ _ _ _ _ _ _ M).
    + exact R.
  - apply (fits_lt hq cap C4 A (T + m) r car (T + f)).
    + apply (m_ring _ _ _ _ _ _ _ _ _ _ M).
    + apply (m_fits _ _ _ _ _ _ _ _ _ _ M).
    + apply (m_free _ _ _ _ _ _ _ _ _ _ M).
Qed.

(** Where the loop leaves a free target slot and a complete ring. *)
Definition moved (kv : K * V) (T : N) (l : list (K * V)) (C : list ctrl) (S : list (option (K * V)))
    (A : cells) : Prop :=
  words C A /\ N.of_nat (length S) = cap /\ slots (seti S (T mod cap) (Some kv)) A
  /\ (trivial = false -> geti S (T mod cap) = Some None)
  /\ ring A /\ low A /\ Permutation (ents A) l.

Lemma place_spec rehashing kv T l (HRm : roomy hq cap 128 l) : forall fuel C S A m r car f,
  moving kv T C S A m r car l f -> f < m + N.of_nat fuel ->
  exists C' S' A', q_place K V trivial fuel rehashing t (T mod cap) C S ((T + m) mod cap)
                     (r, tag (fst car)) car = Ok (C', S', false)
    /\ moved kv T l C' S' A'.
Proof.
  induction fuel as [|fuel IH]; intros C S A m r car f M Hf.
  { pose proof (m_f _ _ _ _ _ _ _ _ _ _ M). lia. }
  destruct (moving_r _ _ _ _ _ _ _ _ _ _ M HRm) as [R1 R2].
  pose proof M as [W SL SS SR RG LO FI PE M1 MF FC FR].
  pose proof (w_alen _ _ _ _ W) as HA.
  cbn [q_place]. set (i := (T + m) mod cap).
  assert (Hi : i < cap) by (now apply N.mod_lt).
  assert (HT : T mod cap < cap) by (now apply N.mod_lt).
  assert (Hit : i <> T mod cap) by (apply mod_near; lia).
  destruct (words_at hash b Hb2 Hb50 _ _ (T + m) W) as (o & c & Ho & Hc & Hw). fold i in Hc. rewrite Hc.
  destruct o as [[d e]|]; cbn [Robin16Facts.word_of] in Hw.
  - (* used *)
    destruct Hw as [Hd ->]. unfold is_empty16, qEmpty. cbn [fst snd].
    destruct (N.eqb_spec d 255) as [|_]; [lia|].
    assert (Hmf : m < f).
    { assert (m <> f); [|lia]. intros ->. rewrite FR in Ho. discriminate. }
    assert (EI : q_succ K V t i = (T + (m + 1)) mod cap).
    { rewrite (geo_succ b Hb2 Hb50 _ _ HG Hi). unfold i. rewrite mod_mod_shift by auto. f_equal. lia. }
    assert (NT : (T + (m + 1)) mod cap =? T mod cap = false).
    { apply N.eqb_neq. apply mod_near; lia. }
    destruct (N.ltb_spec d r) as [Ldr|Ldr].
    + (* swap *)
      rewrite (geo_cap b Hb2 Hb50 _ HG). rewrite (q_set_eq _ _ _ _ W Hi). cbn [rbind].
      assert (Hr : q_read K V S i = Ok e).
      { pose proof (slots_read trivial b Hb2 Hb50 _ _ _ _ _ SS Ho) as X. fold i in X.
        unfold q_read in *. now rewrite geti_seti_neq in X by auto. }
      rewrite Hr. cbn [rbind].
      set (A' := seti A i (Some (r, car))).
      assert (RG' : ring A').
      { apply (put_ring hq cap C4); auto. right. exists d, e. auto. }
      assert (M' : moving kv T (put_word C i (r, tag (fst car))) (seti S i (Some car)) A' (m + 1) (d + 1) e l f).
      { apply (swap_moving _ _ _ _ _ _ _ car _ _ r e); auto.
        - apply words_put; auto. cbn. split; [lia|auto].
        - now rewrite seti_len.
        - rewrite seti_comm by auto. apply slots_put; auto. reflexivity.
        - intros Ht. rewrite geti_seti_neq by auto. auto.
        - apply low_put; auto.
        - rewrite <- PE. apply (ents_swap A i d e r car). exact Ho.
        - unfold A', i. rewrite (at_seti hq cap C4) by auto. destruct (N.eqb_spec ((T + f) mod cap) ((T + m) mod cap)) as [Q|Q]; auto.
          exfalso. revert Q. now apply mod_apart.
        - unfold A', i. rewrite (at_seti hq cap C4) by auto. now rewrite N.eqb_refl.
        - lia.
        - apply (r_home _ _ _ RG _ _ _ Ho). }
      destruct (moving_r _ _ _ _ _ _ _ _ _ _ M' HRm) as [R1' R2'].
      rewrite u8_small by lia. rewrite EI, NT. unfold qDistLimit.
      destruct (N.ltb_spec 128 (d + 1)); [lia|]. rewrite andb_false_r. cbn [orb].
      apply (IH _ _ A' _ _ _ f); auto. lia.
    + (* pass *)
      assert (M' : moving kv T C S A (m + 1) (r + 1) car l f).
      { apply (swap_moving _ _ _ _ _ _ _ e _ _ d car); auto. apply FI. }
      destruct (moving_r _ _ _ _ _ _ _ _ _ _ M' HRm) as [R1' R2'].
      rewrite u8_small by lia. rewrite EI, NT. unfold qDistLimit.
      destruct (N.ltb_spec 128 (r + 1)); [lia|]. rewrite andb_false_r. cbn [orb].
      apply (IH _ _ A _ _ _ f); auto. lia.
  - (* free *)
    unfold is_empty16, qEmpty. rewrite Hw, N.eqb_refl.
    unfold q_emplace_rich. rewrite (geo_cap b Hb2 Hb50 _ HG). rewrite (q_set_eq _ _ _ _ W Hi). cbn [rbind].
    rewrite build_ok; auto.
    2:{ intros Ht. destruct (s_cell _ _ _ _ SS i None Hi Ho) as (s & Hs & Hn).
        rewrite geti_seti_neq in Hs by auto. rewrite Hs. f_equal. now apply Hn. }
    cbn [rbind].
    exists (put_word C i (r, tag (fst car))), (seti S i (Some car)), (seti A i (Some (r, car))).
    split; [reflexivity|].
    split; [apply words_put; auto; cbn; split; [lia|auto]|].
    split; [now rewrite seti_len|]. split.
    { rewrite seti_comm by auto. apply slots_put; auto. reflexivity. }
    split; [intros Ht; rewrite geti_seti_neq by auto; auto|].
    split; [apply (put_ring hq cap C4); auto|].
    split; [apply low_put; auto|].
    rewrite <- PE. apply ents_put. exact Ho.
Qed.

End Insert.

(** The state of a map with the ring [A]. *)
Definition stored (t : qmap) (A : cells) : Prop :=
  geo b t /\ words (q_ctrls _ _ t) A /\ slots (q_slots _ _ t) A /\ ring A /\ low A.

Lemma insert_at_spec rehashing t A h n kv : stored t A ->
  N.of_nat (length (ents A)) < cap -> h < cap -> hash (fst kv) mod cap = h ->
  stopat cap A h n -> roomy hq cap 128 (kv :: ents A) ->
  exists C S A', q_insert_at K V hash trivial rehashing t ((h + n) mod cap) (n mod cap) kv
      = Ok (q_with K V t C S (wadd (q_size _ _ t) 1), false)
    /\ geti S ((h + n) mod cap) = Some (Some kv)
    /\ stored (q_with K V t C S (wadd (q_size _ _ t) 1)) A'
    /\ Permutation (ents A') (kv :: ents A).
Proof.
  intros (HG & W & SS & RG & LO) HF Hh Hk St HRm.
  pose proof (w_alen _ _ _ _ W) as HA. pose proof (s_len _ _ _ _ SS) as HSL.
  assert (FREE : exists z, z < cap /\ geti A z = Some None).
  { destruct (elems_free A) as (z & Hz).
    { unfold ents in HF. rewrite map_length in HF. lia. }
    exists z. split; auto. apply geti_Some_lt in Hz. lia. }
  destruct FREE as (z & Hz & Ez).
  assert (Ez' : at_ A z = Some None) by (now rewrite at_small).
  pose proof (stop_lt hq cap C4 A h n z RG St Hz Ez') as Hn.
  rewrite (N.mod_small n) by auto.
  set (T := h + n). set (i := T mod cap). assert (Hi : i < cap) by (now apply N.mod_lt).
  assert (Hh' : hq kv mod cap = h mod cap) by (unfold Robin16Facts.hq; rewrite Hk; symmetry; now apply N.mod_small).
  pose proof (stop_fits hq cap C4 A h n kv RG St Hh') as FI. fold T in FI.
  assert (B1 : n <= 128).
  { apply (fits_bound hq cap C4 A T n kv 128 (kv :: ents A) z); auto. }
  assert (HT0 : at_ A T = Some None \/ (exists d e, at_ A T = Some (Some (d, e)) /\ d < n)) by (apply St).
  pose proof (put_ring hq cap C4 A T n kv RG FI HT0) as RG1. fold i in RG1.
  assert (LO1 : low (seti A i (Some (n, kv)))) by (apply low_put; auto).
  assert (WO : word_of (Some (n, kv)) (n, tag (fst kv))) by (cbn; split; [lia|auto]).
  pose proof (words_put _ _ _ _ _ W Hi WO) as W1.
  unfold q_insert_at.
  destruct (words_at hash b Hb2 Hb50 _ _ T W) as (o & c & Ho & Hc & Hw). fold i in Hc. rewrite Hc.
  destruct o as [[d e]|]; cbn [Robin16Facts.word_of] in Hw.
  - destruct Hw as [Hd ->]. unfold is_empty16, qEmpty. cbn [fst snd].
    destruct (N.eqb_spec d 255) as [|_]; [lia|].
    assert (Ldn : d < n).
    { destruct HT0 as [X|(d' & e' & X & L)]; rewrite Ho in X; [discriminate|]. injection X as <- <-. auto. }
    unfold q_insert_to_place. rewrite Hc. rewrite (geo_cap b Hb2 Hb50 _ HG).
    rewrite (q_set_eq _ _ _ _ W Hi). cbn [rbind].
    pose proof (slots_read trivial b Hb2 Hb50 _ _ _ _ _ SS Ho) as Hr. fold i in Hr. rewrite Hr. cbn [rbind].
    assert (Hsi : geti (q_slots _ _ t) i = Some (Some e)).
    { unfold q_read in Hr. destruct (geti (q_slots K V t) i) as [[]|]; congruence. }
    set (S1 := if trivial then q_slots _ _ t else seti (q_slots _ _ t) i None).
    assert (ED : q_drop K V trivial (q_slots _ _ t) i = Ok S1) by (unfold q_drop; now rewrite Hsi).
    rewrite ED. cbn [rbind fst snd]. rewrite u8_small by lia.
    rewrite (geo_succ b Hb2 Hb50 _ _ HG Hi).
    assert (HS1 : N.of_nat (length S1) = cap) by (unfold S1; destruct trivial; [auto|now rewrite seti_len]).
    assert (ES1 : seti S1 i (Some kv) = seti (q_slots _ _ t) i (Some kv)).
    { unfold S1. destruct trivial; auto. apply seti_seti. }
    assert (MM : exists f, moving kv T (put_word (q_ctrls _ _ t) i (n, tag (fst kv))) S1
       (seti A i (Some (n, kv))) 1 (d + 1) e (kv :: ents A) f).
    { destruct (free_before cap C4 T z) as (f & Hf & Qf). exists f.
      assert (f <> 0).
      { intros ->. rewrite N.add_0_r in Qf. rewrite (at_cong _ _ _ _ Qf) in Ho. rewrite Ez' in Ho. discriminate. }
      apply (swap_moving kv T _ S1 _ 0 d kv _ _ n e); auto.
      - fold i. rewrite ES1. apply slots_put; auto. reflexivity.
      - fold i. unfold S1. intros ->. apply geti_seti_eq. rewrite HSL. exact Hi.
      - apply (ents_swap A i d e n kv). exact Ho.
      - clear - H. lia.
      - unfold i. rewrite (at_seti hq cap C4) by auto. destruct (N.eqb_spec ((T + f) mod cap) (T mod cap)) as [Q|Q].
        + exfalso. revert Q. apply mod_near; [exact C0|clear - H; lia|exact Hf].
        + rewrite <- Ez'. now apply at_cong.
      - rewrite N.add_0_r. unfold i. rewrite (at_seti hq cap C4) by auto. now rewrite N.eqb_refl.
      - clear - Ldn. lia.
      - rewrite N.add_0_r. apply (r_home _ _ _ RG _ _ _ Ho). }
    destruct MM as (f & M).
    destruct (place_spec t HG rehashing kv T _ HRm (S (length (q_slots _ _ t))) _ _ _ _ _ _ _ M)
      as (C' & S' & A' & EP & W' & SL' & SS' & RW' & RG' & LO' & PE').
    { pose proof (m_fc _ _ _ _ _ _ _ _ _ _ M) as FC. clear - FC HSL. lia. }
    fold i in EP, SS', RW'. assert (EI : (i + 1) mod cap = (T + 1) mod cap) by (unfold i; now apply mod_mod_shift).
    rewrite EI, EP. cbn [rbind andb].
    rewrite build_ok; auto. cbn [rbind].
    exists C', (seti S' i (Some kv)), A'. split; [reflexivity|].
    split; [apply geti_seti_eq; rewrite SL'; exact Hi|]. split; [|exact PE'].
    repeat (split; auto); apply HG.
  - unfold is_empty16. rewrite Hw. unfold qEmpty. rewrite N.eqb_refl.
    rewrite (geo_cap b Hb2 Hb50 _ HG). rewrite (q_set_eq _ _ _ _ W Hi). cbn [rbind andb].
    rewrite build_ok; auto.
    2:{ intros Ht. destruct (s_cell _ _ _ _ SS i None Hi Ho) as (s & Hs & Hx). rewrite Hs. f_equal. now apply Hx. }
    cbn [rbind]. exists (put_word (q_ctrls _ _ t) i (n, tag (fst kv))), (seti (q_slots _ _ t) i (Some kv)),
      (seti A i (Some (n, kv))).
    split; [reflexivity|]. split; [apply geti_seti_eq; rewrite HSL; exact Hi|]. split.
    + split; [exact HG|]. split; [exact W1|]. split; [apply slots_put; auto; reflexivity|]. auto.
    + apply ents_put. exact Ho.
Qed.

(** ** Erasure *)

Definition home_or_free (o : option (option (N * (K * V)))) : Prop :=
  o = Some None \/ exists e, o = Some (Some (0, e)).

(** Something ends the row behind position [i]. *)
Definition cut (A : cells) (i c0 : N) : Prop :=
  (exists j, i < j /\ j < cap /\ home_or_free (geti A j))
  \/ (0 < i /\ home_or_free (geti A 0)) \/ (i = 0 /\ c0 = 0).

Lemma empty_or_zero_word o c : word_of o c ->
  is_empty_or_zero c = match o with None => true | Some (d, _) => d =? 0 end.
Proof.
  unfold Robin16Facts.word_of, is_empty_or_zero. destruct o as [[d e]|].
  - intros [H ->]. cbn [fst]. rewrite u8_small by lia. destruct (N.eqb_spec d 0); lia.
  - intros ->. reflexivity.
Qed.

(** The word behind the hole. *)
Lemma next_word C A i o : words C (seti A i o) -> N.of_nat (length A) = cap -> i < cap ->
  exists x c, at_ A (i + 1) = Some x /\ geti C (i + 1) = Some c /\ word_of x c.
Proof.
  intros W HA Hi.
  destruct (words_at hash b Hb2 Hb50 _ _ (i + 1) W) as (x & c & Ho & Hc & Hw).
  exists x, c. rewrite (at_seti_small cap C4) in Ho by auto.
  destruct (N.eqb_spec ((i + 1) mod cap) i) as [Q|Q].
  { exfalso. rewrite <- (N.mod_small i cap Hi) in Q at 2. apply mod_near in Q; lia. }
  split; auto. split; auto. destruct (N.eq_dec (i + 1) cap) as [E|E].
  - rewrite E in Hc |- *. rewrite N.mod_same in Hc by auto. rewrite <- Hc.
    rewrite <- (w_mirror _ _ _ _ W 0) by lia. f_equal. lia.
  - now rewrite N.mod_small in Hc by lia.
Qed.

Lemma drop_some S i kv : geti S i = Some (Some kv) ->
  q_drop K V trivial S i = Ok (if trivial then S else seti S i None).
Proof. intros H. unfold q_drop. now rewrite H. Qed.

Lemma slots_drop S A i kv : slots S A -> N.of_nat (length A) = cap -> i < cap ->
  geti S i = Some (Some kv) -> slots (if trivial then S else seti S i None) (seti A i None).
Proof.
  intros X HA Hi Hs. destruct trivial eqn:Et.
  - rewrite <- Et in *. rewrite <- (seti_same S i _ Hs). apply slots_put; auto. cbn. congruence.
  - rewrite <- Et in *. apply slots_put; auto. cbn. auto.
Qed.

Lemma shift_spec : forall fuel C S A i c0, hole hq cap A i c0 -> low A ->
  slots S A -> (exists d e, words C (seti A i (Some (d, e)))) -> cap < i + N.of_nat fuel ->
  (cut A i c0 -> exists C' S' A', q_shift K V trivial fuel cap C S i = Ok (C', S')
    /\ words C' A' /\ slots S' A' /\ ring A' /\ low A' /\ Permutation (ents A') (ents A))
  /\ (0 < i -> ~ cut A i c0 -> q_shift K V trivial fuel cap C S i = Err EUndef).
Proof.
  induction fuel as [|fuel IH]; intros C S A i c0 HO LO SS (od & oe & W) Hf.
  { pose proof (h_i _ _ _ _ _ HO). lia. }
  pose proof (h_i _ _ _ _ _ HO) as Hi. pose proof (h_len _ _ _ _ _ HO) as HA.
  pose proof (h_raw _ _ _ _ _ HO) as Hraw.
  destruct (next_word _ _ _ _ W HA Hi) as (x & c & Hx & Hc & Hw).
  cbn [q_shift]. rewrite Hc. rewrite (empty_or_zero_word _ _ Hw).
  destruct (match x with Some (d, _) => d =? 0 | None => true end) eqn:EZ.
  - (* the row ends *)
    assert (HC : cut A i c0).
    { assert (HX : home_or_free (Some x)).
      { destruct x as [[d e]|]; [right|now left]. apply N.eqb_eq in EZ. subst d. eauto. }
      unfold Robin16Ring.at_ in Hx. destruct (N.eq_dec (i + 1) cap) as [E|E].
      - right. left. split; [lia|]. rewrite E, N.mod_same in Hx by auto. now rewrite Hx.
      - left. exists (i + 1). rewrite N.mod_small in Hx by lia. rewrite Hx. split; [lia|]. split; [lia|auto]. }
    split; [|tauto]. intros _.
    destruct (w_cell _ _ _ _ W i (Some (od, oe)) Hi) as (ci & Hci & _).
    { apply geti_seti_eq. lia. }
    rewrite (q_unset_eq _ _ _ _ W Hi Hci). cbn [rbind].
    do 2 eexists. exists A. split; [reflexivity|].
    assert (W' : words (put_word C i (255, snd ci)) (seti (seti A i (Some (od, oe))) i None)).
    { apply words_put; auto. reflexivity. }
    rewrite seti_seti, (seti_same A i None Hraw) in W'.
    split; [exact W'|]. split; [exact SS|]. split; [|split; auto].
    apply (hole_close hq cap C4 A i c0 HO). intros d e Hd. rewrite Hx in Hd. injection Hd as ->.
    now apply N.eqb_eq in EZ.
  - (* the next element moves up *)
    destruct x as [[d e]|]; [|discriminate]. apply N.eqb_neq in EZ.
    rewrite (q_set_eq _ _ _ _ W Hi). cbn [rbind].
    destruct (N.eq_dec (i + 1) cap) as [E|E].
    + (* over the end *)
      unfold Robin16Ring.at_ in Hx. rewrite E, N.mod_same in Hx by auto.
      assert (NR : q_read K V S (i + 1) = Err EUndef).
      { unfold q_read. rewrite geti_ge; [reflexivity|]. rewrite (s_len _ _ _ _ SS). lia. }
      rewrite NR. cbn [rbind]. split; [|reflexivity].
      intros [(j & J1 & J2 & _)|[(_ & HF)|(X & _)]]; [lia| |lia].
      exfalso. rewrite Hx in HF. destruct HF as [HF|(e' & HF)]; [discriminate|]. injection HF as HF _. lia.
    + assert (Hi1 : i + 1 < cap) by lia.
      assert (Hg : geti A (i + 1) = Some (Some (d, e))) by (now rewrite at_small in Hx by auto).
      destruct (s_cell _ _ _ _ SS (i + 1) _ Hi1 Hg) as (s & Hs & Hss). cbn in Hss. subst s.
      unfold q_read. rewrite Hs. cbn [rbind].
      rewrite build_ok; [|apply (s_len _ _ _ _ SS)|auto|].
      2:{ intros Ht. destruct (s_cell _ _ _ _ SS i _ Hi Hraw) as (s & Hs' & Hn). rewrite Hs'. f_equal. now apply Hn. }
      cbn [rbind]. destruct Hw as [Hd254 ->]. cbn [fst snd].
      assert (Hs2 : geti (seti S i (Some e)) (i + 1) = Some (Some e)) by (rewrite geti_seti_neq by lia; auto).
      rewrite (drop_some _ _ _ Hs2). cbn [rbind].
      set (A1 := seti A i (Some (d - 1, e))).
      assert (HA1 : N.of_nat (length A1) = cap) by (unfold A1; now rewrite seti_len).
      assert (SS1 : slots (seti S i (Some e)) A1) by (apply slots_put; auto; reflexivity).
      pose proof (slots_drop _ _ _ _ SS1 HA1 Hi1 Hs2) as SS2.
      pose proof (hole_move hq cap C4 A i c0 d e HO Hi1 Hg ltac:(lia)) as HO2. fold A1 in HO2.
      destruct (LO _ _ _ Hg) as [D1 D2].
      assert (LO2 : low (seti A1 (i + 1) None)).
      { apply low_take; auto. apply low_put; auto; lia. }
      assert (WO : word_of (Some (d - 1, e)) (d - 1, tag (fst e))) by (cbn; split; [lia|auto]).
      pose proof (words_put _ _ _ _ _ W Hi WO) as W1. rewrite seti_seti in W1. fold A1 in W1.
      assert (W2 : words (put_word C i (d - 1, tag (fst e))) (seti (seti A1 (i + 1) None) (i + 1) (Some (d, e)))).
      { rewrite seti_seti. rewrite (seti_same A1); auto. unfold A1. rewrite geti_seti_neq by lia. auto. }
      destruct (IH _ _ _ _ _ HO2 LO2 SS2 (ex_intro _ d (ex_intro _ e W2)) ltac:(lia)) as [I1 I2].
      assert (G : forall j, geti (seti A1 (i + 1) None) j =
         if j =? i + 1 then Some None else if j =? i then Some (Some (d - 1, e)) else geti A j).
      { intros j. rewrite geti_seti by lia. destruct (j =? i + 1); auto. unfold A1. now rewrite geti_seti by lia. }
      assert (NH : ~ home_or_free (geti A (i + 1))).
      { rewrite Hg. intros [X|(e' & X)]; [discriminate|]. injection X as X _. lia. }
      split.
      * intros HC. destruct I1 as (C' & S' & A' & E1 & R).
        { destruct HC as [(j & J1 & J2 & J3)|[(J1 & J2)|(J1 & J2)]].
          - left. exists j. assert (j <> i + 1) by (intros ->; contradiction).
            split; [lia|]. split; auto. rewrite G. destruct (N.eqb_spec j (i + 1)); [lia|].
            destruct (N.eqb_spec j i); [lia|auto].
          - right. left. split; [lia|]. rewrite G. destruct (N.eqb_spec 0 (i + 1)); [lia|].
            destruct (N.eqb_spec 0 i); [lia|auto].
          - right. left. split; [lia|]. rewrite G. destruct (N.eqb_spec 0 (i + 1)); [lia|].
            destruct (N.eqb_spec 0 i); [|lia]. right. exists e.
            pose proof (h_next _ _ _ _ _ HO d e Hx ltac:(lia)) as B. do 3 f_equal. lia. }
        exists C', S', A'. split; auto. destruct R as (R1 & R2 & R3 & R4 & R5). repeat (split; auto).
        rewrite R5. unfold A1. apply (ents_move A i (i + 1) d e (d - 1)); auto. lia.
      * intros Hi0 HC. apply I2; [lia|]. intros HC'. apply HC.
        destruct HC' as [(j & J1 & J2 & J3)|[(J1 & J2)|(J1 & J2)]]; [| |lia].
        -- left. exists j. rewrite G in J3. destruct (N.eqb_spec j (i + 1)); [lia|].
           destruct (N.eqb_spec j i); [lia|]. split; [lia|auto].
        -- right. left. rewrite G in J2. destruct (N.eqb_spec 0 (i + 1)); [lia|].
           destruct (N.eqb_spec 0 i); [lia|auto].
Qed.

Lemma erase_slot_spec t A i d e : stored t A -> i < cap -> geti A i = Some (Some (d, e)) ->
  (cut (seti A i None) i d -> exists C S A',
     q_erase_slot K V trivial t i = Ok (q_with K V t C S (wsub (q_size _ _ t) 1))
     /\ stored (q_with K V t C S (wsub (q_size _ _ t) 1)) A' /\ Permutation (ents A) (e :: ents A'))
  /\ (0 < i -> ~ cut (seti A i None) i d -> q_erase_slot K V trivial t i = Err EUndef).
Proof.
  intros (HG & W & SS & RG & LO) Hi Ha.
  pose proof (w_alen _ _ _ _ W) as HA.
  destruct (s_cell _ _ _ _ SS i _ Hi Ha) as (s & Hs & Hss). cbn in Hss. subst s.
  unfold q_erase_slot. rewrite (drop_some _ _ _ Hs). cbn [rbind]. rewrite (geo_cap b Hb2 Hb50 _ HG).
  pose proof (slots_drop _ _ _ _ SS HA Hi Hs) as SS1.
  pose proof (ring_hole hq cap C4 A i d e RG Hi Ha) as HO.
  assert (LO1 : low (seti A i None)) by (apply low_take; auto).
  assert (W1 : words (q_ctrls _ _ t) (seti (seti A i None) i (Some (d, e)))).
  { rewrite seti_seti, seti_same; auto. }
  destruct (shift_spec (S (length (q_ctrls _ _ t))) _ _ _ i d HO LO1 SS1 (ex_intro _ d (ex_intro _ e W1)))
    as [I1 I2].
  { rewrite Nat2N.inj_succ, (w_len _ _ _ _ W). pose proof (gcount_range b Hb2 Hb50). lia. }
  split.
  - intros HC. destruct (I1 HC) as (C & S & A' & E1 & R1 & R2 & R3 & R4 & R5). rewrite E1. cbn [rbind].
    exists C, S, A'. split; [reflexivity|]. split; [repeat (split; auto); apply HG|].
    rewrite R5. eapply ents_take; eauto.
  - intros H0 HC. rewrite (I2 H0 HC). reflexivity.
Qed.

End Moves.
