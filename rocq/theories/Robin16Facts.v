(** How the control words and slots of a robin16 map store a ring of elements
    (Robin16Ring.v), and what a search finds. *)
From Coq Require Import NArith ZArith List Bool Lia Permutation.
From Coq Require Import ZifyBool ZifyNat ZifyN.
From Verif Require Import Base BaseFacts BitsModel BitsFacts GroupModel TableInv TableModel MapSpec MapFacts
  HashModel Flat16Model RobinFacts Robin16Model Robin16Ring Robin16Scan.
Import ListNotations.
Open Scope N_scope.

Lemma land_mask i b : N.land i (2 ^ b - 1) = i mod 2 ^ b.
Proof. rewrite N.sub_1_r, <- N.ones_equiv. apply N.land_ones. Qed.

Lemma b_range b : 2 <= b -> b <= 50 -> 4 <= 2 ^ b /\ 2 ^ b <= 2 ^ 50.
Proof. intros H1 H2. split; [change 4 with (2 ^ 2)|]; apply pow2_le; lia. Qed.

Lemma u8_small x : x < 256 -> u8 x = x.
Proof. intros H. unfold u8. now apply N.mod_small. Qed.

Lemma b_cases b : 2 <= b -> 16 <= 2 ^ b /\ (16 | 2 ^ b) \/ (2 ^ b = 4 \/ 2 ^ b = 8).
Proof.
  intros H. destruct (N.lt_ge_cases b 4) as [L|L].
  - right. assert (b = 2 \/ b = 3) as [->| ->] by lia; auto.
  - left. replace b with (4 + (b - 4)) by lia. rewrite N.pow_add_r. change (2 ^ 4) with 16. split.
    + pose proof (pow2_pos (b - 4)). lia.
    + exists (2 ^ (b - 4)). lia.
Qed.

Section Facts.

Context {K V : Type} (hash : K -> N) (keq : K -> K -> bool) (LW : tame hash keq)
  (wide trivial : bool).

Notation qmap := (qmap K V).
Notation cells := (list (option (N * (K * V)))).
Notation tag k := (q_tag K hash k).

Definition hq (e : K * V) : N := hash (fst e).

Lemma tag_keq a b : keq a b = true -> tag a = tag b.
Proof. intros H. unfold q_tag. now rewrite (tm_compat _ _ LW _ _ H). Qed.

Section Cap.

Variable b : N.
Hypothesis Hb2 : 2 <= b.
Hypothesis Hb50 : b <= 50.

Notation cap := (2 ^ b).
Notation at_ := (at_ cap).
Notation gcount := ((cap + 15) / 16).

(** The numbers kept in a map with [cap] slots. *)
Definition geo (t : qmap) : Prop := q_mask _ _ t = cap - 1 /\ q_gmask _ _ t = gcount - 1.

Lemma cap_range : 4 <= cap /\ cap <= 2 ^ 50.
Proof. now apply b_range. Qed.

Lemma cap4 : 4 <= cap.
Proof. apply cap_range. Qed.

Lemma cap_two64 : cap + cap + 300 < two64.
Proof. pose proof (proj2 cap_range). unfold two64. change (2 ^ 50) with 1125899906842624 in H. lia. Qed.

Lemma cap_nz : cap <> 0.
Proof. pose proof cap4. lia. Qed.

Lemma gcount_range : cap <= gcount * 16 /\ gcount * 16 <= cap + 15 /\ 1 <= gcount.
Proof.
  pose proof cap4. pose proof (N.div_mod (cap + 15) 16 ltac:(lia)).
  pose proof (N.mod_lt (cap + 15) 16 ltac:(lia)). lia.
Qed.

Lemma geo_cap t : geo t -> q_cap _ _ t = cap.
Proof.
  intros [H _]. unfold q_cap. rewrite H. pose proof cap4. pose proof cap_two64.
  rewrite wadd_small; lia.
Qed.

Lemma geo_gc t : geo t -> q_group_count _ _ t = gcount.
Proof.
  intros [_ H]. unfold q_group_count. rewrite H. pose proof gcount_range. pose proof cap_two64.
  rewrite wadd_small; lia.
Qed.

Lemma geo_round t i : geo t -> q_round _ _ t i = i mod cap.
Proof. intros [H _]. unfold q_round. rewrite H. apply land_mask. Qed.

Lemma geo_home t k : geo t -> q_home _ _ hash t k = hash k mod cap.
Proof. intros H. unfold q_home. now apply geo_round. Qed.

Lemma geo_succ t i : geo t -> i < cap -> q_succ _ _ t i = (i + 1) mod cap.
Proof.
  intros H Hi. unfold q_succ. rewrite wadd_small by (pose proof cap_two64; lia). now apply geo_round.
Qed.

Lemma geo_next t i : geo t -> i < cap -> q_next _ _ t i = (i + 16) mod cap.
Proof.
  intros H Hi. unfold q_next, qGroupWidth. rewrite wadd_small by (pose proof cap_two64; lia).
  now apply geo_round.
Qed.

Lemma geo_dist t i j h : geo t -> i < cap -> j < 16 -> h < cap ->
  q_dist _ _ t (wadd i j) h = u8 ((i + j + cap - h) mod cap).
Proof.
  intros H Hi Hj Hh. pose proof cap_two64. unfold q_dist. rewrite (geo_cap _ H).
  rewrite (wadd_small i j) by lia. rewrite wadd_small by lia. rewrite wsub_small by lia.
  now rewrite geo_round.
Qed.

(** ** The stored ring *)

(** The control word of a cell. *)
Definition word_of (o : option (N * (K * V))) (c : ctrl) : Prop :=
  match o with
  | None => fst c = 255
  | Some (d, kv) => d < 254 /\ c = (d, tag (fst kv))
  end.

(** The slot of a cell. *)
Definition slot_of (o : option (N * (K * V))) (s : option (K * V)) : Prop :=
  match o with
  | None => trivial = false -> s = None
  | Some (_, kv) => s = Some kv
  end.

Record words (C : list ctrl) (A : cells) : Prop := {
  w_len : N.of_nat (length C) = (gcount + 1) * 16;
  w_alen : N.of_nat (length A) = cap;
  w_cell : forall i o, i < cap -> geti A i = Some o -> exists c, geti C i = Some c /\ word_of o c;
  w_mirror : forall i, i < cap -> i < 16 -> geti C (cap + i) = geti C i;
  w_tail : cap < 16 -> forall i, cap + cap <= i -> i < 32 ->
      exists d, geti C i = Some (d, 0) /\ 254 <= d /\ d <= 255
}.

Record slots (S : list (option (K * V))) (A : cells) : Prop := {
  s_len : N.of_nat (length S) = cap;
  s_cell : forall i o, i < cap -> geti A i = Some o -> exists s, geti S i = Some s /\ slot_of o s
}.

Definition low (A : cells) : Prop :=
  forall i d e, geti A i = Some (Some (d, e)) -> d <= 128 /\ d < cap.

Lemma low_at A p d e : low A -> at_ A p = Some (Some (d, e)) -> d <= 128 /\ d < cap.
Proof. intros H. apply H. Qed.

Lemma words_room C A i : words C A -> i < cap -> i + 16 <= N.of_nat (length C).
Proof. intros W Hi. rewrite (w_len _ _ W). pose proof gcount_range. lia. Qed.

(** The sixteen words from any position. *)
Lemma words_lane C A i j : words C A -> i < cap -> j < 16 ->
  exists c, geti C (i + j) = Some c
    /\ ((exists o, at_ A (i + j) = Some o /\ word_of o c)
        \/ (cap < 16 /\ cap + cap <= i + j /\ snd c = 0 /\ 254 <= fst c /\ fst c <= 255)).
Proof.
  intros W Hi Hj. pose proof cap4 as H4. pose proof (w_alen _ _ W) as HA.
  assert (R : forall p, p < cap -> exists o c, geti A p = Some o /\ geti C p = Some c /\ word_of o c).
  { intros p Hp. destruct (geti_lt A p ltac:(lia)) as (o & Ho).
    destruct (w_cell _ _ W p o Hp Ho) as (c & Hc & Hw). eauto. }
  destruct (N.lt_ge_cases (i + j) cap) as [L|L].
  - destruct (R _ L) as (o & c & Ho & Hc & Hw). exists c. split; auto. left. exists o.
    rewrite at_small by auto. auto.
  - destruct (N.lt_ge_cases (i + j) (cap + cap)) as [L2|L2].
    + destruct (R (i + j - cap) ltac:(lia)) as (o & c & Ho & Hc & Hw). exists c. split.
      * rewrite <- Hc, <- (w_mirror _ _ W (i + j - cap)) by lia. f_equal. lia.
      * left. exists o. split; auto. rewrite <- Ho, <- (at_small cap) by lia.
        apply at_cong. replace (i + j) with (i + j - cap + cap) at 1 by lia. apply mod_up. lia.
    + assert (L16 : cap < 16) by lia.
      destruct (w_tail _ _ W L16 (i + j) L2 ltac:(lia)) as (d & Hd & D1 & D2).
      exists (d, 0). split; auto. right. cbn [fst snd]. auto.
Qed.

Lemma words_at C A p : words C A -> exists o c, at_ A p = Some o /\ geti C (p mod cap) = Some c /\ word_of o c.
Proof.
  intros W. pose proof (N.mod_lt p cap cap_nz) as Hp.
  destruct (geti_lt A (p mod cap)) as (o & Ho); [rewrite (w_alen _ _ W); lia|].
  destruct (w_cell _ _ W _ _ Hp Ho) as (c & Hc & Hw). exists o, c. auto.
Qed.

Lemma slots_read S A p d e : slots S A -> at_ A p = Some (Some (d, e)) ->
  q_read K V S (p mod cap) = Ok e.
Proof.
  intros X H. pose proof (N.mod_lt p cap cap_nz) as Hp.
  destruct (s_cell _ _ X _ _ Hp H) as (s & Hs & Hw). cbn in Hw. subst s. unfold q_read. now rewrite Hs.
Qed.

(** ** Search *)

Section Search.

Variable t : qmap.
Variable A : cells.
Hypothesis HG : geo t.
Hypothesis HW : words (q_ctrls _ _ t) A.
Hypothesis HS : slots (q_slots _ _ t) A.
Hypothesis HR : ring hq cap A.
Hypothesis HL : low A.
Variable k : K.
Variable key : option K.
Hypothesis Hkey : key = Some k \/ key = None.
Hypothesis Hseen : key = Some k -> 16 <= cap \/ tag k <> 0.

Notation h := (hash k mod cap).

Definition passed (n : N) : Prop :=
  forall j, j < n -> exists d e, at_ A (h + j) = Some (Some (d, e)) /\ j <= d
    /\ (key = Some k -> keq (fst e) k = false).

Lemma h_lt : h < cap.
Proof. apply N.mod_lt, cap_nz. Qed.

Lemma passed_bound n : passed n -> n <= 129 /\ n <= cap.
Proof.
  intros P. destruct (N.eq_dec n 0) as [->|]; [pose proof cap4; lia|].
  destruct (P (n - 1) ltac:(lia)) as (d & e & H & Hd & _). apply (low_at _ _ _ _ HL) in H. lia.
Qed.

Definition sresult (s : qscan) : Prop :=
  match s with
  | QHit i => key = Some k /\ i < cap
      /\ exists d kv, geti A i = Some (Some (d, kv)) /\ keq (fst kv) k = true
  | QStop i d => exists n, stopat cap A h n /\ passed n /\ i = (h + n) mod cap /\ d = n mod cap
  | QFull => False
  end.

Lemma passed_stop n : passed n -> (at_ A (h + n) = Some None
  \/ exists d e, at_ A (h + n) = Some (Some (d, e)) /\ d < n) -> stopat cap A h n.
Proof.
  intros P H. split; auto. intros j Hj. destruct (P j Hj) as (d & e & H1 & H2 & _). eauto.
Qed.

Lemma passed_next n d e : passed n -> at_ A (h + n) = Some (Some (d, e)) -> n <= d ->
  (key = Some k -> keq (fst e) k = false) -> passed (n + 1).
Proof.
  intros P H Hd Hk j Hj. destruct (N.eq_dec j n) as [->|]; eauto. apply P. lia.
Qed.

Lemma singles_spec todo : forall n, passed n -> n + N.of_nat todo <= 4 ->
  exists r, q_singles K V keq todo t key (tag k) ((h + n) mod cap) n = Ok r
    /\ match r with
       | inl s => sresult s
       | inr (i, d) => d = n + N.of_nat todo /\ i = (h + d) mod cap /\ passed d
       end.
Proof.
  pose proof cap4 as H4. induction todo as [|todo IH]; intros n P Hn.
  { eexists. split; [reflexivity|]. cbn. rewrite N.add_0_r. auto. }
  cbn [q_singles]. destruct (words_at _ _ (h + n) HW) as (o & c & Ho & Hc & Hw). rewrite Hc.
  assert (Hi : (h + n) mod cap < cap) by (apply N.mod_lt, cap_nz).
  assert (ES : q_succ K V t ((h + n) mod cap) = (h + (n + 1)) mod cap).
  { rewrite geo_succ by auto. rewrite mod_mod_shift by (apply cap_nz). f_equal. lia. }
  destruct o as [[d e]|]; cbn [word_of] in Hw.
  - destruct Hw as [Hd ->]. unfold holds. cbn [fst snd]. rewrite u8_small by lia.
    destruct (N.ltb_spec n (d + 1)) as [L|L].
    + assert (NEXT : (key = Some k -> keq (fst e) k = false) ->
        exists r, q_singles K V keq todo t key (tag k) (q_succ K V t ((h + n) mod cap)) (n + 1) = Ok r
        /\ match r with
           | inl s => sresult s
           | inr (i, d) => d = n + N.of_nat (S todo) /\ i = (h + d) mod cap /\ passed d
           end).
      { intros Hk. rewrite ES.
        destruct (IH (n + 1) (passed_next _ _ _ P Ho ltac:(lia) Hk) ltac:(lia)) as (r & E & Hr).
        exists r. split; auto. destruct r as [s|[i' d']]; auto. destruct Hr as (-> & Hi' & P').
        split; [lia|auto]. }
      destruct Hkey as [Hk| Hk]; rewrite Hk in NEXT |- *.
      * destruct (N.eqb_spec (tag (fst e)) (tag k)) as [T|T].
        -- rewrite (slots_read _ _ _ _ _ HS Ho). cbn [rbind].
           destruct (keq (fst e) k) eqn:E.
           ++ eexists. split; [reflexivity|]. cbn [sresult]. split; auto. split; auto.
              exists d, e. auto.
           ++ apply NEXT. auto.
        -- apply NEXT. intros _. destruct (keq (fst e) k) eqn:E; auto.
           exfalso. apply T. now apply tag_keq.
      * apply NEXT. discriminate.
    + eexists. split; [reflexivity|]. cbn [sresult]. exists n. split; [|split; auto].
      * apply passed_stop; auto. right. exists d, e. split; auto. lia.
      * split; auto. rewrite N.mod_small by (clear - Hn H4; lia). reflexivity.
  - unfold holds. rewrite Hw. change (u8 (255 + 1)) with 0.
    destruct (N.ltb_spec n 0); [lia|].
    eexists. split; [reflexivity|]. cbn [sresult]. exists n. split; [|split; auto].
    + apply passed_stop; auto.
    + split; auto. rewrite N.mod_small by (clear - Hn H4; lia). reflexivity.
Qed.

(** The lanes of one group. *)
Lemma stops_word o c d : word_of o c ->
  stops d c = true <-> match o with None => True | Some (d', _) => d' < d end.
Proof.
  unfold stops, word_of, qEmpty. destruct o as [[d' kv]|].
  - intros [H ->]. cbn [fst]. rewrite orb_true_iff, N.eqb_eq, N.ltb_lt. split; [intros [|]; lia|auto].
  - intros ->. cbn. tauto.
Qed.

Lemma match_spec n g : key = Some k -> length g = 16%nat ->
  (forall j, j < 16 -> geti g j = geti (q_ctrls _ _ t) ((h + n) mod cap + j)) ->
  n <= 129 ->
  forall ps, (forall p, In p ps -> bit_pos wide p < 16 /\
     nth (N.to_nat (bit_pos wide p)) (hash_lanes g (tag k) n) false = true) ->
  exists r, q_match K V keq wide t k ((h + n) mod cap) ps = Ok r /\
    match r with
    | Some i => sresult (QHit i)
    | None => forall p, In p ps -> exists d e,
        at_ A (h + n + bit_pos wide p) = Some (Some (d, e)) /\ keq (fst e) k = false
    end.
Proof.
  intros Hk Hg Hgj Hn. pose proof cap4 as H4.
  assert (Hi : (h + n) mod cap < cap) by (apply N.mod_lt, cap_nz).
  induction ps as [|p ps IH]; intros Hps.
  { eexists. split; [reflexivity|]. intros p []. }
  cbn [q_match]. destruct (Hps p (or_introl eq_refl)) as [Hp Hl]. set (j := bit_pos wide p) in *.
  destruct (words_lane _ _ _ j HW Hi Hp) as (c & Hc & Hw).
  rewrite (hash_lanes_nth g (tag k) n j c Hg Hp) in Hl by (rewrite Hgj; auto).
  apply andb_true_iff in Hl. destruct Hl as [T NS]. apply N.eqb_eq in T. apply negb_true_iff in NS.
  assert (REAL : exists d e, at_ A ((h + n) mod cap + j) = Some (Some (d, e))).
  { destruct Hw as [(o & Ho & Hw)|(X & _ & X2 & _)].
    - destruct o as [[d e]|]; eauto. exfalso.
      assert (stops (n + j) c = true) by (apply (stops_word None); auto). congruence.
    - exfalso. destruct (Hseen Hk) as [Y|Y]; [lia|]. apply Y. congruence. }
  destruct REAL as (d & e & Ha).
  assert (EI : q_round K V t (wadd ((h + n) mod cap) j) = ((h + n) mod cap + j) mod cap).
  { rewrite geo_round by auto. rewrite wadd_small by (pose proof cap_two64; lia). reflexivity. }
  rewrite EI, (slots_read _ _ _ _ _ HS Ha). cbn [rbind]. destruct (keq (fst e) k) eqn:E.
  - eexists. split; [reflexivity|]. cbn [sresult]. split; auto. split; [apply N.mod_lt, cap_nz|].
    exists d, e. split; auto.
  - destruct IH as (r & Er & Hr); [intros; apply Hps; now right|]. exists r. split; auto.
    destruct r; auto. intros q [<-|Hq]; auto. exists d, e. split; auto. rewrite <- Ha.
    apply at_cong. fold j. symmetry. apply mod_mod_shift, cap_nz.
Qed.

Lemma groups_spec fuel : forall n, passed n -> (key = Some k -> n mod 16 <> 0) -> 0 < n ->
  130 <= n + 16 * N.of_nat fuel ->
  exists s, q_groups K V keq wide fuel t key (tag k) h ((h + n) mod cap) n = Ok s /\ sresult s.
Proof.
  pose proof cap4 as H4. pose proof cap_nz as Hc0.
  induction fuel as [|fuel IH]; intros n P Hn16 Hn0 Hf; pose proof (passed_bound _ P) as [Hn Hncap].
  { exfalso. lia. }
  assert (Hi : (h + n) mod cap < cap) by (apply N.mod_lt, cap_nz).
  cbn [q_groups].
  destruct (q_group_ok _ _ (words_room _ _ _ HW Hi)) as (g & Eg & Hg & Hgj). rewrite Eg. cbn [rbind].
  assert (LANE : forall j, j < 16 -> exists c, geti g j = Some c /\
     nth (N.to_nat j) (stop_lanes g n) false = stops (n + j) c /\
     ((exists o, at_ A (h + n + j) = Some o /\ word_of o c)
      \/ (cap < 16 /\ cap + cap <= (h + n) mod cap + j /\ snd c = 0 /\ 254 <= fst c /\ fst c <= 255))).
  { intros j Hj. destruct (words_lane _ _ _ j HW Hi Hj) as (c & Hc & Hw). exists c.
    rewrite (Hgj j Hj), Hc. split; auto. split.
    - apply stop_lanes_nth; auto. now rewrite Hgj.
    - destruct Hw as [(o & Ho & Hw)|Hw]; auto. left. exists o. split; auto. rewrite <- Ho.
      apply at_cong. symmetry. apply mod_mod_shift, cap_nz. }
  (* the loop over equal hashes *)
  assert (MATCH : exists r,
     match key with
     | Some k0 => q_match K V keq wide t k0 ((h + n) mod cap)
                    (positions (word_mask wide (hash_lanes g (tag k) n)))
     | None => Ok None
     end = Ok r /\
     match r with
     | Some i => sresult (QHit i)
     | None => key = Some k -> forall j d e, j < 16 -> at_ A (h + n + j) = Some (Some (d, e)) ->
         n + j <= d -> nth (N.to_nat j) (stop_lanes g n) false = false -> 
         (exists c, geti g j = Some c /\ word_of (Some (d, e)) c) -> keq (fst e) k = false
     end).
  { destruct Hkey as [Hk| Hk]; rewrite Hk.
    - destruct (match_spec n g Hk Hg Hgj Hn (positions (word_mask wide (hash_lanes g (tag k) n))))
        as (r & Er & Hr).
      { intros p Hp. assert (X : nth (N.to_nat (bit_pos wide p)) (hash_lanes g (tag k) n) false = true).
        { apply (In_mask wide); [now apply hash_lanes_len|]. eauto. }
        split; auto. destruct (N.lt_ge_cases (bit_pos wide p) 16); auto.
        rewrite nth_overflow in X; [discriminate|]. rewrite hash_lanes_len by auto. lia. }
      exists r. split; auto. destruct r; auto.
      intros _ j d e Hj Ha Hd NS (c & Hc & Hw). destruct (keq (fst e) k) eqn:E; auto.
      assert (X : nth (N.to_nat j) (hash_lanes g (tag k) n) false = true).
      { rewrite (hash_lanes_nth g _ _ j c) by auto. rewrite (stop_lanes_nth g n j c) in NS by auto.
        rewrite NS. destruct Hw as [_ ->]. cbn [snd]. rewrite (tag_keq _ _ E), N.eqb_refl. reflexivity. }
      apply (In_mask wide) in X; [|now apply hash_lanes_len]. destruct X as (p & Hp & Hpj).
      destruct (Hr p Hp) as (d' & e' & Ha' & E'). rewrite Hpj, Ha in Ha'. injection Ha' as <- <-.
      congruence.
    - exists None. split; auto. discriminate. }
  destruct MATCH as (r & Er & Hr). rewrite Er. cbn [rbind].
  destruct r as [i|]; [eexists; split; [reflexivity|exact Hr]|].
  (* the first stop *)
  set (m := match key with
            | Some _ => word_mask wide (stop_lanes g n)
            | None => word_mask2 wide (stop_lanes g n)
            end).
  assert (HM : mask_of wide (stop_lanes g n) m).
  { unfold m. destruct key; [apply word_mask_of|apply word_mask2_of]. }
  clearbody m.
  assert (PASS : forall J, J <= 16 -> (forall j, j < J -> nth (N.to_nat j) (stop_lanes g n) false = false) ->
    (cap < 16 -> n + J <= cap) -> passed (n + J)).
  { intros J HJ HN HJc. induction J as [|J IHJ] using N.peano_ind; [now rewrite N.add_0_r|].
    replace (n + N.succ J) with (n + J + 1) by lia.
    assert (P' : passed (n + J)).
    { apply IHJ; [lia|intros; apply HN; lia|lia]. }
    destruct (LANE J ltac:(lia)) as (c & Hc & Hs & Hw). rewrite (HN J ltac:(lia)) in Hs.
    destruct Hw as [(o & Ho & Hw)|(X1 & X2 & _)].
    - assert (Hu : exists d e, o = Some (d, e) /\ n + J <= d).
      { destruct o as [[d e]|].
        - exists d, e. split; auto. destruct (N.lt_ge_cases d (n + J)) as [L|]; [|lia].
          assert (stops (n + J) c = true) by (apply (stops_word (Some (d, e))); auto). congruence.
        - assert (stops (n + J) c = true) by (apply (stops_word None); auto). congruence. }
      destruct Hu as (d & e & -> & Hd).
      apply (passed_next _ d e); auto; [rewrite <- Ho; f_equal; lia|].
      intros Hk. apply (Hr Hk J d e); auto; [lia| |exists c; auto]. apply HN. lia.
    - exfalso. specialize (HJc X1). lia. }
  assert (SMALL : cap < 16 -> exists j, j < 16 /\ n + j = cap /\ nth (N.to_nat j) (stop_lanes g n) false = true).
  { intros L16. assert (C48 : cap = 4 \/ cap = 8).
    { destruct (b_cases b Hb2) as [[X _]|X]; [lia|auto]. }
    exists (cap - n). split; [lia|]. split; [lia|].
    destruct (LANE (cap - n) ltac:(lia)) as (c & Hc & Hs & Hw). rewrite Hs.
    destruct Hw as [(o & Ho & Hw)|(_ & X2 & _)]; [|lia].
    apply (stops_word o); auto. destruct o as [[d e]|]; auto. apply (low_at _ _ _ _ HL) in Ho. lia. }
  destruct (N.eqb_spec m 0) as [M0|M0]; cbn [negb].
  - (* no stop *)
    pose proof (mask_zero _ _ _ HM M0) as Z.
    assert (L16 : 16 <= cap).
    { destruct (N.lt_ge_cases cap 16) as [L|]; auto. destruct (SMALL L) as (j & _ & _ & X).
      rewrite Z in X. discriminate. }
    assert (P' : passed (n + 16)) by (apply PASS; [lia|auto|lia]).
    assert (EN : q_next K V t ((h + n) mod cap) = (h + (n + 16)) mod cap).
    { rewrite geo_next by auto. rewrite mod_mod_shift by (apply cap_nz). f_equal. lia. }
    rewrite EN.
    assert (NF : match key with Some _ => (h + (n + 16)) mod cap =? h | None => false end = false).
    { destruct Hkey as [Hk| Hk]; rewrite Hk; auto. apply N.eqb_neq. intros X.
      destruct (b_cases b Hb2) as [[_ [c Hc]]|X2]; [|lia].
      assert (X3 : (n + 16) mod cap = 0 mod cap).
      { apply (mod_cancel cap _ _ h cap_nz). rewrite N.add_0_l, (N.add_comm _ h), X.
        symmetry. apply N.mod_small, h_lt. }
      rewrite N.mod_0_l in X3 by (apply cap_nz). apply N.mod_divide in X3; [|apply cap_nz].
      destruct X3 as [y Hy]. apply (Hn16 Hk).
      apply N.mod_divide; [lia|]. exists (y * c - 1). rewrite N.mul_sub_distr_r.
      rewrite Hc in Hy. clear - Hy. lia. }
    rewrite NF. destruct (passed_bound _ P') as [B1 B2].
    rewrite u8_small by (unfold qGroupWidth; lia). unfold qGroupWidth.
    apply IH; [exact P'| |clear; lia|clear - Hf; lia].
    intros Hk. replace (n + 16) with (n + 1 * 16) by (clear; lia). rewrite N.mod_add by (clear; lia). auto.
  - (* a stop *)
    destruct (mask_first _ _ _ HM M0) as [X1 X2].
    set (J := bit_pos wide (bsf m)) in *.
    assert (HJ : J < 16).
    { destruct (N.lt_ge_cases J 16); auto. rewrite nth_overflow in X1; [discriminate|].
      rewrite stop_lanes_len by auto. lia. }
    assert (HJc : cap < 16 -> n + J <= cap).
    { intros L. destruct (SMALL L) as (j & Hj & Hjc & Hjs).
      destruct (N.lt_ge_cases j J) as [Lj|]; [|lia]. rewrite X2 in Hjs by auto. discriminate. }
    assert (P' : passed (n + J)) by (apply PASS; auto; lia).
    eexists. split; [reflexivity|]. cbn [sresult]. exists (n + J).
    split; [|split; [auto|split]].
    + apply passed_stop; auto. destruct (LANE J HJ) as (c & Hc & Hs & Hw). rewrite X1 in Hs.
      destruct Hw as [(o & Ho & Hw)|(Y1 & Y2 & _)]; [|exfalso; specialize (HJc Y1); lia].
      rewrite <- N.add_assoc in Ho. symmetry in Hs.
      apply (proj1 (stops_word o c _ Hw)) in Hs. destruct o as [[d e]|]; [right; eauto|now left].
    + rewrite geo_round by auto. rewrite wadd_small by (pose proof cap_two64; lia).
      rewrite mod_mod_shift by (apply cap_nz). f_equal. lia.
    + rewrite geo_dist by (auto using h_lt).
      assert (E : ((h + n) mod cap + J + cap - h) mod cap = (n + J) mod cap).
      { pose proof h_lt. apply (mod_cancel cap _ _ h cap_nz).
        replace ((h + n) mod cap + J + cap - h + h) with ((h + n) mod cap + J + cap) by lia.
        rewrite mod_up, mod_mod_shift by (apply cap_nz). f_equal. lia. }
      rewrite E. apply u8_small. destruct (passed_bound _ P') as [B1 B2].
      pose proof (N.mod_le (n + J) cap cap_nz) as B3. clear - B1 B3. lia.
Qed.

(** A search ends at an equal key or at the place of the key. *)
Lemma search_spec singles : (singles = 2 \/ singles = 4)%nat ->
  exists s, q_search K V hash keq wide singles t key k = Ok s /\ sresult s.
Proof.
  intros Hs. unfold q_search. rewrite (geo_home _ _ HG).
  assert (P0 : passed 0) by (intros j Hj; lia).
  destruct (singles_spec singles 0 P0) as (r & Er & Hr); [lia|].
  rewrite N.add_0_r, N.mod_mod in Er by (apply cap_nz). rewrite Er. cbn [rbind].
  destruct r as [s|[i d]]; [eauto|]. destruct Hr as (Hd & -> & P).
  apply groups_spec; auto.
  - intros _. rewrite Hd. destruct Hs as [->| ->]; discriminate.
  - lia.
  - unfold q_fuel. lia.
Qed.

(** A stop says that the key is not there. *)
Lemma stop_nokey n : key = Some k -> stopat cap A h n -> passed n ->
  forall e, In e (ents A) -> keq (fst e) k = false.
Proof.
  intros Hk St P e He. destruct (keq (fst e) k) eqn:E; auto. exfalso.
  unfold ents in He. apply in_map_iff in He. destruct He as ([d e'] & Ee & He). cbn in Ee. subst e'.
  apply In_elems in He. destruct He as [i Hi].
  assert (Hi' : i < cap) by (apply geti_Some_lt in Hi; rewrite (r_len _ _ _ HR) in Hi; auto).
  assert (Ha : at_ A i = Some (Some (d, e))) by (now rewrite at_small).
  assert (Hh : hq e mod cap = h mod cap).
  { unfold hq. rewrite (tm_compat _ _ LW _ _ E). symmetry. apply N.mod_mod, cap_nz. }
  destruct (stop_passed hq cap cap4 A h n i d e HR St Ha Hh) as [Hd Ha2].
  destruct (P d Hd) as (d' & e' & Ha3 & _ & Hk3). rewrite Ha2 in Ha3. injection Ha3 as <- <-.
  rewrite (Hk3 Hk) in E. discriminate.
Qed.

End Search.

End Cap.

End Facts.
