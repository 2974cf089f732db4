(** Creating, traversing and rehashing robin16 maps. *)
From Coq Require Import NArith ZArith List Bool Lia Permutation.
From Coq Require Import ZifyBool ZifyNat ZifyN.
From Verif Require Import Base BaseFacts BitsModel BitsFacts GroupModel TableInv TableModel MapSpec MapFacts
  HashModel Flat16Model Flat16Spec Flat16Calls RobinFacts RobinOps Robin16Model Robin16Spec Robin16Ring Robin16Scan
  Robin16Facts Robin16Moves.
Import ListNotations.
Open Scope N_scope.

(** ** Elements and positions *)

Definition cell_ent {E} (A : list (option (N * E))) (i : N) : list E :=
  match geti A i with Some (Some (_, e)) => [e] | _ => [] end.

Definition used_at {E} (A : list (option (N * E))) (i : N) : bool :=
  match geti A i with Some (Some _) => true | _ => false end.

Lemma ents_positions {E} (A : list (option (N * E))) :
  ents A = flat_map (cell_ent A) (seqN (N.of_nat (length A))).
Proof.
  unfold seqN. rewrite Nat2N.id.
  assert (G : forall (l pre : list (option (N * E))), flat_map (cell_ent (pre ++ l)) (map N.of_nat (seq (length pre) (length l))) = ents l).
  { induction l as [|o l IH]; intros pre; [reflexivity|].
    cbn [length seq map flat_map]. specialize (IH (pre ++ [o])).
    rewrite <- app_assoc, app_length, Nat.add_1_r in IH. cbn [app length] in IH. rewrite IH.
    unfold cell_ent, geti. rewrite Nat2N.id, nth_error_app2, Nat.sub_diag by lia. cbn [nth_error].
    unfold ents. destruct o as [[d e]|]; reflexivity. }
  symmetry. apply (G A []).
Qed.

Lemma ents_forall2 {E} (A : list (option (N * E))) is :
  Forall2 (fun i e => exists d, geti A i = Some (Some (d, e))) (filter (used_at A) is) (flat_map (cell_ent A) is).
Proof.
  induction is as [|i is IH]; [constructor|]. cbn [filter flat_map]. unfold used_at at 1, cell_ent at 1.
  destruct (geti A i) as [[[d e]|]|] eqn:Hi; cbn [app]; auto. constructor; eauto.
Qed.

Lemma ents_length_filter {E} (A : list (option (N * E))) is :
  length (filter (used_at A) is) = length (flat_map (cell_ent A) is).
Proof. pose proof (ents_forall2 A is) as H. induction H; cbn [length]; congruence. Qed.

Lemma ents_skip {E} (A : list (option (N * E))) i o : geti A i = Some o ->
  ents (skipn (N.to_nat i) A)
  = match o with Some (_, e) => [e] | None => [] end ++ ents (skipn (N.to_nat (i + 1)) A).
Proof.
  intros H. unfold geti in H. rewrite (geti_skipn _ _ _ H).
  replace (N.to_nat (i + 1)) with (S (N.to_nat i)) by lia. unfold ents. destruct o as [[d e]|]; reflexivity.
Qed.

Section Ops.

Context {K V : Type} (hash : K -> N) (keq : K -> K -> bool) (LW : tame hash keq) (wide trivial : bool).

Notation qmap := (qmap K V).
Notation cells := (list (option (N * (K * V)))).
Notation tag k := (q_tag K hash k).
Notation hq := (hq (V := V) hash).
Notation words b := (words (V := V) hash b).
Notation slots b := (slots (K := K) (V := V) trivial b).
Notation low b := (low (K := K) (V := V) b).
Notation stored b := (stored (V := V) hash trivial b).
Notation roomy b := (roomy hq (2 ^ b) 128).
Notation gcount b := ((2 ^ b + 15) / 16).

Section Cap.

Variable b : N.
Hypothesis Hb2 : 2 <= b.
Hypothesis Hb50 : b <= 50.

Notation cap := (2 ^ b).

Let C4 : 4 <= cap := cap4 b Hb2 Hb50.
Let C0 : cap <> 0 := cap_nz b Hb2 Hb50.

Lemma words_used C (A : cells) i : words b C A -> i < cap ->
  exists c, geti C i = Some c /\ is_empty16 c = negb (used_at A i)
    /\ is_used16 c = used_at A i /\ (fst c <? qEndOf) = used_at A i.
Proof.
  intros W Hi. destruct (geti_lt A i) as (o & Ho); [rewrite (w_alen _ _ _ _ W); lia|].
  destruct (w_cell _ _ _ _ W _ _ Hi Ho) as (c & Hc & Hw). exists c. split; auto.
  unfold used_at, is_empty16, is_used16, qEmpty, qEndOf. rewrite Ho. destruct o as [[d e]|].
  - destruct Hw as [Hd ->]. cbn [fst]. lia.
  - unfold word_of in Hw. rewrite Hw. auto.
Qed.

Lemma used_in_spec C (A : cells) : words b C A -> forall is, Forall (fun i => i < cap) is ->
  q_used_in C is = Ok (filter (used_at A) is).
Proof.
  intros W is F. induction F as [|i is Hi F IH]; [reflexivity|].
  cbn [q_used_in filter]. destruct (words_used _ _ _ W Hi) as (c & Hc & _ & Hu & _).
  rewrite Hc, IH. cbn [rbind]. rewrite Hu. reflexivity.
Qed.

Lemma map_filter_comm {X Y} (f : X -> Y) (p : Y -> bool) l :
  filter p (map f l) = map f (filter (fun x => p (f x)) l).
Proof. induction l as [|x l IH]; [reflexivity|]. cbn [map filter]. rewrite IH. destruct (p (f x)); reflexivity. Qed.

Lemma filter_ext_in2 {X} (f g : X -> bool) l : (forall x, In x l -> f x = g x) -> filter f l = filter g l.
Proof.
  induction l as [|x l IH]; intros H; [reflexivity|]. cbn [filter]. rewrite (H x (or_introl eq_refl)), IH; auto.
  intros y Hy. apply H. now right.
Qed.

(** The used lanes of the group at [base]. *)
Lemma used_group_spec C base : base + 16 <= N.of_nat (length C) ->
  exists g, q_group C base = Ok g
    /\ map (fun p => base + bit_pos wide p) (positions (word_mask wide (used_lanes g)))
       = filter (fun i => match geti C i with Some c => fst c <? qEndOf | None => false end)
                (map (fun i => base + i) (seqN 16)).
Proof.
  intros H. destruct (q_group_ok _ _ H) as (g & Eg & Hg & Hgj). exists g. split; [exact Eg|].
  rewrite <- (map_map (bit_pos wide) (fun j => base + j)).
  rewrite mask_positions by (unfold used_lanes; now rewrite map_length).
  rewrite map_filter_comm. f_equal. apply filter_ext_in2. intros j Hj. apply seqN_In in Hj.
  rewrite <- Hgj by auto. destruct (geti g j) as [c|] eqn:Ec.
  - now apply used_lanes_nth.
  - exfalso. destruct (geti_lt g j) as (c & Hc); [rewrite Hg; lia|congruence].
Qed.

Lemma seqN_16 n : seqN (16 + n) = seqN 16 ++ map (fun i => 16 + i) (seqN n).
Proof.
  unfold seqN. rewrite N2Nat.inj_add, seq_app, map_app. f_equal.
  rewrite map_map. generalize (N.to_nat n). intros m.
  assert (G : forall m a, map N.of_nat (seq (N.to_nat 16 + a) m) = map (fun x => 16 + N.of_nat x) (seq a m)).
  { clear. induction m as [|m IH]; intros a; [reflexivity|]. cbn [seq map]. f_equal; [lia|].
    rewrite <- IH. now rewrite <- Nat.add_succ_r. }
  specialize (G m 0%nat). rewrite Nat.add_0_r in G. exact G.
Qed.

Lemma used_groups_spec C (A : cells) : words b C A -> forall n base, base + 16 * N.of_nat n <= cap ->
  q_used_in_groups wide n C base
  = Ok (filter (used_at A) (map (fun i => base + i) (seqN (16 * N.of_nat n)))).
Proof.
  intros W n. induction n as [|n IH]; intros base Hbase; [reflexivity|].
  cbn [q_used_in_groups]. pose proof (w_len _ _ _ _ W) as HL. pose proof (gcount_range b Hb2 Hb50) as HGc.
  destruct (used_group_spec C base ltac:(lia)) as (g & -> & Eg). cbn [rbind].
  rewrite (IH (base + 16)) by lia. cbn [rbind]. rewrite Eg. f_equal.
  assert (E16 : 16 * N.of_nat (S n) = 16 + 16 * N.of_nat n) by lia. rewrite E16.
  rewrite seqN_16, map_app, filter_app. apply (f_equal2 (@app N)).
  - apply filter_ext_in2. intros i Hi. apply in_map_iff in Hi. destruct Hi as (j & <- & Hj).
    apply seqN_In in Hj. destruct (words_used _ _ (base + j) W ltac:(lia)) as (c & Hc & _ & _ & Hu).
    now rewrite Hc.
  - rewrite map_map. f_equal. apply map_ext. intros. lia.
Qed.

Lemma gcount_eq : 16 <= cap -> gcount b * 16 = cap.
Proof.
  intros H. destruct (b_cases b Hb2) as [[_ [x Hx]]|]; [|lia].
  rewrite Hx. replace ((x * 16 + 15) / 16) with x; auto.
  rewrite N.add_comm, N.div_add by lia. reflexivity.
Qed.

Lemma gcount_one : cap < 16 -> gcount b = 1.
Proof. intros H. destruct (b_cases b Hb2) as [[X _]|[-> | ->]]; [lia|reflexivity|reflexivity]. Qed.

Lemma used_positions_spec t A : geo b t -> words b (q_ctrls _ _ t) A ->
  q_used_positions K V wide t = Ok (filter (used_at A) (seqN cap)).
Proof.
  intros G W. unfold q_used_positions, qGroupWidth. rewrite (geo_cap b Hb2 Hb50 _ G), (geo_gc b Hb2 Hb50 _ G).
  destruct (N.leb_spec 16 cap) as [L|L].
  - pose proof (gcount_eq L) as E. rewrite (used_groups_spec _ _ W) by lia.
    replace (16 * N.of_nat (N.to_nat (gcount b))) with cap by lia.
    rewrite (map_ext _ (fun i => i)) by (intros; lia). now rewrite map_id.
  - apply (used_in_spec _ _ W). apply Forall_forall. intros i Hi. now apply seqN_In in Hi.
Qed.

Lemma begin_spec t A : geo b t -> words b (q_ctrls _ _ t) A ->
  q_begin K V wide t = Ok (match filter (used_at A) (seqN cap) with [] => cap | i :: _ => i end).
Proof.
  intros G W. unfold q_begin, q_end. rewrite (geo_cap b Hb2 Hb50 _ G), (geo_gc b Hb2 Hb50 _ G).
  destruct (N.le_gt_cases 16 cap) as [L|L].
  - pose proof (gcount_eq L) as E. rewrite (used_groups_spec _ _ W) by lia.
    replace (16 * N.of_nat (N.to_nat (gcount b))) with cap by lia.
    rewrite (map_ext _ (fun i => i)) by (intros; lia). now rewrite map_id.
  - rewrite (gcount_one L).
    change (N.to_nat 1) with 1%nat. cbn [q_used_in_groups].
    pose proof (w_len _ _ _ _ W) as HL. rewrite (gcount_one L) in HL.
    destruct (used_group_spec (q_ctrls _ _ t) 0 ltac:(lia)) as (g & -> & Eg). cbn [rbind]. rewrite Eg.
    rewrite app_nil_r, (map_ext _ (fun i => i)) by (intros; lia). rewrite map_id.
    set (p := fun i => match geti (q_ctrls K V t) i with Some c => fst c <? qEndOf | None => false end).
    assert (SP : exists r, seqN 16 = seqN cap ++ r /\ forall i, In i r -> cap <= i /\ i < 16).
    { exists (map N.of_nat (seq (N.to_nat cap) (16 - N.to_nat cap))). split.
      - unfold seqN. rewrite <- map_app. f_equal. rewrite <- seq_app. f_equal. lia.
      - intros i Hi. apply in_map_iff in Hi. destruct Hi as (x & <- & Hx). apply in_seq in Hx. lia. }
    destruct SP as (r & -> & Hr). rewrite filter_app.
    assert (E1 : filter p (seqN cap) = filter (used_at A) (seqN cap)).
    { apply filter_ext_in2. intros i Hi. apply seqN_In in Hi.
      destruct (words_used _ _ _ W Hi) as (c & Hc & _ & _ & Hu). unfold p. now rewrite Hc. }
    rewrite E1. destruct (filter (used_at A) (seqN cap)) as [|i l] eqn:EF; [|reflexivity].
    replace (filter p r) with (@nil N); [reflexivity|]. symmetry.
    assert (NU : forall i, i < cap -> used_at A i = false).
    { intros i Hi. destruct (used_at A i) eqn:Eu; auto.
      assert (In i (filter (used_at A) (seqN cap))) by (apply filter_In; split; auto; now apply seqN_In).
      rewrite EF in H. contradiction. }
    clear - Hr NU W L C4 C0. induction r as [|i r IH]; [reflexivity|]. cbn [filter].
    rewrite IH by (intros; apply Hr; now right). destruct (Hr i (or_introl eq_refl)) as [H1 H2].
    assert (Hp : p i = false); [|now rewrite Hp]. unfold p.
    destruct (N.lt_ge_cases i (cap + cap)) as [Lt|Ge].
    + replace i with (cap + (i - cap)) by lia. rewrite (w_mirror _ _ _ _ W) by lia.
      destruct (words_used _ _ (i - cap) W ltac:(lia)) as (c & Hc & _ & _ & Hu).
      rewrite Hc, Hu. apply NU. lia.
    + destruct (w_tail _ _ _ _ W L i Ge ltac:(lia)) as (d & Hd & D1 & _). rewrite Hd. cbn [fst].
      unfold qEndOf. lia.
Qed.

Lemma incr_spec t A : geo b t -> words b (q_ctrls _ _ t) A -> forall fuel i,
  i < cap -> cap < i + N.of_nat fuel ->
  exists j, q_incr K V fuel t i = Ok j /\ i < j /\ j <= cap /\ (j = cap \/ used_at A j = true)
    /\ ents (skipn (N.to_nat (i + 1)) A) = ents (skipn (N.to_nat j) A).
Proof.
  intros G W fuel. induction fuel as [|fuel IH]; intros i Hi Hf; [lia|].
  cbn [q_incr]. rewrite (geo_cap b Hb2 Hb50 _ G). destruct (N.eq_dec (i + 1) cap) as [E|E].
  - rewrite E. replace (geti (q_ctrls K V t) cap) with (geti (q_ctrls K V t) 0)
      by (rewrite <- (w_mirror _ _ _ _ W 0), N.add_0_r by lia; reflexivity).
    destruct (words_used _ _ 0 W ltac:(lia)) as (c & Hc & _). rewrite Hc.
    rewrite N.ltb_irrefl, andb_false_r. exists cap. split; auto. split; [lia|]. split; [lia|]. auto.
  - assert (Hi1 : i + 1 < cap) by lia. destruct (words_used _ _ _ W Hi1) as (c & Hc & He & _). rewrite Hc, He.
    destruct (N.ltb_spec (i + 1) cap); [|lia]. rewrite andb_true_r.
    destruct (used_at A (i + 1)) eqn:Eu; cbn [negb].
    + exists (i + 1). split; auto. split; [lia|]. split; [lia|]. auto.
    + destruct (IH (i + 1) Hi1 ltac:(lia)) as (j & Ej & J1 & J2 & J3 & J4). exists j.
      split; auto. split; [lia|]. split; auto. split; auto. rewrite <- J4.
      destruct (geti_lt A (i + 1)) as (o & Ho); [rewrite (w_alen _ _ _ _ W); lia|].
      rewrite (ents_skip _ _ _ Ho). unfold used_at in Eu. rewrite Ho in Eu. destruct o; [discriminate|reflexivity].
Qed.

Lemma walk_spec t A : geo b t -> words b (q_ctrls _ _ t) A -> slots b (q_slots _ _ t) A -> forall fuel i,
  i <= cap -> cap < i + N.of_nat fuel + 1 -> i = cap \/ used_at A i = true ->
  q_walk K V fuel t i = Ok (ents (skipn (N.to_nat i) A)).
Proof.
  intros G W SS fuel. induction fuel as [|fuel IH]; intros i Hi Hf Hu.
  - assert (i = cap) as -> by lia. cbn [q_walk]. unfold q_end. rewrite (geo_cap b Hb2 Hb50 _ G), N.eqb_refl.
    rewrite skipn_all2; [reflexivity|]. pose proof (w_alen _ _ _ _ W). lia.
  - cbn [q_walk]. unfold q_end. rewrite (geo_cap b Hb2 Hb50 _ G).
    destruct (N.eqb_spec i cap) as [->|Ne].
    { rewrite skipn_all2; [reflexivity|]. pose proof (w_alen _ _ _ _ W). lia. }
    destruct Hu as [|Hu]; [contradiction|]. assert (Hi' : i < cap) by lia.
    unfold used_at in Hu. destruct (geti A i) as [[[d e]|]|] eqn:Ho; try discriminate.
    destruct (s_cell _ _ _ _ SS i _ Hi' Ho) as (s & Hs & Hss). cbn in Hss. subst s.
    unfold q_deref, q_read. rewrite Hs. cbn [rbind].
    destruct (incr_spec t A G W (q_fuel K V t) i Hi') as (j & Ej & J1 & J2 & J3 & J4).
    { unfold q_fuel. pose proof (w_len _ _ _ _ W). pose proof (gcount_range b Hb2 Hb50). lia. }
    rewrite Ej. cbn [rbind]. rewrite IH by (auto; lia). cbn [rbind].
    rewrite (ents_skip _ _ _ Ho), J4. reflexivity.
Qed.

Lemma filter_head (p : N -> bool) n i l : filter p (seqN n) = i :: l ->
  i < n /\ p i = true /\ forall j, j < i -> p j = false.
Proof.
  intros H. assert (Hin : In i (filter p (seqN n))) by (rewrite H; now left).
  apply filter_In in Hin. destruct Hin as [H1 H2]. apply seqN_In in H1. split; auto. split; auto.
  intros j Hj. destruct (p j) eqn:E; auto. exfalso.
  replace n with (i + (n - i)) in H by lia. unfold seqN in H.
  rewrite N2Nat.inj_add, seq_app, map_app, filter_app in H.
  assert (Hj' : In j (filter p (map N.of_nat (seq 0 (N.to_nat i))))).
  { apply filter_In. split; auto. apply in_map_iff. exists (N.to_nat j). split; [lia|]. apply in_seq. lia. }
  destruct (filter p (map N.of_nat (seq 0 (N.to_nat i)))) as [|x l'] eqn:E2; [contradiction|].
  cbn [app] in H. injection H as -> _.
  assert (Hx : In i (filter p (map N.of_nat (seq 0 (N.to_nat i))))) by (rewrite E2; now left).
  apply filter_In in Hx. destruct Hx as [Hx _]. apply in_map_iff in Hx. destruct Hx as (y & Ey & Hy).
  apply in_seq in Hy. lia.
Qed.

Lemma skip_free {E} (A : list (option (N * E))) n : n <= N.of_nat (length A) ->
  (forall j, j < n -> used_at A j = false) -> ents (skipn (N.to_nat n) A) = ents A.
Proof.
  induction n as [|n IH] using N.peano_ind; intros Hn H; [reflexivity|].
  rewrite <- IH by (try lia; intros; apply H; lia).
  destruct (geti_lt A n) as (o & Ho); [lia|]. rewrite (ents_skip _ _ _ Ho).
  specialize (H n ltac:(lia)). unfold used_at in H. rewrite Ho in H. destruct o; [discriminate|].
  cbn [app]. f_equal. f_equal. lia.
Qed.

(** begin() to end(). *)
Lemma traverse_spec t A : stored b t A -> q_traverse K V wide t = Ok (ents A).
Proof.
  intros (G & W & SS & _). unfold q_traverse. rewrite (begin_spec t A G W). cbn [rbind].
  pose proof (w_alen _ _ _ _ W) as HA.
  destruct (filter (used_at A) (seqN cap)) as [|i l] eqn:E.
  - rewrite (walk_spec t A G W SS) by (try lia; auto). f_equal. apply skip_free; [lia|].
    intros j Hj. destruct (used_at A j) eqn:Eu; auto.
    assert (X : In j (filter (used_at A) (seqN cap))) by (apply filter_In; split; auto; now apply seqN_In).
    rewrite E in X. contradiction.
  - destruct (filter_head _ _ _ _ E) as (H1 & H2 & H3).
    rewrite (walk_spec t A G W SS); [|lia| |auto].
    + f_equal. apply skip_free; [lia|auto].
    + unfold q_fuel. pose proof (w_len _ _ _ _ W). pose proof (gcount_range b Hb2 Hb50). lia.
Qed.

(** ** New maps *)

Lemma at_repeat {E} n p : geti (repeat (@None (N * E)) n) p = Some None \/ geti (repeat (@None (N * E)) n) p = None.
Proof.
  destruct (geti (repeat None n) p) as [o|] eqn:H; auto. left. apply geti_In, repeat_spec in H. now subst.
Qed.

Lemma empty_ring : ring hq cap (repeat None (N.to_nat cap)).
Proof.
  split.
  - rewrite repeat_length. lia.
  - intros p d e H. unfold at_ in H. destruct (at_repeat (E := K * V) (N.to_nat cap) (p mod cap)); congruence.
  - intros p d e H. unfold at_ in H. destruct (at_repeat (E := K * V) (N.to_nat cap) ((p + 1) mod cap)); congruence.
Qed.

Lemma empty_low : low b (repeat None (N.to_nat cap)).
Proof. intros i d e H. destruct (at_repeat (E := K * V) (N.to_nat cap) i); congruence. Qed.

Lemma empty_ents : ents (repeat (@None (N * (K * V))) (N.to_nat cap)) = [].
Proof. unfold ents. now rewrite elems_repeat_None. Qed.

Lemma empty_words C : N.of_nat (length C) = (gcount b + 1) * 16 ->
  (forall i, i < cap -> exists x, geti C i = Some (255, x)) ->
  (forall i, i < cap -> i < 16 -> geti C (cap + i) = geti C i) ->
  (cap < 16 -> forall i, cap + cap <= i -> i < 32 -> exists d, geti C i = Some (d, 0) /\ 254 <= d /\ d <= 255) ->
  words b C (repeat None (N.to_nat cap)).
Proof.
  intros HL H1 H2 H3. split; auto.
  - rewrite repeat_length. lia.
  - intros i o Hi Ho. apply geti_In, repeat_spec in Ho. subst o. destruct (H1 i Hi) as (x & Hx).
    exists (255, x). split; auto. reflexivity.
Qed.

Lemma fresh_words : words b (q_fresh cap (gcount b)) (repeat None (N.to_nat cap)).
Proof.
  pose proof (gcount_range b Hb2 Hb50) as HG. unfold q_fresh, qGroupWidth, qEmpty, qEndOf.
  destruct (N.leb_spec 16 cap) as [L|L].
  - apply empty_words.
    + rewrite repeat_length. lia.
    + intros i Hi. exists 0. apply geti_repeat. lia.
    + intros i Hi Hi16. rewrite !geti_repeat by lia. reflexivity.
    + lia.
  - pose proof (gcount_one L) as G1. rewrite G1.
    assert (LE : length (repeat (255, 0) (N.to_nat (cap * 2))) = N.to_nat (cap * 2)) by apply repeat_length.
    assert (GL : forall i, i < cap * 2 -> geti (repeat (255, 0) (N.to_nat (cap * 2)) ++
        repeat (254, 0) (N.to_nat ((1 + 1) * 16 - cap * 2))) i = Some (255, 0)).
    { intros i Hi. rewrite geti_app_l by (rewrite LE; lia). apply geti_repeat. lia. }
    apply empty_words.
    + rewrite app_length, !repeat_length, G1. destruct (b_cases b Hb2) as [[X _]|[X|X]]; lia.
    + intros i Hi. exists 0. apply GL. lia.
    + intros i Hi Hi16. rewrite !GL by lia. reflexivity.
    + intros _ i Hi Hi32. exists 254. split; [|lia].
      replace i with (N.of_nat (length (repeat (255, 0) (N.to_nat (cap * 2)))) + (i - cap * 2)) by (rewrite LE; lia).
      rewrite geti_app_r. apply geti_repeat. lia.
Qed.

Lemma empty_slots S : N.of_nat (length S) = cap ->
  (trivial = false -> forall s, In s S -> s = None) -> slots b S (repeat None (N.to_nat cap)).
Proof.
  intros HL H. split; auto. intros i o Hi Ho. apply geti_In, repeat_spec in Ho. subst o.
  destruct (geti_lt S i) as (s & Hs); [lia|]. exists s. split; auto. intros Ht. apply (H Ht). eapply geti_In; eauto.
Qed.

(** ** Moving the elements to a new table *)

Lemma place_new rehashing t A kv : stored b t A -> N.of_nat (length (ents A)) < cap ->
  roomy b (kv :: ents A) ->
  exists i d C S A', q_search K V hash keq wide 4 t None (fst kv) = Ok (QStop i d)
    /\ q_insert_at K V hash trivial rehashing t i d kv = Ok (q_with K V t C S (wadd (q_size _ _ t) 1), false)
    /\ stored b (q_with K V t C S (wadd (q_size _ _ t) 1)) A' /\ Permutation (ents A') (kv :: ents A).
Proof.
  intros ST HF HR. pose proof ST as (G & W & SS & RG & LO).
  destruct (search_spec hash keq LW wide trivial b Hb2 Hb50 t A G W SS LO (fst kv) None (or_intror eq_refl))
    with (singles := 4%nat) as (s & Es & Hs); [discriminate|auto|].
  destruct s as [i|i d|]; [destruct Hs; discriminate| |contradiction].
  destruct Hs as (n & St & _ & -> & ->).
  destruct (insert_at_spec hash trivial b Hb2 Hb50 rehashing t A (hash (fst kv) mod cap) n kv ST HF)
    as (C & S & A' & E1 & _ & E2 & E3); auto.
  { apply N.mod_lt, C0. }
  exists ((hash (fst kv) mod cap + n) mod cap), (n mod cap), C, S, A'. auto.
Qed.

Lemma transfer_spec nt : q_size _ _ nt = 0 -> forall is es old t A done,
  Forall2 (fun i e => geti old i = Some (Some e)) is es -> NoDup is ->
  stored b t A -> (exists C S, t = q_with K V nt C S (N.of_nat (length done))) -> Permutation (ents A) done ->
  N.of_nat (length done + length es) <= cap -> roomy b (es ++ done) ->
  exists old' t' A', q_transfer K V hash keq wide trivial old is t = Ok (old', t')
    /\ stored b t' A' /\ (exists C S, t' = q_with K V nt C S (N.of_nat (length done + length es)))
    /\ Permutation (ents A') (es ++ done)
    /\ length old' = length old
    /\ (trivial = false -> forall i, i < N.of_nat (length old) ->
          geti old' i = if in_dec N.eq_dec i is then Some None else geti old i).
Proof.
  intros H0 is. induction is as [|i is IH]; intros es old t A done F ND ST ET P HL HR; inversion F; subst.
  - exists old, t, A. split; [reflexivity|]. split; auto. split; [now rewrite Nat.add_0_r|].
    split; [auto|]. split; [auto|]. intros _ i Hi. destruct (in_dec _ _ _) as [[]|]; auto.
  - rename y into e, l' into es'. rename H2 into Hi, H4 into F'. apply NoDup_cons_iff in ND. destruct ND as [NI ND'].
    cbn [q_transfer]. unfold q_read. rewrite Hi. cbn [rbind length app] in *.
    destruct ET as (C & S & ET).
    destruct (place_new true t A e ST) as (j & d & C1 & S1 & A1 & E1 & E2 & ST1 & P1).
    { rewrite (Permutation_length P). lia. }
    { apply (roomy_perm hash b _ (e :: done)); [now constructor|].
      intros a n Ha Hn1 Hn2. specialize (HR a n Ha Hn1 Hn2).
      etransitivity; [|exact HR]. unfold cnt. rewrite app_comm_cons, filter_app, app_length.
      cbn [filter]. destruct (inwin hq cap a n e); cbn [length]; lia. }
    unfold q_move_insert. rewrite E1. cbn [rbind]. rewrite E2. cbn [rbind].
    unfold q_drop at 1. rewrite Hi. cbn [rbind].
    set (old1 := if trivial then old else seti old i None).
    assert (HL1 : length old1 = length old) by (unfold old1; destruct trivial; auto using seti_length).
    assert (SZ : wadd (q_size _ _ t) 1 = N.of_nat (length (e :: done))).
    { rewrite ET. cbn [q_size q_with length]. rewrite wadd_small; [lia|].
      pose proof (cap_two64 b Hb2 Hb50). lia. }
    destruct (IH es' old1 (q_with K V t C1 S1 (wadd (q_size _ _ t) 1)) A1 (e :: done))
      as (old' & t' & A' & R1 & R2 & (C' & S' & R3) & R4 & R5 & R6).
    + clear - F' NI Hi. unfold old1. destruct trivial; auto.
      assert (Hlt : i < N.of_nat (length old)) by (eapply geti_Some_lt; eauto).
      revert NI. induction F'; intros NI; constructor.
      * rewrite geti_seti_neq; auto. intros ->. apply NI. now left.
      * apply IHF'. intros X. apply NI. now right.
    + auto.
    + exact ST1.
    + exists C1, S1. rewrite SZ, ET. reflexivity.
    + rewrite P1. now constructor.
    + cbn [length]. lia.
    + apply (roomy_perm hash b _ (e :: es' ++ done)); [apply Permutation_middle|exact HR].
    + exists old', t', A'. split; [exact R1|]. split; auto. split; [|split; [|split]].
      * exists C', S'. rewrite R3. cbn [length]. f_equal. lia.
      * rewrite R4. symmetry. apply Permutation_middle.
      * congruence.
      * intros Ht q Hq. rewrite (R6 Ht q) by (rewrite HL1; auto).
        assert (Hlt : i < N.of_nat (length old)) by (eapply geti_Some_lt; eauto).
        destruct (in_dec N.eq_dec q is) as [I1|I1], (in_dec N.eq_dec q (i :: is)) as [I2|I2]; auto.
        -- exfalso. apply I2. now right.
        -- destruct I2 as [->|]; [|contradiction]. unfold old1. rewrite Ht. now apply geti_seti_eq.
        -- unfold old1. rewrite Ht. apply geti_seti_neq. intros ->. apply I2. now left.
Qed.

End Cap.

End Ops.
