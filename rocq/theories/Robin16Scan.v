(** The scans of sixteen control words (Robin16Model.v), for both instruction sets. *)
From Coq Require Import NArith ZArith List Bool Lia.
From Coq Require Import ZifyBool ZifyNat ZifyN.
From Verif Require Import Base BaseFacts BitsModel BitsFacts GroupModel GroupFacts Flat16Model Flat16Facts
  Robin16Model.
Import ListNotations.
Open Scope N_scope.

Lemma nth_flat2 (c : bool -> bool) : c false = false -> forall l n r, (r < 2)%nat ->
  nth (2 * n + r) (flat_map (fun b => [b; c b]) l) false
  = if Nat.eqb r 0 then nth n l false else c (nth n l false).
Proof.
  intros Hc l. induction l as [|b l IH]; intros n r Hr.
  - cbn [flat_map]. destruct (2 * n + r)%nat, n, r as [|[|]]; cbn; auto; lia.
  - cbn [flat_map app]. destruct n as [|n].
    + destruct r as [|[|]]; cbn; auto; lia.
    + replace (2 * S n + r)%nat with (S (S (2 * n + r))) by lia. cbn [nth]. now apply IH.
Qed.

Lemma half_split p : exists n r, p = 2 * n + r /\ r < 2 /\ N.shiftr p 1 = n.
Proof.
  exists (p / 2), (p mod 2). rewrite N.shiftr_div_pow2. change (2 ^ 1) with 2.
  pose proof (N.div_mod p 2 ltac:(lia)). pose proof (N.mod_lt p 2 ltac:(lia)). auto.
Qed.

Lemma shiftr_double n : N.shiftr (2 * n) 1 = n /\ N.shiftr (2 * n + 1) 1 = n.
Proof.
  rewrite !N.shiftr_div_pow2. change (2 ^ 1) with 2. split.
  - rewrite N.mul_comm. now apply N.div_mul.
  - rewrite N.add_comm, N.mul_comm, N.div_add by lia. reflexivity.
Qed.

(** What the bits of a mask of lanes say. *)
Definition mask_of (wide : bool) (l : list bool) (m : N) : Prop :=
  (forall p, N.testbit m p = true -> nth (N.to_nat (bit_pos wide p)) l false = true)
  /\ (forall j, nth (N.to_nat j) l false = true -> exists p, bit_pos wide p = j /\ N.testbit m p = true).

Lemma flat2_mask (c : bool -> bool) l : c false = false -> 
  mask_of false l (movemask (flat_map (fun b => [b; c b]) l)).
Proof.
  intros Hc. split.
  - intros p. destruct (half_split p) as (n & r & -> & Hr & Hs). unfold bit_pos. rewrite Hs.
    rewrite movemask_testbit. replace (N.to_nat (2 * n + r)) with (2 * N.to_nat n + N.to_nat r)%nat by lia.
    rewrite (nth_flat2 c Hc) by lia. destruct (nth (N.to_nat n) l false); auto.
    rewrite Hc. destruct (Nat.eqb _ _); auto.
  - intros j Hj. exists (2 * j). split; [apply shiftr_double|]. rewrite movemask_testbit.
    replace (N.to_nat (2 * j)) with (2 * N.to_nat j + 0)%nat by lia.
    rewrite (nth_flat2 c Hc) by lia. exact Hj.
Qed.

Lemma flat_map_ext2 {A B} (f g : A -> list B) l : (forall a, f a = g a) -> flat_map f l = flat_map g l.
Proof. intros H. induction l; cbn; congruence. Qed.

Lemma word_mask_of wide l : mask_of wide l (word_mask wide l).
Proof.
  destruct wide; unfold word_mask.
  - split; unfold bit_pos.
    + intros p. now rewrite movemask_testbit.
    + intros j Hj. exists j. now rewrite movemask_testbit.
  - apply (flat2_mask (fun _ => false)). reflexivity.
Qed.

Lemma word_mask2_of wide l : mask_of wide l (word_mask2 wide l).
Proof.
  destruct wide; unfold word_mask2.
  - apply (word_mask_of true).
  - apply (flat2_mask (fun b => b)). reflexivity.
Qed.

Lemma mask_zero wide l m : mask_of wide l m -> m = 0 -> forall j, nth (N.to_nat j) l false = false.
Proof.
  intros [_ H] -> j. destruct (nth (N.to_nat j) l false) eqn:E; auto.
  destruct (H j E) as (p & _ & Hp). now rewrite N.bits_0 in Hp.
Qed.

Lemma bit_pos_le wide p q : p <= q -> bit_pos wide p <= bit_pos wide q.
Proof.
  destruct wide; unfold bit_pos; auto. intros H. rewrite !N.shiftr_div_pow2. apply N.div_le_mono; [lia|auto].
Qed.

Lemma mask_first wide l m : mask_of wide l m -> m <> 0 ->
  nth (N.to_nat (bit_pos wide (bsf m))) l false = true
  /\ forall j, j < bit_pos wide (bsf m) -> nth (N.to_nat j) l false = false.
Proof.
  intros [H1 H2] Hm. split.
  - apply H1. now apply testbit_bsf.
  - intros j Hj. destruct (nth (N.to_nat j) l false) eqn:E; auto. exfalso.
    destruct (H2 j E) as (p & Hp & Hb). apply bsf_lowest in Hb. apply (bit_pos_le wide) in Hb. lia.
Qed.

Lemma word_mask_lt wide l : length l = 16%nat -> word_mask wide l < two32.
Proof.
  intros Hl. unfold word_mask. destruct wide.
  - pose proof (movemask_bound l) as H. rewrite Hl in H. change (2 ^ N.of_nat 16) with 65536 in H.
    unfold two32. lia.
  - pose proof (movemask_bound (flat_map (fun b => [b; false]) l)) as H.
    replace (length (flat_map (fun b => [b; false]) l)) with 32%nat in H; [exact H|].
    assert (G : forall l, length (flat_map (fun b : bool => [b; false]) l) = (2 * length l)%nat).
    { clear. intros l. induction l; cbn [flat_map app length]; lia. }
    rewrite G, Hl. reflexivity.
Qed.

(** The positions in a mask, in order. *)
Lemma mask_positions wide l : length l = 16%nat ->
  map (bit_pos wide) (positions (word_mask wide l)) = filter (fun j => nth (N.to_nat j) l false) (seqN 16).
Proof.
  intros Hl. rewrite positions_spec by (now apply word_mask_lt). destruct wide.
  - unfold bit_pos. rewrite map_id. unfold word_mask.
    replace (seqN 32) with (seqN 16 ++ map (fun i => 16 + i) (seqN 16)) by reflexivity.
    rewrite filter_app.
    replace (filter (N.testbit (movemask l)) (map (fun i => 16 + i) (seqN 16))) with (@nil N).
    + rewrite app_nil_r. apply filter_ext. intros a. apply movemask_testbit.
    + symmetry. generalize (seqN 16). intros js. induction js as [|j js IH]; [reflexivity|].
      cbn [map filter]. rewrite movemask_testbit, nth_overflow by lia. exact IH.
  - replace (seqN 32) with (flat_map (fun j => [2 * j; 2 * j + 1]) (seqN 16)) by reflexivity.
    generalize (seqN 16). intros js. induction js as [|j js IH]; [reflexivity|].
    cbn [flat_map app filter].
    assert (T0 : N.testbit (word_mask false l) (2 * j) = nth (N.to_nat j) l false).
    { unfold word_mask. rewrite movemask_testbit.
      replace (N.to_nat (2 * j)) with (2 * N.to_nat j + 0)%nat by lia.
      now rewrite (nth_flat2 (fun _ => false)) by lia. }
    assert (T1 : N.testbit (word_mask false l) (2 * j + 1) = false).
    { unfold word_mask. rewrite movemask_testbit.
      replace (N.to_nat (2 * j + 1)) with (2 * N.to_nat j + 1)%nat by lia.
      now rewrite (nth_flat2 (fun _ => false)) by lia. }
    rewrite T0, T1. destruct (nth (N.to_nat j) l false); cbn [map]; [|exact IH].
    rewrite IH. unfold bit_pos at 1. now rewrite (proj1 (shiftr_double j)).
Qed.

Lemma In_mask wide l j : length l = 16%nat ->
  (exists p, In p (positions (word_mask wide l)) /\ bit_pos wide p = j)
  <-> nth (N.to_nat j) l false = true.
Proof.
  intros Hl. pose proof (mask_positions wide l Hl) as M. split.
  - intros (p & Hp & <-). apply (in_map (bit_pos wide)) in Hp. rewrite M in Hp.
    now apply filter_In in Hp.
  - intros H. assert (Hj : In j (filter (fun j => nth (N.to_nat j) l false) (seqN 16))).
    { apply filter_In. split; auto. apply seqN_In.
      destruct (N.lt_ge_cases j 16); auto. rewrite nth_overflow in H by lia. discriminate. }
    rewrite <- M in Hj. apply in_map_iff in Hj. destruct Hj as (p & E & Hp). eauto.
Qed.

(** ** The lanes *)

Lemma lane_dists_nth d j : j < 16 -> nth (N.to_nat j) (lane_dists d) 0 = d + j.
Proof.
  intros Hj. unfold lane_dists.
  rewrite (nth_indep _ 0 ((fun i => d + i) 0)) by (rewrite map_length, seqN_length; lia).
  rewrite map_nth. f_equal. unfold seqN. rewrite (nth_indep _ 0 (N.of_nat 0)) by (rewrite map_length, seq_length; lia).
  rewrite map_nth, seq_nth by lia. lia.
Qed.

Lemma lane_dists_len d : length (lane_dists d) = 16%nat.
Proof. reflexivity. Qed.

Definition stops (d : N) (c : ctrl) : bool := (fst c =? qEmpty) || (fst c <? d).

Lemma stop_lanes_len g d : length g = 16%nat -> length (stop_lanes g d) = 16%nat.
Proof. intros H. unfold stop_lanes. rewrite map2_length; [auto|]. now rewrite lane_dists_len. Qed.

Lemma stop_lanes_nth g d j c : length g = 16%nat -> j < 16 -> geti g j = Some c ->
  nth (N.to_nat j) (stop_lanes g d) false = stops (d + j) c.
Proof.
  intros Hg Hj Hc. unfold stop_lanes.
  assert (HL : length g = length (lane_dists d)) by exact Hg.
  assert (Hj' : (N.to_nat j < length g)%nat) by (rewrite Hg; lia).
  rewrite (map2_nth _ _ _ _ (0, 0) 0 _ HL Hj').
  rewrite (nth_geti _ _ _ _ Hc), lane_dists_nth by auto. reflexivity.
Qed.

Lemma hash_lanes_len g tag d : length g = 16%nat -> length (hash_lanes g tag d) = 16%nat.
Proof. intros H. unfold hash_lanes. rewrite map2_length; [auto|]. now rewrite stop_lanes_len. Qed.

Lemma hash_lanes_nth g tag d j c : length g = 16%nat -> j < 16 -> geti g j = Some c ->
  nth (N.to_nat j) (hash_lanes g tag d) false = (snd c =? tag) && negb (stops (d + j) c).
Proof.
  intros Hg Hj Hc. unfold hash_lanes.
  assert (HL : length g = length (stop_lanes g d)) by (now rewrite stop_lanes_len).
  assert (Hj' : (N.to_nat j < length g)%nat) by (rewrite Hg; lia).
  rewrite (map2_nth _ _ _ _ (0, 0) false _ HL Hj').
  rewrite (nth_geti _ _ _ _ Hc), (stop_lanes_nth _ _ _ _ Hg Hj Hc). reflexivity.
Qed.

Lemma used_lanes_nth g j c : geti g j = Some c ->
  nth (N.to_nat j) (used_lanes g) false = (fst c <? qEndOf).
Proof.
  intros Hc. unfold used_lanes.
  assert (H : (N.to_nat j < length g)%nat) by (apply geti_Some_lt in Hc; lia).
  rewrite (nth_indep _ false ((fun c : ctrl => fst c <? qEndOf) (0, 0))) by (now rewrite map_length).
  rewrite (map_nth (fun c : ctrl => fst c <? qEndOf)). now rewrite (nth_geti _ _ _ _ Hc).
Qed.

Lemma q_group_ok cs i : i + 16 <= N.of_nat (length cs) ->
  exists g, q_group cs i = Ok g /\ length g = 16%nat /\ forall j, j < 16 -> geti g j = geti cs (i + j).
Proof.
  intros H. unfold q_group. destruct (N.leb_spec (i + 16) (N.of_nat (length cs))); [|lia].
  eexists. split; [reflexivity|]. split.
  - rewrite firstn_length, skipn_length. lia.
  - intros j Hj. unfold geti. rewrite nth_error_window by lia. f_equal. lia.
Qed.
