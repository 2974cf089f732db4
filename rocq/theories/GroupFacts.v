(** Laws of the group operations, and their proofs for group15 and group16. *)
From Coq Require Import NArith ZArith List Bool Lia.
From Coq Require Import ZifyBool ZifyNat ZifyN.
From Verif Require Import Base BaseFacts BitsModel BitsFacts ProberFacts GroupModel.
Import ListNotations.
Open Scope N_scope.
Ltac Zify.zify_post_hook ::= Z.div_mod_to_equations.

(** What the table proofs use.  [kl_code g p] is what position [p] says about its
    slot: 0 empty, 1 sentinel (when [kd_sent]), otherwise the reduced hash. *)
Record klaws (kd : kind) : Type := {
  kl_w : N;
  kl_valid : group -> Prop;
  kl_code : group -> N -> N;
  kl_W : kd_W kd = 2 ^ kl_w;
  kl_w_range : 4 <= kl_w <= 5;
  kl_S : kd_W kd * 15 <= kd_S kd * 16 /\ kd_S kd <= kd_W kd;
  kl_S_nosent : kd_sent kd = false -> kd_S kd = kd_W kd;
  kl_empty_cap : kd_empty_cap kd <= kd_W kd;
  kl_masks : forall g h, kl_valid g ->
      kd_match_empty kd g < two32 /\ kd_match_used kd g < two32
      /\ kd_match_hash kd g h < two32;
  kl_match_empty : forall g p, kl_valid g ->
      (N.testbit (kd_match_empty kd g) p = true <-> p < kd_S kd /\ kl_code g p = 0);
  kl_match_used : forall g p, kl_valid g ->
      (N.testbit (kd_match_used kd g) p = true <-> p < kd_S kd /\ kl_code g p <> 0);
  kl_match_hash : forall g p x, kl_valid g ->
      (N.testbit (kd_match_hash kd g (kd_reduce kd x)) p = true
       <-> p < kd_S kd /\ kl_code g p = kd_reduce kd x);
  kl_is_sentinel : forall g p, kl_valid g -> p < kd_S kd ->
      kd_is_sentinel kd g p = (kd_sent kd && (kl_code g p =? 1));
  kl_reduce_0 : forall x, kd_reduce kd x <> 0;
  kl_reduce_1 : forall x, kd_sent kd = true -> kd_reduce kd x <> 1;
  kl_overflow_byte : forall g p, kl_valid g -> p < kd_S kd ->
      kd_is_overflow kd g (byte g p) = kd_is_overflow kd g (kl_code g p);
  kl_set_used_valid : forall g p x, kl_valid g -> p < kd_S kd ->
      kl_valid (kd_set_used kd g p (kd_reduce kd x));
  kl_set_used_code : forall g p x q, kl_valid g -> p < kd_S kd -> q < kd_S kd ->
      kl_code (kd_set_used kd g p (kd_reduce kd x)) q
      = if q =? p then kd_reduce kd x else kl_code g q;
  kl_set_used_ovf : forall g p x h, kl_valid g -> p < kd_S kd ->
      kd_is_overflow kd (kd_set_used kd g p (kd_reduce kd x)) h = kd_is_overflow kd g h;
  kl_set_empty_valid : forall g p, kl_valid g -> p < kd_S kd ->
      kl_valid (kd_set_empty kd g p);
  kl_set_empty_code : forall g p q, kl_valid g -> p < kd_S kd -> q < kd_S kd ->
      kl_code (kd_set_empty kd g p) q = if q =? p then 0 else kl_code g q;
  kl_set_empty_ovf : forall g p h, kl_valid g -> p < kd_S kd ->
      kd_is_overflow kd (kd_set_empty kd g p) h = kd_is_overflow kd g h;
  kl_set_overflow_valid : forall g x, kl_valid g ->
      kl_valid (kd_set_overflow kd g (kd_reduce kd x));
  kl_set_overflow_code : forall g x q, kl_valid g -> q < kd_S kd ->
      kl_code (kd_set_overflow kd g (kd_reduce kd x)) q = kl_code g q;
  kl_set_overflow_ovf : forall g x h, kl_valid g ->
      h = kd_reduce kd x \/ kd_is_overflow kd g h = true ->
      kd_is_overflow kd (kd_set_overflow kd g (kd_reduce kd x)) h = true;
  kl_init_valid : kl_valid (kd_init kd);
  kl_init_code : forall p, p < kd_S kd -> kl_code (kd_init kd) p = 0;
  kl_init_ovf : forall h, kd_is_overflow kd (kd_init kd) h = false;
  kl_sentinel_valid : forall g, kl_valid g -> kl_valid (kd_set_sentinel kd g);
  kl_sentinel_code : forall g p, kd_sent kd = true -> kl_valid g -> p < kd_S kd ->
      kl_code (kd_set_sentinel kd g) p = if p =? kd_S kd - 1 then 1 else kl_code g p;
  kl_sentinel_ovf : forall g h, kl_valid g ->
      kd_is_overflow kd (kd_set_sentinel kd g) h = kd_is_overflow kd g h;
  kl_static : exists g, kd_static kd = [g; g] /\ kl_valid g
      /\ (forall p, p < kd_S kd -> kl_code g p = 0 \/ kd_sent kd = true /\ kl_code g p = 1)
      /\ (forall h, kd_is_overflow kd g h = false)
}.

(** ** Bits of a movemask *)

Lemma movemask_testbit l i : N.testbit (movemask l) i = nth (N.to_nat i) l false.
Proof.
  revert i; induction l; intros i.
  - simpl. destruct (N.to_nat i); reflexivity.
  - cbn [movemask]. destruct (N.eq_dec i 0) as [->|H].
    + rewrite N.add_comm. simpl nth. destruct a.
      * apply N.testbit_odd_0.
      * rewrite N.add_0_r. apply N.testbit_even_0.
    + replace (N.to_nat i) with (S (N.to_nat (i - 1))) by lia. simpl nth.
      rewrite <- IHl. replace i with (N.succ (i - 1)) at 1 by lia.
      rewrite N.add_comm. destruct a; cbn [N.b2n].
      * apply N.testbit_odd_succ. lia.
      * rewrite N.add_0_r. apply N.testbit_even_succ. lia.
Qed.

Lemma movemask_bound l : movemask l < 2 ^ N.of_nat (length l).
Proof.
  induction l; [reflexivity|]. cbn [movemask length].
  rewrite Nat2N.inj_succ, N.pow_succ_r'. destruct a; cbn [N.b2n]; lia.
Qed.

Lemma map2_nth {A B C} (f : A -> B -> C) la lb i da db dc :
  length la = length lb -> (i < length la)%nat ->
  nth i (map2 f la lb) dc = f (nth i la da) (nth i lb db).
Proof.
  revert lb i; induction la; destruct lb, i; simpl; intros; try lia; auto.
  apply IHla; lia.
Qed.

Lemma map2_length {A B C} (f : A -> B -> C) la lb :
  length la = length lb -> length (map2 f la lb) = length la.
Proof.
  revert lb; induction la; destruct lb; simpl; intros; try lia; auto.
Qed.

Lemma byte_seti_eq g p x : p < N.of_nat (length g) -> byte (seti g p x) p = x.
Proof.
  intros. unfold byte. apply nth_error_nth with (d := 0). now apply geti_seti_eq.
Qed.

Lemma byte_geti g p : byte g p = match geti g p with Some x => x | None => 0 end.
Proof.
  unfold byte, geti. destruct (nth_error g (N.to_nat p)) eqn:E.
  - now apply nth_error_nth.
  - apply nth_overflow. now apply nth_error_None.
Qed.

Lemma byte_seti_neq g p q x : p <> q -> byte (seti g p x) q = byte g q.
Proof. intros. rewrite !byte_geti, geti_seti_neq; auto. Qed.

Lemma byte_In g p : p < N.of_nat (length g) -> In (byte g p) g.
Proof. intros. unfold byte. apply nth_In. lia. Qed.

Definition valid16 (n : nat) (g : group) : Prop := length g = n /\ Forall (fun b => b < 256) g.

Lemma valid_byte n g p : valid16 n g -> byte g p < 256.
Proof.
  intros [HL HF]. unfold byte. destruct (Nat.lt_ge_cases (N.to_nat p) (length g)).
  - rewrite Forall_forall in HF. apply HF. now apply nth_In.
  - rewrite nth_overflow by auto. reflexivity.
Qed.

Lemma valid_seti n g p x : valid16 n g -> x < 256 -> valid16 n (seti g p x).
Proof.
  intros [HL HF] Hx. split.
  - now rewrite seti_length.
  - now apply Forall_seti.
Qed.

(** A statement about all bytes, checked by computation over the 256 of them. *)
Lemma all_bytes (P : N -> bool) :
  forallb P (seqN 256) = true -> forall b, b < 256 -> P b = true.
Proof.
  intros H b Hb. rewrite forallb_forall in H. apply H. now apply seqN_In.
Qed.

Lemma u8_lt x : u8 x < 256.
Proof. apply N.mod_lt. discriminate. Qed.

Lemma u8_idem x : u8 (u8 x) = u8 x.
Proof. apply N.mod_mod. discriminate. Qed.

(** ** group15 *)

(** The look-up table: byte 0 becomes 8, byte 1 becomes 9, other bytes stay. *)
Lemma reduced_hash15_spec x :
  reduced_hash15 x = if u8 x =? 0 then 8 else if u8 x =? 1 then 9 else u8 x.
Proof.
  unfold reduced_hash15, repeated_hash15. pose proof (u8_lt x). revert H.
  generalize (u8 x). intros b Hb. apply N.eqb_eq.
  apply (all_bytes (fun b => u8 (nth (N.to_nat b) dword_hashs15 0)
    =? (if b =? 0 then 8 else if b =? 1 then 9 else b))); auto.
Qed.

Lemma reduced_hash15_range x : 2 <= reduced_hash15 x < 256.
Proof.
  rewrite reduced_hash15_spec. pose proof (u8_lt x).
  destruct (N.eqb_spec (u8 x) 0); [lia|]. destruct (N.eqb_spec (u8 x) 1); lia.
Qed.

Lemma set1_epi32_length n d : length (set1_epi32 n d) = n.
Proof. unfold set1_epi32. now rewrite map_length, seq_length. Qed.

Lemma set1_epi32_nth n d i : (i < n)%nat ->
  nth i (set1_epi32 n d) 0 = u8 (N.shiftr d (8 * (N.of_nat i mod 4))).
Proof.
  intros. unfold set1_epi32.
  apply nth_error_nth.
  erewrite map_nth_error; [reflexivity|].
  rewrite nth_error_nth' with (d := 0%nat) by now rewrite seq_length.
  now rewrite seq_nth by auto.
Qed.

Lemma mod4_cases i : i mod 4 = 0 \/ i mod 4 = 1 \/ i mod 4 = 2 \/ i mod 4 = 3.
Proof. lia. Qed.

Lemma set1_zero_nth n i : (i < n)%nat -> nth i (set1_epi32 n 0) 0 = 0.
Proof.
  intros. rewrite set1_epi32_nth by auto.
  destruct (mod4_cases (N.of_nat i)) as [->|[->|[->| ->]]]; reflexivity.
Qed.

(** Every byte of the repeated hash is the reduced hash. *)
Lemma make_hash_bits15_nth x i :
  (i < 16)%nat -> nth i (make_hash_bits15 (reduced_hash15 x)) 0 = reduced_hash15 x.
Proof.
  intros Hi. unfold make_hash_bits15. rewrite set1_epi32_nth by auto.
  pose proof (reduced_hash15_range x) as R. revert R.
  generalize (reduced_hash15 x). intros h R.
  unfold repeated_hash15.
  assert (U : u8 h = h) by (apply N.mod_small; lia). rewrite U.
  apply N.eqb_eq.
  assert (G : forall m, In m [0; 1; 2; 3] ->
     (u8 (N.shiftr (nth (N.to_nat h) dword_hashs15 0) (8 * m)) =? h) = true).
  { intros m Hm.
    assert (Q : (h <? 2) || (u8 (N.shiftr (nth (N.to_nat h) dword_hashs15 0) (8 * m)) =? h) = true).
    { revert m Hm.
      assert (A : forallb (fun h => forallb (fun m => (h <? 2)
          || (u8 (N.shiftr (nth (N.to_nat h) dword_hashs15 0) (8 * m)) =? h)) [0;1;2;3])
          (seqN 256) = true) by (vm_compute; reflexivity).
      rewrite forallb_forall in A. specialize (A h (proj2 (seqN_In 256 h) ltac:(lia))).
      rewrite forallb_forall in A. auto. }
    destruct (N.ltb_spec h 2); [lia|auto]. }
  apply G. destruct (mod4_cases (N.of_nat i)) as [->|[->|[->| ->]]]; simpl; auto.
Qed.

Lemma mask15_testbit m p : N.testbit (N.land m 32767) p = (p <? 15) && N.testbit m p.
Proof.
  change 32767 with (N.ones 15). destruct (N.ltb_spec p 15).
  - rewrite N.land_ones, N.mod_pow2_bits_low by auto. reflexivity.
  - rewrite N.land_ones, N.mod_pow2_bits_high by auto. reflexivity.
Qed.

Lemma mask15_bound m : N.land m 32767 < two32.
Proof.
  change 32767 with (N.ones 15). rewrite N.land_ones.
  assert (m mod 2 ^ 15 < 2 ^ 15) by (apply N.mod_lt; discriminate).
  change (2 ^ 15) with 32768 in *. unfold two32. change (2 ^ 32) with 4294967296. lia.
Qed.

Lemma match_empty15_spec g p : valid16 16 g ->
  N.testbit (match_empty15 g) p = (p <? 15) && (byte g p =? 0).
Proof.
  intros [HL HF]. unfold match_empty15. rewrite mask15_testbit.
  destruct (N.ltb_spec p 15); [|reflexivity]. cbn [andb].
  rewrite movemask_testbit. unfold cmpeq_epi8.
  rewrite map2_nth with (da := 0) (db := 0) by (rewrite set1_epi32_length; lia).
  rewrite set1_zero_nth by lia. apply N.eqb_sym.
Qed.

Lemma match_used15_spec g p : valid16 16 g ->
  N.testbit (match_used15 g) p = (p <? 15) && negb (byte g p =? 0).
Proof.
  intros Hv. unfold match_used15. rewrite mask15_testbit.
  destruct (N.ltb_spec p 15); [|reflexivity]. cbn [andb].
  rewrite N.lxor_spec, match_empty15_spec by auto.
  destruct (N.ltb_spec p 15); [|lia]. cbn [andb].
  change (two32 - 1) with (N.ones 32). rewrite N.ones_spec_low by lia.
  destruct (byte g p =? 0); reflexivity.
Qed.

Lemma match_hash15_spec g p x : valid16 16 g ->
  N.testbit (match_hash15 g (reduced_hash15 x)) p = (p <? 15) && (byte g p =? reduced_hash15 x).
Proof.
  intros [HL HF]. unfold match_hash15. rewrite mask15_testbit.
  destruct (N.ltb_spec p 15); [|reflexivity]. cbn [andb].
  rewrite movemask_testbit. unfold cmpeq_epi8.
  rewrite map2_nth with (da := 0) (db := 0)
    by (unfold make_hash_bits15; rewrite set1_epi32_length; lia).
  rewrite make_hash_bits15_nth by lia. apply N.eqb_sym.
Qed.

Lemma shift_mask15_pow p : p < 8 -> shift_mask15 p = 2 ^ p.
Proof.
  intros. assert (E : p = 0 \/ p = 1 \/ p = 2 \/ p = 3 \/ p = 4 \/ p = 5 \/ p = 6 \/ p = 7) by lia.
  repeat (destruct E as [->|E]; [reflexivity|]). now subst.
Qed.

Lemma land_pow2_0 x p : (N.land x (2 ^ p) =? 0) = negb (N.testbit x p).
Proof.
  destruct (N.testbit x p) eqn:E; simpl.
  - apply N.eqb_neq. intros H.
    assert (N.testbit (N.land x (2 ^ p)) p = true).
    { rewrite N.land_spec, E, N.pow2_bits_true. reflexivity. }
    rewrite H in H0. now rewrite N.bits_0 in H0.
  - apply N.eqb_eq. apply N.bits_inj. intros i. rewrite N.land_spec, N.bits_0.
    rewrite N.pow2_bits_eqb. destruct (N.eqb_spec p i).
    + subst. now rewrite E.
    + apply andb_false_r.
Qed.

Lemma is_overflow15_spec g h : is_overflow15 g h = N.testbit (byte g 15) (h mod 8).
Proof.
  unfold is_overflow15. rewrite shift_mask15_pow by (apply N.mod_lt; discriminate).
  now rewrite land_pow2_0, negb_involutive.
Qed.

Lemma lor_byte_bound a p : a < 256 -> p < 8 -> N.lor a (2 ^ p) < 256.
Proof.
  intros Ha Hp. change 256 with (2 ^ 8) in *.
  destruct (N.eq_dec (N.lor a (2 ^ p)) 0) as [->|Hz]; [reflexivity|].
  apply N.log2_lt_pow2; [lia|]. rewrite N.log2_lor, N.log2_pow2 by lia.
  destruct (N.eq_dec a 0) as [->|]; [simpl; lia|].
  assert (N.log2 a < 8) by (apply N.log2_lt_pow2; lia). lia.
Qed.

Lemma set_overflow15_byte g h q : valid16 16 g -> q < 15 ->
  byte (set_overflow15 g h) q = byte g q.
Proof. intros. unfold set_overflow15. apply byte_seti_neq. lia. Qed.

Lemma set_overflow15_ovf g h q : valid16 16 g ->
  is_overflow15 (set_overflow15 g h) q = (q mod 8 =? h mod 8) || is_overflow15 g q.
Proof.
  intros [HL HF]. rewrite !is_overflow15_spec. unfold set_overflow15.
  rewrite byte_seti_eq by (rewrite HL; reflexivity).
  rewrite shift_mask15_pow by (apply N.mod_lt; discriminate).
  rewrite N.lor_spec, N.pow2_bits_eqb. rewrite orb_comm. f_equal. apply N.eqb_sym.
Qed.

Lemma valid16_init : valid16 16 init15.
Proof. split; [reflexivity|]. repeat constructor. Qed.

Lemma byte_repeat0 n p : byte (repeat 0 n) p = 0.
Proof.
  rewrite byte_geti. destruct (geti (repeat 0 n) p) eqn:E; auto.
  apply geti_In in E. now apply repeat_spec in E.
Qed.

Definition k15_laws : klaws k15.
Proof.
  refine (Build_klaws k15 4 (valid16 16) (fun g p => byte g p) _ _ _ _ _ _ _ _ _ _ _ _ _ _ _ _ _ _ _ _ _ _ _ _ _ _ _ _ _); cbn [k15 kd_W kd_S kd_sent kd_empty_cap kd_match_empty kd_match_used
    kd_match_hash kd_is_sentinel kd_is_overflow kd_set_overflow kd_set_used kd_set_empty
    kd_set_sentinel kd_init kd_reduce kd_static].
  - reflexivity.
  - lia.
  - lia.
  - discriminate.
  - lia.
  - intros. repeat split; apply mask15_bound.
  - intros g p Hv. rewrite match_empty15_spec by auto. lia.
  - intros g p Hv. rewrite match_used15_spec by auto. lia.
  - intros g p x Hv. rewrite match_hash15_spec by auto. lia.
  - reflexivity.
  - intros x. pose proof (reduced_hash15_range x). lia.
  - intros x _. pose proof (reduced_hash15_range x). lia.
  - reflexivity.
  - intros. unfold set_used15. apply valid_seti; auto. apply u8_lt.
  - intros g p x q [HL HF] Hp Hq. unfold set_used15.
    pose proof (reduced_hash15_range x). unfold u8. rewrite (N.mod_small (reduced_hash15 x)) by lia.
    destruct (N.eqb_spec q p).
    + subst. apply byte_seti_eq. lia.
    + apply byte_seti_neq. lia.
  - intros. rewrite !is_overflow15_spec. unfold set_used15. rewrite byte_seti_neq; auto. lia.
  - intros. unfold set_empty15. apply valid_seti; auto. reflexivity.
  - intros g p q [HL HF] Hp Hq. unfold set_empty15.
    destruct (N.eqb_spec q p).
    + subst. apply byte_seti_eq. lia.
    + apply byte_seti_neq. lia.
  - intros. rewrite !is_overflow15_spec. unfold set_empty15. rewrite byte_seti_neq; auto. lia.
  - intros g x Hv. unfold set_overflow15. apply valid_seti; auto.
    rewrite shift_mask15_pow by (apply N.mod_lt; discriminate).
    apply lor_byte_bound; [eapply valid_byte; eauto|apply N.mod_lt; discriminate].
  - intros. now apply set_overflow15_byte.
  - intros g x h Hv H. rewrite set_overflow15_ovf by auto.
    destruct H as [->| ->]; [rewrite N.eqb_refl|rewrite orb_true_r]; reflexivity.
  - apply valid16_init.
  - intros. unfold init15. apply byte_repeat0.
  - intros. rewrite is_overflow15_spec. unfold init15. now rewrite byte_repeat0, N.bits_0.
  - intros. unfold set_sentinel15. apply valid_seti; auto. reflexivity.
  - intros g p _ [HL HF] Hp. unfold set_sentinel15. change (15 - 1) with 14.
    destruct (N.eqb_spec p 14).
    + subst. apply byte_seti_eq. rewrite HL. reflexivity.
    + apply byte_seti_neq. lia.
  - intros. rewrite !is_overflow15_spec. unfold set_sentinel15. rewrite byte_seti_neq; auto. lia.
  - exists (set_sentinel15 init15). split; [reflexivity|]. split.
    { apply valid_seti; [apply valid16_init|reflexivity]. }
    split.
    + intros p Hp. unfold set_sentinel15. destruct (N.eq_dec p 14).
      * subst. right. split; reflexivity.
      * left. rewrite byte_seti_neq by lia. apply byte_repeat0.
    + intros. rewrite is_overflow15_spec. unfold set_sentinel15.
      rewrite byte_seti_neq by lia. unfold init15. now rewrite byte_repeat0, N.bits_0.
Defined.

(** ** group16 *)

Lemma reduced_hash16_spec x :
  reduced_hash16 x = if x mod 128 =? 0 then 8 else x mod 128.
Proof.
  unfold reduced_hash16, repeated_hash16. pose proof (u8_lt x).
  assert (E : x mod 128 = u8 x mod 128).
  { unfold u8. change 256 with (128 * 2). rewrite N.mod_mul_r by discriminate.
    rewrite N.mul_comm, N.mod_add, N.mod_mod by discriminate. reflexivity. }
  rewrite E. revert H. generalize (u8 x). intros b Hb. apply N.eqb_eq.
  apply (all_bytes (fun b => u8 (nth (N.to_nat b) dword_hashs16 0)
    =? (if b mod 128 =? 0 then 8 else b mod 128))); auto.
Qed.

Lemma reduced_hash16_range x : 1 <= reduced_hash16 x < 128.
Proof.
  rewrite reduced_hash16_spec. assert (x mod 128 < 128) by (apply N.mod_lt; discriminate).
  destruct (N.eqb_spec (x mod 128) 0); lia.
Qed.

Lemma make_hash_bits16_nth x i :
  (i < 16)%nat -> nth i (make_hash_bits16 (reduced_hash16 x)) 0 = reduced_hash16 x.
Proof.
  intros Hi. unfold make_hash_bits16. rewrite set1_epi32_nth by auto.
  pose proof (reduced_hash16_range x) as R. revert R.
  generalize (reduced_hash16 x). intros h R.
  unfold repeated_hash16.
  assert (U : u8 h = h) by (apply N.mod_small; lia). rewrite U.
  apply N.eqb_eq.
  assert (G : forall m, In m [0; 1; 2; 3] ->
     (u8 (N.shiftr (nth (N.to_nat h) dword_hashs16 0) (8 * m)) =? h) = true).
  { intros m Hm.
    assert (Q : (h <? 1) || (127 <? h) || (u8 (N.shiftr (nth (N.to_nat h) dword_hashs16 0) (8 * m)) =? h) = true).
    { revert m Hm.
      assert (A : forallb (fun h => forallb (fun m => (h <? 1) || (127 <? h)
          || (u8 (N.shiftr (nth (N.to_nat h) dword_hashs16 0) (8 * m)) =? h)) [0;1;2;3])
          (seqN 256) = true) by (vm_compute; reflexivity).
      rewrite forallb_forall in A. specialize (A h (proj2 (seqN_In 256 h) ltac:(lia))).
      rewrite forallb_forall in A. auto. }
    destruct (N.ltb_spec h 1); [lia|]. destruct (N.ltb_spec 127 h); [lia|auto]. }
  apply G. destruct (mod4_cases (N.of_nat i)) as [->|[->|[->| ->]]]; simpl; auto.
Qed.

Lemma make_mask_bits16_nth i : (i < 16)%nat -> nth i make_mask_bits16 0 = 127.
Proof.
  intros. unfold make_mask_bits16. rewrite set1_epi32_nth by auto.
  destruct (mod4_cases (N.of_nat i)) as [->|[->|[->| ->]]]; reflexivity.
Qed.

Lemma land_127 x : N.land x 127 = x mod 128.
Proof. change 127 with (N.ones 7). apply N.land_ones. Qed.

Lemma and_mask16_nth g i : length g = 16%nat -> (i < 16)%nat ->
  nth i (and_si128 g make_mask_bits16) 0 = nth i g 0 mod 128.
Proof.
  intros HL Hi. unfold and_si128.
  rewrite map2_nth with (da := 0) (db := 0)
    by (unfold make_mask_bits16; rewrite ?set1_epi32_length; lia).
  rewrite make_mask_bits16_nth by auto. apply land_127.
Qed.

Lemma and_mask16_length g : length g = 16%nat ->
  length (and_si128 g make_mask_bits16) = 16%nat.
Proof.
  intros. unfold and_si128. rewrite map2_length; auto.
Qed.

Definition code16 (g : group) (p : N) : N := byte g p mod 128.

Lemma match_empty16_spec g p : valid16 16 g ->
  N.testbit (match_empty16 g) p = (p <? 16) && (code16 g p =? 0).
Proof.
  intros [HL HF]. unfold match_empty16, cmpeq_epi8. rewrite movemask_testbit.
  destruct (N.ltb_spec p 16); cbn [andb].
  - rewrite map2_nth with (da := 0) (db := 0)
      by (rewrite ?and_mask16_length, set1_epi32_length by auto; lia).
    rewrite set1_zero_nth by lia. rewrite and_mask16_nth by (auto; lia). apply N.eqb_sym.
  - apply nth_overflow. rewrite map2_length; rewrite ?and_mask16_length, ?set1_epi32_length; auto; lia.
Qed.

Lemma match_used16_spec g p : valid16 16 g ->
  N.testbit (match_used16 g) p = (p <? 16) && negb (code16 g p =? 0).
Proof.
  intros [HL HF]. unfold match_used16, cmplt_epi8. rewrite movemask_testbit.
  destruct (N.ltb_spec p 16); cbn [andb].
  - rewrite map2_nth with (da := 0) (db := 0)
      by (rewrite ?and_mask16_length, set1_epi32_length by auto; lia).
    rewrite set1_zero_nth by lia. rewrite and_mask16_nth by (auto; lia).
    change (nth (N.to_nat p) g 0 mod 128) with (code16 g p).
    assert (code16 g p < 128) by (apply N.mod_lt; discriminate).
    unfold s8. destruct (N.ltb_spec 0 128); [|lia].
    destruct (N.ltb_spec (code16 g p) 128); [|lia].
    destruct (N.eqb_spec (code16 g p) 0); destruct (Z.ltb_spec (Z.of_N 0) (Z.of_N (code16 g p))); simpl; lia.
  - apply nth_overflow. rewrite map2_length; rewrite ?and_mask16_length, ?set1_epi32_length; auto; lia.
Qed.

Lemma match_hash16_spec g p x : valid16 16 g ->
  N.testbit (match_hash16 g (reduced_hash16 x)) p = (p <? 16) && (code16 g p =? reduced_hash16 x).
Proof.
  intros [HL HF]. unfold match_hash16, cmpeq_epi8. rewrite movemask_testbit.
  destruct (N.ltb_spec p 16); cbn [andb].
  - rewrite map2_nth with (da := 0) (db := 0)
      by (unfold make_hash_bits16; rewrite ?and_mask16_length, ?set1_epi32_length by auto; lia).
    rewrite make_hash_bits16_nth by lia. rewrite and_mask16_nth by (auto; lia). reflexivity.
  - apply nth_overflow. unfold make_hash_bits16.
    rewrite map2_length; rewrite ?and_mask16_length, ?set1_epi32_length; auto; lia.
Qed.

Lemma masks16_bound l : length l = 16%nat -> movemask l < two32.
Proof.
  intros H. pose proof (movemask_bound l) as B. rewrite H in B.
  change (2 ^ N.of_nat 16) with 65536 in B. unfold two32. change (2 ^ 32) with 4294967296. lia.
Qed.

Lemma is_overflow16_spec g h : is_overflow16 g h = N.testbit (byte g (h mod 16)) 7.
Proof.
  unfold is_overflow16. change 128 with (2 ^ 7). now rewrite land_pow2_0, negb_involutive.
Qed.

Lemma mod128_lor b : N.lor b 128 mod 128 = b mod 128.
Proof.
  rewrite <- !land_127. rewrite N.land_lor_distr_l.
  change (N.land 128 127) with 0. apply N.lor_0_r.
Qed.

Lemma set_used16_byte_facts b h : b < 256 -> h < 128 ->
  let x := N.lor (N.land b 128) h in x mod 128 = h /\ N.testbit x 7 = N.testbit b 7 /\ x < 256.
Proof.
  intros Hb Hh x.
  assert (T : N.testbit h 7 = false).
  { destruct (N.eq_dec h 0) as [->|]; [reflexivity|].
    apply N.bits_above_log2. apply N.log2_lt_pow2; lia. }
  repeat split.
  - unfold x. rewrite <- land_127, N.land_lor_distr_l, <- N.land_assoc.
    change (N.land 128 127) with 0. rewrite N.land_0_r, N.lor_0_l, land_127.
    now apply N.mod_small.
  - unfold x. rewrite N.lor_spec, N.land_spec, T. change (N.testbit 128 7) with true.
    now rewrite andb_true_r, orb_false_r.
  - unfold x. change 256 with (2 ^ 8).
    destruct (N.eq_dec (N.lor (N.land b 128) h) 0) as [->|Hz]; [reflexivity|].
    apply N.log2_lt_pow2; [lia|]. rewrite N.log2_lor.
    assert (N.log2 (N.land b 128) <= 7).
    { eapply N.le_trans; [apply N.log2_land|]. change (N.log2 128) with 7. lia. }
    assert (N.log2 h < 7 \/ h = 0).
    { destruct (N.eq_dec h 0); auto. left. apply N.log2_lt_pow2; lia. }
    destruct H0 as [H0| ->]; [|simpl]; lia.
Qed.

Definition k16_laws : klaws k16.
Proof.
  refine (Build_klaws k16 4 (valid16 16) code16 _ _ _ _ _ _ _ _ _ _ _ _ _ _ _ _ _ _ _ _ _ _ _ _ _ _ _ _ _); cbn [k16 kd_W kd_S kd_sent kd_empty_cap kd_match_empty kd_match_used
    kd_match_hash kd_is_sentinel kd_is_overflow kd_set_overflow kd_set_used kd_set_empty
    kd_set_sentinel kd_init kd_reduce kd_static].
  - reflexivity.
  - lia.
  - lia.
  - reflexivity.
  - lia.
  - intros g h [HL HF]. repeat split; apply masks16_bound;
      unfold cmpeq_epi8, cmplt_epi8, make_hash_bits16;
      rewrite map2_length; rewrite ?and_mask16_length, ?set1_epi32_length; auto.
  - intros g p Hv. rewrite match_empty16_spec by auto. lia.
  - intros g p Hv. rewrite match_used16_spec by auto. lia.
  - intros g p x Hv. rewrite match_hash16_spec by auto. lia.
  - reflexivity.
  - intros x. pose proof (reduced_hash16_range x). lia.
  - discriminate.
  - intros g p Hv Hp. rewrite !is_overflow16_spec. f_equal. f_equal. unfold code16.
    rewrite <- (N.mod_mod (byte g p) 16) by discriminate.
    change 128 with (16 * 8). rewrite N.mod_mul_r by discriminate.
    rewrite (N.mul_comm 16), N.mod_add by discriminate.
    now rewrite !N.mod_mod by discriminate.
  - intros g p x Hv Hp. unfold set_used16. apply valid_seti; auto.
    pose proof (reduced_hash16_range x). unfold u8. rewrite (N.mod_small (reduced_hash16 x)) by lia.
    apply set_used16_byte_facts; [eapply valid_byte; eauto|lia].
  - intros g p x q Hv Hp Hq. unfold set_used16, code16.
    pose proof (reduced_hash16_range x). unfold u8. rewrite (N.mod_small (reduced_hash16 x)) by lia.
    destruct (N.eqb_spec q p).
    + subst. rewrite byte_seti_eq by (destruct Hv; lia).
      apply set_used16_byte_facts; [eapply valid_byte; eauto|lia].
    + rewrite byte_seti_neq by lia. reflexivity.
  - intros g p x h Hv Hp. rewrite !is_overflow16_spec. unfold set_used16.
    pose proof (reduced_hash16_range x). unfold u8. rewrite (N.mod_small (reduced_hash16 x)) by lia.
    destruct (N.eq_dec p (h mod 16)) as [->|].
    + rewrite byte_seti_eq by (destruct Hv; lia).
      apply set_used16_byte_facts; [eapply valid_byte; eauto|lia].
    + rewrite byte_seti_neq by lia. reflexivity.
  - intros g p Hv Hp. unfold set_empty16. apply valid_seti; auto.
    apply set_used16_byte_facts; [eapply valid_byte; eauto|lia].
  - intros g p q Hv Hp Hq. unfold set_empty16, code16.
    destruct (N.eqb_spec q p).
    + subst. rewrite byte_seti_eq by (destruct Hv; lia).
      apply set_used16_byte_facts; [eapply valid_byte; eauto|lia].
    + rewrite byte_seti_neq by lia. reflexivity.
  - intros g p h Hv Hp. rewrite !is_overflow16_spec. unfold set_empty16.
    destruct (N.eq_dec p (h mod 16)) as [->|].
    + rewrite byte_seti_eq by (destruct Hv; lia).
      apply set_used16_byte_facts; [eapply valid_byte; eauto|lia].
    + rewrite byte_seti_neq by lia. reflexivity.
  - intros g x Hv. unfold set_overflow16. apply valid_seti; auto.
    change 128 with (2 ^ 7). apply lor_byte_bound; [eapply valid_byte; eauto|lia].
  - intros g x q Hv Hq. unfold set_overflow16, code16.
    destruct (N.eq_dec q (reduced_hash16 x mod 16)) as [->|].
    + rewrite byte_seti_eq by (destruct Hv; lia). apply mod128_lor.
    + rewrite byte_seti_neq by lia. reflexivity.
  - intros g x h Hv H. rewrite !is_overflow16_spec in *. unfold set_overflow16.
    destruct (N.eq_dec (reduced_hash16 x mod 16) (h mod 16)) as [E|E].
    + rewrite E. rewrite byte_seti_eq by (destruct Hv; lia).
      rewrite N.lor_spec. change (N.testbit 128 7) with true. apply orb_true_r.
    + rewrite byte_seti_neq by lia. destruct H as [->|H]; [congruence|exact H].
  - apply valid16_init.
  - intros. unfold code16, init16. now rewrite byte_repeat0.
  - intros. rewrite is_overflow16_spec. unfold init16. now rewrite byte_repeat0, N.bits_0.
  - auto.
  - discriminate.
  - auto.
  - exists init16. split; [reflexivity|]. split; [apply valid16_init|]. split.
    + intros p Hp. left. unfold code16, init16. now rewrite byte_repeat0.
    + intros. rewrite is_overflow16_spec. unfold init16. now rewrite byte_repeat0, N.bits_0.
Defined.
