(** Facts about the alignment helpers and swap_ranges. *)
From Coq Require Import NArith ZArith List Bool Lia.
From Coq Require Import ZifyBool ZifyNat ZifyN.
From Verif Require Import Base BaseFacts ProberFacts BitsFacts HashFacts UtilModel.
Import ListNotations.
Open Scope N_scope.

Lemma lt64_pow k : k < 64 -> 0 < 2 ^ k /\ 2 ^ k <= 2 ^ 63 /\ 2 ^ k < two64.
Proof.
  intros Hk. pose proof (pow2_pos k). pose proof (pow2_le k 63 ltac:(lia)).
  assert (2 ^ 63 < two64) by (vm_compute; reflexivity). lia.
Qed.

Lemma one_bit_pow k : k < 64 -> one_bit (2 ^ k) = true.
Proof.
  intros Hk. destruct (lt64_pow k Hk) as (A & B & C). unfold one_bit.
  rewrite wsub_small by lia. rewrite land_pred_pow2. reflexivity.
Qed.

Lemma one_bit_iff a : 0 < a -> a < two64 -> (one_bit a = true <-> exists k, k < 64 /\ a = 2 ^ k).
Proof.
  intros A0 A1. split.
  - unfold one_bit. rewrite wsub_small by lia. rewrite N.eqb_eq. intros E.
    exists (N.log2 a). split; [|apply land_pred_0; auto; lia].
    apply N.log2_lt_pow2; auto.
  - intros (k & Hk & ->). apply one_bit_pow; auto.
Qed.

Lemma wnot_mask k : k < 64 -> wnot (2 ^ k - 1) = wsub (two64 - 1) (2 ^ k - 1).
Proof.
  intros Hk. destruct (lt64_pow k Hk) as (A & B & C).
  rewrite wsub_small by (unfold two64 in *; lia).
  unfold wnot. assert (E : N.lxor (2 ^ k - 1) (two64 - 1) = N.ldiff (N.ones 64) (N.ones k)).
  { apply N.bits_inj. intro i.
    replace (2 ^ k - 1) with (N.ones k) by (rewrite N.ones_equiv; lia).
    replace (two64 - 1) with (N.ones 64) by (rewrite N.ones_equiv; unfold two64; lia).
    rewrite N.lxor_spec, N.ldiff_spec.
    destruct (N.ltb_spec i k).
    - rewrite !N.ones_spec_low by lia. reflexivity.
    - rewrite (N.ones_spec_high k) by lia. destruct (N.testbit (N.ones 64) i); reflexivity. }
  rewrite E. rewrite <- N.sub_nocarry_ldiff.
  - f_equal; rewrite N.ones_equiv; unfold two64; lia.
  - apply N.bits_inj. intro i. rewrite N.ldiff_spec, N.bits_0.
    destruct (N.ltb_spec i k).
    + rewrite !N.ones_spec_low by lia. reflexivity.
    + rewrite (N.ones_spec_high k) by lia. reflexivity.
Qed.

(** The sum that is rounded down. *)
Lemma round_sum s k : k < 64 -> s < two64 ->
  wsub (wadd s (2 ^ k)) 1 = if s + 2 ^ k - 1 <? two64 then s + 2 ^ k - 1 else s + 2 ^ k - 1 - two64.
Proof.
  intros Hk Hs. destruct (lt64_pow k Hk) as (A & B & C).
  assert (T : two64 = 18446744073709551616) by (vm_compute; reflexivity).
  unfold wsub, wadd, w64. rewrite (N.mod_small 1) by (rewrite T; lia).
  remember (2 ^ k) as b. rewrite T in *. clear Heqb B.
  destruct (N.ltb_spec (s + b - 1) 18446744073709551616).
  - destruct (N.eq_dec (s + b) 18446744073709551616) as [E|E].
    + rewrite E. replace (s + b - 1) with 18446744073709551615 by lia. reflexivity.
    + rewrite (N.mod_small (s + b)) by lia.
      replace (s + b + (18446744073709551616 - 1)) with (s + b - 1 + 1 * 18446744073709551616) by lia.
      rewrite N.mod_add by lia. apply N.mod_small. lia.
  - replace (s + b) with (s + b - 18446744073709551616 + 1 * 18446744073709551616) at 1 by lia.
    rewrite N.mod_add by lia. rewrite (N.mod_small (s + b - 18446744073709551616)) by lia.
    replace (s + b - 18446744073709551616 + (18446744073709551616 - 1))
      with (s + b - 1 - 18446744073709551616 + 1 * 18446744073709551616) by lia.
    rewrite N.mod_add by lia. apply N.mod_small. lia.
Qed.

Lemma rounded s k : k < 64 -> s < two64 ->
  N.land (wsub (wadd s (2 ^ k)) 1) (wnot (wsub (2 ^ k) 1)) =
  if s + 2 ^ k - 1 <? two64 then 2 ^ k * ((s + 2 ^ k - 1) / 2 ^ k) else 0.
Proof.
  intros Hk Hs. destruct (lt64_pow k Hk) as (A & B & C).
  rewrite (wsub_small (2 ^ k) 1) by lia. rewrite wnot_mask by auto.
  rewrite round_sum by auto.
  destruct (N.ltb_spec (s + 2 ^ k - 1) two64) as [L|L].
  - rewrite land_align by auto. reflexivity.
  - rewrite land_align by (auto; unfold two64 in *; lia).
    rewrite N.div_small by lia. lia.
Qed.

Lemma round_least b s : 0 < b ->
  (b | b * ((s + b - 1) / b)) /\ s <= b * ((s + b - 1) / b)
  /\ (forall x, (b | x) -> s <= x -> b * ((s + b - 1) / b) <= x).
Proof.
  intros Hb. split; [exists ((s + b - 1) / b); lia|].
  pose proof (N.div_mod (s + b - 1) b ltac:(lia)) as D.
  pose proof (N.mod_lt (s + b - 1) b ltac:(lia)) as M.
  split; [lia|]. intros x (y & ->) Hx.
  rewrite N.mul_comm. apply N.mul_le_mono_r.
  apply N.lt_succ_r. apply N.div_lt_upper_bound; [lia|]. nia.
Qed.

Lemma guard_true {A} on (k : option A) : guard on true k = k.
Proof. unfold guard. rewrite andb_false_r. reflexivity. Qed.

Lemma guards_pow {A} on k (x : option A) : k < 64 ->
  guard on (0 <? 2 ^ k) (guard on (one_bit (2 ^ k)) x) = x.
Proof.
  intros Hk. destruct (lt64_pow k Hk) as (A0 & B & C).
  rewrite one_bit_pow by auto. replace (0 <? 2 ^ k) with true by lia. rewrite !guard_true. reflexivity.
Qed.

Lemma align_to_is on s k : k < 64 -> s < two64 ->
  align_to on s (2 ^ k) = Some (if s + 2 ^ k - 1 <? two64 then 2 ^ k * ((s + 2 ^ k - 1) / 2 ^ k) else 0).
Proof.
  intros Hk Hs. destruct (lt64_pow k Hk) as (A & B & C).
  unfold align_to. rewrite guards_pow by auto. cbv zeta. rewrite rounded by auto.
  destruct (N.ltb_spec (s + 2 ^ k - 1) two64) as [L|L].
  - rewrite (N.mul_comm (2 ^ k) ((s + 2 ^ k - 1) / 2 ^ k)), N.div_mul by lia.
    unfold wmul, w64. rewrite N.mod_small.
    + rewrite N.eqb_refl, guard_true. reflexivity.
    + pose proof (N.mul_div_le (s + 2 ^ k - 1) (2 ^ k) ltac:(lia)). lia.
  - rewrite N.div_0_l by lia. rewrite guard_true. reflexivity.
Qed.

Lemma pointer_align_to_is on s k : k < 64 -> s < two64 ->
  pointer_align_to on s (2 ^ k) = align_to on s (2 ^ k).
Proof.
  intros Hk Hs. rewrite align_to_is by auto. unfold pointer_align_to.
  rewrite guards_pow by auto. rewrite rounded by auto. reflexivity.
Qed.

Lemma align_least on k s : k < 64 -> s + 2 ^ k <= two64 ->
  exists r, align_to on s (2 ^ k) = Some r /\ pointer_align_to on s (2 ^ k) = Some r
    /\ (2 ^ k | r) /\ s <= r /\ forall x, (2 ^ k | x) -> s <= x -> r <= x.
Proof.
  intros Hk Hs. destruct (lt64_pow k Hk) as (A & B & C).
  exists (2 ^ k * ((s + 2 ^ k - 1) / 2 ^ k)).
  rewrite pointer_align_to_is, align_to_is by (auto; lia).
  replace (s + 2 ^ k - 1 <? two64) with true by lia.
  split; [reflexivity|]. split; [reflexivity|]. apply round_least; auto.
Qed.

Lemma align_wraps on k s : k < 64 -> s < two64 -> two64 < s + 2 ^ k ->
  align_to on s (2 ^ k) = Some 0 /\ pointer_align_to on s (2 ^ k) = Some 0.
Proof.
  intros Hk Hs Hw. rewrite pointer_align_to_is, align_to_is by auto.
  replace (s + 2 ^ k - 1 <? two64) with false by lia. auto.
Qed.

Lemma check_alignment_iff on k p : k < 64 ->
  exists b, check_alignment on p (2 ^ k) = Some b /\ (b = true <-> (2 ^ k | p)).
Proof.
  intros Hk. destruct (lt64_pow k Hk) as (A & B & C).
  unfold check_alignment. rewrite guards_pow by auto. eexists. split; [reflexivity|].
  rewrite wsub_small by lia. rewrite ProberFacts.land_mask. rewrite N.eqb_eq.
  apply N.mod_divide. lia.
Qed.

Lemma guards_other {A} a (x : option A) : a < two64 -> (forall k, a <> 2 ^ k) ->
  guard true (0 <? a) (guard true (one_bit a) x) = None.
Proof.
  intros Ha Hn. unfold guard. cbn [andb].
  destruct (N.ltb_spec 0 a) as [H|H]; cbn [negb]; [|reflexivity].
  destruct (one_bit a) eqn:E; cbn [negb]; [|reflexivity].
  apply one_bit_iff in E; auto. destruct E as (k & _ & E). destruct (Hn k E).
Qed.

Lemma others_abort a p : a < two64 -> (forall k, a <> 2 ^ k) ->
  check_alignment true p a = None /\ align_to true p a = None /\ pointer_align_to true p a = None.
Proof.
  intros Ha Hn. unfold check_alignment, align_to, pointer_align_to. rewrite !guards_other by auto. auto.
Qed.

(** ** swap_ranges *)

Section Swap.

Variable T : Type.

Lemma iter_swap_spec (m : list T) i j :
  i < N.of_nat (length m) -> j < N.of_nat (length m) -> i <> j ->
  exists m', iter_swap T m i j = Ok m' /\ length m' = length m
    /\ geti m' i = geti m j /\ geti m' j = geti m i
    /\ forall k, k <> i -> k <> j -> geti m' k = geti m k.
Proof.
  intros Hi Hj Hn. destruct (geti_lt m i Hi) as (x & X). destruct (geti_lt m j Hj) as (y & Y).
  unfold iter_swap. rewrite X, Y. eexists. split; [reflexivity|].
  split; [rewrite !seti_length; reflexivity|].
  split; [rewrite geti_seti_neq by auto; apply geti_seti_eq; auto|].
  split; [apply geti_seti_eq; rewrite seti_length; auto|].
  intros k K1 K2. rewrite !geti_seti_neq by auto. reflexivity.
Qed.

Lemma swap_loop_spec fuel : forall (n : nat) (m : list T) f1 f2,
  (n <= fuel)%nat ->
  f1 + N.of_nat n <= N.of_nat (length m) -> f2 + N.of_nat n <= N.of_nat (length m) ->
  f1 + N.of_nat n <= f2 \/ f2 + N.of_nat n <= f1 ->
  exists m', swap_loop T fuel m f1 (f1 + N.of_nat n) f2 = Ok (m', f1 + N.of_nat n, f2 + N.of_nat n)
    /\ length m' = length m
    /\ (forall k, k < N.of_nat n -> geti m' (f1 + k) = geti m (f2 + k) /\ geti m' (f2 + k) = geti m (f1 + k))
    /\ (forall i, ~ (f1 <= i < f1 + N.of_nat n) -> ~ (f2 <= i < f2 + N.of_nat n) -> geti m' i = geti m i).
Proof.
  induction fuel; intros n m f1 f2 Hf H1 H2 Hd.
  - assert (n = O) by lia. subst n. exists m. cbn [swap_loop].
    replace (f1 =? f1 + N.of_nat 0) with true by lia.
    split; [do 2 f_equal; [f_equal|]; lia|]. split; [reflexivity|]. split; [intros k Hk; lia|auto].
  - destruct n as [|n].
    + exists m. cbn [swap_loop]. replace (f1 =? f1 + N.of_nat 0) with true by lia.
      split; [do 2 f_equal; [f_equal|]; lia|]. split; [reflexivity|]. split; [intros k Hk; lia|auto].
    + cbn [swap_loop]. replace (f1 =? f1 + N.of_nat (S n)) with false by lia.
      destruct (iter_swap_spec m f1 f2) as (m1 & E & L & A & B & C); [lia|lia|lia|].
      rewrite E. cbn [rbind].
      destruct (IHfuel n m1 (f1 + 1) (f2 + 1)) as (m' & E' & L' & S' & O'); try lia.
      exists m'.
      replace (f1 + N.of_nat (S n)) with (f1 + 1 + N.of_nat n) by lia.
      replace (f2 + N.of_nat (S n)) with (f2 + 1 + N.of_nat n) by lia.
      split; [exact E'|]. split; [congruence|]. split.
      * intros k Hk. destruct (N.eq_dec k 0) as [->|K0].
        -- rewrite !N.add_0_r. rewrite !O' by lia. auto.
        -- destruct (S' (k - 1)) as (P & Q); [lia|].
           replace (f1 + 1 + (k - 1)) with (f1 + k) in * by lia.
           replace (f2 + 1 + (k - 1)) with (f2 + k) in * by lia.
           rewrite P, Q. rewrite !C by lia. auto.
      * intros i I1 I2. rewrite O' by lia. apply C; lia.
Qed.

Lemma swap_ranges_spec on (m : list T) f1 f2 n :
  f1 + n <= N.of_nat (length m) -> f2 + n <= N.of_nat (length m) ->
  f1 + n <= f2 \/ f2 + n <= f1 ->
  exists m', swap_ranges T on m f1 (f1 + n) f2 = Ok (if on && negb (n =? 0) then None else Some (m', f2 + n))
    /\ length m' = length m
    /\ (forall k, k < n -> geti m' (f1 + k) = geti m (f2 + k) /\ geti m' (f2 + k) = geti m (f1 + k))
    /\ (forall i, ~ (f1 <= i < f1 + n) -> ~ (f2 <= i < f2 + n) -> geti m' i = geti m i).
Proof.
  intros H1 H2 Hd.
  destruct (swap_loop_spec (S (length m)) (N.to_nat n) m f1 f2) as (m' & E & R); try lia.
  rewrite N2Nat.id in *. exists m'. split; [|exact R].
  unfold swap_ranges. rewrite E. cbn [rbind]. unfold guard, ptr_distance.
  replace (f2 + n =? f2 + (f1 + n - (f1 + n))) with (n =? 0) by lia. reflexivity.
Qed.

Lemma exchanged (m : list T) f1 f2 n :
  f1 + n <= N.of_nat (length m) -> f2 + n <= N.of_nat (length m) ->
  f1 + n <= f2 \/ f2 + n <= f1 ->
  exists m', swap_ranges T false m f1 (f1 + n) f2 = Ok (Some (m', f2 + n))
    /\ swap_arrays T false m f1 f2 n = Ok (Some m')
    /\ length m' = length m
    /\ (forall k, k < n -> geti m' (f1 + k) = geti m (f2 + k) /\ geti m' (f2 + k) = geti m (f1 + k))
    /\ (forall i, ~ (f1 <= i < f1 + n) -> ~ (f2 <= i < f2 + n) -> geti m' i = geti m i).
Proof.
  intros H1 H2 Hd. destruct (swap_ranges_spec false m f1 f2 n H1 H2 Hd) as (m' & E & R).
  exists m'. cbn [andb] in E. split; [exact E|]. split; [|exact R].
  unfold swap_arrays. rewrite E. reflexivity.
Qed.

Lemma always_aborts (m : list T) f1 f2 n :
  0 < n -> f1 + n <= N.of_nat (length m) -> f2 + n <= N.of_nat (length m) ->
  f1 + n <= f2 \/ f2 + n <= f1 ->
  swap_ranges T true m f1 (f1 + n) f2 = Ok None /\ swap_arrays T true m f1 f2 n = Ok None.
Proof.
  intros Hn H1 H2 Hd. destruct (swap_ranges_spec true m f1 f2 n H1 H2 Hd) as (m' & E & R).
  replace (n =? 0) with false in E by lia. cbn [andb negb] in E.
  split; [exact E|]. unfold swap_arrays. rewrite E. reflexivity.
Qed.

End Swap.

(** ** Examples *)

Lemma ux_align : 12 < 64 /\ 4097 + 2 ^ 12 <= two64
  /\ align_to true 4097 (2 ^ 12) = Some 8192 /\ align_to true 4096 4096 = Some 4096 /\ align_to true 0 4096 = Some 0
  /\ pointer_align_to true 4097 16 = Some 4112 /\ check_alignment true 4112 16 = Some true
  /\ check_alignment true 4120 16 = Some false /\ align_to true 4097 24 = None /\ align_to true 5 0 = None
  /\ align_to false 4097 24 = Some 4104.
Proof. repeat split; vm_compute; reflexivity || discriminate. Qed.

Lemma ux_wraps : exists k s r, k < 64 /\ s < two64 /\ 0 < s
  /\ align_to true s (2 ^ k) = Some r /\ pointer_align_to true s (2 ^ k) = Some r /\ r < s.
Proof. exists 4, (two64 - 1), 0. repeat split; vm_compute; reflexivity. Qed.

Lemma ux_swap : swap_ranges N false [1; 2; 3; 9; 4; 5; 6] 0 3 4 = Ok (Some ([4; 5; 6; 9; 1; 2; 3], 7)).
Proof. vm_compute. reflexivity. Qed.

Lemma ux_abort : exists m f1 f2 n, 0 < n /\ f1 + n <= N.of_nat (length m) /\ f2 + n <= N.of_nat (length m)
  /\ (f1 + n <= f2) /\ swap_ranges N true m f1 (f1 + n) f2 = Ok None /\ swap_arrays N true m f1 f2 n = Ok None.
Proof. exists [1; 2], 0, 1, 1. repeat split; vm_compute; reflexivity || discriminate. Qed.
