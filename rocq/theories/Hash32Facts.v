(** Facts about the 32-bit hashes. *)
From Coq Require Import NArith ZArith List Bool Lia.
From Coq Require Import ZifyBool ZifyNat ZifyN.
From Verif Require Import Base BaseFacts ProberFacts Hash32Model.
Import ListNotations.
Open Scope N_scope.

Lemma fold32 x y : x < 2 ^ 32 -> y < 2 ^ 32 ->
  w64 (x * y) = x * y /\ w32 (N.shiftr (x * y) 32) = x * y / 2 ^ 32.
Proof.
  intros Hx Hy. assert (P : x * y < 2 ^ 32 * 2 ^ 32) by nia.
  replace (2 ^ 32 * 2 ^ 32) with (2 ^ 64) in P by (vm_compute; reflexivity).
  split; [apply N.mod_small; exact P|].
  rewrite N.shiftr_div_pow2. apply N.mod_small. unfold two32.
  apply N.div_lt_upper_bound; [vm_compute; discriminate|].
  replace (2 ^ 32 * 2 ^ 32) with (2 ^ 64) by (vm_compute; reflexivity). exact P.
Qed.

Lemma mum32_spec x y : x < 2 ^ 32 -> y < 2 ^ 32 ->
  mum_hash32 x y = N.lxor ((x * y) mod 2 ^ 32) (x * y / 2 ^ 32)
  /\ mum_mul_mix32 x y = N.lxor ((x * y) mod 2 ^ 32) (x * y / 2 ^ 32).
Proof.
  intros Hx Hy. destruct (fold32 x y Hx Hy) as (E & F).
  unfold mum_hash32, mum_mul_mix32. cbv zeta. rewrite E, F. split; [|reflexivity].
  f_equal. change 4294967295 with (2 ^ 32 - 1). rewrite land_mask. unfold w32, two32.
  apply N.mod_mod. vm_compute; discriminate.
Qed.

Lemma lxor_lt a b n : a < 2 ^ n -> b < 2 ^ n -> N.lxor a b < 2 ^ n.
Proof.
  intros Ha Hb. destruct (N.eq_dec (N.lxor a b) 0) as [E|E].
  - rewrite E. apply pow2_pos.
  - apply N.log2_lt_pow2; [lia|].
    pose proof (N.log2_lxor a b) as L.
    assert (P : forall c, c < 2 ^ n -> 0 < n -> N.log2 c < n).
    { intros c Hc Hn. destruct (N.eq_dec c 0) as [->|]; [exact Hn|]. apply N.log2_lt_pow2; lia. }
    destruct (N.eq_dec n 0) as [->|Hn].
    + assert (a = 0) by (cbn in Ha; lia). assert (b = 0) by (cbn in Hb; lia). subst. destruct E. reflexivity.
    + pose proof (P a Ha ltac:(lia)). pose proof (P b Hb ltac:(lia)). lia.
Qed.

Lemma mum32_lt x : x < 2 ^ 32 -> mum_hash_w32 x < 2 ^ 32 /\ mum_mul_mix_w32 x < 2 ^ 32.
Proof.
  intros Hx. unfold mum_hash_w32, mum_mul_mix_w32.
  rewrite (proj1 (mum32_spec x 2654435761 Hx ltac:(vm_compute; reflexivity))).
  rewrite (proj2 (mum32_spec x 3893885741 Hx ltac:(vm_compute; reflexivity))).
  assert (Q : forall y, y < 2 ^ 32 -> N.lxor ((x * y) mod 2 ^ 32) (x * y / 2 ^ 32) < 2 ^ 32).
  { intros y Hy. apply lxor_lt.
    - apply N.mod_lt. vm_compute; discriminate.
    - apply N.div_lt_upper_bound; [vm_compute; discriminate|]. nia. }
  split; apply Q; vm_compute; reflexivity.
Qed.

(** With 64-bit longs the product is not cut and the shift is below the multiplier. *)
Lemma fib32_wide v : fibonacci_hash32 64 v = (v mod 2 ^ 32) * 2654435761 / 4096.
Proof.
  unfold fibonacci_hash32. rewrite N.shiftr_div_pow2. unfold w32, two32.
  rewrite N.mod_small; [reflexivity|].
  pose proof (N.mod_lt v (2 ^ 32) ltac:(vm_compute; discriminate)) as L.
  change (2 ^ 32) with 4294967296 in *. change (2 ^ 64) with 18446744073709551616. lia.
Qed.

Lemma fib32_inj u v : u < 2 ^ 32 -> v < 2 ^ 32 -> fibonacci_hash32 64 u = fibonacci_hash32 64 v -> u = v.
Proof.
  intros Hu Hv. rewrite !fib32_wide. rewrite !N.mod_small by auto. intros E.
  pose proof (N.div_mod (u * 2654435761) 4096 ltac:(lia)) as A.
  pose proof (N.div_mod (v * 2654435761) 4096 ltac:(lia)) as B.
  pose proof (N.mod_lt (u * 2654435761) 4096 ltac:(lia)).
  pose proof (N.mod_lt (v * 2654435761) 4096 ltac:(lia)).
  rewrite E in A. lia.
Qed.

Lemma fib32_lt v : fibonacci_hash32 32 v < 2 ^ 20.
Proof.
  unfold fibonacci_hash32. rewrite N.shiftr_div_pow2.
  apply N.div_lt_upper_bound; [vm_compute; discriminate|].
  replace (2 ^ 12 * 2 ^ 20) with (2 ^ 32) by (vm_compute; reflexivity).
  apply N.mod_lt. vm_compute; discriminate.
Qed.

Lemma shift32_pow k : policy_shift32 (2 ^ k) = 32 - k.
Proof. unfold policy_shift32. rewrite N.log2_pow2 by lia. reflexivity. Qed.

Lemma shr_lt x n s : s <= n -> x < 2 ^ n -> N.shiftr x s < 2 ^ (n - s).
Proof.
  intros Hs Hx. rewrite N.shiftr_div_pow2.
  apply N.div_lt_upper_bound; [apply N.pow_nonzero; lia|].
  rewrite <- N.pow_add_r. replace (s + (n - s)) with n by lia. exact Hx.
Qed.

Lemma mum_index32_lt excl k h : 1 <= k -> k <= 32 -> h < 2 ^ 32 ->
  mum_index32 excl (policy_shift32 (2 ^ k)) h < 2 ^ k.
Proof.
  intros H1 H2 Hh. rewrite shift32_pow. unfold mum_index32.
  replace k with (32 - (32 - k)) at 2 by lia.
  apply shr_lt; [lia|]. destruct excl; [exact Hh|]. apply mum32_lt. exact Hh.
Qed.

Lemma fib_index32_small k h : 1 <= k -> k <= 31 ->
  fibonacci_index32 false (policy_shift32 (2 ^ k)) h < (if k <=? 12 then 1 else 2 ^ (k - 12)).
Proof.
  intros H1 H2. rewrite shift32_pow. unfold fibonacci_index32.
  pose proof (fib32_lt h) as L.
  destruct (N.leb_spec k 12).
  - rewrite N.shiftr_div_pow2. rewrite N.div_small; [lia|].
    pose proof (pow2_le 20 (32 - k) ltac:(lia)). lia.
  - replace (k - 12) with (20 - (32 - k)) by lia. apply shr_lt; [lia|exact L].
Qed.

Lemma fib_slots_unused : exists k slot, 1 <= k /\ k <= 31 /\ slot < 2 ^ k
  /\ forall h, fibonacci_index32 false (policy_shift32 (2 ^ k)) h <> slot.
Proof.
  exists 20, 256. split; [lia|]. split; [lia|]. split; [vm_compute; reflexivity|].
  intros h E. pose proof (fib_index32_small 20 h ltac:(lia) ltac:(lia)) as L.
  rewrite E in L. vm_compute in L. discriminate.
Qed.

Lemma fib32_collide : exists u v, u < 2 ^ 32 /\ v < 2 ^ 32 /\ u <> v /\ fibonacci_hash32 32 u = fibonacci_hash32 32 v.
Proof.
  exists 0, 244002641. split; [vm_compute; reflexivity|]. split; [vm_compute; reflexivity|].
  split; [discriminate|]. vm_compute. reflexivity.
Qed.

Lemma hx32 : mum_hash32 4294967295 4294967295 = 4294967295
  /\ mum_mul_mix32 4294967295 4294967295 = 4294967295 /\ mum_mul_mix_w32 1 = 3893885741
  /\ mum_index32 false (policy_shift32 (2 ^ 20)) 12345 = 660149
  /\ fibonacci_index32 false (policy_shift32 (2 ^ 20)) 12345 = 161
  /\ fibonacci_hash32 64 (2 ^ 32 - 1) = 2783377631878280.
Proof. repeat split; vm_compute; reflexivity. Qed.
