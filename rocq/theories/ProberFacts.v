(** The prober visits every group exactly once. *)
From Coq Require Import NArith ZArith List Bool Lia Znumtheory Zpow_facts.
From Coq Require Import ZifyBool ZifyNat ZifyN.
From Verif Require Import Base BaseFacts ProberModel.
Import ListNotations.
Open Scope N_scope.

(** Triangular numbers. *)
Definition tri (j : N) : N := j * (j + 1) / 2.

Lemma tri_0 : tri 0 = 0. Proof. reflexivity. Qed.

Lemma tri_double j : 2 * tri j = j * (j + 1).
Proof.
  unfold tri.
  assert (H : (j * (j + 1)) mod 2 = 0).
  { destruct (N.even j) eqn:E.
    - apply N.even_spec in E. destruct E as [q ->].
      replace (2 * q * (2 * q + 1)) with ((q * (2 * q + 1)) * 2) by lia.
      apply N.mod_mul. discriminate.
    - assert (E' : N.odd j = true) by (rewrite <- N.negb_even, E; reflexivity).
      apply N.odd_spec in E'. destruct E' as [q ->].
      replace ((2 * q + 1) * (2 * q + 1 + 1)) with (((2 * q + 1) * (q + 1)) * 2) by lia.
      apply N.mod_mul. discriminate. }
  apply N.div_exact in H; [|discriminate]. now rewrite <- H.
Qed.

Lemma tri_succ j : tri (j + 1) = tri j + (j + 1).
Proof.
  pose proof (tri_double j). pose proof (tri_double (j + 1)). nia.
Qed.

(** Group visited at step [j] of a probe that starts at [home], 2^k groups. *)
Definition probe (k home j : N) : N := (home + tri j) mod 2 ^ k.

Lemma probe_0 k home : home < 2 ^ k -> probe k home 0 = home.
Proof. intros. unfold probe. rewrite tri_0, N.add_0_r. now apply N.mod_small. Qed.

Lemma probe_lt k home j : probe k home j < 2 ^ k.
Proof. apply N.mod_lt. pose proof (pow2_pos k). lia. Qed.

Lemma land_mask x k : N.land x (2 ^ k - 1) = x mod 2 ^ k.
Proof.
  rewrite <- N.land_ones. f_equal. rewrite N.ones_equiv. lia.
Qed.

Lemma w64_mod x k : k <= 64 -> w64 x mod 2 ^ k = x mod 2 ^ k.
Proof.
  intros H. unfold w64, two64.
  replace (2 ^ 64) with (2 ^ k * 2 ^ (64 - k)).
  - pose proof (pow2_pos k). pose proof (pow2_pos (64 - k)).
    rewrite N.mod_mul_r by lia.
    rewrite N.mul_comm, N.mod_add, N.mod_mod; lia.
  - rewrite <- N.pow_add_r. f_equal. lia.
Qed.

Definition prober_at (k home j : N) : prober := mkProber (probe k home j) j.

Lemma prober_init_at k home : home < 2 ^ k -> prober_init home = prober_at k home 0.
Proof. intros. unfold prober_at, prober_init. now rewrite probe_0. Qed.

Lemma next_bucket_at k home j :
  k <= 64 -> j + 1 < two64 ->
  next_bucket (2 ^ k - 1) (prober_at k home j)
  = (prober_at k home (j + 1), j + 1 <=? 2 ^ k - 1).
Proof.
  intros Hk Hj. unfold next_bucket, prober_at. cbn [pr_index pr_step].
  rewrite (wadd_small j 1) by auto. f_equal. f_equal.
  rewrite land_mask. unfold wadd. rewrite w64_mod by auto.
  unfold probe. rewrite tri_succ.
  pose proof (pow2_pos k).
  rewrite N.add_mod_idemp_l by lia. f_equal. lia.
Qed.

Lemma next_bucket_index k home j :
  k <= 64 -> 
  pr_index (fst (next_bucket (2 ^ k - 1) (mkProber (probe k home j) (w64 j))))
  = probe k home (j + 1).
Proof.
  intros Hk. unfold next_bucket. cbn [pr_index pr_step fst].
  rewrite land_mask. unfold wadd. rewrite w64_mod by auto.
  unfold probe. rewrite tri_succ.
  pose proof (pow2_pos k).
  rewrite N.add_mod_idemp_l by lia.
  rewrite <- (N.add_mod_idemp_r (home + tri j)) by lia.
  rewrite w64_mod by auto.
  rewrite <- (N.add_mod_idemp_l (w64 j)) by lia.
  rewrite w64_mod by auto.
  rewrite N.add_mod_idemp_l by lia.
  rewrite N.add_mod_idemp_r by lia. f_equal. lia.
Qed.

(** Coverage: (a - b)(a + b + 1) = 0 mod 2^(k+1) with 0 <= b <= a < 2^k gives a = b. *)
Lemma pow2_divides_coprime (n : nat) (a b : Z) :
  (2 ^ Z.of_nat n | a * b)%Z -> Z.odd b = true -> (2 ^ Z.of_nat n | a)%Z.
Proof.
  intros H Hb. apply Gauss with b; [now rewrite Z.mul_comm|].
  apply rel_prime_sym. apply rel_prime_Zpower_r; [lia|].
  apply rel_prime_sym. apply prime_rel_prime; [apply prime_2|].
  intros [c Hc]. subst b. rewrite Z.mul_comm, Z.odd_mul in Hb. discriminate.
Qed.

Lemma tri_inj k a b :
  a < 2 ^ k -> b < 2 ^ k -> tri a mod 2 ^ k = tri b mod 2 ^ k -> a = b.
Proof.
  assert (G : forall a b, a < 2 ^ k -> b <= a -> tri a mod 2 ^ k = tri b mod 2 ^ k -> a = b).
  { clear a b. intros a b Ha Hb H.
    pose proof (pow2_pos k) as P.
    assert (D : exists q, tri a = tri b + q * 2 ^ k).
    { assert (tri b <= tri a).
      { pose proof (tri_double a). pose proof (tri_double b). nia. }
      exists (tri a / 2 ^ k - tri b / 2 ^ k).
      pose proof (N.div_mod (tri a) (2 ^ k)) as E1.
      pose proof (N.div_mod (tri b) (2 ^ k)) as E2.
      assert (tri b / 2 ^ k <= tri a / 2 ^ k) by (apply N.div_le_mono; lia).
      rewrite H in E1. nia. }
    destruct D as [q D].
    pose proof (tri_double a) as Ta. pose proof (tri_double b) as Tb.
    assert (Z1 : ((Z.of_N a - Z.of_N b) * (Z.of_N a + Z.of_N b + 1)
                 = Z.of_N q * 2 ^ Z.of_nat (N.to_nat (k + 1)))%Z).
    { replace (2 ^ Z.of_nat (N.to_nat (k + 1)))%Z with (Z.of_N (2 * 2 ^ k)).
      - nia.
      - rewrite N_nat_Z, N2Z.inj_add, Z.pow_add_r, N2Z.inj_mul, N2Z.inj_pow; try lia. }
    assert (P2 : (2 ^ Z.of_nat (N.to_nat (k + 1)) = 2 * Z.of_N (2 ^ k))%Z).
    { rewrite N_nat_Z, N2Z.inj_add, Z.pow_add_r, N2Z.inj_pow; try lia. }
    destruct (Z.odd (Z.of_N a + Z.of_N b + 1)) eqn:O.
    - assert (Dv : (2 ^ Z.of_nat (N.to_nat (k + 1)) | Z.of_N a - Z.of_N b)%Z).
      { apply pow2_divides_coprime with (Z.of_N a + Z.of_N b + 1)%Z; auto.
        exists (Z.of_N q). auto. }
      destruct Dv as [c Dv]. rewrite P2 in Dv.
      assert (HP : (0 < Z.of_N (2 ^ k))%Z) by lia.
      assert (HA : (0 <= Z.of_N a - Z.of_N b < Z.of_N (2 ^ k))%Z) by lia.
      clear - HP HA Dv. generalize dependent (Z.of_N (2 ^ k)). intros p HP HA Dv.
      assert (c = 0)%Z; [|subst; lia].
      destruct (Z.lt_trichotomy c 0) as [?|[?|?]]; auto; nia.
    - assert (O2 : Z.odd (Z.of_N a - Z.of_N b) = true).
      { replace (Z.of_N a + Z.of_N b + 1)%Z with ((Z.of_N a - Z.of_N b) + 1 + 2 * Z.of_N b)%Z in O by lia.
        rewrite Z.odd_add_mul_2, Z.odd_add in O. destruct (Z.odd (Z.of_N a - Z.of_N b)); auto. }
      assert (Dv : (2 ^ Z.of_nat (N.to_nat (k + 1)) | Z.of_N a + Z.of_N b + 1)%Z).
      { apply pow2_divides_coprime with (Z.of_N a - Z.of_N b)%Z; auto.
        exists (Z.of_N q). rewrite Z.mul_comm. auto. }
      destruct Dv as [c Dv]. rewrite P2 in Dv.
      assert (HP : (0 < Z.of_N (2 ^ k))%Z) by lia.
      assert (HA : (0 < Z.of_N a + Z.of_N b + 1 < 2 * Z.of_N (2 ^ k))%Z) by lia.
      exfalso. clear - HP HA Dv. generalize dependent (Z.of_N (2 ^ k)). intros p HP HA Dv.
      destruct (Z_le_gt_dec c 0); nia. }
  intros Ha Hb H. destruct (N.le_ge_cases b a).
  - now apply G.
  - symmetry. now apply G.
Qed.

Lemma probe_inj k home a b :
  a < 2 ^ k -> b < 2 ^ k -> probe k home a = probe k home b -> a = b.
Proof.
  intros Ha Hb H. apply (tri_inj k); auto. unfold probe in H.
  pose proof (pow2_pos k) as P.
  (* add the complement of home *)
  assert (E : forall x, x mod 2 ^ k
      = ((home + x) mod 2 ^ k + (2 ^ k - home mod 2 ^ k)) mod 2 ^ k).
  { intros x. rewrite N.add_mod_idemp_l by lia.
    assert (home mod 2 ^ k < 2 ^ k) by (apply N.mod_lt; lia).
    pose proof (N.div_mod home (2 ^ k)) as Dh.
    replace (home + x + (2 ^ k - home mod 2 ^ k))
      with (x + (home / 2 ^ k + 1) * 2 ^ k) by nia.
    rewrite N.mod_add by lia. reflexivity. }
  rewrite (E (tri a)), (E (tri b)), H. reflexivity.
Qed.

Lemma probe_surj k home g :
  g < 2 ^ k -> exists j, j < 2 ^ k /\ probe k home j = g.
Proof.
  intros Hg.
  set (l := map (probe k home) (seqN (2 ^ k))).
  assert (ND : NoDup l).
  { unfold l. assert (Hs : forall j, In j (seqN (2 ^ k)) -> j < 2 ^ k)
      by (intros; now apply seqN_In).
    pose proof (seqN_NoDup (2 ^ k)) as NDs. revert NDs Hs.
    generalize (seqN (2 ^ k)). induction l0 as [|x l0 IH]; simpl; intros; constructor.
    - rewrite in_map_iff. intros (y & E & Hy).
      apply probe_inj in E; [|apply Hs; simpl; auto..].
      subst. inversion NDs; auto.
    - inversion NDs; apply IH; auto. }
  assert (In g l).
  { apply (NoDup_length_incl (l := l) (l' := seqN (2 ^ k))); auto.
    - unfold l. now rewrite map_length.
    - intros x Hx. unfold l in Hx. apply in_map_iff in Hx.
      destruct Hx as (j & <- & _). apply seqN_In. apply probe_lt.
    - now apply seqN_In. }
  unfold l in H. apply in_map_iff in H. destruct H as (j & E & Hj).
  apply seqN_In in Hj. eauto.
Qed.
