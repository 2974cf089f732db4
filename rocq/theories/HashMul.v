(** What the generic 64 x 64 multiplication computes. *)
From Coq Require Import Arith NArith ZArith List Bool Lia.
From Coq Require Import ZifyBool ZifyNat ZifyN.
From Verif Require Import Base HashModel HashArith.
Open Scope N_scope.

Lemma generic_words : forall x0 x1 y0 y1,
  x0 < B32 -> x1 < B32 -> y0 < B32 -> y1 < B32 ->
  let s := x1 * y0 + x0 * y1 + x0 * y0 / B32 in
  let mid := s mod (B32 * B32) in
  let p := (x0 + B32 * x1) * (y0 + B32 * y1) in
  (x0 * y0) mod B32 + mid mod B32 * B32 = p mod (B32 * B32)
  /\ x1 * y1 + mid / B32 + B32 * (s / (B32 * B32)) = p / (B32 * B32)
  /\ x1 * y1 + mid / B32 < B32 * B32.
Proof.
  intros x0 x1 y0 y1 X0 X1 Y0 Y1 s mid p.
  assert (PB : B32 <> 0) by discriminate.
  assert (PBB : B32 * B32 <> 0) by discriminate.
  pose proof (N.div_mod (x0 * y0) B32 PB) as D00.
  pose proof (N.mod_lt (x0 * y0) B32 PB) as M00.
  pose proof (N.div_mod s (B32 * B32) PBB) as Ds. fold mid in Ds.
  pose proof (N.mod_lt s (B32 * B32) PBB) as Ms. fold mid in Ms.
  pose proof (N.div_mod mid B32 PB) as Dm. pose proof (N.mod_lt mid B32 PB) as Mm.
  set (c := s / (B32 * B32)) in *. set (qm := mid / B32) in *. set (rm := mid mod B32) in *.
  set (r := (x0 * y0) mod B32) in *.
  assert (E : p = B32 * B32 * (x1 * y1 + qm + B32 * c) + (r + rm * B32)).
  { transitivity (x0 * y0 + B32 * (x1 * y0 + x0 * y1) + B32 * B32 * (x1 * y1)); [unfold p; ring|].
    transitivity (r + B32 * s + B32 * B32 * (x1 * y1)).
    - unfold s. rewrite D00 at 1. ring.
    - rewrite Ds, Dm. ring. }
  assert (Lw : r + rm * B32 < B32 * B32)
    by (change (B32 * B32) with 18446744073709551616; change B32 with 4294967296 in *; lia).
  split; [rewrite E; apply (N.mod_unique _ _ (x1 * y1 + qm + B32 * c)); [exact Lw|reflexivity]|].
  split; [rewrite E; apply (N.div_unique _ _ _ (r + rm * B32)); [exact Lw|reflexivity]|].
  assert (Q : x1 * y1 <= (B32 - 1) * (B32 - 1)) by (apply N.mul_le_mono; lia).
  assert (Hq : qm < B32) by (apply N.div_lt_upper_bound; [exact PB|exact Ms]).
  change ((B32 - 1) * (B32 - 1)) with 18446744065119617025 in *.
  change (B32 * B32) with 18446744073709551616. change B32 with 4294967296 in *. lia.
Qed.

Lemma uint128_generic_value : forall x y, x < 2 ^ 64 -> y < 2 ^ 64 ->
  fst (uint128_mul_generic x y) = (x * y) mod 2 ^ 64
  /\ snd (uint128_mul_generic x y)
     + 2 ^ 32 * ((x / 2 ^ 32 * (y mod 2 ^ 32) + x mod 2 ^ 32 * (y / 2 ^ 32)
                  + x mod 2 ^ 32 * (y mod 2 ^ 32) / 2 ^ 32) / 2 ^ 64)
     = x * y / 2 ^ 64.
Proof.
  intros x y Hx Hy.
  destruct (split_word x Hx) as (Ex & Lx & Ux). destruct (split_word y Hy) as (Ey & Ly & Uy).
  unfold uint128_mul_generic. rewrite !land_low, !shr_high.
  rewrite (w32_small' (x / B32)), (w32_small' (y / B32)) by assumption.
  rewrite !wmul_small by assumption.
  change (2 ^ 64) with (B32 * B32). change (2 ^ 32) with B32.
  destruct (generic_words _ _ _ _ Lx Ux Ly Uy) as (H1 & H2 & H3).
  rewrite <- Ex, <- Ey in H1, H2.
  set (x0 := x mod B32) in *. set (x1 := x / B32) in *.
  set (y0 := y mod B32) in *. set (y1 := y / B32) in *.
  assert (PB : B32 <> 0) by discriminate.
  assert (D00q : x0 * y0 / B32 < B32)
    by (apply N.div_lt_upper_bound; [exact PB|]; apply N.mul_lt_mono; assumption).
  rewrite (w32_small' (x0 * y0 / B32)) by assumption.
  unfold wadd. rewrite !w64_BB. rewrite N.add_mod_idemp_l by discriminate.
  set (s := x1 * y0 + x0 * y1 + x0 * y0 / B32) in *.
  set (mid := s mod (B32 * B32)) in *.
  assert (Hm : mid < B32 * B32) by (apply N.mod_lt; discriminate).
  assert (Dm : mid / B32 < B32) by (apply N.div_lt_upper_bound; [exact PB|]; exact Hm).
  rewrite (w32_small' (mid / B32)) by exact Dm.
  rewrite (N.mod_small (x1 * y1 + mid / B32)) by exact H3.
  rewrite <- w64_BB, shl_low. change (2 ^ 32) with B32.
  rewrite (lor_add ((x0 * y0) mod B32)) by (apply N.mod_lt; exact PB).
  cbn [fst snd]. split; [exact H1|exact H2].
Qed.
