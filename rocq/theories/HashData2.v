(** APHash and OpenSSL_Hash. *)
From Coq Require Import NArith ZArith List Bool Lia.
From Coq Require Import ZifyBool ZifyNat ZifyN.
From Verif Require Import Base BitsModel Crc32Model HashModel HashSpec HashFacts HashData.
Import ListNotations.
Open Scope N_scope.

Lemma lt_pow2_bits : forall n x, x < 2 ^ n <-> (forall i, n <= i -> N.testbit x i = false).
Proof.
  intros n x. split.
  - intros H i Hi. destruct (N.eq_dec x 0) as [->|Z]; [apply N.bits_0|].
    apply N.bits_above_log2. apply N.log2_lt_pow2; [lia|].
    eapply N.lt_le_trans; [exact H|]. apply N.pow_le_mono_r; lia.
  - intros H. assert (E : x = x mod 2 ^ n).
    { apply N.bits_inj. intro i. destruct (N.lt_ge_cases i n) as [Hi|Hi].
      - rewrite N.mod_pow2_bits_low by exact Hi. reflexivity.
      - rewrite N.mod_pow2_bits_high by exact Hi. apply H. exact Hi. }
    rewrite E. apply N.mod_lt. apply N.pow_nonzero. lia.
Qed.

Lemma lxor_lt : forall n x y, x < 2 ^ n -> y < 2 ^ n -> N.lxor x y < 2 ^ n.
Proof.
  intros n x y Hx Hy. apply lt_pow2_bits. intros i Hi.
  rewrite N.lxor_spec, (proj1 (lt_pow2_bits n x) Hx i Hi),
          (proj1 (lt_pow2_bits n y) Hy i Hi). reflexivity.
Qed.

Lemma shiftr_lt : forall n k x, x < 2 ^ n -> N.shiftr x k < 2 ^ n.
Proof.
  intros n k x H. apply lt_pow2_bits. intros i Hi. rewrite N.shiftr_spec by lia.
  apply (proj1 (lt_pow2_bits n x) H). lia.
Qed.

Lemma byte_lt32 : forall c, is_byte c -> c < 2 ^ 32.
Proof.
  intros c H. eapply N.lt_trans; [exact H|]. vm_compute; reflexivity.
Qed.

Lemma not32_sub : forall x, x < 2 ^ 32 -> not32 x = 2 ^ 32 - 1 - x.
Proof.
  intros x H. unfold not32.
  assert (E : x + N.lxor x 4294967295 = 2 ^ 32 - 1).
  { rewrite N.add_nocarry_lxor.
    - rewrite <- N.lxor_assoc, N.lxor_nilpotent, N.lxor_0_l. reflexivity.
    - apply N.bits_inj. intro i. rewrite N.land_spec, N.lxor_spec, N.bits_0.
      change 4294967295 with (N.ones 32).
      destruct (N.lt_ge_cases i 32) as [Hi|Hi].
      + rewrite N.ones_spec_low by exact Hi. destruct (N.testbit x i); reflexivity.
      + rewrite (proj1 (lt_pow2_bits 32 x) H i Hi). reflexivity. }
  lia.
Qed.

Lemma ap_x_lt : forall h c k r, h < 2 ^ 32 -> is_byte c ->
  N.lxor (N.lxor (shl32 h k) c) (N.shiftr h r) < 2 ^ 32.
Proof.
  intros h c k r Hh Hc. apply lxor_lt; [apply lxor_lt|].
  - apply w32_lt.
  - apply byte_lt32; exact Hc.
  - apply shiftr_lt; exact Hh.
Qed.

Lemma ap_even_lt : forall h c, h < 2 ^ 32 -> is_byte c -> ap_even h c < 2 ^ 32.
Proof. intros h c Hh Hc. apply lxor_lt; [exact Hh|]. apply ap_x_lt; assumption. Qed.

Lemma ap_odd_lt : forall h c, h < 2 ^ 32 -> is_byte c -> ap_odd h c < 2 ^ 32.
Proof.
  intros h c Hh Hc. apply lxor_lt; [exact Hh|]. unfold not32.
  apply lxor_lt; [apply ap_x_lt; assumption|]. vm_compute; reflexivity.
Qed.

Definition apst (s : N * N) (c : N) : N * N :=
  let '(h, i) := s in
  ((if N.land i 1 =? 0 then ap_even h c else ap_odd h c), a32 i 1).

Lemma land1 : forall i, N.land i 1 = i mod 2.
Proof. intros i. change 1 with (N.ones 1). rewrite N.land_ones. reflexivity. Qed.

Lemma apst_spec : forall data h i, is_bytes data -> h < 2 ^ 32 ->
  i + lenN data < 2 ^ 32 ->
  fst (fold_left apst data (h, i)) = ap_hash (i mod 2 =? 0) h data.
Proof.
  induction data as [|c data IH]; intros h i Hd Hh Hi; [reflexivity|].
  inversion Hd as [|x y Hc Hd']; subst. cbn [length] in Hi.
  cbn [fold_left ap_hash]. unfold apst at 2. rewrite land1.
  assert (Ei : a32 i 1 = i + 1) by (unfold a32; apply w32_small; lia).
  rewrite Ei.
  assert (Em : negb (i mod 2 =? 0) = ((i + 1) mod 2 =? 0)).
  { assert (i mod 2 < 2) by (apply N.mod_lt; lia).
    rewrite (N.add_mod i 1 2) by lia. change (1 mod 2) with 1.
    assert (D : i mod 2 = 0 \/ i mod 2 = 1) by lia.
    destruct D as [-> | ->]; reflexivity. }
  rewrite Em.
  destruct (i mod 2 =? 0).
  - rewrite IH by (auto using ap_even_lt; lia). f_equal.
    unfold ap_even, shl32. rewrite N.shiftl_mul_pow2, N.shiftr_div_pow2. reflexivity.
  - rewrite IH by (auto using ap_odd_lt; lia). f_equal.
    unfold ap_odd. rewrite not32_sub by (apply ap_x_lt; assumption).
    unfold shl32. rewrite N.shiftl_mul_pow2, N.shiftr_div_pow2. reflexivity.
Qed.

Lemma ap_hash_app : forall w e h data, length w = 4%nat ->
  ap_hash e h (w ++ data) = ap_hash e (ap_hash e h w) data.
Proof.
  intros w e h data H.
  destruct w as [|a [|b [|c [|d [|? ?]]]]]; try discriminate.
  cbn [ap_hash app]. rewrite !negb_involutive. reflexivity.
Qed.

Definition ap4 (h : N) (w : list N) : N :=
  ap_odd (ap_even (ap_odd (ap_even h (nth 0 w 0)) (nth 1 w 0)) (nth 2 w 0)) (nth 3 w 0).

Lemma ap4_eq : forall h w, length w = 4%nat -> is_bytes w -> h < 2 ^ 32 ->
  ap4 h w = ap_hash true h w /\ ap4 h w < 2 ^ 32.
Proof.
  intros h w Hl Hw Hh.
  pose proof (apst_spec w h 0 Hw Hh) as E.
  destruct w as [|a [|b [|c [|d [|? ?]]]]]; try discriminate.
  split.
  - change (0 mod 2 =? 0) with true in E. rewrite <- E by (cbn; lia). reflexivity.
  - inversion Hw as [|? ? Ha Hw1]; inversion Hw1 as [|? ? Hb Hw2];
      inversion Hw2 as [|? ? Hc Hw3]; inversion Hw3 as [|? ? Hdd ?]; subst.
    unfold ap4. cbn [nth].
    repeat first [apply ap_odd_lt | apply ap_even_lt | assumption].
Qed.

Lemma ap_chunks : forall cs h tail, Forall (fun c => length c = 4%nat) cs ->
  is_bytes (concat cs) -> h < 2 ^ 32 ->
  ap_hash true h (concat cs ++ tail) = ap_hash true (fold_left ap4 cs h) tail /\
  fold_left ap4 cs h < 2 ^ 32.
Proof.
  induction cs as [|c cs IH]; intros h tail F B Hh; cbn [concat fold_left].
  - split; [reflexivity|exact Hh].
  - inversion F as [|? ? Hc F']; subst. cbn [concat] in B. apply bytes_app in B.
    destruct B as [Bc B]. destruct (ap4_eq h c Hc Bc Hh) as [E1 E2].
    rewrite <- app_assoc, ap_hash_app, <- E1 by exact Hc.
    apply IH; assumption.
Qed.

Lemma AP_correct : forall data, is_bytes data -> lenN data < 2 ^ 64 ->
  APHash data 0 (lenN data) = Ok (ap_hash true 0 data).
Proof.
  intros data H L. unfold APHash.
  destruct (chunks_exist 4 data ltac:(lia)) as (cs & tail & E & F & T).
  change (wsub (two64 - 1) 3) with (wsub (two64 - 1) (2 ^ 2 - 1)).
  rewrite (align_limit 2 4 data cs tail) by (auto; lia).
  change (@pair N N 0 0) with (lenN (@nil N), 0).
  rewrite (while_chunks N ap4 _ _ 4 (lenN (concat cs)) data)
    with (cs := cs) (post := tail); [|lia| | | |exact E|exact F|cbn [length]; lia| ].
  - cbn [rbind fst snd].
    rewrite (while_bytes (N * N) apst _ _ (lenN data) data)
      with (l := tail) (pre := concat cs) (post := []).
    + cbn [rbind snd].
      pose proof H as H'. rewrite E in H'. apply bytes_app in H'. destruct H' as [Hc Ht].
      destruct (ap_chunks cs 0 tail F Hc ltac:(vm_compute; reflexivity)) as [E1 E2].
      rewrite apst_spec by (auto; lia).
      rewrite E, E1. reflexivity.
    + intros pre c post [h i] E'.
      rewrite (ld0' data _ pre [c] post 1) by (auto; lia).
      cbn [rbind]. rewrite le_one. reflexivity.
    + intros. cbn [fst]. lia.
    + intros. cbn [fst]. lia.
    + rewrite app_nil_r. exact E.
    + rewrite E at 1. rewrite app_length. lia.
    + rewrite E, app_length. lia.
  - intros pre w post h E' Hw. cbn [fst snd].
    destruct w as [|a [|b [|c [|d [|? ?]]]]]; try discriminate.
    rewrite !N.add_0_l.
    rewrite (ld0' data (lenN pre) pre [a] ([b; c; d] ++ post) 1) by auto.
    rewrite (ld0' data _ (pre ++ [a]) [b] ([c; d] ++ post) 1)
      by (auto; rewrite ?app_length; cbn [length]; try lia;
          rewrite E', <- !app_assoc; reflexivity).
    rewrite (ld0' data _ (pre ++ [a; b]) [c] ([d] ++ post) 1)
      by (auto; rewrite ?app_length; cbn [length]; try lia;
          rewrite E', <- !app_assoc; reflexivity).
    rewrite (ld0' data _ (pre ++ [a; b; c]) [d] post 1)
      by (auto; rewrite ?app_length; cbn [length]; try lia;
          rewrite E', <- !app_assoc; reflexivity).
    cbn [rbind]. rewrite !le_one. reflexivity.
  - intros. cbn [fst]. lia.
  - intros. cbn [fst]. lia.
  - rewrite E, app_length, (concat_length 4) by exact F. lia.
Qed.
