(** sha1.h: loads, byte order, the loop of sha1_x86, and sha1_msg2. *)
From Coq Require Import Arith NArith ZArith List Bool Lia.
From Coq Require Import ZifyBool ZifyNat ZifyN.
From Verif Require Import Base HashModel HashSpec HashFacts HashData HashData2 HashCrc HashSens
  HashSens2 FnvFacts Sha1Spec Sha1Model Sha1Facts.
Import ListNotations.
Open Scope N_scope.

(** ** Lanes *)
Definition lanes_ok (x : x4) : Prop := l3 x < 2 ^ 32 /\ l2 x < 2 ^ 32 /\ l1 x < 2 ^ 32 /\ l0 x < 2 ^ 32.

Lemma div_mod_step : forall a x, a < 2 ^ 32 ->
  (a + 2 ^ 32 * x) / 2 ^ 32 = x /\ (a + 2 ^ 32 * x) mod 2 ^ 32 = a.
Proof.
  intros a x H. rewrite (N.mul_comm (2 ^ 32)). split.
  - rewrite N.div_add by (vm_compute; discriminate). rewrite N.div_small by exact H. reflexivity.
  - rewrite N.mod_add by (vm_compute; discriminate). apply N.mod_small. exact H.
Qed.

Lemma lane_rec : forall a x i, a < 2 ^ 32 ->
  lane32 (a + 2 ^ 32 * x) 0 = a /\ lane32 (a + 2 ^ 32 * x) (i + 1) = lane32 x i.
Proof.
  intros a x i H. destruct (div_mod_step a x H) as [D M]. unfold lane32. split.
  - change (2 ^ (32 * 0)) with 1. rewrite N.div_1_r. exact M.
  - replace (32 * (i + 1)) with (32 + 32 * i) by lia. rewrite N.pow_add_r.
    rewrite <- N.div_div; [rewrite D; reflexivity|vm_compute; discriminate|].
    apply N.pow_nonzero. discriminate.
Qed.


Lemma x4_of_lanes : forall a b c d, a < 2 ^ 32 -> b < 2 ^ 32 -> c < 2 ^ 32 -> d < 2 ^ 32 ->
  x4_of (d + 2 ^ 32 * (c + 2 ^ 32 * (b + 2 ^ 32 * a))) = X4 a b c d.
Proof.
  intros a b c d Ha Hb Hc Hd. unfold x4_of.
  set (x1 := b + 2 ^ 32 * a). set (x2 := c + 2 ^ 32 * x1).
  destruct (lane_rec d x2 0 Hd) as [D0 _]. rewrite D0.
  rewrite (proj2 (lane_rec d x2 2 Hd) : lane32 (d + 2 ^ 32 * x2) 3 = _).
  rewrite (proj2 (lane_rec d x2 1 Hd) : lane32 (d + 2 ^ 32 * x2) 2 = _).
  rewrite (proj2 (lane_rec d x2 0 Hd) : lane32 (d + 2 ^ 32 * x2) 1 = _).
  unfold x2. rewrite (proj1 (lane_rec c x1 0 Hc)).
  rewrite (proj2 (lane_rec c x1 1 Hc) : lane32 (c + 2 ^ 32 * x1) 2 = _).
  rewrite (proj2 (lane_rec c x1 0 Hc) : lane32 (c + 2 ^ 32 * x1) 1 = _).
  unfold x1. rewrite (proj1 (lane_rec b a 0 Hb)).
  rewrite (proj2 (lane_rec b a 0 Hb) : lane32 (b + 2 ^ 32 * a) 1 = _).
  f_equal. unfold lane32. change (2 ^ (32 * 0)) with 1. rewrite N.div_1_r.
  apply N.mod_small. exact Ha.
Qed.

Lemma byte_at_le : forall w i, is_bytes w -> byte_at (le w) (N.of_nat i) = nth i w 0.
Proof.
  induction w as [|b w IH]; intros i B.
  - unfold byte_at. cbn [le]. destruct i; cbn [nth]; rewrite N.div_0_l;
      try reflexivity; apply N.pow_nonzero; discriminate.
  - inversion B as [|? ? Hb Hw]; subst. cbn [le]. unfold is_byte in Hb.
    assert (D : (b + 256 * le w) / 256 = le w).
    { rewrite (N.mul_comm 256), N.div_add by discriminate. rewrite N.div_small by exact Hb.
      apply N.add_0_l. }
    destruct i as [|i]; cbn [nth].
    + unfold byte_at. change (2 ^ (8 * N.of_nat 0)) with 1. rewrite N.div_1_r.
      rewrite (N.mul_comm 256), N.mod_add by discriminate. apply N.mod_small. exact Hb.
    + rewrite <- (IH i Hw). unfold byte_at.
      replace (8 * N.of_nat (S i)) with (8 + 8 * N.of_nat i) by lia.
      rewrite N.pow_add_r. change (2 ^ 8) with 256.
      rewrite <- N.div_div by (try discriminate; apply N.pow_nonzero; discriminate).
      rewrite D. reflexivity.
Qed.

Lemma le_split4 : forall a b c d, length a = 4%nat -> length b = 4%nat -> length c = 4%nat ->
  le (a ++ b ++ c ++ d) = le a + 2 ^ 32 * (le b + 2 ^ 32 * (le c + 2 ^ 32 * le d)).
Proof.
  intros a b c d Ha Hb Hc. rewrite !le_app, Ha, Hb, Hc.
  change (2 ^ (8 * N.of_nat 4)) with (2 ^ 32). reflexivity.
Qed.

Lemma le4_lt : forall w, is_bytes w -> length w = 4%nat -> le w < 2 ^ 32.
Proof. intros w B E. apply le_lt32; [exact B|lia]. Qed.

Lemma x4_load : forall a b c d, is_bytes a -> is_bytes b -> is_bytes c -> is_bytes d ->
  length a = 4%nat -> length b = 4%nat -> length c = 4%nat -> length d = 4%nat ->
  x4_of (le (a ++ b ++ c ++ d)) = X4 (le d) (le c) (le b) (le a).
Proof.
  intros. rewrite le_split4 by assumption. apply x4_of_lanes; apply le4_lt; assumption.
Qed.

Lemma be_le : forall w, be_word w = le (rev w).
Proof.
  intros w. rewrite <- (rev_involutive w) at 1. unfold be_word. rewrite <- fold_left_rev_right.
  rewrite rev_involutive. induction (rev w) as [|b r IH]; [reflexivity|].
  cbn [fold_right le]. rewrite IH. apply N.add_comm.
Qed.

(** Reversal of all bytes: the words are read big-endian, the first to the highest lane. *)
Lemma shuffle_load : forall w, is_bytes w -> length w = 16%nat ->
  shuffle_epi8 (x4_of (le w)) MASK =
  X4 (be_word (firstn 4 w)) (be_word (firstn 4 (skipn 4 w)))
     (be_word (firstn 4 (skipn 8 w))) (be_word (firstn 4 (skipn 12 w))).
Proof.
  intros w B E.
  assert (T : x4_to (x4_of (le w)) = le w).
  { do 16 (destruct w as [|? w]; [discriminate|]). destruct w; [|discriminate].
    match goal with |- context [le [?a;?b;?c;?d;?e;?f;?g;?h;?i;?j;?k;?l;?m;?n;?o;?p]] =>
      change (le [a;b;c;d;e;f;g;h;i;j;k;l;m;n;o;p])
        with (le ([a;b;c;d] ++ [e;f;g;h] ++ [i;j;k;l] ++ [m;n;o;p])) end.
    repeat match goal with H : is_bytes (_ :: _) |- _ => inversion H; subst; clear H
      | H : Forall is_byte (_ :: _) |- _ => inversion H; subst; clear H end.
    rewrite x4_load by (try reflexivity; repeat constructor; assumption).
    rewrite le_split4 by reflexivity. reflexivity. }
  unfold shuffle_epi8. rewrite T.
  replace (map (fun i => byte_at (le w) (byte_at MASK (N.of_nat i))) (seq 0 16)) with (rev w).
  - do 16 (destruct w as [|? w]; [discriminate|]). destruct w; [|discriminate]. clear T.
    cbn [rev app firstn skipn].
    match goal with |- context [le [?a;?b;?c;?d;?e;?f;?g;?h;?i;?j;?k;?l;?m;?n;?o;?p]] =>
      change (le [a;b;c;d;e;f;g;h;i;j;k;l;m;n;o;p])
        with (le ([a;b;c;d] ++ [e;f;g;h] ++ [i;j;k;l] ++ [m;n;o;p])) end.
    repeat match goal with H : is_bytes (_ :: _) |- _ => inversion H; subst; clear H
      | H : Forall is_byte (_ :: _) |- _ => inversion H; subst; clear H end.
    rewrite x4_load by (try reflexivity; repeat constructor; assumption).
    rewrite !be_le. reflexivity.
  - transitivity (map (fun i => byte_at (le w) (N.of_nat (15 - i))) (seq 0 16)).
    + transitivity (map (fun i => nth (15 - i) w 0) (seq 0 16)).
      * do 16 (destruct w as [|? w]; [discriminate|]). destruct w; [|discriminate]. reflexivity.
      * apply map_ext. intros i. symmetry. apply byte_at_le, B.
    + apply map_ext_in. intros i Hi. f_equal. apply in_seq in Hi.
      do 16 (destruct i as [|i]; [vm_compute; reflexivity|]). lia.
Qed.

(** ** Loads *)
Lemma le_zero : forall l, Forall (fun x => x = 0) l -> le l = 0.
Proof. intros l F. induction F as [|x l -> F IH]; [reflexivity|]. cbn [le]. rewrite IH. reflexivity. Qed.

Lemma zero_skipn : forall n k, Forall (fun x => x = 0) (skipn n (repeat 0 k)).
Proof.
  intros n k. apply Forall_forall. intros x Hx. apply (repeat_spec k 0).
  rewrite <- (firstn_skipn n (repeat 0 k)). apply in_or_app. right. exact Hx.
Qed.

Lemma zero_firstn : forall n l, Forall (fun x => x = 0) l -> Forall (fun x => x = 0) (firstn n l).
Proof.
  intros n l F. rewrite <- (firstn_skipn n l) in F. apply Forall_app in F. apply F.
Qed.

Lemma load_part_ok : forall mem q rem k z r, r = skipn (N.to_nat q) mem -> rem = lenN r ->
  0 < rem ->
  load_part mem q rem k =
  Ok (x4_of (le (firstn 16 (skipn (N.to_nat (16 * k)) (r ++ repeat 0 z))))).
Proof.
  intros mem q rem k z r Hr Hrem Hpos.
  assert (Lr : length r = (length mem - N.to_nat q)%nat) by (subst r; apply skipn_length).
  unfold load_part. rewrite skipn_app.
  destruct (N.leb_spec rem (16 * k)) as [H|H].
  - rewrite (skipn_all2 r) by lia. cbn [app].
    rewrite le_zero by apply zero_firstn, zero_skipn. reflexivity.
  - replace (N.to_nat (16 * k) - length r)%nat with 0%nat by lia. cbn [skipn].
    assert (K : skipn (N.to_nat (16 * k)) r = skipn (N.to_nat (q + 16 * k)) mem).
    { subst r. rewrite skipn_skipn'. f_equal. lia. }
    destruct (N.ltb_spec rem (16 * k + 16)) as [H'|H'].
    + replace (ld (N.to_nat (rem - 16 * k)) mem (q + 16 * k)) with
        (ld (N.to_nat (rem - 16 * k)) mem (N.of_nat (N.to_nat (q + 16 * k)))) by (f_equal; lia).
      rewrite ld_skipn by lia. cbn [rbind]. rewrite <- K.
      rewrite firstn_app, !firstn_all2 by (rewrite skipn_length; lia).
      rewrite le_app, (le_zero (firstn _ (repeat 0 z))) by
        (apply zero_firstn; apply (zero_skipn 0)).
      rewrite N.mul_0_r, N.add_0_r. reflexivity.
    + replace (ld 16 mem (q + 16 * k)) with (ld 16 mem (N.of_nat (N.to_nat (q + 16 * k))))
        by (f_equal; lia).
      rewrite ld_skipn by lia. cbn [rbind]. rewrite <- K.
      rewrite firstn_app, skipn_length.
      replace (16 - (length r - N.to_nat (16 * k)))%nat with 0%nat by lia.
      rewrite firstn_O, app_nil_r. reflexivity.
Qed.

Lemma firstn_skipn_in : forall (B : list N) i j n m, (i + j + n <= m)%nat ->
  firstn n (skipn i (skipn j (firstn m B))) = firstn n (skipn (i + j) B).
Proof.
  intros B i j n m H. rewrite skipn_skipn', firstn_skipn_comm, firstn_firstn.
  rewrite Nat.min_l by lia. rewrite <- firstn_skipn_comm. f_equal. f_equal. lia.
Qed.

Lemma block_shuffle : forall B k, is_bytes B -> (16 * k + 16 <= 64)%nat -> (64 <= length B)%nat ->
  shuffle_epi8 (x4_of (le (firstn 16 (skipn (16 * k) B)))) MASK = Mg (firstn 64 B) k.
Proof.
  intros B k HB Hk HL.
  rewrite shuffle_load;
    [|apply bytes_firstn, bytes_skipn, HB|rewrite firstn_length, skipn_length; lia].
  unfold Mg. rewrite !W_first by lia.
  assert (G : forall j, (j + 4 <= 16)%nat ->
    firstn 4 (skipn j (firstn 16 (skipn (16 * k) B))) =
    firstn 4 (skipn (16 * k + j) (firstn 64 B))).
  { intros j Hj. rewrite (firstn_skipn_comm 16), skipn_skipn'.
    rewrite !firstn_skipn_comm, !firstn_firstn. rewrite !Nat.min_l by lia.
    f_equal. }
  change (firstn 4 (firstn 16 (skipn (16 * k) B)))
    with (firstn 4 (skipn 0 (firstn 16 (skipn (16 * k) B)))).
  rewrite !G by lia. f_equal; f_equal; f_equal; f_equal; lia.
Qed.

Lemma W_small : forall B t, is_bytes B -> (t < 16)%nat -> W B t < 2 ^ 32.
Proof.
  intros B t HB Ht. rewrite W_first by exact Ht. rewrite be_le. apply le_lt32.
  - apply Forall_rev. apply bytes_firstn, bytes_skipn, HB.
  - rewrite rev_length, firstn_length. lia.
Qed.

Definition holds (s : regs) (h : N * N * N * N * N) : Prop :=
  vABCD s = abcd h /\ vE0 s = X4 (ee h) 0 0 0.

Lemma body_block : forall mem q rem z r s h, r = skipn (N.to_nat q) mem -> rem = lenN r ->
  0 < rem -> is_bytes mem -> (64 <= length r + z)%nat -> holds s h ->
  exists s', exec_all mem q rem sha_body s = Ok s' /\
    holds s' (compress h (firstn 64 (r ++ repeat 0 z))).
Proof.
  intros mem q rem z r s h Hr Hrem Hpos HB Hz [HA HE].
  destruct s as [a o1 e o2 o3 o4 o5 o6 o7]. cbn [vABCD vE0] in HA, HE. subst a e.
  set (B := r ++ repeat 0 z).
  assert (BB : is_bytes B).
  { unfold B. apply bytes_app. split; [subst r; apply bytes_skipn, HB|].
    apply Forall_forall. intros x Hx. apply repeat_spec in Hx. subst x. vm_compute. reflexivity. }
  assert (LB : (64 <= length B)%nat) by (unfold B; rewrite app_length, repeat_length; exact Hz).
  pose proof (fun k => load_part_ok mem q rem k z r Hr Hrem Hpos) as LP. fold B in LP.
  destruct (body_run (Ag h (firstn 64 B)) (Mg (firstn 64 B)) mem q rem _ _ _ _ (X4 (ee h) 0 0 0)
              o1 o2 o3 o4 o5 o6 o7 (LP 0) (LP 1) (LP 2) (LP 3)) as (s' & E & E1 & E2).
  - change (N.to_nat (16 * 0)) with (16 * 0)%nat. apply block_shuffle; auto; lia.
  - change (N.to_nat (16 * 1)) with (16 * 1)%nat. apply block_shuffle; auto; lia.
  - change (N.to_nat (16 * 2)) with (16 * 2)%nat. apply block_shuffle; auto; lia.
  - change (N.to_nat (16 * 3)) with (16 * 3)%nat. apply block_shuffle; auto; lia.
  - apply group_first; [reflexivity|]. intros t Ht. apply W_small; [apply bytes_firstn, BB|lia].
  - intros g i Hg Hi. apply group_rounds; assumption.
  - intros g Hg. apply group_words; assumption.
  - exists s'. split; [exact E|].
    unfold holds. rewrite E1, E2.
    assert (X : sha1nexte (Ag h (firstn 64 B) 19) (X4 (ee h) 0 0 0) =
                X4 (w32 (ee h + ee (st h (firstn 64 B) 80))) 0 0 0).
    { unfold sha1nexte. cbn [l3 l2 l1 l0]. change 80%nat with (4 * 20)%nat.
      rewrite group_e by lia. rewrite rol_ROTL. reflexivity. }
    rewrite X. unfold Ag. change (4 * 20)%nat with 80%nat. change (4 * 0)%nat with 0%nat.
    unfold compress. rewrite <- st_80.
    replace (st h (firstn 64 B) 0) with h by reflexivity.
    destruct (st h (firstn 64 B) 80) as [[[[a b] c] d] e].
    destruct h as [[[[h0 h1] h2] h3] h4]. cbn [abcd ee].
    split; [reflexivity|]. f_equal. rewrite N.add_comm. reflexivity.
Qed.

Lemma compress_blocks_app : forall n h data, compress_blocks (S n) h data =
  compress_blocks n (compress h (firstn 64 data)) (skipn 64 data).
Proof. reflexivity. Qed.

Lemma sha_loop_ok : forall fuel mem q rem z r s h n, r = skipn (N.to_nat q) mem -> rem = lenN r ->
  is_bytes mem -> (z < 64)%nat -> (length r + z = 64 * n)%nat -> (length r = 0 -> z = 0)%nat ->
  (n <= fuel)%nat -> holds s h ->
  exists s', sha_loop fuel mem q rem s = Ok s' /\
    holds s' (compress_blocks n h (r ++ repeat 0 z)).
Proof.
  induction fuel as [|fuel IH]; intros mem q rem z r s h n Hr Hrem HB Hz Hn H0 Hf Hs.
  - assert (n = 0)%nat by lia. subst n. cbn [sha_loop].
    replace (rem =? 0) with true by lia. exists s. split; [reflexivity|exact Hs].
  - cbn [sha_loop]. destruct (N.eqb_spec rem 0) as [Z|Z].
    + assert (n = 0)%nat by lia. subst n. exists s. split; [reflexivity|exact Hs].
    + destruct n as [|n]; [lia|].
      destruct (body_block mem q rem z r s h Hr Hrem ltac:(lia) HB ltac:(lia) Hs) as (s' & E & Hs').
      rewrite E. cbn [rbind]. rewrite compress_blocks_app.
      assert (Sk : skipn 64 r = skipn (N.to_nat (q + 64)) mem)
        by (subst r; rewrite skipn_skipn'; f_equal; lia).
      destruct (Nat.le_gt_cases 64 (length r)) as [H|H].
      * destruct (IH mem (q + 64) (rem - 64) z (skipn 64 r) s' _ n Sk
                    ltac:(rewrite skipn_length; lia) HB Hz
                    ltac:(rewrite skipn_length; lia) ltac:(rewrite skipn_length; lia) ltac:(lia) Hs')
          as (s'' & E' & Hs'').
        exists s''. split; [exact E'|].
        rewrite (skipn_app 64 r). replace (64 - length r)%nat with 0%nat by lia. exact Hs''.
      * assert (n = 0)%nat by lia. subst n.
        destruct (IH mem (q + 64) (rem - 64) 0%nat (skipn 64 r) s' _ 0%nat Sk
                    ltac:(rewrite skipn_length; lia) HB ltac:(lia)
                    ltac:(rewrite skipn_length; lia) ltac:(rewrite skipn_length; lia) ltac:(lia) Hs')
          as (s'' & E' & Hs'').
        exists s''. split; [exact E'|exact Hs''].
Qed.

Lemma sha1_x86_correct : forall x64 h data, is_bytes data -> lenN data < 2 ^ 63 ->
  sha1_x86 x64 h data 0 (lenN data) =
  Ok (let '(a, b, _, _, _) := compress_blocks (length (zero_pad 64 data) / 64) h (zero_pad 64 data) in
      if x64 then N.lxor b a else a).
Proof.
  intros x64 h data HB HL.
  assert (P : exists n z, zero_pad 64 data = data ++ repeat 0 z /\ (z < 64)%nat /\
             (length data + z = 64 * n)%nat /\ (length data = 0 -> z = 0)%nat).
  { pose proof (Nat.div_mod (length data) 64 ltac:(lia)) as D.
    pose proof (Nat.mod_upper_bound (length data) 64 ltac:(lia)) as M.
    unfold zero_pad. set (m := (length data mod 64)%nat) in *.
    destruct (Nat.eq_dec m 0) as [E|E].
    - exists (length data / 64)%nat, 0%nat. rewrite E.
      split; [reflexivity|]. lia.
    - exists (S (length data / 64)), (64 - m)%nat.
      rewrite (Nat.mod_small (64 - m)) by lia. split; [reflexivity|]. lia. }
  destruct P as (n & z & Pz & Hz & Hn & H0). rewrite Pz.
  rewrite app_length, repeat_length, Hn, Nat.mul_comm, Nat.div_mul by lia.
  destruct h as [[[[h0 h1] h2] h3] h4]. unfold sha1_x86.
  set (s0 := Regs (shuffle_epi32 (X4 h3 h2 h1 h0) 27) setzero (X4 h4 0 0 0) setzero setzero setzero
               setzero setzero setzero).
  destruct (sha_loop_ok (S (N.to_nat (lenN data / 64))) data 0 (lenN data) z data s0
              (h0, h1, h2, h3, h4) n eq_refl eq_refl HB Hz Hn H0) as (s & E & HA & HE).
  - assert (lenN data < 64 * (lenN data / 64 + 1)).
    { pose proof (N.div_mod (lenN data) 64 ltac:(lia)). pose proof (N.mod_lt (lenN data) 64 ltac:(lia)).
      lia. }
    lia.
  - split; reflexivity.
  - rewrite E. cbn [rbind]. rewrite HA.
    destruct (compress_blocks n (h0, h1, h2, h3, h4) (data ++ repeat 0 z)) as [[[[a b] c] d] e].
    cbn [abcd]. reflexivity.
Qed.
