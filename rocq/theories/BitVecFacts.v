(** Facts about BitVecModel.v. *)
From Coq Require Import NArith ZArith List Bool Lia.
From Coq Require Import ZifyBool ZifyNat ZifyN.
From Verif Require Import BitVecModel.
Import ListNotations.
Open Scope N_scope.

Ltac Zify.zify_post_hook ::= Z.div_mod_to_equations.

(** A vector of [n] bytes. *)
Definition is_vec (n : nat) (v : list N) : Prop := length v = n /\ Forall (fun b => b < 256) v.

(** ** Numbers and their bytes *)

Lemma le_list_length w x : length (le_list w x) = w.
Proof. revert x. induction w; cbn; auto. Qed.

Lemma le_list_bytes w x : Forall (fun b => b < 256) (le_list w x).
Proof. revert x. induction w; cbn; constructor; auto. apply N.mod_lt. lia. Qed.

Lemma pow256_S w : 256 ^ N.of_nat (S w) = 256 * 256 ^ N.of_nat w.
Proof. rewrite Nat2N.inj_succ, N.pow_succ_r'. reflexivity. Qed.

Lemma le_num_list w x : le_num (le_list w x) = x mod 256 ^ N.of_nat w.
Proof.
  revert x. induction w as [|w IH]; intros x.
  - cbn. symmetry. apply N.mod_1_r.
  - change (le_list (S w) x) with (x mod 256 :: le_list w (x / 256)).
    change (le_num (x mod 256 :: le_list w (x / 256))) with (x mod 256 + 256 * le_num (le_list w (x / 256))).
    rewrite IH, pow256_S.
    rewrite N.mod_mul_r by (try lia; apply N.pow_nonzero; lia). reflexivity.
Qed.

Lemma le_num_bound l : Forall (fun b => b < 256) l -> le_num l < 256 ^ N.of_nat (length l).
Proof.
  induction 1 as [|b l Hb _ IH].
  - cbn. lia.
  - cbn [length]. rewrite pow256_S. change (le_num (b :: l)) with (b + 256 * le_num l).
    set (p := 256 ^ N.of_nat (length l)) in *. lia.
Qed.

Lemma le_num_app a b : le_num (a ++ b) = le_num a + 256 ^ N.of_nat (length a) * le_num b.
Proof.
  induction a as [|x a IH].
  - cbn [app length le_num]. change (256 ^ N.of_nat 0) with 1. lia.
  - cbn [app length]. rewrite pow256_S. change (le_num (x :: a ++ b)) with (x + 256 * le_num (a ++ b)).
    change (le_num (x :: a)) with (x + 256 * le_num a). rewrite IH. lia.
Qed.

(** ** Lanes *)

Lemma firstn_exact {A} (a b : list A) n : length a = n -> firstn n (a ++ b) = a.
Proof. intros <-. rewrite firstn_app, Nat.sub_diag, firstn_O, app_nil_r. apply firstn_all. Qed.

Lemma skipn_exact {A} (a b : list A) n : length a = n -> skipn n (a ++ b) = b.
Proof. intros <-. rewrite skipn_app, Nat.sub_diag, skipn_O, skipn_all. reflexivity. Qed.

Lemma skipn_skipn {A} n m (l : list A) : skipn n (skipn m l) = skipn (n + m) l.
Proof.
  revert l. induction m as [|m IH]; intros l.
  - now rewrite Nat.add_0_r, skipn_O.
  - destruct l; [now rewrite !skipn_nil|]. rewrite Nat.add_succ_r. cbn [skipn]. apply IH.
Qed.

Lemma with_lane_length w i x v : (w * i + w <= length v)%nat -> length (with_lane w i x v) = length v.
Proof.
  intros H. unfold with_lane. rewrite !app_length, le_list_length, firstn_length, skipn_length. lia.
Qed.

Lemma with_lane_bytes w i x v : Forall (fun b => b < 256) v -> Forall (fun b => b < 256) (with_lane w i x v).
Proof.
  intros H. unfold with_lane. rewrite <- (firstn_skipn (w * i) v) in H at 1.
  apply Forall_app in H. destruct H as [H1 H2]. apply Forall_app. split; auto.
  apply Forall_app. split; [apply le_list_bytes|].
  replace (w * i + w)%nat with (w + w * i)%nat by lia. rewrite <- skipn_skipn.
  rewrite <- (firstn_skipn w (skipn (w * i) v)) in H2. apply Forall_app in H2. apply H2.
Qed.

Lemma lane_with_lane w i j x v : (0 < w)%nat -> (w * i + w <= length v)%nat -> (w * j + w <= length v)%nat ->
  lane w j (with_lane w i x v) = if Nat.eqb j i then x mod 256 ^ N.of_nat w else lane w j v.
Proof.
  intros Hw Hi Hj. unfold lane, with_lane.
  assert (HF : length (firstn (w * i) v) = (w * i)%nat) by (rewrite firstn_length; lia).
  destruct (Nat.eqb_spec j i) as [->|D].
  - rewrite (skipn_exact _ _ _ HF), (firstn_exact _ _ _ (le_list_length w x)). apply le_num_list.
  - f_equal. destruct (Nat.lt_ge_cases j i) as [L|G].
    + assert (w * j + w <= w * i)%nat by nia.
      rewrite skipn_app, firstn_app.
      replace (w - length (skipn (w * j) (firstn (w * i) v)))%nat with 0%nat
        by (rewrite skipn_length; lia).
      rewrite firstn_O, app_nil_r, skipn_firstn_comm, firstn_firstn.
      f_equal. lia.
    + assert (w * i + w <= w * j)%nat by nia.
      rewrite app_assoc, skipn_app, skipn_all2 by (rewrite app_length, le_list_length; lia).
      rewrite app_length, le_list_length, HF, app_nil_l, skipn_skipn. f_equal. f_equal. lia.
Qed.

(** ** All vectors of 32 bytes *)

Ltac split_list v :=
  repeat match goal with
         | H : length v = S _ |- _ => let b := fresh "b" in destruct v as [|b v]; [discriminate H|]; cbn [length] in H; apply Nat.succ_inj in H
         | H : length v = O |- _ => destruct v; [|discriminate H]; clear H
         end.

(** Cases of an index below a number. *)
Lemma below {P : nat -> Prop} n : Forall P (seq 0 n) -> forall i, (i < n)%nat -> P i.
Proof. intros H i Hi. rewrite Forall_forall in H. apply H. apply in_seq. lia. Qed.

Ltac all_below :=
  cbn [seq]; repeat (apply Forall_cons; [|]); try apply Forall_nil.

Lemma extract16_spec i v : (i < 16)%nat -> length v = 32%nat -> extract16 i v = lane 2 i v.
Proof.
  intros Hi Hv. split_list v. revert i Hi. apply below. all_below; reflexivity.
Qed.

Lemma extract32_spec i v : (i < 8)%nat -> length v = 32%nat -> extract32 i v = lane 4 i v.
Proof. intros Hi Hv. split_list v. revert i Hi. apply below. all_below; reflexivity. Qed.

Lemma extract64_spec i v : (i < 4)%nat -> length v = 32%nat -> extract64 i v = lane 8 i v.
Proof. intros Hi Hv. split_list v. revert i Hi. apply below. all_below; reflexivity. Qed.

Lemma insert16_is avx2 junk i v x : (i < 16)%nat -> length v = 32%nat -> length junk = 16%nat ->
  insert16 avx2 junk i v x = with_lane 2 i x v.
Proof.
  intros Hi Hv Hj. split_list v. split_list junk. revert i Hi. apply below. destruct avx2; all_below; reflexivity.
Qed.

Lemma insert16_gcc_is i v x : (i < 16)%nat -> length v = 32%nat -> insert16_gcc i v x = with_lane 2 i x v.
Proof. intros Hi Hv. split_list v. revert i Hi. apply below. all_below; reflexivity. Qed.

Lemma insert32_is avx2 junk i v x : (i < 8)%nat -> length v = 32%nat -> length junk = 16%nat ->
  avx2 = false \/ Nat.even i = true -> insert32 avx2 junk i v x = with_lane 4 i x v.
Proof.
  intros Hi Hv Hj HE. split_list v. split_list junk.
  revert i Hi HE. apply (below (P := fun i => avx2 = false \/ Nat.even i = true -> _ = _)).
  destruct avx2; all_below; intros [HE|HE]; try discriminate HE; reflexivity.
Qed.

Lemma insert32_odd junk i v x : (i < 8)%nat -> length v = 32%nat -> length junk = 16%nat ->
  Nat.even i = false -> insert32 true junk i v x = with_lane 4 i 0 v.
Proof.
  intros Hi Hv Hj. split_list v. split_list junk.
  revert i Hi. apply (below (P := fun i => Nat.even i = false -> _ = _)).
  all_below; intros HE; try discriminate HE; reflexivity.
Qed.

Lemma insert64_is avx2 junk i v x : (i < 4)%nat -> length v = 32%nat -> length junk = 16%nat ->
  insert64 avx2 junk i v x = with_lane 8 i x v.
Proof.
  intros Hi Hv Hj. split_list v. split_list junk. revert i Hi. apply below. destruct avx2; all_below; reflexivity.
Qed.

(** ** The statements *)

(** [v'] is [v] with the [i]-th word of [w] bytes replaced by [x]. *)
Definition replaced (w i : nat) (x : N) (v v' : list N) : Prop :=
  is_vec 32 v' /\ forall j, (w * j + w <= 32)%nat ->
  lane w j v' = if Nat.eqb j i then x mod 2 ^ (8 * N.of_nat w) else lane w j v.

Lemma replaced_lane w i x v : is_vec 32 v -> (0 < w)%nat -> (w * i + w <= 32)%nat -> replaced w i x v (with_lane w i x v).
Proof.
  intros [HL HB] Hw Hi. split.
  - split; [rewrite with_lane_length; lia|now apply with_lane_bytes].
  - intros j Hj. rewrite lane_with_lane by lia.
    replace (256 ^ N.of_nat w) with (2 ^ (8 * N.of_nat w)); [reflexivity|].
    change 256 with (2 ^ 8). now rewrite <- N.pow_mul_r.
Qed.

Lemma insert16_replaced avx2 junk i v x : is_vec 32 v -> is_vec 16 junk -> (i < 16)%nat ->
  replaced 2 i x v (insert16 avx2 junk i v x) /\ replaced 2 i x v (insert16_gcc i v x).
Proof.
  intros Hv [Hj _] Hi. rewrite insert16_is, insert16_gcc_is by (auto; apply Hv).
  split; apply replaced_lane; auto; lia.
Qed.

Lemma insert64_replaced avx2 junk i v x : is_vec 32 v -> is_vec 16 junk -> (i < 4)%nat ->
  replaced 8 i x v (insert64 avx2 junk i v x).
Proof.
  intros Hv [Hj _] Hi. rewrite insert64_is by (auto; apply Hv). apply replaced_lane; auto; lia.
Qed.

Lemma insert32_replaced avx2 junk i v x : is_vec 32 v -> is_vec 16 junk -> (i < 8)%nat ->
  avx2 = false \/ Nat.even i = true -> replaced 4 i x v (insert32 avx2 junk i v x).
Proof.
  intros Hv [Hj _] Hi HE. rewrite insert32_is by (auto; apply Hv). apply replaced_lane; auto; lia.
Qed.

Lemma insert32_zero junk i v x : is_vec 32 v -> is_vec 16 junk -> (i < 8)%nat ->
  Nat.even i = false -> replaced 4 i 0 v (insert32 true junk i v x).
Proof.
  intros Hv [Hj _] Hi HE. rewrite insert32_odd by (auto; apply Hv). apply replaced_lane; auto; lia.
Qed.

Lemma extract_words v : is_vec 32 v ->
  (forall i, (i < 16)%nat -> extract16 i v = lane 2 i v)
  /\ (forall i, (i < 8)%nat -> extract32 i v = lane 4 i v)
  /\ (forall i, (i < 4)%nat -> extract64 i v = lane 8 i v).
Proof.
  intros [Hv _]. split; [|split]; intros i Hi.
  - now apply extract16_spec.
  - now apply extract32_spec.
  - now apply extract64_spec.
Qed.

Definition some_vec : list N := map N.of_nat (seq 100 32).
Definition some_junk : list N := repeat 7 16.

Lemma some_vec_ok : is_vec 32 some_vec /\ is_vec 16 some_junk.
Proof. split; (split; [reflexivity|]); repeat (constructor; [vm_compute; reflexivity|]); constructor. Qed.

Lemma insert32_wrong : exists junk i v x, is_vec 32 v /\ is_vec 16 junk /\ (i < 8)%nat /\ x < 2 ^ 32
  /\ ~ replaced 4 i x v (insert32 true junk i v x).
Proof.
  exists some_junk, 3%nat, some_vec, 5. destruct some_vec_ok as [A B].
  split; [exact A|]. split; [exact B|]. split; [lia|]. split; [reflexivity|].
  intros [_ R]. specialize (R 3%nat ltac:(lia)). vm_compute in R. discriminate R.
Qed.

(** ** Halves of the lowest word *)

Lemma low4 n v : is_vec n v -> (4 <= n)%nat ->
  exists a b, le_num (firstn 4 v) = a + 65536 * b /\ a < 65536 /\ b < 65536
    /\ lane 2 0 v = a /\ lane 2 1 v = b.
Proof.
  intros [HL HB] Hn. exists (lane 2 0 v), (lane 2 1 v).
  do 4 (destruct v as [|? v]; [cbn in HL; lia|]).
  inversion_clear HB as [|? ? H1 HB']. inversion_clear HB' as [|? ? H2 HB]. inversion_clear HB as [|? ? H3 HB'].
  inversion_clear HB' as [|? ? H4 HB]. unfold lane. cbn [firstn skipn Nat.mul Nat.add le_num]. lia.
Qed.

Lemma low_int_u32 n v : is_vec n v -> (4 <= n)%nat -> to_u32 (low_int v) = le_num (firstn 4 v).
Proof.
  intros Hv Hn. destruct (low4 n v Hv Hn) as (a & b & E & Ha & Hb & _). unfold to_u32, low_int. cbv zeta.
  rewrite E. change (2 ^ 31) with 2147483648. change (2 ^ 32)%Z with 4294967296%Z.
  destruct (N.ltb_spec (a + 65536 * b) 2147483648); lia.
Qed.

Lemma halves n v : is_vec n v -> (4 <= n)%nat ->
  low_half v = lane 2 0 v /\ high_half v = lane 2 1 v /\ low_half256 v = lane 2 0 v.
Proof.
  intros Hv Hn. destruct (low4 n v Hv Hn) as (a & b & E & Ha & Hb & Ea & Eb).
  unfold low_half, high_half, low_half256. rewrite (low_int_u32 n v Hv Hn), E, Ea, Eb.
  change 65535 with (N.ones 16). rewrite N.land_ones, N.shiftr_div_pow2. change (2 ^ 16) with 65536.
  replace ((a + 65536 * b) mod 65536) with a by lia. unfold to_u32. change (2 ^ 32)%Z with 4294967296%Z.
  split; [reflexivity|]. split; lia.
Qed.

Lemma high256 v : is_vec 32 v -> 
  high_half256 v = if lane 2 1 v <? 32768 then lane 2 1 v else 4294901760 + lane 2 1 v.
Proof.
  intros Hv. destruct (low4 32 v Hv ltac:(lia)) as (a & b & E & Ha & Hb & Ea & Eb).
  unfold high_half256, low_int, to_u32. cbv zeta. rewrite E, Eb.
  rewrite Z.shiftr_div_pow2 by lia. change (2 ^ 16)%Z with 65536%Z. change (2 ^ 32)%Z with 4294967296%Z.
  change (2 ^ 31) with 2147483648.
  destruct (N.ltb_spec (a + 65536 * b) 2147483648), (N.ltb_spec b 32768); lia.
Qed.

Lemma high256_wrong : exists v, is_vec 32 v /\ high_half256 v <> lane 2 1 v.
Proof.
  exists (repeat 255 32). split.
  - split; [reflexivity|]. repeat (constructor; [vm_compute; reflexivity|]). constructor.
  - vm_compute. discriminate.
Qed.

(** ** Repeated numbers *)

Lemma set1_lanes x :
  (forall j, (j < 4)%nat -> lane 4 j (set1_32 x) = x mod 2 ^ 32)
  /\ (forall j, (j < 2)%nat -> lane 8 j (set1_64 x) = x mod 2 ^ 64).
Proof.
  assert (A : forall j, (j < 4)%nat -> lane 4 j (set1_32 x) = le_num (le_list 4 x)).
  { apply below. all_below; reflexivity. }
  assert (B : forall j, (j < 2)%nat -> lane 8 j (set1_64 x) = le_num (le_list 8 x)).
  { apply below. all_below; reflexivity. }
  split; intros j Hj; [rewrite A by auto|rewrite B by auto]; rewrite le_num_list; reflexivity.
Qed.

(** ** Comparisons *)

Lemma subs_sign a b : a < 256 -> b < 256 ->
  cmpeq8 (N.land (subs a b) 128) 128 = if (sbyte a <? sbyte b)%Z then 255 else 0.
Proof.
  intros Ha Hb.
  assert (HB : forall x, x < 256 -> cmpeq8 (N.land x 128) 128 = if 128 <=? x then 255 else 0).
  { intros x Hx. assert (HA : Forall (fun x => cmpeq8 (N.land x 128) 128 = if 128 <=? x then 255 else 0)
      (map N.of_nat (seq 0 256))) by (vm_compute; repeat constructor).
    rewrite Forall_forall in HA. apply HA. apply in_map_iff. exists (N.to_nat x). split; [lia|].
    apply in_seq. lia. }
  assert (HU : subs a b < 256) by (unfold subs, ubyte; lia).
  rewrite HB by auto. destruct (N.leb_spec 128 (subs a b)) as [L|L], (Z.ltb_spec (sbyte a) (sbyte b)) as [G|G]; auto;
    exfalso; unfold subs, ubyte, sbyte in *; destruct (N.ltb_spec a 128), (N.ltb_spec b 128); lia.
Qed.

Lemma cmp_fixed_len f a b mask : length a = 16%nat -> length b = 16%nat -> length mask = 16%nat ->
  length (bytewise cmpeq8 (bytewise N.land (bytewise f a b) mask) mask) = 16%nat.
Proof.
  intros. unfold bytewise. repeat (rewrite ?map_length, ?combine_length). lia.
Qed.

Lemma cmp_fixed_nth n a b i x y : Forall (fun b => b < 256) a -> Forall (fun b => b < 256) b ->
  length a = n -> length b = n ->
  nth_error a i = Some x -> nth_error b i = Some y ->
  nth_error (bytewise cmpeq8 (bytewise N.land (bytewise subs a b) (repeat 128 n)) (repeat 128 n)) i
  = Some (if (sbyte x <? sbyte y)%Z then 255 else 0).
Proof.
  revert a b i. induction n as [|n IH]; intros a b i HA HB La Lb Hx Hy.
  - destruct a; [|discriminate]. destruct i; discriminate.
  - destruct a as [|a0 a]; [discriminate|]. destruct b as [|b0 b]; [discriminate|].
    inversion_clear HA. inversion_clear HB.
    destruct i as [|i]; cbn [nth_error] in Hx, Hy.
    + injection Hx as <-. injection Hy as <-. cbn [repeat bytewise combine map nth_error fst snd].
      f_equal. now apply subs_sign.
    + apply (IH a b i); auto.
Qed.

Lemma cmpgt_spec a b : is_vec 16 a -> is_vec 16 b ->
  length (cmpgt_fixed a b) = 16%nat /\ length (cmplt_fixed a b) = 16%nat
  /\ forall i x y, nth_error a i = Some x -> nth_error b i = Some y ->
     nth_error (cmpgt_fixed a b) i = Some (if (sbyte y <? sbyte x)%Z then 255 else 0)
     /\ nth_error (cmplt_fixed a b) i = Some (if (sbyte x <? sbyte y)%Z then 255 else 0).
Proof.
  intros [La Ha] [Lb Hb].
  split; [now apply cmp_fixed_len|]. split; [now apply cmp_fixed_len|].
  intros i x y Hx Hy. unfold cmpgt_fixed, cmplt_fixed. split; now apply cmp_fixed_nth.
Qed.

Lemma cmp_example :
  is_vec 16 (firstn 16 (skipn 16 some_vec)) /\ is_vec 16 some_junk
  /\ cmpgt_fixed (firstn 16 (skipn 16 some_vec)) some_junk = repeat 255 12 ++ repeat 0 4.
Proof.
  split; [|split; [apply some_vec_ok|vm_compute; reflexivity]].
  split; [reflexivity|]. vm_compute skipn. repeat (constructor; [reflexivity|]). constructor.
Qed.
