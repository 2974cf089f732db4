(** Changing one byte of the data changes the hash. *)
From Coq Require Import Arith NArith ZArith List Bool Lia.
From Coq Require Import ZifyBool ZifyNat ZifyN.
From Verif Require Import Base BitsModel Crc32Model HashModel HashSpec HashFacts HashData
  HashData2 HashCrc HashPrimary.
Import ListNotations.
Open Scope N_scope.

(** ** Injective steps *)
Lemma fold_pres : forall (X W : Type) (P : X -> Prop) (Q : W -> Prop) (g : X -> W -> X),
  (forall h w, P h -> Q w -> P (g h w)) ->
  forall l h, Forall Q l -> P h -> P (fold_left g l h).
Proof.
  intros X W P Q g Hg l h H. revert h. induction H as [|w l Hw H IH]; intros h Hh;
    cbn [fold_left]; [exact Hh|]. apply IH, Hg; assumption.
Qed.

Lemma fold_inj : forall (X W : Type) (P : X -> Prop) (Q : W -> Prop) (g : X -> W -> X),
  (forall h w, P h -> Q w -> P (g h w)) ->
  (forall h h' w, P h -> P h' -> Q w -> g h w = g h' w -> h = h') ->
  forall l h h', Forall Q l -> P h -> P h' -> fold_left g l h = fold_left g l h' -> h = h'.
Proof.
  intros X W P Q g Hg Hi l h h' H. revert h h'.
  induction H as [|w l Hw H IH]; intros h h' Hh Hh' E; cbn [fold_left] in E; [exact E|].
  apply IH in E; auto. apply Hi in E; auto.
Qed.

Lemma fold_sens : forall (X W : Type) (P : X -> Prop) (Q : W -> Prop) (g : X -> W -> X),
  (forall h w, P h -> Q w -> P (g h w)) ->
  (forall h h' w, P h -> P h' -> Q w -> g h w = g h' w -> h = h') ->
  (forall h w w', P h -> Q w -> Q w' -> g h w = g h w' -> w = w') ->
  forall a w w' b h, Forall Q (a ++ w :: b) -> Q w' -> P h -> w <> w' ->
  fold_left g (a ++ w :: b) h <> fold_left g (a ++ w' :: b) h.
Proof.
  intros X W P Q g Hg Hi Hw a w w' b h F Q' Hh Ne E.
  apply Forall_app in F. destruct F as [Fa F]. inversion F as [|? ? Qw Fb]; subst.
  rewrite !fold_left_app in E. cbn [fold_left] in E.
  assert (Pa : P (fold_left g a h)) by (eapply fold_pres; eauto).
  apply (fold_inj X W P Q g Hg Hi) in E; auto.
  apply Hw in E; auto.
Qed.

(** Multiplication by an odd constant. *)
Lemma mul_inj : forall M m m' x y, M <> 0 -> (m * m') mod M = 1 mod M -> x < M -> y < M ->
  (x * m) mod M = (y * m) mod M -> x = y.
Proof.
  intros M m m' x y HM Hm Hx Hy E.
  assert (R : forall z, z < M -> (((z * m) mod M) * m') mod M = z).
  { intros z Hz. rewrite N.mul_mod_idemp_l by exact HM.
    rewrite <- N.mul_assoc. rewrite <- N.mul_mod_idemp_r, Hm, N.mul_mod_idemp_r by exact HM.
    rewrite N.mul_1_r. apply N.mod_small, Hz. }
  rewrite <- (R x Hx), <- (R y Hy), E. reflexivity.
Qed.

Lemma add_inj : forall M x y c, x < M -> y < M -> (x + c) mod M = (y + c) mod M -> x = y.
Proof.
  intros M x y c Hx Hy E.
  assert (HM : M <> 0) by lia.
  assert (R : forall z, z < M -> ((z + c) mod M + (M - c mod M)) mod M = z).
  { intros z Hz. rewrite N.add_mod_idemp_l by exact HM.
    assert (c mod M < M) by (apply N.mod_lt; exact HM).
    rewrite (N.div_mod c M) at 1 by exact HM.
    replace (z + (M * (c / M) + c mod M) + (M - c mod M)) with (z + (c / M + 1) * M) by nia.
    rewrite N.mod_add by exact HM. apply N.mod_small, Hz. }
  rewrite <- (R x Hx), <- (R y Hy), E. reflexivity.
Qed.

(** x ^ (x >> k) *)
Lemma xorshift_inj : forall n k x y, 0 < k -> x < 2 ^ n -> y < 2 ^ n ->
  N.lxor x (N.shiftr x k) = N.lxor y (N.shiftr y k) -> x = y.
Proof.
  intros n k x y Hk Hx Hy E.
  assert (H : forall d i, n <= i + d -> N.testbit x i = N.testbit y i).
  { induction d as [|d IH] using N.peano_ind; intros i Hi.
    - rewrite (proj1 (lt_pow2_bits n x) Hx), (proj1 (lt_pow2_bits n y) Hy) by lia.
      reflexivity.
    - assert (B : N.testbit (N.lxor x (N.shiftr x k)) i =
                  N.testbit (N.lxor y (N.shiftr y k)) i) by (rewrite E; reflexivity).
      rewrite !N.lxor_spec, !N.shiftr_spec in B by lia.
      rewrite (IH (i + k)) in B by lia.
      destruct (N.testbit x i), (N.testbit y i), (N.testbit y (i + k));
        cbn in B; congruence. }
  apply N.bits_inj. intro i. apply (H n). lia.
Qed.

Lemma lxor_inj_l : forall a x y, N.lxor a x = N.lxor a y -> x = y.
Proof.
  intros a x y E. rewrite <- (N.lxor_0_l x), <- (N.lxor_0_l y), <- (N.lxor_nilpotent a).
  rewrite !N.lxor_assoc, E. reflexivity.
Qed.

Lemma lxor_inj_r : forall a x y, N.lxor x a = N.lxor y a -> x = y.
Proof.
  intros a x y E. apply (lxor_inj_l a). rewrite !(N.lxor_comm a). exact E.
Qed.

(** ** Bytewise hashes *)
Lemma horner_sens : forall seed seed' start pre c c' post,
  (seed * seed') mod 2 ^ 32 = 1 -> start < 2 ^ 32 ->
  is_bytes (pre ++ c :: post) -> is_byte c' -> c <> c' ->
  horner seed start (pre ++ c :: post) <> horner seed start (pre ++ c' :: post).
Proof.
  intros seed seed' start pre c c' post Hs Hst HB Hc Ne.
  unfold horner.
  apply (fold_sens N N (fun h => h < 2 ^ 32) is_byte); auto.
  - intros. apply N.mod_lt. vm_compute; discriminate.
  - intros h h' w Hh Hh' Hw E.
    rewrite <- (N.add_mod_idemp_l (h * seed)), <- (N.add_mod_idemp_l (h' * seed)) in E
      by (vm_compute; discriminate).
    apply add_inj in E; try (apply N.mod_lt; vm_compute; discriminate).
    apply (mul_inj (2 ^ 32) seed seed') in E; auto. vm_compute; discriminate.
  - intros h w w' Hh Hw Hw' E.
    rewrite (N.add_comm _ w), (N.add_comm _ w') in E.
    apply add_inj in E; auto using byte_lt32.
Qed.

(** One bit of the CRC is invertible. *)
Lemma crc32c_bit_inj : forall x y, x < 2 ^ 32 -> y < 2 ^ 32 ->
  crc32c_bit x = crc32c_bit y -> x = y.
Proof.
  intros x y Hx Hy E. unfold crc32c_bit in E.
  assert (Bx : x / 2 < 2 ^ 31) by (apply N.div_lt_upper_bound; lia).
  assert (By : y / 2 < 2 ^ 31) by (apply N.div_lt_upper_bound; lia).
  assert (Tx : N.testbit (x / 2) 31 = false) by (apply (proj1 (lt_pow2_bits 31 _) Bx); lia).
  assert (Ty : N.testbit (y / 2) 31 = false) by (apply (proj1 (lt_pow2_bits 31 _) By); lia).
  assert (Dx := N.div_mod x 2 ltac:(lia)). assert (Dy := N.div_mod y 2 ltac:(lia)).
  assert (Ox := N.bit0_mod x). assert (Oy := N.bit0_mod y).
  destruct (N.testbit x 0) eqn:Zx, (N.testbit y 0) eqn:Zy; cbn [N.b2n] in Ox, Oy.
  - apply lxor_inj_r in E. lia.
  - exfalso. assert (B : N.testbit (N.lxor (x / 2) 2197175160) 31 = N.testbit (y / 2) 31)
      by (rewrite E; reflexivity).
    rewrite N.lxor_spec, Tx, Ty in B. vm_compute in B. discriminate.
  - exfalso. assert (B : N.testbit (x / 2) 31 = N.testbit (N.lxor (y / 2) 2197175160) 31)
      by (rewrite E; reflexivity).
    rewrite N.lxor_spec, Tx, Ty in B. vm_compute in B. discriminate.
  - lia.
Qed.

Lemma crc32c_iter_inj : forall n x y, x < 2 ^ 32 -> y < 2 ^ 32 ->
  Nat.iter n crc32c_bit x = Nat.iter n crc32c_bit y -> x = y.
Proof.
  assert (L : forall n x, x < 2 ^ 32 -> Nat.iter n crc32c_bit x < 2 ^ 32).
  { induction n as [|n IH]; intros x Hx; [exact Hx|].
    change (crc32c_bit (Nat.iter n crc32c_bit x) < 2 ^ 32).
    apply crc32c_bit_lt, IH, Hx. }
  induction n as [|n IH]; intros x y Hx Hy E; [exact E|].
  change (crc32c_bit (Nat.iter n crc32c_bit x) = crc32c_bit (Nat.iter n crc32c_bit y)) in E.
  apply crc32c_bit_inj in E; auto.
Qed.

Lemma crc32c_byte_inj : forall h h' b, h < 2 ^ 32 -> h' < 2 ^ 32 -> is_byte b ->
  crc32c_byte h b = crc32c_byte h' b -> h = h'.
Proof.
  intros h h' b Hh Hh' Hb E. apply crc32c_iter_inj in E.
  - apply lxor_inj_r in E. exact E.
  - apply lxor_lt; auto using byte_lt32.
  - apply lxor_lt; auto using byte_lt32.
Qed.

Lemma crc32c_byte_inj_b : forall h b b', h < 2 ^ 32 -> is_byte b -> is_byte b' ->
  crc32c_byte h b = crc32c_byte h b' -> b = b'.
Proof.
  intros h b b' Hh Hb Hb' E. apply crc32c_iter_inj in E.
  - apply lxor_inj_l in E. exact E.
  - apply lxor_lt; auto using byte_lt32.
  - apply lxor_lt; auto using byte_lt32.
Qed.

Lemma crc_sens : forall start pre c c' post, start < 2 ^ 32 ->
  is_bytes (pre ++ c :: post) -> is_byte c' -> c <> c' ->
  fold_left crc32c_byte (pre ++ c :: post) start <>
  fold_left crc32c_byte (pre ++ c' :: post) start.
Proof.
  intros start pre c c' post Hs HB Hc Ne.
  apply (fold_sens N N (fun h => h < 2 ^ 32) is_byte);
    eauto using crc32c_byte_lt, crc32c_byte_inj, crc32c_byte_inj_b.
Qed.

(** ** APHash: linear maps over bits *)
Lemma linear_id : forall (F : N -> N) n,
  (forall x y, F (N.lxor x y) = N.lxor (F x) (F y)) ->
  (forall i, (i < n)%nat -> F (2 ^ N.of_nat i) = 2 ^ N.of_nat i) ->
  forall x, x < 2 ^ N.of_nat n -> F x = x.
Proof.
  intros F n HL. induction n as [|n IH]; intros HB x Hx.
  - change (2 ^ N.of_nat 0) with 1 in Hx. assert (x = 0) by lia. subst.
    specialize (HL 0 0). rewrite N.lxor_nilpotent in HL. rewrite N.lxor_nilpotent in HL.
    exact HL.
  - assert (HB' : forall i, (i < n)%nat -> F (2 ^ N.of_nat i) = 2 ^ N.of_nat i)
      by (intros; apply HB; lia).
    destruct (N.lt_ge_cases x (2 ^ N.of_nat n)) as [Hlt|Hge]; [auto|].
    replace (N.of_nat (S n)) with (N.succ (N.of_nat n)) in Hx by lia.
    rewrite N.pow_succ_r in Hx by lia.
    set (y := N.lxor (2 ^ N.of_nat n) x).
    assert (Hy : y < 2 ^ N.of_nat n).
    { apply lt_pow2_bits. intros i Hi. unfold y. rewrite N.lxor_spec.
      destruct (N.eq_dec i (N.of_nat n)) as [->|Ne].
      - rewrite N.pow2_bits_true.
        replace (N.testbit x (N.of_nat n)) with true; [reflexivity|].
        symmetry. apply N.testbit_true.
        replace (x / 2 ^ N.of_nat n) with 1; [reflexivity|].
        apply (N.div_unique x (2 ^ N.of_nat n) 1 (x - 2 ^ N.of_nat n)); lia.
      - rewrite N.pow2_bits_false by auto.
        replace (N.testbit x i) with false; [reflexivity|]. symmetry.
        apply (proj1 (lt_pow2_bits (N.succ (N.of_nat n)) x)); [|lia].
        rewrite N.pow_succ_r by lia. exact Hx. }
    assert (E : x = N.lxor (2 ^ N.of_nat n) y).
    { unfold y. rewrite <- N.lxor_assoc, N.lxor_nilpotent, N.lxor_0_l. reflexivity. }
    rewrite E, HL, HB, IH by (auto; lia). reflexivity.
Qed.

Fixpoint mat_apply (cols : list N) (y : N) : N :=
  match cols with
  | [] => 0
  | c :: r => N.lxor (if N.testbit y 0 then c else 0) (mat_apply r (N.div2 y))
  end.

Lemma mat_linear : forall cols x y,
  mat_apply cols (N.lxor x y) = N.lxor (mat_apply cols x) (mat_apply cols y).
Proof.
  induction cols as [|c cols IH]; intros x y; cbn [mat_apply]; [reflexivity|].
  replace (N.div2 (N.lxor x y)) with (N.lxor (N.div2 x) (N.div2 y)).
  - rewrite IH, N.lxor_spec.
    set (a := mat_apply cols (N.div2 x)). set (b := mat_apply cols (N.div2 y)).
    apply N.bits_inj. intro i. rewrite !N.lxor_spec.
    destruct (N.testbit x 0), (N.testbit y 0); cbn [xorb];
      rewrite ?N.bits_0; destruct (N.testbit a i), (N.testbit b i), (N.testbit c i); reflexivity.
  - rewrite !N.div2_spec. symmetry. apply N.shiftr_lxor.
Qed.

Definition ap_lin (k r h : N) : N := N.lxor h (N.lxor (shl32 h k) (N.shiftr h r)).

Lemma ap_lin_linear : forall k r x y,
  ap_lin k r (N.lxor x y) = N.lxor (ap_lin k r x) (ap_lin k r y).
Proof.
  intros k r x y. unfold ap_lin, shl32, w32, two32.
  rewrite N.shiftr_lxor, N.shiftl_lxor.
  apply N.bits_inj. intro i. rewrite !N.lxor_spec.
  destruct (N.lt_ge_cases i 32) as [Hi|Hi].
  - rewrite !N.mod_pow2_bits_low, !N.lxor_spec by exact Hi.
    destruct (N.testbit x i), (N.testbit y i), (N.testbit (N.shiftl x k) i),
      (N.testbit (N.shiftl y k) i), (N.testbit (N.shiftr x r) i),
      (N.testbit (N.shiftr y r) i); reflexivity.
  - rewrite !N.mod_pow2_bits_high by exact Hi.
    destruct (N.testbit x i), (N.testbit y i), (N.testbit (N.shiftr x r) i),
      (N.testbit (N.shiftr y r) i); reflexivity.
Qed.

Definition ap_inv_even : list N :=
  [3484201544; 3041386059; 1083246157; 1317977810; 2635955620; 3750294491; 2500812141;
   3484201545; 3041386057; 1083246153; 2166492306; 677028863; 2669278646; 3682722815;
   1387384685; 1791962258; 3583924516; 1317976795; 2635953590; 3750290431; 1520684909;
   2062232722; 4124465444; 236894939; 473789878; 4158019876; 169786075; 339572150;
   3889584420; 706656987; 1413313974; 1742100772].
Definition ap_inv_odd : list N :=
  [4252979861; 4248787668; 4257172054; 4240403282; 4273940826; 4206865738; 264370175;
   3808214379; 1061672893; 2213608943; 4250883765; 4252979860; 4248787670; 4257172050;
   4240403290; 4273940810; 130088959; 4076776811; 524548029; 3287858671; 2102384309;
   132186111; 4072582507; 532936637; 3271081455; 2135938741; 65077247; 4206800235;
   264501181; 3807952367; 1062196917; 2212560895].

Definition basis_ok (cols : list N) (k r : N) : bool :=
  forallb (fun i => mat_apply cols (ap_lin k r (2 ^ N.of_nat i)) =? 2 ^ N.of_nat i)
          (seq 0 32).

Lemma ap_lin_inv : forall cols k r, basis_ok cols k r = true ->
  forall x, x < 2 ^ 32 -> mat_apply cols (ap_lin k r x) = x.
Proof.
  intros cols k r H x Hx.
  apply (linear_id (fun x => mat_apply cols (ap_lin k r x)) 32).
  - intros. rewrite ap_lin_linear, mat_linear. reflexivity.
  - intros i Hi. unfold basis_ok in H. rewrite forallb_forall in H.
    specialize (H i). rewrite N.eqb_eq in H. apply H. apply in_seq. lia.
  - exact Hx.
Qed.

Lemma ap_lin_inj : forall cols k r, basis_ok cols k r = true ->
  forall x y, x < 2 ^ 32 -> y < 2 ^ 32 -> ap_lin k r x = ap_lin k r y -> x = y.
Proof.
  intros cols k r H x y Hx Hy E.
  rewrite <- (ap_lin_inv cols k r H x Hx), <- (ap_lin_inv cols k r H y Hy), E. reflexivity.
Qed.

Lemma ap_even_lin : forall h c, ap_even h c = N.lxor (ap_lin 7 3 h) c.
Proof.
  intros. unfold ap_even, ap_lin. rewrite !N.lxor_assoc. f_equal. f_equal. apply N.lxor_comm.
Qed.

Lemma ap_odd_lin : forall h c,
  ap_odd h c = N.lxor (N.lxor (ap_lin 11 5 h) 4294967295) c.
Proof.
  intros. unfold ap_odd, ap_lin, not32. rewrite !N.lxor_assoc. f_equal. f_equal.
  rewrite <- !N.lxor_assoc, (N.lxor_comm c), !N.lxor_assoc. f_equal. apply N.lxor_comm.
Qed.

(** A step of AP on (hash, parity). *)
Definition apb (s : N * bool) (c : N) : N * bool :=
  let '(h, e) := s in ((if e then ap_even h c else ap_odd h c), negb e).

Lemma ap_hash_apb : forall data e h, is_bytes data -> h < 2 ^ 32 ->
  ap_hash e h data = fst (fold_left apb data (h, e)).
Proof.
  induction data as [|c data IH]; intros e h Hd Hh; [reflexivity|].
  inversion Hd as [|? ? Hc Hd']; subst. cbn [ap_hash fold_left]. unfold apb at 2.
  rewrite <- IH.
  - f_equal. destruct e.
    + unfold ap_even, shl32. rewrite N.shiftl_mul_pow2, N.shiftr_div_pow2. reflexivity.
    + unfold ap_odd. rewrite not32_sub by (apply ap_x_lt; assumption).
      unfold shl32. rewrite N.shiftl_mul_pow2, N.shiftr_div_pow2. reflexivity.
  - exact Hd'.
  - destruct e; auto using ap_even_lt, ap_odd_lt.
Qed.

Lemma apb_snd : forall data e h h',
  length data = length data -> snd (fold_left apb data (h, e)) = snd (fold_left apb data (h', e)).
Proof.
  induction data as [|c data IH]; intros e h h' _; [reflexivity|].
  cbn [fold_left]. unfold apb at 2 4. apply IH. reflexivity.
Qed.

Lemma ap_sens : forall pre c c' post,
  is_bytes (pre ++ c :: post) -> is_byte c' -> c <> c' ->
  ap_hash true 0 (pre ++ c :: post) <> ap_hash true 0 (pre ++ c' :: post).
Proof.
  intros pre c c' post HB Hc Ne E.
  assert (HB' : is_bytes (pre ++ c' :: post)).
  { apply bytes_app in HB. destruct HB as [H1 H2]. inversion H2; subst.
    apply bytes_app. split; [exact H1|]. constructor; assumption. }
  rewrite !ap_hash_apb in E by (auto; vm_compute; reflexivity).
  assert (E2 : snd (fold_left apb (pre ++ c :: post) (0, true)) =
               snd (fold_left apb (pre ++ c' :: post) (0, true))).
  { rewrite !fold_left_app. cbn [fold_left].
    destruct (fold_left apb pre (0, true)) as [h e]. unfold apb at 2 4.
    apply apb_snd. reflexivity. }
  assert (E3 : fold_left apb (pre ++ c :: post) (0, true) =
               fold_left apb (pre ++ c' :: post) (0, true)).
  { destruct (fold_left apb (pre ++ c :: post) (0, true)),
             (fold_left apb (pre ++ c' :: post) (0, true)). cbn in *. congruence. }
  revert E3.
  apply (fold_sens (N * bool) N (fun s => fst s < 2 ^ 32) is_byte);
    [ | | |exact HB|exact Hc|reflexivity|exact Ne].
  - intros [h e] w Hh Hw. cbn [fst apb] in *. destruct e; auto using ap_even_lt, ap_odd_lt.
  - intros [h e] [h' e'] w Hh Hh' Hw Eq. cbn [fst apb] in *.
    assert (E1 : negb e = negb e') by congruence.
    assert (e = e') by (destruct e, e'; cbn in E1; congruence). subst e'. f_equal.
    destruct e.
    + assert (E4 : ap_even h w = ap_even h' w) by congruence.
      rewrite !ap_even_lin in E4. apply lxor_inj_r in E4.
      apply (ap_lin_inj ap_inv_even 7 3) in E4; auto.
    + assert (E4 : ap_odd h w = ap_odd h' w) by congruence.
      rewrite !ap_odd_lin in E4. apply lxor_inj_r, lxor_inj_r in E4.
      apply (ap_lin_inj ap_inv_odd 11 5) in E4; auto.
  - intros [h e] w w' Hh Hw Hw' Eq. cbn [fst apb] in *. destruct e.
    + assert (E4 : ap_even h w = ap_even h w') by congruence.
      rewrite !ap_even_lin in E4. apply lxor_inj_l in E4. exact E4.
    + assert (E4 : ap_odd h w = ap_odd h w') by congruence.
      rewrite !ap_odd_lin in E4. apply lxor_inj_l in E4. exact E4.
Qed.
