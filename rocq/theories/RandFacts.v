(** Facts about the model of the Mersenne Twister (RandModel.v). *)
From Coq Require Import NArith ZArith List Bool Lia.
From Coq Require Import ZifyBool ZifyNat ZifyN.
From Verif Require Import Base BaseFacts RandModel RandSpec.
Import ListNotations.
Open Scope N_scope.

(** ** Array access *)

Lemma rd_ok : forall st i, i < N.of_nat (length st) -> exists x, rd st i = Ok x /\ nth_error st (N.to_nat i) = Some x.
Proof.
  intros st i H. unfold rd, geti. destruct (nth_error st (N.to_nat i)) eqn:E; [eauto|].
  apply nth_error_None in E. lia.
Qed.

Lemma rd_out : forall st i, N.of_nat (length st) <= i -> rd st i = Err EUndef.
Proof.
  intros st i H. unfold rd, geti. destruct (nth_error st (N.to_nat i)) eqn:E; [|reflexivity].
  assert (nth_error st (N.to_nat i) <> None) as K by congruence. apply nth_error_Some in K. lia.
Qed.

Lemma rd_inv : forall st i r, rd st i = r -> (exists x, r = Ok x /\ i < N.of_nat (length st) /\ nth_error st (N.to_nat i) = Some x) \/ r = Err EUndef.
Proof.
  intros st i r H. unfold rd, geti in H. destruct (nth_error st (N.to_nat i)) eqn:E; [left|right; congruence].
  assert (nth_error st (N.to_nat i) <> None) as K by congruence. apply nth_error_Some in K.
  exists n. repeat split; [congruence|lia].
Qed.

Lemma upd_len : forall A (l : list A) n x, length (upd l n x) = length l.
Proof. induction l as [|a l IH]; intros [|n] x; cbn [upd length]; auto. Qed.

Lemma upd_nth : forall A (l : list A) n x k, (n < length l)%nat ->
  nth_error (upd l n x) k = if Nat.eqb k n then Some x else nth_error l k.
Proof.
  induction l as [|a l IH]; intros n x k H; cbn [length] in H; [lia|].
  destruct n as [|n]; destruct k as [|k]; cbn [upd nth_error]; try reflexivity.
  rewrite IH by lia. reflexivity.
Qed.

Lemma wr_ok : forall st i x, i < N.of_nat (length st) -> wr st i x = Ok (upd st (N.to_nat i) x).
Proof.
  intros st i x H. unfold wr, geti, seti. destruct (nth_error st (N.to_nat i)) eqn:E; [reflexivity|].
  apply nth_error_None in E. lia.
Qed.

Lemma wr_inv : forall st i x r, wr st i x = r -> (r = Ok (upd st (N.to_nat i) x) /\ i < N.of_nat (length st)) \/ r = Err EUndef.
Proof.
  intros st i x r H. unfold wr, geti, seti in H. destruct (nth_error st (N.to_nat i)) eqn:E; [left|right; congruence].
  assert (nth_error st (N.to_nat i) <> None) as K by congruence. apply nth_error_Some in K. split; [congruence|lia].
Qed.

(** ** next_state reads outside the array *)

Lemma twist_loop_len : forall p off cnt q st,
  twist_loop p off cnt q st = Err EUndef \/
  exists st', twist_loop p off cnt q st = Ok st' /\ length st' = length st.
Proof.
  induction cnt as [|cnt IH]; intros q st; cbn [twist_loop]; [right; eauto|].
  destruct (rd_inv st (q + off) _ eq_refl) as [(x & -> & _)| ->]; cbn [rbind]; [|left; reflexivity].
  destruct (rd_inv st q _ eq_refl) as [(a & -> & _)| ->]; cbn [rbind]; [|left; reflexivity].
  destruct (rd_inv st (q + 1) _ eq_refl) as [(b & -> & _)| ->]; cbn [rbind]; [|left; reflexivity].
  destruct (wr_inv st q (N.lxor x (twist p a b)) _ eq_refl) as [[-> _]| ->]; cbn [rbind]; [|left; reflexivity].
  destruct (IH (q + 1) (upd st (N.to_nat q) (N.lxor x (twist p a b)))) as [H|(st' & H & L)]; [left; exact H|].
  right. exists st'. split; [exact H|]. rewrite L. apply upd_len.
Qed.

Lemma next_state_undefined : forall p st, mt_m p < mt_n p -> N.of_nat (length st) = mt_n p ->
  next_state p st = Err EUndef.
Proof.
  intros p st M L. unfold next_state.
  destruct (twist_loop_len p (mt_m p) (N.to_nat (mt_n p - mt_m p)) 0 st) as [->|(st1 & -> & L1)]; cbn [rbind]; [reflexivity|].
  destruct (twist_loop_len p (mt_n p - mt_m p) (N.to_nat (mt_m p) - 1) (mt_n p - mt_m p) st1)
    as [->|(st2 & -> & L2)]; cbn [rbind]; [reflexivity|].
  rewrite rd_out by lia. reflexivity.
Qed.

Lemma init_from_length : forall p cnt j prev, length (init_from p cnt j prev) = cnt.
Proof. induction cnt as [|cnt IH]; intros j prev; cbn [init_from length]; [reflexivity|]. rewrite IH. reflexivity. Qed.

Lemma init_length : forall p now seed, 0 < mt_n p -> N.of_nat (length (init p now seed)) = mt_n p.
Proof. intros p now seed H. unfold init. cbn [length]. rewrite init_from_length. lia. Qed.

(** ** Words *)

Lemma land_lt : forall a b w, b < 2 ^ w -> N.land a b < 2 ^ w.
Proof.
  intros a b w H. destruct (N.eq_dec (N.land a b) 0) as [->|Z]; [apply N.neq_0_lt_0, N.pow_nonzero; discriminate|].
  apply N.log2_lt_pow2; [lia|]. destruct (N.eq_dec b 0) as [->|B]; [rewrite N.land_0_r in Z; lia|].
  eapply N.le_lt_trans; [apply N.log2_land|]. apply N.log2_lt_pow2 in H; lia.
Qed.

Lemma lxor_lt : forall a b w, a < 2 ^ w -> b < 2 ^ w -> N.lxor a b < 2 ^ w.
Proof.
  intros a b w A B. destruct (N.eq_dec (N.lxor a b) 0) as [->|Z]; [apply N.neq_0_lt_0, N.pow_nonzero; discriminate|].
  apply N.log2_lt_pow2; [lia|]. eapply N.le_lt_trans; [apply N.log2_lxor|].
  destruct (N.eq_dec a 0) as [->|A0].
  - rewrite N.lxor_0_l in Z. change (N.log2 0) with 0. rewrite N.max_0_l. apply N.log2_lt_pow2; [lia|exact B].
  - destruct (N.eq_dec b 0) as [->|B0].
    + change (N.log2 0) with 0. rewrite N.max_0_r. apply N.log2_lt_pow2; [lia|exact A].
    + apply N.max_lub_lt; apply N.log2_lt_pow2; lia.
Qed.

Lemma word_lt : forall p x, word p x < 2 ^ mt_w p.
Proof. intros. apply N.mod_lt, N.pow_nonzero. discriminate. Qed.

Lemma high_bit : forall y w i, y < 2 ^ w -> w <= i -> N.testbit y i = false.
Proof.
  intros y w i H L. destruct (N.eq_dec y 0) as [->|Z]; [apply N.bits_0|].
  apply N.bits_above_log2. apply N.log2_lt_pow2 in H; lia.
Qed.

(** ** init *)

Lemma init_from_seeded : forall T x cnt j, tw T = 32 -> tf T = 1812433253 ->
  (forall i, (S i < tn T)%nat ->
    x (S i) = (tf T * N.lxor (x i) (x i / 2 ^ (tw T - 2)) + N.of_nat (S i)) mod 2 ^ tw T) ->
  (j + cnt < tn T)%nat ->
  forall k, (k < cnt)%nat -> nth_error (init_from p32 cnt (N.of_nat (S j)) (x j)) k = Some (x (S j + k)%nat).
Proof.
  intros T x cnt. induction cnt as [|cnt IH]; intros j TW TF H L k K; [lia|].
  assert (word p32 (mt_f p32 * N.lxor (x j) (N.shiftr (x j) 30) + N.of_nat (S j)) = x (S j)) as E.
  { rewrite (H j) by lia. rewrite TW, TF, N.shiftr_div_pow2. reflexivity. }
  cbn [init_from]. rewrite E. destruct k as [|k]; [cbn [nth_error]; f_equal; f_equal; lia|].
  cbn [nth_error]. replace (N.of_nat (S j) + 1) with (N.of_nat (S (S j))) by lia.
  rewrite (IH (S j)) by (auto; lia). f_equal. f_equal. lia.
Qed.

Lemma init_seeded : forall now seed x, seed <> 0 -> seeded mt19937 seed x ->
  forall i, (i < 624)%nat -> nth_error (init p32 now seed) i = Some (x i).
Proof.
  intros now seed x Z [H0 H] i L. unfold init. rewrite (proj2 (N.eqb_neq seed 0) Z).
  assert (word p32 seed = x O) as E by (rewrite H0; reflexivity).
  rewrite E. destruct i as [|i]; [reflexivity|]. cbn [nth_error].
  change 1 with (N.of_nat (S 0)).
  replace (N.to_nat (mt_n p32) - 1)%nat with 623%nat by (vm_compute; reflexivity).
  rewrite (init_from_seeded mt19937 x 623 0); auto; cbn [tn mt19937]; lia.
Qed.

(** ** twist *)

Lemma bit_low : forall v r i, N.testbit (v mod 2 ^ r) i = (N.testbit v i && (i <? r))%bool.
Proof.
  intros. destruct (i <? r) eqn:E.
  - rewrite N.mod_pow2_bits_low by lia. rewrite andb_true_r. reflexivity.
  - rewrite N.mod_pow2_bits_high by lia. rewrite andb_false_r. reflexivity.
Qed.

Lemma bit_join : forall h l r i, l < 2 ^ r ->
  N.testbit (h * 2 ^ r + l) i = if i <? r then N.testbit l i else N.testbit h (i - r).
Proof.
  intros h l r i L. destruct (i <? r) eqn:E.
  - rewrite <- (N.mod_pow2_bits_low _ r) by lia.
    rewrite N.add_comm, N.mod_add by (apply N.pow_nonzero; discriminate). rewrite N.mod_small by exact L. reflexivity.
  - replace (N.testbit (h * 2 ^ r + l) i) with (N.testbit ((h * 2 ^ r + l) / 2 ^ r) (i - r)).
    + rewrite N.div_add_l by (apply N.pow_nonzero; discriminate). rewrite N.div_small by exact L.
      rewrite N.add_0_r. reflexivity.
    + rewrite N.div_pow2_bits. f_equal. lia.
Qed.

Lemma bit_top : forall w i, N.testbit (2 ^ w) i = (i =? w).
Proof. intros. rewrite N.pow2_bits_eqb. apply N.eqb_sym. Qed.

Lemma mix_joined : forall p r u v, mt_up p = 2 ^ r -> mt_low p = N.ones r -> u < 2 ^ (r + 1) ->
  mixbits p u v = (u / 2 ^ r) * 2 ^ r + v mod 2 ^ r.
Proof.
  intros p r u v HU HL U. apply N.bits_inj. intro i. unfold mixbits. rewrite HU, HL.
  rewrite N.lor_spec, !N.land_spec, bit_top.
  rewrite bit_join by (apply N.mod_lt, N.pow_nonzero; discriminate).
  rewrite bit_low. destruct (i <? r) eqn:E.
  - rewrite N.ones_spec_low by lia. replace (i =? r) with false by lia.
    rewrite andb_false_r, !andb_true_r. reflexivity.
  - rewrite N.ones_spec_high by lia. rewrite N.div_pow2_bits.
    replace (i - r + r) with i by lia. rewrite andb_false_r, orb_false_r.
    destruct (i =? r) eqn:E2; [apply andb_true_r|]. rewrite andb_false_r. symmetry.
    apply (high_bit u (r + 1)); [exact U|lia].
Qed.

Lemma odd_joined : forall r h v, 0 < r -> N.odd (h * 2 ^ r + v mod 2 ^ r) = negb (N.land v 1 =? 0).
Proof.
  intros r h v R. change 1 with (N.ones 1). rewrite N.land_ones. change (2 ^ 1) with 2.
  rewrite <- N.bit0_odd. rewrite bit_join by (apply N.mod_lt, N.pow_nonzero; discriminate).
  replace (0 <? r) with true by lia. rewrite bit_low. replace (0 <? r) with true by lia.
  rewrite andb_true_r. rewrite <- N.bit0_mod. destruct (N.testbit v 0); reflexivity.
Qed.

Lemma twist_twisted : forall u v, u < 2 ^ 32 -> twist p32 u v = twisted mt19937 u v.
Proof.
  intros u v U. unfold twist, twisted, joined. rewrite (mix_joined p32 31) by (reflexivity || exact U).
  change (tr mt19937) with 31. rewrite odd_joined by lia. rewrite N.shiftr_div_pow2. change (2 ^ 1) with 2.
  destruct (N.land v 1 =? 0); reflexivity.
Qed.

Lemma twisted_lt : forall u v, u < 2 ^ 32 -> twisted mt19937 u v < 2 ^ 32.
Proof.
  intros u v U. unfold twisted, joined. change (tr mt19937) with 31. apply lxor_lt.
  - assert (v mod 2 ^ 31 < 2 ^ 31) by (apply N.mod_lt; discriminate).
    assert (u / 2 ^ 31 < 2) by (apply N.div_lt_upper_bound; [discriminate|exact U]).
    apply N.div_lt_upper_bound; [discriminate|].
    remember (u / 2 ^ 31) as q. remember (v mod 2 ^ 31) as r. clear - H H0.
    change (2 ^ 31) with 2147483648 in *. change (2 ^ 32) with 4294967296. lia.
  - destruct (N.odd _); vm_compute; reflexivity.
Qed.

(** ** The first loop of next_state *)

Lemma loop1_words : forall x cnt q st, recurrence mt19937 x -> (forall i, x i < 2 ^ 32) ->
  (q + cnt <= 227)%nat -> length st = 624%nat ->
  (forall i, (i < q)%nat -> nth_error st i = Some (x (624 + i)%nat)) ->
  (forall i, (q <= i < 624)%nat -> nth_error st i = Some (x i)) ->
  exists st', twist_loop p32 397 cnt (N.of_nat q) st = Ok st' /\ length st' = 624%nat /\
    (forall i, (i < q + cnt)%nat -> nth_error st' i = Some (x (624 + i)%nat)) /\
    (forall i, (q + cnt <= i < 624)%nat -> nth_error st' i = Some (x i)).
Proof.
  induction cnt as [|cnt IH]; intros q st R W L LS H1 H2.
  - exists st. rewrite Nat.add_0_r. repeat split; auto.
  - cbn [twist_loop]. unfold rd, geti.
    replace (N.to_nat (N.of_nat q + 397)) with (q + 397)%nat by lia.
    replace (N.to_nat (N.of_nat q)) with q by lia. replace (N.to_nat (N.of_nat q + 1)) with (S q) by lia.
    rewrite (H2 (q + 397)%nat), (H2 q), (H2 (S q)) by lia. cbn [rbind].
    rewrite wr_ok by lia. cbn [rbind]. replace (N.to_nat (N.of_nat q)) with q by lia.
    rewrite twist_twisted by apply W.
    pose proof (R q) as E. change (tn mt19937) with 624%nat in E. change (tm mt19937) with 397%nat in E.
    rewrite <- E. replace (N.of_nat q + 1) with (N.of_nat (S q)) by lia.
    destruct (IH (S q) (upd st q (x (q + 624)%nat))) as (st' & A & B & C & D); auto; try lia.
    + rewrite upd_len. exact LS.
    + intros i I. rewrite upd_nth by lia. destruct (Nat.eqb_spec i q) as [->|NE]; [f_equal; f_equal; lia|].
      apply H1. lia.
    + intros i I. rewrite upd_nth by lia. destruct (Nat.eqb_spec i q) as [->|NE]; [lia|]. apply H2. lia.
    + exists st'. repeat split; auto; intros i I; [apply C|apply D]; lia.
Qed.

(** ** Tempering *)

Lemma right_step_inj : forall k d w y z, 0 < k -> y < 2 ^ w -> z < 2 ^ w ->
  N.lxor y (N.land (N.shiftr y k) d) = N.lxor z (N.land (N.shiftr z k) d) -> y = z.
Proof.
  intros k d w y z K Y Z E.
  assert (forall n i, w - N.of_nat n <= i -> N.testbit y i = N.testbit z i) as G.
  { induction n as [|n IH]; intros i I.
    - rewrite (high_bit y w), (high_bit z w) by (auto; lia). reflexivity.
    - assert (N.testbit (N.lxor y (N.land (N.shiftr y k) d)) i = N.testbit (N.lxor z (N.land (N.shiftr z k) d)) i) as B
        by (rewrite E; reflexivity).
      rewrite !N.lxor_spec, !N.land_spec, !N.shiftr_spec' in B.
      rewrite (IH (i + k)) in B by lia.
      destruct (N.testbit y i), (N.testbit z i), (N.testbit z (i + k) && N.testbit d i)%bool; cbn in B; congruence. }
  apply N.bits_inj. intro i. apply (G (N.to_nat w)). lia.
Qed.

Lemma left_step_inj : forall k b w y z, 0 < k -> y < 2 ^ w -> z < 2 ^ w ->
  N.lxor y (N.land (N.shiftl y k mod 2 ^ w) b) = N.lxor z (N.land (N.shiftl z k mod 2 ^ w) b) -> y = z.
Proof.
  intros k b w y z K Y Z E.
  assert (forall n i, i < N.of_nat n -> N.testbit y i = N.testbit z i) as G.
  { induction n as [|n IH]; intros i I; [lia|].
    assert (N.testbit (N.lxor y (N.land (N.shiftl y k mod 2 ^ w) b)) i
            = N.testbit (N.lxor z (N.land (N.shiftl z k mod 2 ^ w) b)) i) as B by (rewrite E; reflexivity).
    rewrite !N.lxor_spec, !N.land_spec, !bit_low in B.
    assert (N.testbit (N.shiftl y k) i = N.testbit (N.shiftl z k) i) as S.
    { destruct (N.lt_ge_cases i k) as [C|C]; [rewrite !N.shiftl_spec_low by exact C; reflexivity|].
      rewrite !N.shiftl_spec_high' by exact C. apply IH. lia. }
    rewrite S in B.
    destruct (N.testbit y i), (N.testbit z i), (N.testbit (N.shiftl z k) i && (i <? w) && N.testbit b i)%bool;
      cbn in B; congruence. }
  apply N.bits_inj. intro i. apply (G (S (N.to_nat i))). lia.
Qed.

Lemma shiftr_le : forall y k, N.shiftr y k <= y.
Proof. intros. rewrite N.shiftr_div_pow2. apply N.div_le_upper_bound; [apply N.pow_nonzero; discriminate|].
  assert (1 <= 2 ^ k) by (apply N.lt_pred_le; cbn; apply N.neq_0_lt_0, N.pow_nonzero; discriminate). nia. Qed.

Lemma right_step_lt : forall k d w y, y < 2 ^ w -> N.lxor y (N.land (N.shiftr y k) d) < 2 ^ w.
Proof.
  intros. apply lxor_lt; [assumption|]. rewrite N.land_comm. apply land_lt.
  eapply N.le_lt_trans; [apply shiftr_le|assumption].
Qed.

Lemma left_step_lt : forall k b w y, y < 2 ^ w -> N.lxor y (N.land (N.shiftl y k mod 2 ^ w) b) < 2 ^ w.
Proof.
  intros. apply lxor_lt; [assumption|]. rewrite N.land_comm. apply land_lt.
  apply N.mod_lt, N.pow_nonzero. discriminate.
Qed.

Lemma last_step : forall y k w, y < 2 ^ w -> N.lxor y (N.shiftr y k) = N.lxor y (N.land (N.shiftr y k) (N.ones w)).
Proof.
  intros y k w Y. f_equal. rewrite N.land_ones, N.mod_small; [reflexivity|].
  eapply N.le_lt_trans; [apply shiftr_le|exact Y].
Qed.

Definition shifts (p : mt) : Prop := 0 < mt_u p /\ 0 < mt_s p /\ 0 < mt_t p /\ 0 < mt_l p.

Lemma temper_inj : forall p y z, shifts p -> y < 2 ^ mt_w p -> z < 2 ^ mt_w p -> temper p y = temper p z -> y = z.
Proof.
  intros p y z (U & S & T & L) Y Z E. unfold temper, word in E. cbv zeta in E.
  pose proof (right_step_lt (mt_u p) (mt_d p) _ _ Y) as Y1. pose proof (right_step_lt (mt_u p) (mt_d p) _ _ Z) as Z1.
  pose proof (left_step_lt (mt_s p) (mt_b p) _ _ Y1) as Y2. pose proof (left_step_lt (mt_s p) (mt_b p) _ _ Z1) as Z2.
  pose proof (left_step_lt (mt_t p) (mt_c p) _ _ Y2) as Y3. pose proof (left_step_lt (mt_t p) (mt_c p) _ _ Z2) as Z3.
  rewrite (last_step _ _ _ Y3), (last_step _ _ _ Z3) in E.
  apply (right_step_inj _ _ _ _ _ L Y3 Z3) in E. apply (left_step_inj _ _ _ _ _ T Y2 Z2) in E.
  apply (left_step_inj _ _ _ _ _ S Y1 Z1) in E. exact (right_step_inj _ _ _ _ _ U Y Z E).
Qed.

Lemma temper_lt : forall p y, y < 2 ^ mt_w p -> temper p y < 2 ^ mt_w p.
Proof.
  intros p y Y. unfold temper, word. cbv zeta.
  pose proof (right_step_lt (mt_u p) (mt_d p) _ _ Y) as Y1.
  pose proof (left_step_lt (mt_s p) (mt_b p) _ _ Y1) as Y2.
  pose proof (left_step_lt (mt_t p) (mt_c p) _ _ Y2) as Y3.
  rewrite (last_step _ _ _ Y3). apply right_step_lt. exact Y3.
Qed.

(** An injective map of the words into themselves takes every word. *)
Lemma finite_onto : forall (f : N -> N) b, (forall y, y < b -> f y < b) ->
  (forall y z, y < b -> z < b -> f y = f z -> y = z) -> forall v, v < b -> exists y, y < b /\ f y = v.
Proof.
  intros f b R I v V. set (l := map N.of_nat (seq 0 (N.to_nat b))).
  assert (forall x, In x l <-> x < b) as M.
  { intro x. unfold l. rewrite in_map_iff. split.
    - intros (k & <- & K). apply in_seq in K. lia.
    - intro X. exists (N.to_nat x). split; [lia|]. apply in_seq. lia. }
  assert (NoDup l) as ND.
  { unfold l. apply FinFun.Injective_map_NoDup; [intros a c; lia|apply seq_NoDup]. }
  assert (forall k, NoDup k -> (forall x, In x k -> x < b) -> NoDup (map f k)) as NM.
  { induction k as [|a k IH]; intros N1 H; [constructor|]. inversion N1; subst. cbn [map]. constructor.
    - rewrite in_map_iff. intros (c & E & C). assert (c = a) by (apply I; [apply H; right; exact C|apply H; left; reflexivity|exact E]).
      congruence.
    - apply IH; [assumption|]. intros x X. apply H. right. exact X. }
  assert (incl l (map f l)) as C.
  { apply NoDup_length_incl; [apply NM; [exact ND|apply M]| |].
    - rewrite map_length. apply le_n.
    - intros x X. apply in_map_iff in X. destruct X as (y & <- & Y). apply M, R, M, Y. }
  apply M in V. apply C in V. apply in_map_iff in V. destruct V as (y & E & Y). exists y. split; [apply M; exact Y|exact E].
Qed.

Lemma temper_bijective : forall p, shifts p -> forall v, v < 2 ^ mt_w p -> exists y, y < 2 ^ mt_w p /\ temper p y = v.
Proof.
  intros p S. apply finite_onto; [intros; apply temper_lt; assumption|].
  intros y z Y Z. apply temper_inj; assumption.
Qed.

Lemma temper_tempered : forall y, temper p32 y = tempered mt19937 y /\ temper p64 y = tempered mt19937_64 y.
Proof.
  intro y. unfold temper, tempered, word. cbv zeta. split; rewrite !N.shiftr_div_pow2, !N.shiftl_mul_pow2; reflexivity.
Qed.

(** ** init_keys *)

Definition words (p : mt) (st : list N) : Prop :=
  N.of_nat (length st) = mt_n p /\ Forall (fun x => x < 2 ^ mt_w p) st.

Lemma upd_Forall : forall (P : N -> Prop) l n x, Forall P l -> P x -> Forall P (upd l n x).
Proof.
  intros P. induction l as [|a l IH]; intros n x F X; destruct n as [|n]; cbn [upd]; auto;
    inversion F; subst; constructor; auto.
Qed.

Lemma words_upd : forall p st i x, words p st -> x < 2 ^ mt_w p -> words p (upd st i x).
Proof. intros p st i x [L F] X. split; [rewrite upd_len; exact L|apply upd_Forall; assumption]. Qed.

Lemma key_wrap_ok : forall p i st, 1 < mt_n p -> words p st -> 1 <= i ->
  exists i' st', key_wrap p i st = Ok (i', st') /\ words p st' /\ 1 <= i' < mt_n p.
Proof.
  intros p i st N W I. unfold key_wrap. destruct (mt_n p <=? i) eqn:E; [|exists i, st; repeat split; try apply W; lia].
  pose proof (proj1 W) as L. destruct (rd_ok st (mt_n p - 1)) as (x & -> & X); [lia|]. cbn [rbind].
  rewrite wr_ok by lia. cbn [rbind]. eexists _, _. split; [reflexivity|]. split; [|lia].
  apply words_upd; [exact W|]. apply nth_error_In in X. destruct W as [_ F]. rewrite Forall_forall in F. apply F, X.
Qed.

Lemma keys_loop1_ok : forall p key k i j st, 1 < mt_n p -> words p st -> 1 <= i < mt_n p -> j < N.of_nat (length key) ->
  exists i' st', keys_loop1 p key (N.of_nat (length key)) k i j st = Ok (i', st') /\ words p st' /\ 1 <= i' < mt_n p.
Proof.
  intros p key. induction k as [|k IH]; intros i j st N W I J; [exists i, st; repeat split; try apply W; lia|].
  cbn [keys_loop1]. pose proof (proj1 W) as L.
  destruct (rd_ok st i) as (a & -> & _); [lia|]. cbn [rbind].
  destruct (rd_ok st (i - 1)) as (b & -> & _); [lia|]. cbn [rbind].
  destruct (rd_ok key j) as (c & -> & _); [exact J|]. cbn [rbind].
  rewrite wr_ok by lia. cbn [rbind].
  match goal with |- context [upd st ?n ?v] => destruct (key_wrap_ok p (i + 1) (upd st n v)) as (i1 & st1 & -> & W1 & I1) end;
    [exact N|apply words_upd; [exact W|apply word_lt]|lia|].
  cbn [rbind fst snd]. apply IH; auto. destruct (N.of_nat (length key) <=? j + 1) eqn:E; lia.
Qed.

Lemma keys_loop2_ok : forall p k i st, 1 < mt_n p -> words p st -> 1 <= i < mt_n p ->
  exists i' st', keys_loop2 p k i st = Ok (i', st') /\ words p st' /\ 1 <= i' < mt_n p.
Proof.
  intros p. induction k as [|k IH]; intros i st N W I; [exists i, st; repeat split; try apply W; lia|].
  cbn [keys_loop2]. pose proof (proj1 W) as L.
  destruct (rd_ok st i) as (a & -> & _); [lia|]. cbn [rbind].
  destruct (rd_ok st (i - 1)) as (b & -> & _); [lia|]. cbn [rbind].
  rewrite wr_ok by lia. cbn [rbind].
  match goal with |- context [upd st ?n ?v] => destruct (key_wrap_ok p (i + 1) (upd st n v)) as (i1 & st1 & -> & W1 & I1) end;
    [exact N|apply words_upd; [exact W|apply word_lt]|lia|].
  cbn [rbind fst snd]. apply IH; auto.
Qed.

Lemma init_words : forall p now seed, 0 < mt_n p -> words p (init p now seed).
Proof.
  intros p now seed H. split; [apply init_length; exact H|]. unfold init. constructor; [apply word_lt|].
  generalize (N.to_nat (mt_n p) - 1)%nat as cnt. generalize 1 as j.
  generalize (word p (if seed =? 0 then now else seed)) as prev.
  intros prev j cnt. revert j prev. induction cnt as [|cnt IH]; intros j prev; cbn [init_from]; constructor; auto using word_lt.
Qed.

Lemma init_keys_ok : forall p key st, 1 < mt_n p -> mt_msb p < 2 ^ mt_w p -> words p st -> key <> [] ->
  exists st', init_keys p key (N.of_nat (length key)) st = Ok st' /\ words p st' /\ nth_error st' 0 = Some (mt_msb p).
Proof.
  intros p key st N M W K. unfold init_keys.
  destruct (keys_loop1_ok p key (N.to_nat (N.max (mt_n p) (N.of_nat (length key)))) 1 0 st)
    as (i1 & st1 & -> & W1 & I1); auto; [lia|destruct key; [congruence|cbn [length]; lia]|].
  cbn [rbind fst snd].
  destruct (keys_loop2_ok p (N.to_nat (mt_n p) - 1) i1 st1) as (i2 & st2 & -> & W2 & I2); auto.
  cbn [rbind fst snd]. pose proof (proj1 W2). rewrite wr_ok by lia. eexists. split; [reflexivity|]. split.
  - apply words_upd; assumption.
  - rewrite upd_nth by lia. reflexivity.
Qed.

Lemma init_keys_empty : forall p st, 1 < mt_n p -> words p st -> init_keys p [] 0 st = Err EUndef.
Proof.
  intros p st N W. unfold init_keys. pose proof (proj1 W) as L.
  replace (N.to_nat (N.max (mt_n p) 0)) with (S (N.to_nat (mt_n p) - 1)) by lia. cbn [keys_loop1].
  destruct (rd_ok st 1) as (a & -> & _); [lia|]. cbn [rbind].
  destruct (rd_ok st (1 - 1)) as (b & -> & _); [lia|]. cbn [rbind].
  reflexivity.
Qed.

(** ** rand and srand *)

Definition fit (p : mt) : Prop := 1 < mt_n p /\ mt_m p < mt_n p /\ mt_msb p < 2 ^ mt_w p /\ 1 < 2 ^ mt_w p.

Lemma fit32 : fit p32. Proof. repeat split; vm_compute; reflexivity. Qed.
Lemma fit64 : fit p64. Proof. repeat split; vm_compute; reflexivity. Qed.

Lemma srand_undefined : forall p now seed g, fit p -> srand p now seed g = Err EUndef.
Proof.
  intros p now seed g (N & M & _). unfold srand, regenerate. cbn [g_state].
  rewrite next_state_undefined; [reflexivity|exact M|apply init_length; lia].
Qed.

Lemma keys_total : forall p key st, fit p -> words p st ->
  init_keys p key (N.of_nat (length key)) st = Err EUndef \/
  exists st', init_keys p key (N.of_nat (length key)) st = Ok st' /\ words p st'.
Proof.
  intros p key st (N & M & B & _) W. destruct key as [|c key]; [left; apply init_keys_empty; assumption|right].
  destruct (init_keys_ok p (c :: key) st) as (st' & E & W' & _); try assumption; [discriminate|eauto].
Qed.

Lemma srand_keys_undefined : forall p now seed key g, fit p -> srand_keys p now seed key g = Err EUndef.
Proof.
  intros p now seed key g F. unfold srand_keys.
  destruct (keys_total p key (init p now seed) F) as [->|(st & -> & W)]; cbn [rbind];
    [apply init_words; destruct F; lia|reflexivity|].
  unfold regenerate. cbn [g_state]. rewrite next_state_undefined; [reflexivity|apply F|apply W].
Qed.

Lemma rand_fresh : forall p libc st, fit p -> words p st -> rand p libc (Gen None 1 st) = Err EUndef.
Proof.
  intros p libc st (N & M & B & T) W. unfold rand. cbn [g_left g_next g_state].
  replace (word p (1 + (2 ^ mt_w p - 1))) with 0.
  - change (0 =? 0) with true. cbv iota. unfold regenerate. cbn [g_state].
    rewrite next_state_undefined; [reflexivity|exact M|apply W].
  - unfold word. remember (2 ^ mt_w p) as b. replace (1 + (b - 1)) with b by lia. rewrite N.mod_same by lia. reflexivity.
Qed.

Lemma rand_undefined : forall p libc now seed, fit p -> rand p libc (construct p now seed) = Err EUndef.
Proof. intros. apply rand_fresh; [assumption|]. apply init_words. destruct H. lia. Qed.

Lemma rand_keys_undefined : forall p libc now seed key g, fit p -> construct_keys p now seed key = Ok g ->
  rand p libc g = Err EUndef.
Proof.
  intros p libc now seed key g F E. unfold construct_keys in E.
  destruct (keys_total p key (init p now seed) F) as [K|(st & K & W)]; [apply init_words; destruct F; lia| |];
    rewrite K in E; cbn [rbind] in E; [discriminate|]. assert (g = Gen None 1 st) as -> by congruence.
  apply rand_fresh; assumption.
Qed.
