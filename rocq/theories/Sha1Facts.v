(** sha1.h: sha1_x86 computes the compression function of SHA-1. *)
From Coq Require Import Arith NArith ZArith List Bool Lia.
From Coq Require Import ZifyBool ZifyNat ZifyN.
From Verif Require Import Base HashModel HashSpec HashFacts HashData HashData2 HashCrc HashSens
  HashSens2 FnvFacts Sha1Spec Sha1Model.
Import ListNotations.
Open Scope N_scope.

(** ** The schedule *)
Definition grow (ws : list N) : list N := next_word ws :: ws.
Definition L (block : list N) (n : nat) : list N := Nat.iter n grow (rev (words 16 block)).
Definition W (block : list N) (t : nat) : N := nth t (schedule block) 0.

Lemma words_length : forall n b, length (words n b) = n.
Proof. induction n as [|n IH]; intros b; [reflexivity|]. cbn [words length]. rewrite IH. reflexivity. Qed.

Lemma L_length : forall b n, length (L b n) = (16 + n)%nat.
Proof.
  intros b. induction n as [|n IH].
  - unfold L. cbn [Nat.iter nat_rect]. rewrite rev_length. apply words_length.
  - change (L b (S n)) with (grow (L b n)). unfold grow. cbn [length]. rewrite IH. lia.
Qed.

Lemma L_nth : forall b n k j, nth (k + j) (L b (n + k)) 0 = nth j (L b n) 0.
Proof.
  intros b n. induction k as [|k IH]; intros j; [rewrite Nat.add_0_r; reflexivity|].
  replace (n + S k)%nat with (S (n + k)) by lia.
  change (L b (S (n + k))) with (grow (L b (n + k))). unfold grow. cbn [Nat.add nth]. apply IH.
Qed.

Lemma schedule_L : forall b, schedule b = rev (L b 64).
Proof. intros b. unfold schedule, L, grow. reflexivity. Qed.

Lemma L_S : forall b n, L b (S n) = next_word (L b n) :: L b n.
Proof. reflexivity. Qed.
Global Opaque L schedule.

Lemma schedule_length : forall b, length (schedule b) = 80%nat.
Proof. intros b. rewrite schedule_L, rev_length. apply L_length. Qed.

Lemma W_L : forall b t, (t < 80)%nat -> W b t = nth (79 - t) (L b 64) 0.
Proof.
  intros b t H. unfold W. rewrite schedule_L, rev_nth by (rewrite L_length; exact H).
  rewrite L_length. reflexivity.
Qed.

Lemma W_rec : forall b t, (16 <= t < 80)%nat ->
  W b t = ROTL 1 (N.lxor (N.lxor (N.lxor (W b (t - 3)) (W b (t - 8))) (W b (t - 14)))
                         (W b (t - 16))).
Proof.
  intros b t H. rewrite !W_L by lia.
  assert (P : forall j, (j <= 15)%nat -> nth (79 - (t - 1 - j)) (L b 64) 0 = nth j (L b (t - 16)) 0).
  { intros j Hj. replace (79 - (t - 1 - j))%nat with (80 - t + j)%nat by lia.
    replace (L b 64) with (L b (t - 16 + (80 - t))) by (f_equal; lia). apply L_nth. }
  replace (L b 64) with (L b (S (t - 16) + (79 - t))) at 1 by (f_equal; lia).
  replace (79 - t)%nat with (79 - t + 0)%nat at 1 by lia. rewrite L_nth.
  rewrite L_S. cbn [nth].
  unfold next_word.
  rewrite <- (P 2%nat), <- (P 7%nat), <- (P 13%nat), <- (P 15%nat) by lia.
  replace (t - 1 - 2)%nat with (t - 3)%nat by lia. replace (t - 1 - 7)%nat with (t - 8)%nat by lia.
  replace (t - 1 - 13)%nat with (t - 14)%nat by lia. replace (t - 1 - 15)%nat with (t - 16)%nat by lia.
  reflexivity.
Qed.

Lemma words_nth : forall n b t, (t < n)%nat ->
  nth t (words n b) 0 = be_word (firstn 4 (skipn (4 * t) b)).
Proof.
  induction n as [|n IH]; intros b t H; [lia|]. cbn [words].
  destruct t as [|t]; [reflexivity|]. cbn [nth]. rewrite IH by lia.
  rewrite skipn_skipn'. f_equal. f_equal. f_equal. lia.
Qed.

Lemma W_first : forall b t, (t < 16)%nat -> W b t = be_word (firstn 4 (skipn (4 * t) b)).
Proof.
  intros b t H. rewrite W_L by lia.
  replace (79 - t)%nat with (64 + (15 - t))%nat by lia.
  replace (L b 64) with (L b (0 + 64)) by reflexivity. rewrite L_nth.
  replace (L b 0) with (rev (words 16 b)) by reflexivity.
  rewrite rev_nth by (rewrite words_length; lia). rewrite words_length.
  replace (16 - S (15 - t))%nat with t by lia. apply words_nth, H.
Qed.

(** ** Rounds *)
Definition st (h : N * N * N * N * N) (b : list N) (t : nat) : N * N * N * N * N :=
  fold_left sha1_round (combine (seq 0 t) (firstn t (schedule b))) h.

Lemma combine_app : forall (A B : Type) (a1 a2 : list A) (b1 b2 : list B), length a1 = length b1 ->
  combine (a1 ++ a2) (b1 ++ b2) = combine a1 b1 ++ combine a2 b2.
Proof.
  induction a1 as [|x a1 IH]; intros a2 [|y b1] b2 E; try discriminate; [reflexivity|].
  cbn [app combine]. f_equal. apply IH. cbn [length] in E. lia.
Qed.

Lemma firstn_S : forall (l : list N) t, (t < length l)%nat ->
  firstn (S t) l = firstn t l ++ [nth t l 0].
Proof.
  induction l as [|x l IH]; intros t H; cbn [length] in H; [lia|].
  destruct t as [|t]; [reflexivity|].
  change (firstn (S (S t)) (x :: l)) with (x :: firstn (S t) l). rewrite IH by lia. reflexivity.
Qed.

Lemma st_S : forall h b t, (t < 80)%nat -> st h b (S t) = sha1_round (st h b t) (t, W b t).
Proof.
  intros h b t H. unfold st. rewrite firstn_S by (rewrite schedule_length; exact H).
  rewrite seq_S, combine_app by (rewrite seq_length, firstn_length, schedule_length; lia).
  rewrite fold_left_app. unfold W. cbn [combine fold_left Nat.add]. reflexivity.
Qed.

Lemma st_80 : forall h b, st h b 80 = fold_left sha1_round (combine (seq 0 80) (schedule b)) h.
Proof.
  intros h b. unfold st. rewrite firstn_all2 by (rewrite schedule_length; lia). reflexivity.
Qed.

Definition abcd (s : N * N * N * N * N) : x4 := let '(a, b, c, d, e) := s in X4 a b c d.
Definition aa (s : N * N * N * N * N) : N := let '(a, b, c, d, e) := s in a.
Definition ee (s : N * N * N * N * N) : N := let '(a, b, c, d, e) := s in e.

Definition imm (g : nat) : N := if (g <? 5)%nat then 0 else if (g <? 10)%nat then 1
  else if (g <? 15)%nat then 2 else 3.

Lemma imm_f : forall g t, (g < 20)%nat -> (4 * g <= t < 4 * g + 4)%nat ->
  f_t t = rnds4_f (imm g) /\ K_t t = rnds4_k (imm g).
Proof.
  intros g t Hg Ht. unfold f_t, K_t, imm.
  destruct (Nat.ltb_spec g 5), (Nat.ltb_spec t 20); try lia; [split; reflexivity|].
  destruct (Nat.ltb_spec g 10), (Nat.ltb_spec t 40); try lia; [split; reflexivity|].
  destruct (Nat.ltb_spec g 15), (Nat.ltb_spec t 60); try lia; split; reflexivity.
Qed.

Lemma sum_e0 : forall f r w e k,
  w32 (f + r + w32 (w + e) + k) = (r + f + e + k + w) mod 2 ^ 32.
Proof.
  intros. unfold w32. change two32 with (2 ^ 32).
  rewrite <- (N.add_mod_idemp_l (f + r + (w + e) mod 2 ^ 32)) by (vm_compute; discriminate).
  rewrite N.add_mod_idemp_r by (vm_compute; discriminate).
  rewrite N.add_mod_idemp_l by (vm_compute; discriminate). f_equal. ring.
Qed.

Lemma sum_e1 : forall f r w e k, w32 (f + r + w + e + k) = (r + f + e + k + w) mod 2 ^ 32.
Proof. intros. unfold w32. change two32 with (2 ^ 32). f_equal. ring. Qed.

Lemma rol_ROTL : forall x n, rol x n = ROTL n x.
Proof. intros. unfold rol, ROTL, shl32, w32. reflexivity. Qed.

Lemma rnds4_rounds : forall g s w0 w1 w2 w3, (g < 20)%nat ->
  sha1rnds4 (abcd s) (X4 (w32 (w0 + ee s)) w1 w2 w3) (imm g) =
  abcd (sha1_round (sha1_round (sha1_round (sha1_round s (4 * g, w0)) (4 * g + 1, w1))
          (4 * g + 2, w2)) (4 * g + 3, w3))%nat.
Proof.
  intros g [[[[a b] c] d] e] w0 w1 w2 w3 Hg.
  destruct (imm_f g (4 * g) Hg ltac:(lia)) as [F0 K0].
  destruct (imm_f g (4 * g + 1) Hg ltac:(lia)) as [F1 K1].
  destruct (imm_f g (4 * g + 2) Hg ltac:(lia)) as [F2 K2].
  destruct (imm_f g (4 * g + 3) Hg ltac:(lia)) as [F3 K3].
  unfold sha1_round. rewrite F0, F1, F2, F3, K0, K1, K2, K3. cbn [abcd ee].
  unfold sha1rnds4. cbn [l3 l2 l1 l0].
  rewrite !sum_e1, sum_e0, !rol_ROTL. reflexivity.
Qed.

Lemma ee_rounds : forall s t0 t1 t2 t3,
  ee (sha1_round (sha1_round (sha1_round (sha1_round s t0) t1) t2) t3) = ROTL 30 (aa s).
Proof.
  intros [[[[a b] c] d] e] [? ?] [? ?] [? ?] [? ?]. reflexivity.
Qed.

(** ** The groups *)
Section Block.
  Variables (h : N * N * N * N * N) (b : list N).

  Definition Mg (g : nat) : x4 :=
    X4 (W b (4 * g)) (W b (4 * g + 1)) (W b (4 * g + 2)) (W b (4 * g + 3)).
  Definition Ag (g : nat) : x4 := abcd (st h b (4 * g)).

  Lemma group_state : forall g, (g < 20)%nat ->
    st h b (4 * S g) =
    sha1_round (sha1_round (sha1_round (sha1_round (st h b (4 * g)) ((4 * g)%nat, W b (4 * g)))
      ((4 * g + 1)%nat, W b (4 * g + 1))) ((4 * g + 2)%nat, W b (4 * g + 2)))
      ((4 * g + 3)%nat, W b (4 * g + 3)).
  Proof.
    intros g H. replace (4 * S g)%nat with (S (S (S (S (4 * g))))) by lia.
    rewrite !st_S by lia.
    replace (S (S (S (4 * g)))) with (4 * g + 3)%nat by lia.
    replace (S (S (4 * g))) with (4 * g + 2)%nat by lia.
    replace (S (4 * g)) with (4 * g + 1)%nat by lia. reflexivity.
  Qed.

  Lemma group_e : forall g, (g < 20)%nat -> ee (st h b (4 * S g)) = ROTL 30 (l3 (Ag g)).
  Proof.
    intros g H. rewrite group_state by exact H. rewrite ee_rounds. unfold Ag.
    destruct (st h b (4 * g)) as [[[[x ?] ?] ?] ?]. reflexivity.
  Qed.

  Lemma group_rounds : forall g i, (g < 19)%nat -> i = imm (S g) ->
    sha1rnds4 (Ag (S g)) (sha1nexte (Ag g) (Mg (S g))) i = Ag (S (S g)).
  Proof.
    intros g i H ->. unfold Ag at 3. rewrite (group_state (S g)) by lia.
    rewrite <- rnds4_rounds by lia. unfold sha1nexte, Mg. cbn [l3 l2 l1 l0].
    rewrite group_e by lia. rewrite rol_ROTL. reflexivity.
  Qed.

  Lemma group_first : forall e, e = ee h -> (forall t, (t < 4)%nat -> W b t < 2 ^ 32) ->
    sha1rnds4 (Ag 0) (add_epi32 (X4 e 0 0 0) (Mg 0)) 0 = Ag 1.
  Proof.
    intros e He B. unfold Ag at 2. rewrite (group_state 0) by lia.
    change (st h b (4 * 0)) with h.
    rewrite <- rnds4_rounds by lia. change (imm 0) with 0. f_equal.
    unfold add_epi32, Mg. cbn [l3 l2 l1 l0 Nat.mul Nat.add].
    rewrite !N.add_0_l, (w32_small (W b 1)), (w32_small (W b 2)), (w32_small (W b 3))
      by (apply B; lia).
    rewrite He, N.add_comm. reflexivity.
  Qed.

  Lemma xor4 : forall a b c d, N.lxor (N.lxor (N.lxor a b) c) d = N.lxor (N.lxor (N.lxor d c) a) b.
  Proof.
    intros. apply N.bits_inj. intros i. rewrite !N.lxor_spec.
    destruct (N.testbit a i), (N.testbit b0 i), (N.testbit c i), (N.testbit d i); reflexivity.
  Qed.

  Lemma group_words : forall g, (g < 16)%nat ->
    sha1msg2 (xor_si128 (sha1msg1 (Mg g) (Mg (1 + g))) (Mg (2 + g))) (Mg (3 + g)) = Mg (4 + g).
  Proof.
    intros g H. unfold sha1msg2, xor_si128, sha1msg1, Mg. cbn [l3 l2 l1 l0].
    assert (E : forall t a c d e, (16 <= t < 80)%nat -> a = (t - 14)%nat -> c = (t - 16)%nat ->
      d = (t - 8)%nat -> e = (t - 3)%nat ->
      rol (N.lxor (N.lxor (N.lxor (W b a) (W b c)) (W b d)) (W b e)) 1 = W b t).
    { intros t a c d e Ht -> -> -> ->. rewrite rol_ROTL, xor4. symmetry. apply W_rec, Ht. }
    rewrite (E (4 * (4 + g))%nat) by lia. rewrite (E (4 * (4 + g) + 1)%nat) by lia.
    rewrite (E (4 * (4 + g) + 2)%nat) by lia. rewrite (E (4 * (4 + g) + 3)%nat) by lia.
    reflexivity.
  Qed.
End Block.

(** ** The body of the loop *)
Lemma exec_app : forall mem q rem p1 p2 s,
  exec_all mem q rem (p1 ++ p2) s =
  rbind (exec_all mem q rem p1 s) (fun s' => exec_all mem q rem p2 s').
Proof.
  induction p1 as [|i p1 IH]; intros p2 s; [reflexivity|].
  cbn [app exec_all]. destruct (exec mem q rem i s) as [s'|e]; [|reflexivity].
  cbn [rbind]. apply IH.
Qed.

Lemma body_run : forall (A M : nat -> x4) mem q rem x0 x1 x2 x3 E0 o1 o2 o3 o4 o5 o6 o7,
  load_part mem q rem 0 = Ok x0 -> load_part mem q rem 1 = Ok x1 ->
  load_part mem q rem 2 = Ok x2 -> load_part mem q rem 3 = Ok x3 ->
  shuffle_epi8 x0 MASK = M 0%nat -> shuffle_epi8 x1 MASK = M 1%nat ->
  shuffle_epi8 x2 MASK = M 2%nat -> shuffle_epi8 x3 MASK = M 3%nat ->
  sha1rnds4 (A 0%nat) (add_epi32 E0 (M 0%nat)) 0 = A 1%nat ->
  (forall g i, (g < 19)%nat -> i = imm (S g) ->
     sha1rnds4 (A (S g)) (sha1nexte (A g) (M (S g))) i = A (S (S g))) ->
  (forall g, (g < 16)%nat ->
     sha1msg2 (xor_si128 (sha1msg1 (M g) (M (1 + g)%nat)) (M (2 + g)%nat)) (M (3 + g)%nat) =
     M (4 + g)%nat) ->
  exists s, exec_all mem q rem sha_body (Regs (A 0%nat) o1 E0 o2 o3 o4 o5 o6 o7) = Ok s /\
    vABCD s = add_epi32 (A 20%nat) (A 0%nat) /\ vE0 s = sha1nexte (A 19%nat) E0.
Proof.
  intros A M mem q rem x0 x1 x2 x3 E0 o1 o2 o3 o4 o5 o6 o7 L0 L1 L2 L3 S0 S1 S2 S3 R0 R Q.
  unfold sha_body.
  pose proof (fun g i (Hg : (g < 19)%nat) => R g i Hg) as R'.
  assert (Q' : forall g, (g < 16)%nat ->
     sha1msg2 (xor_si128 (sha1msg1 (M g) (M (S g))) (M (S (S g)))) (M (S (S (S g)))) =
     M (S (S (S (S g))))) by (intros g Hg; apply (Q g Hg)).
  clear R Q.
  Ltac go P := rewrite exec_app; unfold P at 1;
    cbn [exec_all exec get set rbind vABCD vABCD_SAVE vE0 vE0_SAVE vE1 vMSG0 vMSG1 vMSG2 vMSG3].
  go sha_save.
  go sha_r0. rewrite L0. cbn [rbind exec_all exec get set vABCD vABCD_SAVE vE0 vE0_SAVE vE1 vMSG0 vMSG1 vMSG2 vMSG3].
  rewrite S0, R0.
  go sha_r4. rewrite L1. cbn [rbind exec_all exec get set vABCD vABCD_SAVE vE0 vE0_SAVE vE1 vMSG0 vMSG1 vMSG2 vMSG3].
  rewrite S1, (R' 0%nat) by (reflexivity || lia).
  go sha_r8. rewrite L2. cbn [rbind exec_all exec get set vABCD vABCD_SAVE vE0 vE0_SAVE vE1 vMSG0 vMSG1 vMSG2 vMSG3].
  rewrite S2, (R' 1%nat) by (reflexivity || lia).
  go sha_r12. rewrite L3. cbn [rbind exec_all exec get set vABCD vABCD_SAVE vE0 vE0_SAVE vE1 vMSG0 vMSG1 vMSG2 vMSG3].
  rewrite S3, (R' 2%nat), (Q' 0%nat) by (reflexivity || lia).
  go sha_r16. rewrite (R' 3%nat), (Q' 1%nat) by (reflexivity || lia).
  go sha_r20. rewrite (R' 4%nat), (Q' 2%nat) by (reflexivity || lia).
  go sha_r24. rewrite (R' 5%nat), (Q' 3%nat) by (reflexivity || lia).
  go sha_r28. rewrite (R' 6%nat), (Q' 4%nat) by (reflexivity || lia).
  go sha_r32. rewrite (R' 7%nat), (Q' 5%nat) by (reflexivity || lia).
  go sha_r36. rewrite (R' 8%nat), (Q' 6%nat) by (reflexivity || lia).
  go sha_r40. rewrite (R' 9%nat), (Q' 7%nat) by (reflexivity || lia).
  go sha_r44. rewrite (R' 10%nat), (Q' 8%nat) by (reflexivity || lia).
  go sha_r48. rewrite (R' 11%nat), (Q' 9%nat) by (reflexivity || lia).
  go sha_r52. rewrite (R' 12%nat), (Q' 10%nat) by (reflexivity || lia).
  go sha_r56. rewrite (R' 13%nat), (Q' 11%nat) by (reflexivity || lia).
  go sha_r60. rewrite (R' 14%nat), (Q' 12%nat) by (reflexivity || lia).
  go sha_r64. rewrite (R' 15%nat), (Q' 13%nat) by (reflexivity || lia).
  go sha_r68. rewrite (R' 16%nat), (Q' 14%nat) by (reflexivity || lia).
  go sha_r72. rewrite (R' 17%nat), (Q' 15%nat) by (reflexivity || lia).
  go sha_r76. rewrite (R' 18%nat) by (reflexivity || lia).
  unfold sha_combine.
  cbn [exec_all exec get set rbind vABCD vABCD_SAVE vE0 vE0_SAVE vE1 vMSG0 vMSG1 vMSG2 vMSG3].
  eexists. split; [reflexivity|]. cbn [vABCD vE0]. split; reflexivity.
Qed.
