(** The variants of the string comparisons that load words of 8 and 16 bytes. *)
From Coq Require Import Arith NArith ZArith List Bool Lia.
From Coq Require Import ZifyBool ZifyNat ZifyN.
From Verif Require Import Base HashModel HashSpec HashFacts FnvFacts StrModel StrSpec StrFacts.
Import ListNotations.
Open Scope N_scope.

Ltac Zify.zify_post_hook ::= Z.to_euclidean_division_equations.

(** ** 8 bytes *)
Lemma shift_mask : forall n, 0 < n < 8 -> N.shiftr 0xFFFFFFFFFFFFFFFF ((8 - n) * 8) = N.ones (8 * n).
Proof.
  intros n H. assert (C : n = 1 \/ n = 2 \/ n = 3 \/ n = 4 \/ n = 5 \/ n = 6 \/ n = 7) by lia.
  destruct C as [->|[->|[->|[->|[->|[->| ->]]]]]]; reflexivity.
Qed.

Lemma le_low : forall n w, is_bytes w -> (n <= length w)%nat ->
  N.land (le w) (N.ones (8 * N.of_nat n)) = le (firstn n w).
Proof.
  intros n w B L. rewrite N.land_ones. rewrite <- (firstn_skipn n w) at 1.
  rewrite le_app, firstn_length, Nat.min_l by exact L.
  assert (X : le (firstn n w) < 2 ^ (8 * N.of_nat n)).
  { pose proof (le_lt (firstn n w) (bytes_firstn n w B)) as X.
    rewrite firstn_length, Nat.min_l in X by exact L. exact X. }
  rewrite N.mul_comm, N.mod_add by (apply N.pow_nonzero; discriminate).
  apply N.mod_small. exact X.
Qed.

Lemma ld_here : forall n p m, (n <= length m)%nat -> ld n (p ++ m) (lenN p) = Ok (le (firstn n m)).
Proof.
  intros n p m H. rewrite ld_skipn by (rewrite app_length; lia).
  rewrite skipn_app_len. reflexivity.
Qed.

Lemma firstn_more : forall (A : Type) n (a b : list A), (length a <= n)%nat ->
  firstn n (a ++ b) = a ++ firstn (n - length a) b.
Proof. intros A n a b H. rewrite firstn_app, firstn_all2 by exact H. reflexivity. Qed.

Lemma firstn_less : forall (A : Type) n (a b : list A), (n <= length a)%nat ->
  firstn n (a ++ b) = firstn n a.
Proof.
  intros A n a b H. rewrite firstn_app. replace (n - length a)%nat with 0%nat by lia.
  rewrite firstn_O, app_nil_r. reflexivity.
Qed.

Lemma u64_equal_spec : forall fuel p1 p2 r1 r2 e1 e2,
  is_bytes (r1 ++ e1) -> is_bytes (r2 ++ e2) -> length r1 = length r2 -> length p1 = length p2 ->
  lenN r1 < 8 * N.of_nat fuel ->
  (lenN r1 + 7) / 8 * 8 <= lenN r1 + lenN e1 -> (lenN r1 + 7) / 8 * 8 <= lenN r1 + lenN e2 ->
  exists b, u64_equal fuel (p1 ++ r1 ++ e1) (p2 ++ r2 ++ e2) (lenN p1) (lenN r1) = Ok b
    /\ (b = true <-> r1 = r2).
Proof.
  induction fuel as [|fuel IH]; intros p1 p2 r1 r2 e1 e2 B1 B2 L P F X1 X2; [lia|].
  cbn [u64_equal]. destruct (N.eqb_spec (lenN r1) 0) as [Z|Z].
  { exists true. split; [reflexivity|]. destruct r1; [|cbn [length] in Z; lia].
    destruct r2; [|discriminate]. split; reflexivity. }
  destruct (N.leb_spec 8 (lenN r1)) as [G|G].
  - rewrite ld_here by (rewrite app_length; lia). rewrite P, ld_here by (rewrite app_length; lia).
    cbn [rbind]. rewrite !firstn_less by lia.
    assert (K1 : r1 = firstn 8 r1 ++ skipn 8 r1) by (symmetry; apply firstn_skipn).
    assert (K2 : r2 = firstn 8 r2 ++ skipn 8 r2) by (symmetry; apply firstn_skipn).
    apply bytes_app in B1 as [B1 B1']. apply bytes_app in B2 as [B2 B2'].
    assert (L1 : length (firstn 8 r1) = 8%nat) by (rewrite firstn_length; lia).
    assert (L2 : length (firstn 8 r2) = 8%nat) by (rewrite firstn_length; lia).
    assert (M1 : length (skipn 8 r1) = (length r1 - 8)%nat) by apply skipn_length.
    assert (M2 : length (skipn 8 r2) = (length r2 - 8)%nat) by apply skipn_length.
    destruct (N.eqb_spec (le (firstn 8 r1)) (le (firstn 8 r2))) as [E|E].
    + apply le_inj in E; [|lia|apply bytes_firstn; exact B1|apply bytes_firstn; exact B2].
      destruct (IH (p1 ++ firstn 8 r1) (p2 ++ firstn 8 r2) (skipn 8 r1) (skipn 8 r2) e1 e2) as [b [Eb B]].
      * apply bytes_app. split; [apply bytes_skipn; exact B1|exact B1'].
      * apply bytes_app. split; [apply bytes_skipn; exact B2|exact B2'].
      * lia.
      * rewrite !app_length. lia.
      * lia.
      * lia.
      * lia.
      * exists b. split.
        -- rewrite <- Eb. rewrite <- !app_assoc.
           rewrite (app_assoc (firstn 8 r1)), (app_assoc (firstn 8 r2)), <- K1, <- K2.
           rewrite !app_length, L1, M1. f_equal; lia.
        -- rewrite B. split; [|intros ->; reflexivity]. intros S. rewrite K1, K2, E, S. reflexivity.
    + exists false. split; [reflexivity|]. split; [discriminate|]. intros ->. contradiction.
  - rewrite ld_here by (rewrite app_length; lia). rewrite P, ld_here by (rewrite app_length; lia).
    cbn [rbind]. rewrite shift_mask by lia.
    rewrite !le_low by (try (apply bytes_firstn; assumption); rewrite firstn_length, app_length; lia).
    rewrite !firstn_firstn, !Nat.min_l by lia.
    rewrite firstn_app_len. rewrite firstn_exact by exact L.
    apply bytes_app in B1 as [B1 _]. apply bytes_app in B2 as [B2 _].
    eexists. split; [reflexivity|]. rewrite N.eqb_eq. split; [|intros ->; reflexivity].
    apply le_inj; assumption.
Qed.

Lemma u64_is_equal_spec : forall r1 r2 e1 e2,
  is_bytes (r1 ++ e1) -> is_bytes (r2 ++ e2) -> length r1 = length r2 ->
  (lenN r1 + 7) / 8 * 8 <= lenN r1 + lenN e1 -> (lenN r1 + 7) / 8 * 8 <= lenN r1 + lenN e2 ->
  exists b, u64_is_equal (r1 ++ e1) (r2 ++ e2) (lenN r1) = Ok b /\ (b = true <-> r1 = r2).
Proof.
  intros r1 r2 e1 e2 B1 B2 L X1 X2. unfold u64_is_equal.
  apply (u64_equal_spec (S (N.to_nat (lenN r1 / 8))) [] [] r1 r2 e1 e2 B1 B2 L eq_refl);
    [lia|exact X1|exact X2].
Qed.

(** Without the bytes behind a string that equals the other one, there is an access outside. *)
Lemma u64_equal_out : forall fuel p r e1 e2,
  lenN r < 8 * N.of_nat fuel -> lenN r + lenN e1 < (lenN r + 7) / 8 * 8 ->
  (lenN r + 7) / 8 * 8 <= lenN r + lenN e2 \/ e2 = e1 ->
  u64_equal fuel (p ++ r ++ e1) (p ++ r ++ e2) (lenN p) (lenN r) = Err EUndef.
Proof.
  induction fuel as [|fuel IH]; intros p r e1 e2 F X1 X2; [lia|].
  cbn [u64_equal]. destruct (N.eqb_spec (lenN r) 0) as [Z|Z]; [lia|].
  destruct (N.leb_spec 8 (lenN r)) as [G|G].
  - rewrite !ld_here by (rewrite app_length; lia). cbn [rbind]. rewrite !firstn_less by lia.
    rewrite N.eqb_refl.
    assert (K : r = firstn 8 r ++ skipn 8 r) by (symmetry; apply firstn_skipn).
    assert (L1 : length (firstn 8 r) = 8%nat) by (rewrite firstn_length; lia).
    assert (M1 : length (skipn 8 r) = (length r - 8)%nat) by apply skipn_length.
    rewrite <- (IH (p ++ firstn 8 r) (skipn 8 r) e1 e2).
    + rewrite <- !app_assoc. rewrite !(app_assoc (firstn 8 r)), <- K.
      rewrite !app_length, L1, M1. f_equal; lia.
    + lia.
    + lia.
    + destruct X2 as [X2|X2]; [left; lia|right; exact X2].
  - rewrite ld_out; [reflexivity|]. rewrite !app_length. lia.
Qed.

Lemma u64_is_equal_out : forall r e1 e2,
  lenN r + lenN e1 < (lenN r + 7) / 8 * 8 ->
  (lenN r + 7) / 8 * 8 <= lenN r + lenN e2 \/ e2 = e1 ->
  u64_is_equal (r ++ e1) (r ++ e2) (lenN r) = Err EUndef.
Proof.
  intros r e1 e2 X1 X2. unfold u64_is_equal.
  apply (u64_equal_out (S (N.to_nat (lenN r / 8))) [] r e1 e2); [lia|exact X1|exact X2].
Qed.

(** ** 16 bytes *)

(** SSEHelper fits the character type. *)
Definition fits (ct : ctype) : Prop := 0 < csz ct /\ cword ct = csz ct /\ cmax ct * csz ct = 16.

Lemma elem_le : forall ct w j, 0 < cword ct -> is_bytes w -> cword ct * j + cword ct <= lenN w ->
  elem ct (le w) j = le (firstn (N.to_nat (cword ct)) (skipn (N.to_nat (cword ct * j)) w)).
Proof.
  intros ct w j H B L. unfold elem. rewrite N.shiftr_div_pow2.
  rewrite <- (firstn_skipn (N.to_nat (cword ct * j)) w) at 1.
  rewrite le_app, firstn_length, Nat.min_l by lia.
  replace (8 * N.of_nat (N.to_nat (cword ct * j))) with (8 * cword ct * j) by lia.
  rewrite (N.mul_comm (2 ^ _)), N.div_add by (apply N.pow_nonzero; discriminate).
  assert (X : le (firstn (N.to_nat (cword ct * j)) w) < 2 ^ (8 * cword ct * j)).
  { pose proof (le_lt _ (bytes_firstn (N.to_nat (cword ct * j)) w B)) as X.
    rewrite firstn_length, Nat.min_l in X by lia.
    replace (8 * N.of_nat (N.to_nat (cword ct * j))) with (8 * cword ct * j) in X by lia. exact X. }
  rewrite N.div_small by exact X. rewrite N.add_0_l, <- N.land_ones.
  replace (8 * cword ct) with (8 * N.of_nat (N.to_nat (cword ct))) by lia.
  apply le_low; [apply bytes_skipn; exact B|]. rewrite skipn_length. lia.
Qed.

Lemma split_at : forall (r : list N) j, (j < length r)%nat ->
  r = firstn j r ++ nth j r 0 :: skipn (S j) r.
Proof.
  induction r as [|c r IH]; intros j H; [cbn [length] in H; lia|].
  destruct j as [|j]; [reflexivity|].
  cbn [firstn nth skipn app]. f_equal. apply IH. cbn [length] in H. lia.
Qed.

Lemma string_nth : forall sz r j, is_string sz r -> (j < length r)%nat -> nth j r 0 < 2 ^ (8 * sz).
Proof.
  intros sz r j S H. unfold is_string in S. rewrite Forall_forall in S. apply S. apply nth_In. exact H.
Qed.

(** Element [j] of the word loaded is character [j]. *)
Lemma elem_chr : forall ct r e j, fits ct -> is_string (csz ct) r -> is_bytes e ->
  16 <= lenN (encode (csz ct) r ++ e) -> j < lenN r -> j < cmax ct ->
  elem ct (le (firstn 16 (encode (csz ct) r ++ e))) j = nth (N.to_nat j) r 0.
Proof.
  intros ct r e j (F0 & F1 & F2) S B L J K.
  assert (Q : csz ct * j + csz ct <= 16) by nia.
  assert (BB : is_bytes (encode (csz ct) r ++ e)) by (apply bytes_app; split; [apply encode_bytes|exact B]).
  rewrite elem_le; [|lia|apply bytes_firstn; exact BB|rewrite firstn_length; lia].
  rewrite F1. rewrite skipn_firstn_comm, firstn_firstn, Nat.min_l by lia.
  rewrite (split_at r (N.to_nat j)) at 1 by lia.
  rewrite encode_app, encode_cons, <- !app_assoc.
  replace (N.to_nat (csz ct * j)) with (length (encode (csz ct) (firstn (N.to_nat j) r)))
    by (rewrite encode_length, firstn_length; nia).
  rewrite skipn_app_len. rewrite firstn_exact by (rewrite enc1_length; reflexivity).
  apply le_enc1. rewrite N2Nat.id. apply string_nth; [exact S|lia].
Qed.

(** ** The first element with a property *)
Lemma find_seq : forall (f : N -> bool) n a,
  match find f (map N.of_nat (seq a n)) with
  | Some j => f j = true /\ N.of_nat a <= j < N.of_nat (a + n) /\ forall i, N.of_nat a <= i -> i < j -> f i = false
  | None => forall i, N.of_nat a <= i -> i < N.of_nat (a + n) -> f i = false
  end.
Proof.
  intros f. induction n as [|n IH]; intros a; cbn [seq map find].
  - intros i H1 H2. lia.
  - destruct (f (N.of_nat a)) eqn:E.
    + split; [exact E|]. split; [lia|]. intros i H1 H2. lia.
    + specialize (IH (S a)). destruct (find f (map N.of_nat (seq (S a) n))) as [j|].
      * destruct IH as (H1 & H2 & H3). split; [exact H1|]. split; [lia|].
        intros i G1 G2. destruct (N.eq_dec i (N.of_nat a)) as [->|D]; [exact E|]. apply H3; lia.
      * intros i G1 G2. destruct (N.eq_dec i (N.of_nat a)) as [->|D]; [exact E|]. apply IH; lia.
Qed.

Lemma find_seqN : forall (f : N -> bool) n,
  match find f (seqN n) with
  | Some j => f j = true /\ j < n /\ forall i, i < j -> f i = false
  | None => forall i, i < n -> f i = false
  end.
Proof.
  intros f n. unfold seqN. pose proof (find_seq f (N.to_nat n) 0) as H.
  destruct (find f _) as [j|].
  - destruct H as (H1 & H2 & H3). split; [exact H1|]. split; [lia|]. intros i G. apply H3; lia.
  - intros i G. apply H; lia.
Qed.

Lemma existsb_find : forall (A : Type) (f : A -> bool) l,
  existsb f l = match find f l with Some _ => true | None => false end.
Proof.
  intros A f. induction l as [|x l IH]; cbn [existsb find]; [reflexivity|].
  destruct (f x); [reflexivity|exact IH].
Qed.

Lemma same_firstn : forall n (r1 r2 : list N), (n <= length r1)%nat -> (n <= length r2)%nat ->
  (forall i, (i < n)%nat -> nth i r1 0 = nth i r2 0) -> firstn n r1 = firstn n r2.
Proof.
  induction n as [|n IH]; intros r1 r2 L1 L2 H; [reflexivity|].
  destruct r1 as [|c1 r1]; [cbn [length] in L1; lia|].
  destruct r2 as [|c2 r2]; [cbn [length] in L2; lia|].
  cbn [firstn]. f_equal; [exact (H 0%nat ltac:(lia))|].
  apply IH; [cbn [length] in L1; lia|cbn [length] in L2; lia|].
  intros i Hi. exact (H (S i) ltac:(lia)).
Qed.

(** One round: the next characters are the same, or the place of the first difference is
    found. *)
Lemma sse_round : forall ct r1 r2 e1 e2, fits ct ->
  is_string (csz ct) r1 -> is_string (csz ct) r2 -> is_bytes e1 -> is_bytes e2 ->
  length r1 = length r2 ->
  16 <= lenN (encode (csz ct) r1 ++ e1) -> 16 <= lenN (encode (csz ct) r2 ++ e2) ->
  let a := le (firstn 16 (encode (csz ct) r1 ++ e1)) in
  let b := le (firstn 16 (encode (csz ct) r2 ++ e2)) in
  let len := if (Z.of_N (cmax ct) <=? Z.of_N (lenN r1))%Z then Z.of_N (cmax ct) else Z.of_N (lenN r1) in
  (cmpestrc ct a len b len = false
   /\ firstn (N.to_nat (cmax ct)) r1 = firstn (N.to_nat (cmax ct)) r2)
  \/ (cmpestrc ct a len b len = true
   /\ exists q c1 t1 c2 t2, r1 = q ++ c1 :: t1 /\ r2 = q ++ c2 :: t2 /\ c1 <> c2
      /\ cmpestri ct a len b len = lenN q).
Proof.
  intros ct r1 r2 e1 e2 F S1 S2 B1 B2 L X1 X2 a b len.
  assert (F' := F). destruct F' as (F0 & F1 & F2).
  assert (Q : 16 / cword ct = cmax ct).
  { rewrite F1, <- F2. apply N.div_mul. lia. }
  assert (LEN : len = Z.min (Z.of_N (cmax ct)) (Z.of_N (lenN r1)))
    by (unfold len; clear; destruct (Z.leb_spec (Z.of_N (cmax ct)) (Z.of_N (lenN r1))); lia).
  clearbody len.
  assert (Bit : forall j, j < cmax ct ->
    estr_bit ct a len b len j = (j <? lenN r1) && negb (nth (N.to_nat j) r1 0 =? nth (N.to_nat j) r2 0)).
  { intros j J. unfold estr_bit.
    destruct (N.ltb_spec j (lenN r1)) as [G|G].
    - replace (Z.of_N j <? len)%Z with true by (clear - LEN J G; lia).
      unfold a, b. rewrite !elem_chr by (try assumption; lia). reflexivity.
    - replace (Z.of_N j <? len)%Z with false by (clear - LEN J G; lia). reflexivity. }
  unfold cmpestrc, cmpestri. rewrite existsb_find, Q.
  pose proof (find_seqN (estr_bit ct a len b len) (cmax ct)) as H.
  destruct (find (estr_bit ct a len b len) (seqN (cmax ct))) as [j|].
  - right. split; [reflexivity|]. destruct H as (H1 & H2 & H3).
    rewrite Bit in H1 by exact H2. apply andb_prop in H1 as [G1 G2].
    assert (J1 : (N.to_nat j < length r1)%nat) by lia.
    assert (J2 : (N.to_nat j < length r2)%nat) by lia.
    exists (firstn (N.to_nat j) r1), (nth (N.to_nat j) r1 0), (skipn (S (N.to_nat j)) r1),
      (nth (N.to_nat j) r2 0), (skipn (S (N.to_nat j)) r2).
    split; [apply split_at; exact J1|]. split.
    + rewrite (same_firstn (N.to_nat j) r1 r2); [apply split_at; exact J2|lia|lia|].
      intros i Hi. pose proof (H3 (N.of_nat i) ltac:(lia)) as E. rewrite Bit in E by lia.
      rewrite Nat2N.id in E. destruct (N.eqb_spec (nth i r1 0) (nth i r2 0)) as [Y|Y]; [exact Y|].
      replace (N.of_nat i <? lenN r1) with true in E by lia. discriminate.
    + split.
      * destruct (N.eqb_spec (nth (N.to_nat j) r1 0) (nth (N.to_nat j) r2 0)); [discriminate|assumption].
      * rewrite firstn_length. lia.
  - left. split; [reflexivity|].
    assert (E : forall i, (i < N.to_nat (cmax ct))%nat -> (i < length r1)%nat -> nth i r1 0 = nth i r2 0).
    { intros i Hi Hl. pose proof (H (N.of_nat i) ltac:(lia)) as E. rewrite Bit in E by lia.
      rewrite Nat2N.id in E. destruct (N.eqb_spec (nth i r1 0) (nth i r2 0)) as [Y|Y]; [exact Y|].
      replace (N.of_nat i <? lenN r1) with true in E by lia. discriminate. }
    destruct (Nat.le_gt_cases (length r1) (N.to_nat (cmax ct))) as [G|G].
    + rewrite !firstn_all2 by lia.
      rewrite <- (firstn_all r1), <- (firstn_all r2), <- L.
      apply same_firstn; [lia|lia|]. intros i Hi. apply E; lia.
    + apply same_firstn; [lia|lia|]. intros i Hi. apply E; lia.
Qed.

Lemma ld_string : forall ct p r e, 16 <= lenN (encode (csz ct) r ++ e) ->
  ld 16 (encode (csz ct) (p ++ r) ++ e) (lenN p * csz ct) = Ok (le (firstn 16 (encode (csz ct) r ++ e))).
Proof.
  intros ct p r e H. rewrite encode_app, <- app_assoc.
  replace (lenN p * csz ct) with (lenN (encode (csz ct) p)) by (rewrite encode_length; lia).
  apply ld_here. lia.
Qed.

(** Bytes that may be read behind a string of [n] characters. *)
Definition padded (ct : ctype) (n : N) (e : list N) : Prop :=
  (n * csz ct + 15) / 16 * 16 <= n * csz ct + lenN e.

Lemma padded_16 : forall ct r e, 0 < csz ct -> padded ct (lenN r) e -> r <> [] ->
  16 <= lenN (encode (csz ct) r ++ e).
Proof.
  intros ct r e H P N. unfold padded in P. rewrite app_length, encode_length.
  destruct r as [|c r]; [contradiction|]. cbn [length] in *.
  assert (Y : 0 < N.of_nat (S (length r)) * csz ct) by nia.
  replace (N.of_nat (N.to_nat (csz ct) * S (length r) + length e))
    with (N.of_nat (S (length r)) * csz ct + lenN e) by lia.
  revert P Y. generalize (N.of_nat (S (length r)) * csz ct). intros x P Y. lia.
Qed.

Lemma padded_skip : forall ct n e, fits ct -> cmax ct <= n ->
  (padded ct n e <-> padded ct (n - cmax ct) e).
Proof.
  intros ct n e (F0 & F1 & F2) H. unfold padded.
  replace (n * csz ct) with ((n - cmax ct) * csz ct + 16) by nia.
  generalize ((n - cmax ct) * csz ct). intros x. lia.
Qed.

Lemma split_len : forall (r : list N) n, (n <= length r)%nat ->
  r = firstn n r ++ skipn n r /\ length (firstn n r) = n /\ length (skipn n r) = (length r - n)%nat.
Proof.
  intros r n H. split; [symmetry; apply firstn_skipn|].
  rewrite firstn_length, skipn_length. split; lia.
Qed.

Lemma sse_equal_spec : forall ct fuel p1 p2 r1 r2 e1 e2, fits ct ->
  is_string (csz ct) r1 -> is_string (csz ct) r2 -> is_bytes e1 -> is_bytes e2 ->
  length r1 = length r2 -> length p1 = length p2 ->
  padded ct (lenN r1) e1 -> padded ct (lenN r1) e2 -> lenN r1 <= N.of_nat fuel * cmax ct ->
  exists b, sse_equal ct fuel (encode (csz ct) (p1 ++ r1) ++ e1) (encode (csz ct) (p2 ++ r2) ++ e2)
      (lenN p1) (Z.of_N (lenN r1)) = Ok b /\ (b = true <-> r1 = r2).
Proof.
  intros ct. induction fuel as [|fuel IH]; intros p1 p2 r1 r2 e1 e2 F S1 S2 B1 B2 L P X1 X2 G;
    cbn [sse_equal]; destruct (Z.ltb_spec 0 (Z.of_N (lenN r1))) as [Z|Z]; cbn [negb];
    try (exists true; split; [reflexivity|]; destruct r1; [|cbn [length] in Z; lia];
         destruct r2; [|discriminate]; split; reflexivity); [lia|].
  assert (F' := F). destruct F' as (F0 & F1 & F2).
  assert (R1 : 16 <= lenN (encode (csz ct) r1 ++ e1))
    by (apply padded_16; [exact F0|exact X1|destruct r1; [cbn [length] in Z; lia|discriminate]]).
  assert (R2 : 16 <= lenN (encode (csz ct) r2 ++ e2)).
  { apply padded_16; [exact F0|rewrite <- L; exact X2|].
    destruct r2; [cbn [length] in L; lia|discriminate]. }
  rewrite ld_string by exact R1. rewrite P, ld_string by exact R2. cbn [rbind].
  destruct (sse_round ct r1 r2 e1 e2 F S1 S2 B1 B2 L R1 R2) as [[E D]|[E D]]; rewrite E.
  - destruct (N.le_gt_cases (cmax ct) (lenN r1)) as [M|M].
    + destruct (split_len r1 (N.to_nat (cmax ct))) as (K1 & L1 & M1); [lia|].
      destruct (split_len r2 (N.to_nat (cmax ct))) as (K2 & L2 & M2); [lia|].
      rewrite K1 in S1. apply string_app in S1 as [_ S1].
      rewrite K2 in S2. apply string_app in S2 as [_ S2].
      destruct (IH (p1 ++ firstn (N.to_nat (cmax ct)) r1) (p2 ++ firstn (N.to_nat (cmax ct)) r2)
        (skipn (N.to_nat (cmax ct)) r1) (skipn (N.to_nat (cmax ct)) r2) e1 e2) as [b [Eb B]];
        try assumption.
      * lia.
      * rewrite !app_length. lia.
      * replace (lenN (skipn (N.to_nat (cmax ct)) r1)) with (lenN r1 - cmax ct) by lia.
        exact (proj1 (padded_skip ct (lenN r1) e1 F M) X1).
      * replace (lenN (skipn (N.to_nat (cmax ct)) r1)) with (lenN r1 - cmax ct) by lia.
        exact (proj1 (padded_skip ct (lenN r1) e2 F M) X2).
      * nia.
      * exists b. split.
        -- rewrite <- Eb, <- !app_assoc, <- K1, <- K2. f_equal.
           ++ rewrite app_length. lia.
           ++ lia.
        -- rewrite B. split; [|intros ->; reflexivity]. intros S. rewrite K1, K2, D, S. reflexivity.
    + rewrite !firstn_all2 in D by lia. subst r2.
      exists true. split; [|split; reflexivity].
      destruct fuel; cbn [sse_equal];
        replace (0 <? Z.of_N (lenN r1) - Z.of_N (cmax ct))%Z with false by lia; reflexivity.
  - destruct D as (q & c1 & t1 & c2 & t2 & -> & -> & N & _).
    exists false. split; [reflexivity|]. split; [discriminate|]. intros Y.
    apply app_inv_head in Y. injection Y as Y _. contradiction.
Qed.

Lemma to_int_small : forall n, n < 2 ^ 31 -> to_int n = Z.of_N n.
Proof.
  intros n H. unfold to_int. rewrite w32_small by lia.
  replace (Z.of_N n <? 2 ^ 31)%Z with true by lia. reflexivity.
Qed.

Lemma rounds_enough : forall n k, 0 < k -> n <= N.of_nat (S (N.to_nat (n / k))) * k.
Proof. intros n k H. pose proof (N.mul_succ_div_gt n k ltac:(lia)). nia. Qed.

Lemma fits_max : forall ct, fits ct -> 0 < cmax ct.
Proof. intros ct (F0 & F1 & F2). nia. Qed.

Lemma sse_is_equal_spec : forall ct s1 s2 e1 e2, fits ct ->
  is_string (csz ct) s1 -> is_string (csz ct) s2 -> is_bytes e1 -> is_bytes e2 ->
  length s1 = length s2 -> padded ct (lenN s1) e1 -> padded ct (lenN s1) e2 -> lenN s1 < 2 ^ 31 ->
  exists b, sse_is_equal ct (encode (csz ct) s1 ++ e1) (encode (csz ct) s2 ++ e2) (lenN s1) = Ok b
    /\ (b = true <-> s1 = s2).
Proof.
  intros ct s1 s2 e1 e2 F S1 S2 B1 B2 L X1 X2 H. unfold sse_is_equal.
  rewrite to_int_small by exact H.
  apply (sse_equal_spec ct (S (N.to_nat (lenN s1 / cmax ct))) [] [] s1 s2 e1 e2); try assumption.
  - reflexivity.
  - apply rounds_enough. apply fits_max. exact F.
Qed.

Lemma sse_compare_spec : forall ct fuel p1 p2 r1 r2 e1 e2, fits ct ->
  is_string (csz ct) r1 -> is_string (csz ct) r2 -> is_bytes e1 -> is_bytes e2 ->
  length r1 = length r2 -> length p1 = length p2 ->
  padded ct (lenN r1) e1 -> padded ct (lenN r1) e2 -> lenN r1 <= N.of_nat fuel * cmax ct ->
  exists r, sse_compare ct fuel (encode (csz ct) (p1 ++ r1) ++ e1) (encode (csz ct) (p2 ++ r2) ++ e2)
      (lenN p1) (Z.of_N (lenN r1)) = Ok r /\ tells r (lex Z.of_N r1 r2) /\ (-1 <= r <= 1)%Z.
Proof.
  intros ct. induction fuel as [|fuel IH]; intros p1 p2 r1 r2 e1 e2 F S1 S2 B1 B2 L P X1 X2 G;
    cbn [sse_compare]; destruct (Z.ltb_spec 0 (Z.of_N (lenN r1))) as [Z|Z]; cbn [negb];
    try (exists IsEqual; split; [reflexivity|]; destruct r1; [|cbn [length] in Z; lia];
         destruct r2; [|discriminate]; split; [reflexivity|unfold IsEqual; lia]); [lia|].
  assert (F' := F). destruct F' as (F0 & F1 & F2).
  assert (R1 : 16 <= lenN (encode (csz ct) r1 ++ e1))
    by (apply padded_16; [exact F0|exact X1|destruct r1; [cbn [length] in Z; lia|discriminate]]).
  assert (R2 : 16 <= lenN (encode (csz ct) r2 ++ e2)).
  { apply padded_16; [exact F0|rewrite <- L; exact X2|].
    destruct r2; [cbn [length] in L; lia|discriminate]. }
  rewrite ld_string by exact R1. rewrite P, ld_string by exact R2. cbn [rbind].
  destruct (sse_round ct r1 r2 e1 e2 F S1 S2 B1 B2 L R1 R2) as [[E D]|[E D]]; rewrite E; cbn [negb].
  - destruct (N.le_gt_cases (cmax ct) (lenN r1)) as [M|M].
    + destruct (split_len r1 (N.to_nat (cmax ct))) as (K1 & L1 & M1); [lia|].
      destruct (split_len r2 (N.to_nat (cmax ct))) as (K2 & L2 & M2); [lia|].
      rewrite K1 in S1. apply string_app in S1 as [_ S1].
      rewrite K2 in S2. apply string_app in S2 as [_ S2].
      destruct (IH (p1 ++ firstn (N.to_nat (cmax ct)) r1) (p2 ++ firstn (N.to_nat (cmax ct)) r2)
        (skipn (N.to_nat (cmax ct)) r1) (skipn (N.to_nat (cmax ct)) r2) e1 e2) as [r [Er [B BB]]];
        try assumption.
      * lia.
      * rewrite !app_length. lia.
      * replace (lenN (skipn (N.to_nat (cmax ct)) r1)) with (lenN r1 - cmax ct) by lia.
        exact (proj1 (padded_skip ct (lenN r1) e1 F M) X1).
      * replace (lenN (skipn (N.to_nat (cmax ct)) r1)) with (lenN r1 - cmax ct) by lia.
        exact (proj1 (padded_skip ct (lenN r1) e2 F M) X2).
      * nia.
      * exists r. split; [|split; [|exact BB]].
        -- rewrite <- Er, <- !app_assoc, <- K1, <- K2. f_equal.
           ++ rewrite app_length. lia.
           ++ lia.
        -- rewrite K1, K2, D. revert B. generalize (firstn (N.to_nat (cmax ct)) r2).
           intros q B. induction q as [|c q IQ]; cbn [app lex]; [exact B|].
           rewrite Z.compare_refl. exact IQ.
    + rewrite !firstn_all2 in D by lia. subst r2.
      exists IsEqual. split; [|split; [|unfold IsEqual; lia]].
      * destruct fuel; cbn [sse_compare];
          replace (0 <? Z.of_N (lenN r1) - Z.of_N (cmax ct))%Z with false by lia; reflexivity.
      * unfold tells. rewrite lex_refl. reflexivity.
  - destruct D as (q & c1 & t1 & c2 & t2 & -> & -> & N & I). rewrite I.
    apply string_app in S1 as [_ S1]. apply string_cons in S1 as [H1 _].
    apply string_app in S2 as [_ S2]. apply string_cons in S2 as [H2 _].
    assert (Q1 : lenN p2 + lenN q = lenN (p1 ++ q)) by (rewrite app_length; lia).
    assert (Q2 : lenN p2 + lenN q = lenN (p2 ++ q)) by (rewrite app_length; lia).
    rewrite Q1, app_assoc, chr_at by exact H1. rewrite <- Q1, Q2, (app_assoc p2), chr_at by exact H2.
    cbn [rbind]. eexists. split; [reflexivity|].
    assert (N' : Z.of_N c1 <> Z.of_N c2) by lia.
    rewrite (lex_diff Z.of_N q c1 t1 c2 t2 N'). split.
    + pose proof (bigger_tells _ _ N') as T. unfold bigger in T.
      replace (c2 <? c1) with (Z.of_N c2 <? Z.of_N c1)%Z by lia. exact T.
    + unfold IsBigger, IsSmaller. destruct (c2 <? c1); lia.
Qed.

Lemma sse_compare3_spec : forall ct s1 s2 e1 e2, fits ct ->
  is_string (csz ct) s1 -> is_string (csz ct) s2 -> is_bytes e1 -> is_bytes e2 ->
  length s1 = length s2 -> padded ct (lenN s1) e1 -> padded ct (lenN s1) e2 -> lenN s1 < 2 ^ 31 ->
  exists r, sse_compare3 ct (encode (csz ct) s1 ++ e1) (encode (csz ct) s2 ++ e2) (lenN s1) = Ok r
    /\ tells r (lex Z.of_N s1 s2) /\ (-1 <= r <= 1)%Z.
Proof.
  intros ct s1 s2 e1 e2 F S1 S2 B1 B2 L X1 X2 H. unfold sse_compare3.
  rewrite to_int_small by exact H.
  apply (sse_compare_spec ct (S (N.to_nat (lenN s1 / cmax ct))) [] [] s1 s2 e1 e2); try assumption.
  - reflexivity.
  - apply rounds_enough. apply fits_max. exact F.
Qed.

(** Without the bytes behind the string. *)
Lemma sse_equal_out : forall ct fuel p r e1 e2, fits ct ->
  is_string (csz ct) r -> is_bytes e1 -> is_bytes e2 ->
  ~ padded ct (lenN r) e1 -> padded ct (lenN r) e2 \/ e2 = e1 -> lenN r <= N.of_nat fuel * cmax ct ->
  sse_equal ct fuel (encode (csz ct) (p ++ r) ++ e1) (encode (csz ct) (p ++ r) ++ e2)
    (lenN p) (Z.of_N (lenN r)) = Err EUndef
  /\ sse_compare ct fuel (encode (csz ct) (p ++ r) ++ e1) (encode (csz ct) (p ++ r) ++ e2)
    (lenN p) (Z.of_N (lenN r)) = Err EUndef.
Proof.
  intros ct. induction fuel as [|fuel IH]; intros p r e1 e2 F S B1 B2 X1 X2 G.
  { exfalso. apply X1. unfold padded. replace (lenN r) with 0 by lia.
    rewrite N.mul_0_l. change ((0 + 15) / 16 * 16) with 0. lia. }
  assert (F' := F). destruct F' as (F0 & F1 & F2).
  cbn [sse_equal sse_compare]. destruct (Z.ltb_spec 0 (Z.of_N (lenN r))) as [Z|Z]; cbn [negb].
  2: { exfalso. apply X1. unfold padded. replace (lenN r) with 0 by lia.
       rewrite N.mul_0_l. change ((0 + 15) / 16 * 16) with 0. lia. }
  destruct (N.le_gt_cases (cmax ct) (lenN r)) as [M|M].
  - assert (R0 : 16 <= lenN (encode (csz ct) r)) by (rewrite encode_length; nia).
    assert (R1 : 16 <= lenN (encode (csz ct) r ++ e1)) by (rewrite app_length; lia).
    assert (R2 : 16 <= lenN (encode (csz ct) r ++ e2)) by (rewrite app_length; lia).
    rewrite (ld_string ct p r e1) by exact R1. rewrite (ld_string ct p r e2) by exact R2. cbn [rbind].
    destruct (split_len r (N.to_nat (cmax ct))) as (K1 & L1 & M1); [lia|].
    destruct (sse_round ct r r e1 e2 F S S B1 B2 eq_refl R1 R2) as [[E D]|[E D]]; rewrite E; cbn [negb].
    + destruct (IH (p ++ firstn (N.to_nat (cmax ct)) r) (skipn (N.to_nat (cmax ct)) r) e1 e2) as [I1 I2];
        try assumption.
      * rewrite K1 in S. apply string_app in S as [_ S]. exact S.
      * intros Y. apply X1. apply (proj2 (padded_skip ct (lenN r) e1 F M)).
        replace (lenN r - cmax ct) with (lenN (skipn (N.to_nat (cmax ct)) r)) by lia. exact Y.
      * destruct X2 as [X2|X2]; [left|right; exact X2].
        replace (lenN (skipn (N.to_nat (cmax ct)) r)) with (lenN r - cmax ct) by lia.
        exact (proj1 (padded_skip ct (lenN r) e2 F M) X2).
      * nia.
      * rewrite <- !app_assoc, <- K1 in I1, I2.
        replace (lenN (p ++ firstn (N.to_nat (cmax ct)) r)) with (lenN p + cmax ct) in I1, I2
          by (rewrite app_length; lia).
        replace (Z.of_N (lenN (skipn (N.to_nat (cmax ct)) r)))
          with (Z.of_N (lenN r) - Z.of_N (cmax ct))%Z in I1, I2 by lia.
        split; [exact I1|exact I2].
    + exfalso. destruct D as (q & c1 & t1 & c2 & t2 & Y1 & Y2 & N & _). rewrite Y1 in Y2.
      apply app_inv_head in Y2. injection Y2 as Y2 _. contradiction.
  - assert (O : ld 16 (encode (csz ct) (p ++ r) ++ e1) (lenN p * csz ct) = Err EUndef).
    { apply ld_out. rewrite app_length, encode_length, app_length.
      unfold padded in X1.
      assert (Y : 0 < lenN r * csz ct < 16) by nia.
      replace (N.of_nat (N.to_nat (csz ct) * (length p + length r) + length e1))
        with (lenN p * csz ct + (lenN r * csz ct + lenN e1)) by lia.
      revert X1 Y. generalize (lenN r * csz ct) (lenN p * csz ct). intros x y X1 Y. lia. }
    rewrite O. split; reflexivity.
Qed.

Lemma sse_out : forall ct s e1 e2, fits ct -> is_string (csz ct) s -> is_bytes e1 -> is_bytes e2 ->
  ~ padded ct (lenN s) e1 -> padded ct (lenN s) e2 \/ e2 = e1 -> lenN s < 2 ^ 31 ->
  sse_is_equal ct (encode (csz ct) s ++ e1) (encode (csz ct) s ++ e2) (lenN s) = Err EUndef
  /\ sse_compare3 ct (encode (csz ct) s ++ e1) (encode (csz ct) s ++ e2) (lenN s) = Err EUndef.
Proof.
  intros ct s e1 e2 F HS B1 B2 X1 X2 H. unfold sse_is_equal, sse_compare3.
  rewrite to_int_small by exact H.
  apply (sse_equal_out ct (S (N.to_nat (lenN s / cmax ct))) [] s e1 e2); try assumption.
  apply rounds_enough. apply fits_max. exact F.
Qed.

(** ** Lengths that are negative as an int *)
Lemma sse_negative : forall ct m1 m2 n, n mod 2 ^ 32 = 0 \/ 2 ^ 31 <= n mod 2 ^ 32 ->
  sse_is_equal ct m1 m2 n = Ok true /\ sse_compare3 ct m1 m2 n = Ok IsEqual.
Proof.
  intros ct m1 m2 n H. unfold sse_is_equal, sse_compare3.
  assert (T : (0 <? to_int n)%Z = false).
  { unfold to_int, w32, two32. change (2 ^ 32) with 4294967296 in *. change (2 ^ 31) with 2147483648 in H.
    change (2 ^ 31)%Z with 2147483648%Z. change (2 ^ 32)%Z with 4294967296%Z.
    assert (Y : n mod 4294967296 < 4294967296) by (apply N.mod_lt; discriminate).
    revert H Y. generalize (n mod 4294967296). intros x H Y.
    destruct (Z.ltb_spec (Z.of_N x) 2147483648); lia. }
  split.
  - cbn [sse_equal]. rewrite T. reflexivity.
  - cbn [sse_compare]. rewrite T. reflexivity.
Qed.
