(** Lemmas about strings in memory, and the variants of the comparisons with memcmp and with
    the functions of the C library. *)
From Coq Require Import NArith ZArith List Bool Lia.
From Coq Require Import ZifyBool ZifyNat ZifyN.
From Verif Require Import Base HashModel HashSpec HashFacts FnvFacts StrModel StrSpec.
Import ListNotations.
Open Scope N_scope.

(** ** Bytes of characters *)
Lemma enc1_length : forall n c, length (enc1 n c) = n.
Proof. induction n as [|n IH]; intros c; cbn [enc1 length]; [reflexivity|]. rewrite IH. reflexivity. Qed.

Lemma enc1_bytes : forall n c, is_bytes (enc1 n c).
Proof.
  induction n as [|n IH]; intros c; cbn [enc1]; constructor; [|apply IH].
  unfold is_byte. apply N.mod_lt. discriminate.
Qed.

Lemma le_enc1 : forall n c, c < 2 ^ (8 * N.of_nat n) -> le (enc1 n c) = c.
Proof.
  induction n as [|n IH]; intros c H; cbn [enc1 le].
  - change (2 ^ (8 * N.of_nat 0)) with 1 in H. lia.
  - replace (8 * N.of_nat (S n)) with (8 + 8 * N.of_nat n) in H by lia.
    rewrite N.pow_add_r in H. change (2 ^ 8) with 256 in H.
    rewrite IH.
    + pose proof (N.div_mod c 256 ltac:(discriminate)). lia.
    + apply N.div_lt_upper_bound; [discriminate|exact H].
Qed.

Lemma encode_length : forall sz s, length (encode sz s) = (N.to_nat sz * length s)%nat.
Proof.
  intros sz. induction s as [|c s IH]; [cbn; lia|].
  unfold encode in *. cbn [flat_map length]. rewrite app_length, enc1_length, IH. lia.
Qed.

Lemma encode_bytes : forall sz s, is_bytes (encode sz s).
Proof.
  intros sz. induction s as [|c s IH]; [constructor|].
  unfold encode in *. cbn [flat_map]. apply bytes_app. split; [apply enc1_bytes|exact IH].
Qed.

Lemma encode_app : forall sz s t, encode sz (s ++ t) = encode sz s ++ encode sz t.
Proof. intros sz s t. unfold encode. apply flat_map_app. Qed.

Lemma encode_cons : forall sz c s, encode sz (c :: s) = enc1 (N.to_nat sz) c ++ encode sz s.
Proof. reflexivity. Qed.

Lemma app_same : forall (A : Type) (a b c d : list A), length a = length b ->
  a ++ c = b ++ d -> a = b /\ c = d.
Proof.
  induction a as [|x a IH]; intros [|y b] c d L E; try discriminate; [split; [reflexivity|exact E]|].
  cbn [app] in E. injection E as -> E. cbn [length] in L. injection L as L.
  destruct (IH b c d L E) as [-> ->]. split; reflexivity.
Qed.

Lemma encode_inj : forall sz s t, is_string sz s -> is_string sz t ->
  length s = length t -> encode sz s = encode sz t -> s = t.
Proof.
  intros sz. induction s as [|c s IH]; intros [|d t] Hs Ht L E; try discriminate; [reflexivity|].
  inversion Hs as [|? ? Hc Hs']; inversion Ht as [|? ? Hd Ht']; subst.
  rewrite !encode_cons in E.
  apply app_same in E; [|rewrite !enc1_length; reflexivity]. destruct E as [E1 E2].
  cbn [length] in L. injection L as L.
  f_equal; [|apply IH; assumption].
  rewrite <- (le_enc1 (N.to_nat sz) c), <- (le_enc1 (N.to_nat sz) d), E1; [reflexivity| |];
    rewrite N2Nat.id; assumption.
Qed.

(** ** Characters in memory *)
Lemma chr_at : forall ct p c r e, c < 2 ^ (8 * csz ct) ->
  chr ct (encode (csz ct) (p ++ c :: r) ++ e) (lenN p) = Ok c.
Proof.
  intros ct p c r e H. unfold chr.
  rewrite encode_app, encode_cons.
  replace ((encode (csz ct) p ++ enc1 (N.to_nat (csz ct)) c ++ encode (csz ct) r) ++ e)
    with ([] ++ (encode (csz ct) p ++ enc1 (N.to_nat (csz ct)) c ++ encode (csz ct) r) ++ e)
    by reflexivity.
  replace (lenN p * csz ct) with (lenN (@nil N) + lenN (encode (csz ct) p))
    by (rewrite encode_length; cbn [length]; lia).
  rewrite ld_at by apply enc1_length.
  rewrite le_enc1; [reflexivity|]. rewrite N2Nat.id. exact H.
Qed.

Lemma string_cons : forall sz c s, is_string sz (c :: s) -> c < 2 ^ (8 * sz) /\ is_string sz s.
Proof. intros sz c s H. inversion H; subst. split; assumption. Qed.

Lemma string_app : forall sz s t, is_string sz (s ++ t) <-> is_string sz s /\ is_string sz t.
Proof. intros sz s t. unfold is_string. apply Forall_app. Qed.

Lemma lenN_snoc : forall (A : Type) (p : list A) c, lenN (p ++ [c]) = lenN p + 1.
Proof. intros A p c. rewrite app_length. cbn [length]. lia. Qed.

Lemma snoc_app : forall (A : Type) (p : list A) c r, (p ++ [c]) ++ r = p ++ c :: r.
Proof. intros A p c r. rewrite <- app_assoc. reflexivity. Qed.

(** ** Values of characters *)
Lemma pow_split : forall n, 0 < n -> 2 ^ (8 * n) = 2 * 2 ^ (8 * n - 1).
Proof.
  intros n H. replace (8 * n) with (1 + (8 * n - 1)) at 1 by lia. rewrite N.pow_add_r. reflexivity.
Qed.

Lemma cval_inj : forall ct c d, c < 2 ^ (8 * csz ct) -> d < 2 ^ (8 * csz ct) ->
  cval ct c = cval ct d -> c = d.
Proof.
  intros ct c d Hc Hd. unfold cval.
  assert (P : (2 ^ (8 * Z.of_N (csz ct)))%Z = Z.of_N (2 ^ (8 * csz ct)))
    by (rewrite N2Z.inj_pow, N2Z.inj_mul; reflexivity).
  rewrite P. clear P.
  revert Hc Hd. generalize (2 ^ (8 * csz ct)). intros b Hc Hd.
  generalize (2 ^ (8 * csz ct - 1)). intros h.
  destruct (csigned ct); cbn [andb]; [|lia].
  destruct (h <=? c), (h <=? d); lia.
Qed.

Lemma libval_inj : forall ct c d, c < 2 ^ (8 * csz ct) -> d < 2 ^ (8 * csz ct) ->
  libval ct c = libval ct d -> c = d.
Proof.
  intros ct c d Hc Hd. unfold libval. destruct (csz ct =? 1); [lia|]. apply cval_inj; assumption.
Qed.

Lemma lib_zero : forall lib x y, conforming lib -> x <> y -> (lib x y =? 0)%Z = false.
Proof.
  intros lib x y H N. specialize (H x y N). unfold tells in H.
  destruct (Z.eqb_spec (lib x y) 0) as [E|_]; [|reflexivity].
  rewrite E in H. rewrite Z.compare_refl in H.
  symmetry in H. apply Z.compare_eq in H. contradiction.
Qed.

Lemma bigger_tells : forall x y, x <> y -> tells (bigger x y) (Z.compare x y).
Proof.
  intros x y N. unfold tells, bigger, IsBigger, IsSmaller.
  destruct (Z.ltb_spec y x) as [H|H].
  - symmetry. apply Z.compare_gt_iff. exact H.
  - symmetry. apply Z.compare_lt_iff. lia.
Qed.

(** ** The order *)
Lemma lex_diff : forall value p c1 r1 c2 r2, value c1 <> value c2 ->
  lex value (p ++ c1 :: r1) (p ++ c2 :: r2) = Z.compare (value c1) (value c2).
Proof.
  intros value p c1 r1 c2 r2 N. induction p as [|c p IH]; cbn [app lex].
  - destruct (Z.compare_spec (value c1) (value c2)) as [E|_|_]; [contradiction|reflexivity|reflexivity].
  - rewrite Z.compare_refl. exact IH.
Qed.

Lemma lex_refl : forall value s, lex value s s = Eq.
Proof. intros value. induction s as [|c s IH]; cbn [lex]; [reflexivity|]. rewrite Z.compare_refl. exact IH. Qed.

Lemma lex_prefix : forall value n s1 s2, n = Nat.min (length s1) (length s2) ->
  lex value s1 s2 =
  match lex value (firstn n s1) (firstn n s2) with
  | Eq => Nat.compare (length s1) (length s2)
  | o => o
  end.
Proof.
  intros value n s1. revert n. induction s1 as [|c1 s1 IH]; intros n [|c2 s2] ->; cbn [length Nat.min firstn lex Nat.compare];
    try reflexivity.
  destruct (value c1 ?= value c2)%Z; [|reflexivity|reflexivity].
  rewrite (IH _ s2 eq_refl). reflexivity.
Qed.

Lemma by_length_tells : forall value r s1 s2,
  let n := Nat.min (length s1) (length s2) in
  tells r (lex value (firstn n s1) (firstn n s2)) ->
  tells (by_length r (lenN s1) (lenN s2)) (lex value s1 s2).
Proof.
  intros value r s1 s2 n H. rewrite (lex_prefix value n s1 s2 eq_refl).
  unfold tells, by_length in *.
  destruct (Z.eqb_spec r 0) as [->|N]; cbn [negb].
  - rewrite Z.compare_refl in H. rewrite <- H.
    destruct (Nat.compare_spec (length s1) (length s2)) as [E|E|E].
    + replace (lenN s2 <? lenN s1) with false by lia.
      replace (lenN s1 <? lenN s2) with false by lia. reflexivity.
    + replace (lenN s2 <? lenN s1) with false by lia.
      replace (lenN s1 <? lenN s2) with true by lia. reflexivity.
    + replace (lenN s2 <? lenN s1) with true by lia. reflexivity.
  - rewrite H. destruct (lex value (firstn n s1) (firstn n s2)); try reflexivity.
    apply Z.compare_eq in H. contradiction.
Qed.

(** ** memcmp *)
Lemma memcmp_from_tells : forall lib b1 b2, conforming lib -> length b1 = length b2 ->
  tells (memcmp_from lib b1 b2) (lex Z.of_N b1 b2).
Proof.
  intros lib b1 b2 H. revert b2.
  induction b1 as [|c1 b1 IH]; intros [|c2 b2] L; try discriminate; cbn [memcmp_from lex]; [reflexivity|].
  destruct (N.eqb_spec c1 c2) as [->|N].
  - rewrite Z.compare_refl. apply IH. cbn [length] in L. lia.
  - assert (N' : Z.of_N c1 <> Z.of_N c2) by lia.
    pose proof (H _ _ N') as T. revert T.
    destruct (Z.compare_spec (Z.of_N c1) (Z.of_N c2)) as [E|E|E]; [contradiction| |]; intros T; exact T.
Qed.

Lemma memcmp_from_eq : forall lib b1 b2, conforming lib -> length b1 = length b2 ->
  ((memcmp_from lib b1 b2 =? 0)%Z = true <-> b1 = b2).
Proof.
  intros lib b1 b2 H. revert b2.
  induction b1 as [|c1 b1 IH]; intros [|c2 b2] L; try discriminate; cbn [memcmp_from]; [split; reflexivity|].
  destruct (N.eqb_spec c1 c2) as [->|N].
  - rewrite IH by (cbn [length] in L; lia). split; [intros ->; reflexivity|intros E; injection E; auto].
  - rewrite lib_zero; [split; [discriminate|intros E; injection E as E _; contradiction]|exact H|lia].
Qed.

Lemma firstn_exact : forall (A : Type) n (a b : list A), n = length a -> firstn n (a ++ b) = a.
Proof. intros A n a b ->. apply firstn_app_len. Qed.

(** memcmp looks at the strings and at nothing behind them. *)
Lemma memcmp_strings : forall ct lib s1 s2 e1 e2 n,
  length s1 = n -> length s2 = n -> N.of_nat n * csz ct < 2 ^ 64 ->
  memcmp lib (encode (csz ct) s1 ++ e1) (encode (csz ct) s2 ++ e2) (wmul (N.of_nat n) (csz ct))
  = Ok (memcmp_from lib (encode (csz ct) s1) (encode (csz ct) s2)).
Proof.
  intros ct lib s1 s2 e1 e2 n L1 L2 Hn. unfold memcmp.
  replace (wmul (N.of_nat n) (csz ct)) with (N.of_nat n * csz ct)
    by (unfold wmul, w64, two64; rewrite N.mod_small by exact Hn; reflexivity).
  rewrite !app_length, !encode_length, L1, L2.
  replace ((_ <=? _) && _) with true by lia.
  rewrite !firstn_exact by (rewrite encode_length; lia). reflexivity.
Qed.

Lemma stl_equal : forall ct lib s1 s2 e1 e2, conforming lib ->
  is_string (csz ct) s1 -> is_string (csz ct) s2 -> length s1 = length s2 ->
  lenN s1 * csz ct < 2 ^ 64 ->
  exists b, stl_StrEqual ct lib (encode (csz ct) s1 ++ e1) (encode (csz ct) s2 ++ e2) (lenN s1) = Ok b
    /\ (b = true <-> s1 = s2).
Proof.
  intros ct lib s1 s2 e1 e2 H S1 S2 L Hn. unfold stl_StrEqual.
  rewrite (memcmp_strings ct lib s1 s2 e1 e2 (length s1) eq_refl (eq_sym L) Hn). cbn [rbind].
  eexists. split; [reflexivity|].
  rewrite memcmp_from_eq by (try exact H; rewrite !encode_length, L; reflexivity).
  split; [|intros ->; reflexivity]. apply encode_inj; assumption.
Qed.

Lemma encode1 : forall s, is_string 1 s -> encode 1 s = s.
Proof.
  induction s as [|c s IH]; intros H; [reflexivity|].
  apply string_cons in H as [Hc Hs]. change (2 ^ (8 * 1)) with 256 in Hc.
  rewrite encode_cons, IH by exact Hs. change (N.to_nat 1) with 1%nat. cbn [enc1 app].
  rewrite N.mod_small by exact Hc. reflexivity.
Qed.

Lemma stl_compare : forall ct lib s1 s2 e1 e2, conforming lib -> csz ct = 1 ->
  is_string 1 s1 -> is_string 1 s2 -> length s1 = length s2 -> lenN s1 < 2 ^ 64 ->
  exists r, stl_StrCmp ct lib (s1 ++ e1) (s2 ++ e2) (lenN s1) = Ok r /\ tells r (lex Z.of_N s1 s2).
Proof.
  intros ct lib s1 s2 e1 e2 H C S1 S2 L Hn. unfold stl_StrCmp.
  pose proof (memcmp_strings ct lib s1 s2 e1 e2 (length s1) eq_refl (eq_sym L)) as M.
  rewrite C in *. rewrite !encode1 in M by assumption. rewrite M by lia.
  eexists. split; [reflexivity|]. apply memcmp_from_tells; assumption.
Qed.

(** ** The C library *)
Lemma eq_loop_spec : forall ct r1 r2 p1 p2 e1 e2,
  is_string (csz ct) r1 -> is_string (csz ct) r2 -> length r1 = length r2 -> length p1 = length p2 ->
  exists b, eq_loop ct (length r1) (encode (csz ct) (p1 ++ r1) ++ e1) (encode (csz ct) (p2 ++ r2) ++ e2) (lenN p1)
    = Ok b /\ (b = true <-> r1 = r2).
Proof.
  intros ct. induction r1 as [|c1 r1 IH]; intros [|c2 r2] p1 p2 e1 e2 S1 S2 L P; try discriminate.
  - exists true. split; [reflexivity|split; reflexivity].
  - apply string_cons in S1 as [H1 S1]. apply string_cons in S2 as [H2 S2].
    cbn [length eq_loop]. rewrite chr_at by exact H1. rewrite P, chr_at by exact H2. cbn [rbind].
    destruct (N.eqb_spec c1 c2) as [->|N]; cbn [negb].
    + destruct (IH r2 (p1 ++ [c2]) (p2 ++ [c2]) e1 e2 S1 S2) as [b [E B]].
      * cbn [length] in L. lia.
      * rewrite !app_length. lia.
      * rewrite !snoc_app, lenN_snoc, P in E. exists b. split; [exact E|].
        rewrite B. split; [intros ->; reflexivity|intros X; injection X; auto].
    + exists false. split; [reflexivity|]. split; [discriminate|intros X; injection X as X _; contradiction].
Qed.

Lemma cmp_loop_spec : forall ct r1 r2 p1 p2 e1 e2,
  is_string (csz ct) r1 -> is_string (csz ct) r2 -> length r1 = length r2 -> length p1 = length p2 ->
  exists r, cmp_loop ct (length r1) (encode (csz ct) (p1 ++ r1) ++ e1) (encode (csz ct) (p2 ++ r2) ++ e2) (lenN p1)
    = Ok r /\ tells r (lex (cval ct) r1 r2).
Proof.
  intros ct. induction r1 as [|c1 r1 IH]; intros [|c2 r2] p1 p2 e1 e2 S1 S2 L P; try discriminate.
  - exists IsEqual. split; reflexivity.
  - apply string_cons in S1 as [H1 S1]. apply string_cons in S2 as [H2 S2].
    cbn [length cmp_loop]. rewrite chr_at by exact H1. rewrite P, chr_at by exact H2. cbn [rbind].
    destruct (N.eqb_spec c1 c2) as [->|N]; cbn [negb].
    + destruct (IH r2 (p1 ++ [c2]) (p2 ++ [c2]) e1 e2 S1 S2) as [r [E B]].
      * cbn [length] in L. lia.
      * rewrite !app_length. lia.
      * rewrite !snoc_app, lenN_snoc, P in E. exists r. split; [exact E|].
        cbn [lex]. rewrite Z.compare_refl. exact B.
    + assert (N' : cval ct c1 <> cval ct c2) by (intros X; apply N; exact (cval_inj ct c1 c2 H1 H2 X)).
      eexists. split; [reflexivity|].
      pose proof (lex_diff (cval ct) [] c1 r1 c2 r2 N') as X. cbn [app] in X. rewrite X. apply bigger_tells. exact N'.
Qed.

(** strncmp, if the first string has no zero. *)
Lemma strncmp_spec : forall ct lib r1 r2 p1 p2 e1 e2, conforming lib -> ~ In 0 r1 ->
  is_string (csz ct) r1 -> is_string (csz ct) r2 -> length r1 = length r2 -> length p1 = length p2 ->
  exists r, strncmp ct lib (length r1) (encode (csz ct) (p1 ++ r1) ++ e1) (encode (csz ct) (p2 ++ r2) ++ e2) (lenN p1)
    = Ok r /\ tells r (lex (libval ct) r1 r2).
Proof.
  intros ct lib r1 r2 p1 p2 e1 e2 C. revert r2 p1 p2.
  induction r1 as [|c1 r1 IH]; intros [|c2 r2] p1 p2 Z S1 S2 L P; try discriminate.
  - exists 0%Z. split; reflexivity.
  - apply string_cons in S1 as [H1 S1]. apply string_cons in S2 as [H2 S2].
    cbn [length strncmp]. rewrite chr_at by exact H1. rewrite P, chr_at by exact H2. cbn [rbind].
    destruct (N.eqb_spec c1 c2) as [E|N]; cbn [negb].
    + destruct (N.eqb_spec c1 0) as [Y|_]; [exfalso; apply Z; left; exact Y|].
      subst c2.
      destruct (IH r2 (p1 ++ [c1]) (p2 ++ [c1])) as [r [E B]].
      * intros X. apply Z. right. exact X.
      * exact S1.
      * exact S2.
      * cbn [length] in L. lia.
      * rewrite !app_length. lia.
      * rewrite !snoc_app, lenN_snoc, P in E. exists r. split; [exact E|].
        cbn [lex]. rewrite Z.compare_refl. exact B.
    + assert (N' : libval ct c1 <> libval ct c2) by (intros X; apply N; exact (libval_inj ct c1 c2 H1 H2 X)).
      eexists. split; [reflexivity|].
      pose proof (lex_diff (libval ct) [] c1 r1 c2 r2 N') as X. cbn [app] in X. rewrite X. apply C. exact N'.
Qed.

Lemma lex_eq : forall value sz s1 s2,
  (forall c d, c < 2 ^ (8 * sz) -> d < 2 ^ (8 * sz) -> value c = value d -> c = d) ->
  is_string sz s1 -> is_string sz s2 -> (lex value s1 s2 = Eq <-> s1 = s2).
Proof.
  intros value sz s1 s2 V. revert s2.
  induction s1 as [|c1 s1 IH]; intros [|c2 s2] S1 S2; cbn [lex].
  - split; reflexivity.
  - split; discriminate.
  - split; discriminate.
  - apply string_cons in S1 as [H1 S1]. apply string_cons in S2 as [H2 S2].
    destruct (Z.compare_spec (value c1) (value c2)) as [E|E|E].
    + apply V in E; [|exact H1|exact H2]. subst c2. rewrite IH by assumption.
      split; [intros ->; reflexivity|intros X; injection X; auto].
    + split; [discriminate|]. intros X. injection X as -> _. lia.
    + split; [discriminate|]. intros X. injection X as -> _. lia.
Qed.

Lemma tells_eq : forall r o, tells r o -> ((r =? 0)%Z = true <-> o = Eq).
Proof.
  intros r o H. unfold tells in H. rewrite <- H. rewrite Z.eqb_eq. symmetry. apply Z.compare_eq_iff.
Qed.

(** What the C library variants need: no zero in the first string, for char and wchar_t. *)
Lemma libc_equal : forall ct lib s1 s2 e1 e2, conforming lib ->
  is_string (csz ct) s1 -> is_string (csz ct) s2 -> length s1 = length s2 ->
  (cspecial ct = true -> ~ In 0 s1) ->
  exists b, libc_StrEqual ct lib (encode (csz ct) s1 ++ e1) (encode (csz ct) s2 ++ e2) (lenN s1) = Ok b
    /\ (b = true <-> s1 = s2).
Proof.
  intros ct lib s1 s2 e1 e2 C S1 S2 L Z. unfold libc_StrEqual. rewrite Nat2N.id.
  destruct (cspecial ct).
  - destruct (strncmp_spec ct lib s1 s2 [] [] e1 e2 C (Z eq_refl) S1 S2 L eq_refl) as [r [E B]].
    cbn [app length] in E. change (N.of_nat 0) with 0 in E. rewrite E. cbn [rbind].
    eexists. split; [reflexivity|]. rewrite (tells_eq _ _ B).
    apply (lex_eq (libval ct) (csz ct)); [apply libval_inj|exact S1|exact S2].
  - exact (eq_loop_spec ct s1 s2 [] [] e1 e2 S1 S2 L eq_refl).
Qed.

Lemma libc_compare : forall ct lib s1 s2 e1 e2, conforming lib ->
  is_string (csz ct) s1 -> is_string (csz ct) s2 -> length s1 = length s2 ->
  (cspecial ct = true -> ~ In 0 s1) ->
  exists r, libc_StrCmp ct lib (encode (csz ct) s1 ++ e1) (encode (csz ct) s2 ++ e2) (lenN s1) = Ok r
    /\ tells r (lex (if cspecial ct then libval ct else cval ct) s1 s2).
Proof.
  intros ct lib s1 s2 e1 e2 C S1 S2 L Z. unfold libc_StrCmp. rewrite Nat2N.id.
  destruct (cspecial ct).
  - exact (strncmp_spec ct lib s1 s2 [] [] e1 e2 C (Z eq_refl) S1 S2 L eq_refl).
  - exact (cmp_loop_spec ct s1 s2 [] [] e1 e2 S1 S2 L eq_refl).
Qed.

(** With zeros, too, strncmp reads nothing behind the strings. *)
Lemma strncmp_defined : forall ct lib r1 r2 p1 p2 e1 e2,
  is_string (csz ct) r1 -> is_string (csz ct) r2 -> length r1 = length r2 -> length p1 = length p2 ->
  exists r, strncmp ct lib (length r1) (encode (csz ct) (p1 ++ r1) ++ e1) (encode (csz ct) (p2 ++ r2) ++ e2) (lenN p1)
    = Ok r.
Proof.
  intros ct lib. induction r1 as [|c1 r1 IH]; intros [|c2 r2] p1 p2 e1 e2 S1 S2 L P; try discriminate.
  - eexists. reflexivity.
  - apply string_cons in S1 as [H1 S1]. apply string_cons in S2 as [H2 S2].
    cbn [length strncmp]. rewrite chr_at by exact H1. rewrite P, chr_at by exact H2. cbn [rbind].
    destruct (N.eqb_spec c1 c2) as [->|N]; cbn [negb]; [|eexists; reflexivity].
    destruct (c2 =? 0); [eexists; reflexivity|].
    destruct (IH r2 (p1 ++ [c2]) (p2 ++ [c2]) e1 e2 S1 S2) as [r E].
    + cbn [length] in L. lia.
    + rewrite !app_length. lia.
    + rewrite !snoc_app, lenN_snoc, P in E. exists r. exact E.
Qed.
