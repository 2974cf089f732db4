(** The functions of string_utils.h with two lengths and those of string_view.h. *)
From Coq Require Import Arith NArith ZArith List Bool Lia.
From Coq Require Import ZifyBool ZifyNat ZifyN.
From Verif Require Import Base HashModel HashSpec HashFacts FnvFacts StrModel StrSpec StrFacts StrWords.
Import ListNotations.
Open Scope N_scope.

(** ** Two lengths *)
Lemma equal4_of_3 : forall ct lib md m1 m2 (s1 s2 : list N),
  (length s1 = length s2 ->
   exists b, is_equal3 ct lib md m1 m2 (lenN s1) = Ok b /\ (b = true <-> s1 = s2)) ->
  exists b, is_equal4 ct lib md m1 (lenN s1) m2 (lenN s2) = Ok b /\ (b = true <-> s1 = s2).
Proof.
  intros ct lib md m1 m2 s1 s2 H. unfold is_equal4.
  destruct (N.eqb_spec (lenN s1) (lenN s2)) as [E|E]; cbn [negb].
  - apply H. lia.
  - exists false. split; [reflexivity|]. split; [discriminate|]. intros ->. contradiction.
Qed.

Lemma stl_equal4 : forall ct lib s1 s2 e1 e2, conforming lib ->
  is_string (csz ct) s1 -> is_string (csz ct) s2 -> lenN s1 * csz ct < 2 ^ 64 ->
  exists b, is_equal4 ct lib ModeSTL (encode (csz ct) s1 ++ e1) (lenN s1) (encode (csz ct) s2 ++ e2) (lenN s2)
    = Ok b /\ (b = true <-> s1 = s2).
Proof. intros. apply equal4_of_3. intros L. apply stl_equal; assumption. Qed.

Lemma libc_equal4 : forall ct lib s1 s2 e1 e2, conforming lib ->
  is_string (csz ct) s1 -> is_string (csz ct) s2 -> (cspecial ct = true -> ~ In 0 s1) ->
  exists b, is_equal4 ct lib ModeLIBC (encode (csz ct) s1 ++ e1) (lenN s1) (encode (csz ct) s2 ++ e2) (lenN s2)
    = Ok b /\ (b = true <-> s1 = s2).
Proof. intros. apply equal4_of_3. intros L. apply libc_equal; assumption. Qed.

Lemma u64_equal4 : forall ct lib s1 s2 e1 e2,
  is_bytes (s1 ++ e1) -> is_bytes (s2 ++ e2) ->
  (lenN s1 + 7) / 8 * 8 <= lenN s1 + lenN e1 -> (lenN s2 + 7) / 8 * 8 <= lenN s2 + lenN e2 ->
  exists b, is_equal4 ct lib ModeU64 (s1 ++ e1) (lenN s1) (s2 ++ e2) (lenN s2) = Ok b
    /\ (b = true <-> s1 = s2).
Proof.
  intros. apply equal4_of_3. intros L. apply u64_is_equal_spec; try assumption. rewrite L. assumption.
Qed.

Lemma sse_equal4 : forall ct lib s1 s2 e1 e2, fits ct ->
  is_string (csz ct) s1 -> is_string (csz ct) s2 -> is_bytes e1 -> is_bytes e2 ->
  padded ct (lenN s1) e1 -> padded ct (lenN s2) e2 -> lenN s1 < 2 ^ 31 ->
  exists b, is_equal4 ct lib ModeSSE42 (encode (csz ct) s1 ++ e1) (lenN s1) (encode (csz ct) s2 ++ e2) (lenN s2)
    = Ok b /\ (b = true <-> s1 = s2).
Proof.
  intros. apply equal4_of_3. intros L. apply sse_is_equal_spec; try assumption. rewrite L. assumption.
Qed.

Lemma compare4_of_3 : forall ct lib md value m1 m2 (s1 s2 : list N),
  (let n := Nat.min (length s1) (length s2) in
   exists r, compare3 ct lib md m1 m2 (N.of_nat n) = Ok r
     /\ tells r (lex value (firstn n s1) (firstn n s2))) ->
  exists r, compare4 ct lib md m1 (lenN s1) m2 (lenN s2) = Ok r /\ tells r (lex value s1 s2).
Proof.
  intros ct lib md value m1 m2 s1 s2 (r & E & T). unfold compare4.
  replace (if lenN s1 <=? lenN s2 then lenN s1 else lenN s2)
    with (N.of_nat (Nat.min (length s1) (length s2)))
    by (destruct (N.leb_spec (lenN s1) (lenN s2)); lia).
  rewrite E. cbn [rbind]. eexists. split; [reflexivity|]. apply by_length_tells. exact T.
Qed.

Lemma cut : forall sz n s e, encode sz s ++ e = encode sz (firstn n s) ++ (encode sz (skipn n s) ++ e).
Proof. intros sz n s e. rewrite app_assoc, <- encode_app, firstn_skipn. reflexivity. Qed.

Lemma string_firstn : forall sz n s, is_string sz s -> is_string sz (firstn n s).
Proof.
  intros sz n s H. rewrite <- (firstn_skipn n s) in H. apply string_app in H as [H _]. exact H.
Qed.

Lemma firstn_min : forall (s1 s2 : list N), let n := Nat.min (length s1) (length s2) in
  length (firstn n s1) = n /\ length (firstn n s2) = n.
Proof. intros s1 s2 n. unfold n. rewrite !firstn_length. lia. Qed.

Lemma stl_compare4 : forall ct lib s1 s2 e1 e2, conforming lib -> csz ct = 1 ->
  is_string 1 s1 -> is_string 1 s2 -> lenN s1 < 2 ^ 64 ->
  exists r, compare4 ct lib ModeSTL (s1 ++ e1) (lenN s1) (s2 ++ e2) (lenN s2) = Ok r
    /\ tells r (lex Z.of_N s1 s2).
Proof.
  intros ct lib s1 s2 e1 e2 C Z S1 S2 H. apply compare4_of_3. cbn zeta.
  destruct (firstn_min s1 s2) as [L1 L2].
  set (n := Nat.min (length s1) (length s2)) in *.
  replace (s1 ++ e1) with (firstn n s1 ++ (skipn n s1 ++ e1)) by (rewrite app_assoc, firstn_skipn; reflexivity).
  replace (s2 ++ e2) with (firstn n s2 ++ (skipn n s2 ++ e2)) by (rewrite app_assoc, firstn_skipn; reflexivity).
  replace (N.of_nat n) with (lenN (firstn n s1)) by (rewrite L1; reflexivity).
  apply stl_compare; try assumption; try (apply string_firstn; assumption).
  - rewrite L1, L2. reflexivity.
  - rewrite L1. unfold n. lia.
Qed.

Lemma libc_compare4 : forall ct lib s1 s2 e1 e2, conforming lib ->
  is_string (csz ct) s1 -> is_string (csz ct) s2 -> (cspecial ct = true -> ~ In 0 s1) ->
  exists r, compare4 ct lib ModeLIBC (encode (csz ct) s1 ++ e1) (lenN s1) (encode (csz ct) s2 ++ e2) (lenN s2) = Ok r
    /\ tells r (lex (if cspecial ct then libval ct else cval ct) s1 s2).
Proof.
  intros ct lib s1 s2 e1 e2 C S1 S2 Z. apply compare4_of_3. cbn zeta.
  destruct (firstn_min s1 s2) as [L1 L2].
  rewrite (cut (csz ct) (Nat.min (length s1) (length s2)) s1 e1).
  rewrite (cut (csz ct) (Nat.min (length s1) (length s2)) s2 e2).
  replace (N.of_nat (Nat.min (length s1) (length s2)))
    with (lenN (firstn (Nat.min (length s1) (length s2)) s1)) by (rewrite L1; reflexivity).
  apply libc_compare; try assumption; try (apply string_firstn; assumption).
  - rewrite L1, L2. reflexivity.
  - intros X I. apply (Z X). rewrite <- (firstn_skipn (Nat.min (length s1) (length s2)) s1).
    apply in_or_app. left. exact I.
Qed.

Lemma padded_cut : forall ct n (s : list N) e, (n <= length s)%nat -> padded ct (lenN s) e ->
  padded ct (N.of_nat n) (encode (csz ct) (skipn n s) ++ e).
Proof.
  intros ct n s e H P. unfold padded in *. rewrite app_length, encode_length, skipn_length.
  replace (N.of_nat n * csz ct + N.of_nat (N.to_nat (csz ct) * (length s - n) + length e))
    with (lenN s * csz ct + lenN e) by nia.
  assert (Y : N.of_nat n * csz ct <= lenN s * csz ct) by nia.
  revert P Y. generalize (N.of_nat n * csz ct) (lenN s * csz ct). intros x y P Y. lia.
Qed.

Lemma sse_compare4 : forall ct lib s1 s2 e1 e2, fits ct ->
  is_string (csz ct) s1 -> is_string (csz ct) s2 -> is_bytes e1 -> is_bytes e2 ->
  padded ct (lenN s1) e1 -> padded ct (lenN s2) e2 -> lenN s1 < 2 ^ 31 ->
  exists r, compare4 ct lib ModeSSE42 (encode (csz ct) s1 ++ e1) (lenN s1) (encode (csz ct) s2 ++ e2) (lenN s2) = Ok r
    /\ tells r (lex Z.of_N s1 s2) /\ (-1 <= r <= 1)%Z.
Proof.
  intros ct lib s1 s2 e1 e2 F S1 S2 B1 B2 P1 P2 H.
  destruct (firstn_min s1 s2) as [L1 L2].
  set (n := Nat.min (length s1) (length s2)) in *.
  assert (X : exists r, compare3 ct lib ModeSSE42 (encode (csz ct) s1 ++ e1) (encode (csz ct) s2 ++ e2) (N.of_nat n) = Ok r
    /\ tells r (lex Z.of_N (firstn n s1) (firstn n s2)) /\ (-1 <= r <= 1)%Z).
  { rewrite (cut (csz ct) n s1 e1), (cut (csz ct) n s2 e2).
    replace (N.of_nat n) with (lenN (firstn n s1)) by (rewrite L1; reflexivity).
    apply sse_compare3_spec; try assumption; try (apply string_firstn; assumption).
    - apply bytes_app. split; [apply encode_bytes|exact B1].
    - apply bytes_app. split; [apply encode_bytes|exact B2].
    - rewrite L1, L2. reflexivity.
    - rewrite L1. apply padded_cut; [unfold n; lia|exact P1].
    - rewrite L1. apply padded_cut; [unfold n; lia|exact P2].
    - rewrite L1. unfold n. lia. }
  destruct X as (r & E & T & R). unfold compare4.
  replace (if lenN s1 <=? lenN s2 then lenN s1 else lenN s2) with (N.of_nat n)
    by (unfold n; destruct (N.leb_spec (lenN s1) (lenN s2)); lia).
  rewrite E. cbn [rbind]. eexists. split; [reflexivity|]. split.
  - apply by_length_tells. exact T.
  - unfold by_length, IsBigger, IsSmaller, IsEqual.
    destruct (r =? 0)%Z; cbn [negb]; [|exact R].
    destruct (lenN s2 <? lenN s1); [lia|]. destruct (lenN s1 <? lenN s2); lia.
Qed.

(** ** Values *)
Lemma lex_ext : forall (f g : N -> Z) s1 s2, (forall c, f c = g c) -> lex f s1 s2 = lex g s1 s2.
Proof.
  intros f g s1 s2 H. revert s2. induction s1 as [|c1 s1 IH]; intros [|c2 s2]; cbn [lex]; try reflexivity.
  rewrite !H, IH. reflexivity.
Qed.

Lemma value_order : forall ct c, 0 < csz ct ->
  cspecial ct = true \/ 1 < csz ct \/ csigned ct = false ->
  (if cspecial ct then libval ct else cval ct) c = order_of (csz ct) (csigned ct) c.
Proof.
  intros ct c H0 H. unfold order_of, libval, cval.
  destruct (N.eqb_spec (csz ct) 1) as [E|E].
  - rewrite E. change (1 <? 1) with false. rewrite andb_false_r. cbn [andb].
    destruct (cspecial ct); [reflexivity|].
    destruct H as [H|[H|H]]; [discriminate|lia|]. rewrite H. reflexivity.
  - replace (1 <? csz ct) with true by lia. rewrite andb_true_r.
    destruct (cspecial ct); reflexivity.
Qed.

Lemma libc_compare4' : forall ct lib s1 s2 e1 e2, conforming lib -> 0 < csz ct ->
  cspecial ct = true \/ 1 < csz ct \/ csigned ct = false ->
  is_string (csz ct) s1 -> is_string (csz ct) s2 -> (cspecial ct = true -> ~ In 0 s1) ->
  exists r, compare4 ct lib ModeLIBC (encode (csz ct) s1 ++ e1) (lenN s1) (encode (csz ct) s2 ++ e2) (lenN s2) = Ok r
    /\ tells r (lex (order_of (csz ct) (csigned ct)) s1 s2).
Proof.
  intros ct lib s1 s2 e1 e2 C H0 H S1 S2 Z.
  destruct (libc_compare4 ct lib s1 s2 e1 e2 C S1 S2 Z) as (r & E & T).
  exists r. split; [exact E|].
  rewrite (lex_ext _ (order_of (csz ct) (csigned ct))) in T; [exact T|].
  intros c. apply value_order; assumption.
Qed.

(** ** Strings that end with a zero *)
Lemma StrLen_loop_spec : forall ct r fuel p e, 0 < csz ct -> is_string (csz ct) r -> ~ In 0 r ->
  (length r < fuel)%nat ->
  StrLen_loop ct fuel (encode (csz ct) (p ++ r ++ [0]) ++ e) (lenN p) = Ok (lenN p + lenN r).
Proof.
  intros ct. induction r as [|c r IH]; intros fuel p e H0 S Z F.
  - destruct fuel as [|fuel]; [cbn [length] in F; lia|]. cbn [StrLen_loop app].
    rewrite chr_at by (apply N.neq_0_lt_0, N.pow_nonzero; discriminate). cbn [rbind].
    change (0 =? 0) with true. cbn [length]. f_equal. lia.
  - destruct fuel as [|fuel]; [lia|]. cbn [StrLen_loop app].
    apply string_cons in S as [Hc S]. rewrite chr_at by exact Hc. cbn [rbind].
    replace (c =? 0) with false by (destruct (N.eqb_spec c 0) as [Y|Y]; [exfalso; apply Z; left; exact Y|reflexivity]).
    cbn [length] in F.
    specialize (IH fuel (p ++ [c]) e H0 S). rewrite snoc_app, lenN_snoc in IH.
    rewrite IH; [|intros X; apply Z; right; exact X|lia]. f_equal. cbn [length]. lia.
Qed.

Lemma c_string_room : forall ct (s e : list N), 0 < csz ct ->
  (length s < S (length (encode (csz ct) (s ++ [0%N]) ++ e)))%nat.
Proof. intros ct s e H. rewrite app_length, encode_length, app_length. cbn [length]. nia. Qed.

Lemma StrLen_spec : forall ct s e, 0 < csz ct -> is_string (csz ct) s -> ~ In 0 s ->
  StrLen ct (encode (csz ct) (s ++ [0]) ++ e) = Ok (lenN s).
Proof.
  intros ct s e H S Z. unfold StrLen.
  exact (StrLen_loop_spec ct s _ [] e H S Z (c_string_room ct s e H)).
Qed.

Lemma strcmp_loop_spec : forall ct lib r1 r2 fuel p1 p2 e1 e2, conforming lib -> 0 < csz ct ->
  let value := if cspecial ct then libval ct else cval ct in
  is_string (csz ct) r1 -> is_string (csz ct) r2 ->
  Forall (fun c => 0 < value c)%Z r1 -> Forall (fun c => 0 < value c)%Z r2 ->
  length p1 = length p2 -> (length r1 < fuel)%nat ->
  exists r, strcmp_loop ct lib fuel (encode (csz ct) (p1 ++ r1 ++ [0]) ++ e1)
      (encode (csz ct) (p2 ++ r2 ++ [0]) ++ e2) (lenN p1) = Ok r /\ tells r (lex value r1 r2).
Proof.
  intros ct lib r1 r2 fuel p1 p2 e1 e2 C H0 value. revert r2 fuel p1 p2.
  assert (V0 : value 0 = 0%Z).
  { unfold value, libval, cval. clear.
    destruct (cspecial ct); [destruct (csz ct =? 1); [reflexivity|]|];
      replace (2 ^ (8 * csz ct - 1) <=? 0) with false
        by (pose proof (N.pow_nonzero 2 (8 * csz ct - 1) ltac:(discriminate)); lia);
      rewrite andb_false_r; reflexivity. }
  assert (N0 : 0 < 2 ^ (8 * csz ct)) by (apply N.neq_0_lt_0, N.pow_nonzero; discriminate).
  assert (D : forall c1 c2, c1 < 2 ^ (8 * csz ct) -> c2 < 2 ^ (8 * csz ct) -> c1 <> c2 -> value c1 <> value c2
     /\ tells (if cspecial ct then lib (libval ct c1) (libval ct c2) else bigger (cval ct c1) (cval ct c2))
          (Z.compare (value c1) (value c2))).
  { intros c1 c2 H1 H2 N. unfold value. destruct (cspecial ct).
    - assert (Y : libval ct c1 <> libval ct c2) by (intros X; apply N; exact (libval_inj ct c1 c2 H1 H2 X)).
      split; [exact Y|]. apply C. exact Y.
    - assert (Y : cval ct c1 <> cval ct c2) by (intros X; apply N; exact (cval_inj ct c1 c2 H1 H2 X)).
      split; [exact Y|]. apply bigger_tells. exact Y. }
  induction r1 as [|c1 r1 IH]; intros [|c2 r2] fuel p1 p2 S1 S2 Z1 Z2 P F;
    (destruct fuel as [|fuel]; [lia|]); cbn [strcmp_loop app].
  - rewrite P, chr_at by exact N0. rewrite <- P, chr_at by exact N0. cbn [rbind].
    rewrite N.eqb_refl. cbn [negb]. exists IsEqual. split; reflexivity.
  - apply string_cons in S2 as [H2 S2]. inversion Z2 as [|? ? Y2 Z2']; subst.
    rewrite chr_at by exact N0. rewrite P, chr_at by exact H2. cbn [rbind].
    assert (N : 0 <> c2) by (intros X; rewrite <- X, V0 in Y2; lia).
    replace (0 =? c2) with false by lia. cbn [negb].
    destruct (D 0 c2 N0 H2 N) as [DN DT]. eexists. split; [reflexivity|].
    cbn [lex]. replace (value 0%N ?= value c2)%Z with Lt in DT
      by (symmetry; apply Z.compare_lt_iff; rewrite V0; exact Y2). exact DT.
  - apply string_cons in S1 as [H1 S1]. inversion Z1 as [|? ? Y1 Z1']; subst.
    rewrite chr_at by exact H1. rewrite P, chr_at by exact N0. cbn [rbind].
    assert (N : c1 <> 0) by (intros X; rewrite X, V0 in Y1; lia).
    replace (c1 =? 0) with false by lia. cbn [negb].
    destruct (D c1 0 H1 N0 N) as [DN DT]. eexists. split; [reflexivity|].
    cbn [lex]. replace (value c1 ?= value 0%N)%Z with Gt in DT
      by (symmetry; apply Z.compare_gt_iff; rewrite V0; exact Y1). exact DT.
  - apply string_cons in S1 as [H1 S1]. apply string_cons in S2 as [H2 S2].
    inversion Z1 as [|? ? Y1 Z1']; inversion Z2 as [|? ? Y2 Z2']; subst.
    rewrite chr_at by exact H1. rewrite P, chr_at by exact H2. cbn [rbind].
    destruct (N.eqb_spec c1 c2) as [E|N]; cbn [negb].
    + subst c2. assert (N : c1 <> 0) by (intros X; rewrite X, V0 in Y1; lia).
      replace (c1 =? 0) with false by lia.
      destruct (IH r2 fuel (p1 ++ [c1]) (p2 ++ [c1]) S1 S2 Z1' Z2') as (r & E & T).
      * rewrite !app_length. lia.
      * cbn [length] in F. lia.
      * rewrite !snoc_app, lenN_snoc, P in E. exists r. split; [exact E|].
        cbn [lex]. rewrite Z.compare_refl. exact T.
    + destruct (D c1 c2 H1 H2 N) as [DN DT]. eexists. split; [reflexivity|].
      pose proof (lex_diff value [] c1 r1 c2 r2 DN) as X. cbn [app] in X. rewrite X. exact DT.
Qed.

Lemma StrCmp0_spec : forall ct lib s1 s2 e1 e2, conforming lib -> 0 < csz ct ->
  cspecial ct = true \/ 1 < csz ct \/ csigned ct = false ->
  let value := order_of (csz ct) (csigned ct) in
  is_string (csz ct) s1 -> is_string (csz ct) s2 ->
  Forall (fun c => 0 < value c)%Z s1 -> Forall (fun c => 0 < value c)%Z s2 ->
  let m1 := encode (csz ct) (s1 ++ [0]) ++ e1 in
  let m2 := encode (csz ct) (s2 ++ [0]) ++ e2 in
  (exists r, libc_StrCmp0 ct lib m1 m2 = Ok r /\ tells r (lex value s1 s2))
  /\ (exists b, libc_StrEqual0 ct lib m1 m2 = Ok b /\ (b = true <-> s1 = s2)).
Proof.
  intros ct lib s1 s2 e1 e2 C H0 H value S1 S2 Z1 Z2 m1 m2.
  assert (V : forall c, (if cspecial ct then libval ct else cval ct) c = value c)
    by (intros c; apply value_order; assumption).
  assert (R : exists r, libc_StrCmp0 ct lib m1 m2 = Ok r /\ tells r (lex value s1 s2)).
  { unfold libc_StrCmp0.
    destruct (strcmp_loop_spec ct lib s1 s2 (S (length m1)) [] [] e1 e2 C H0 S1 S2) as (r & E & T).
    - eapply Forall_impl; [|exact Z1]. intros c Hc. rewrite V. exact Hc.
    - eapply Forall_impl; [|exact Z2]. intros c Hc. rewrite V. exact Hc.
    - reflexivity.
    - apply c_string_room. exact H0.
    - exists r. split; [exact E|]. rewrite (lex_ext _ value) in T by exact V. exact T. }
  split; [exact R|].
  destruct R as (r & E & T). unfold libc_StrEqual0. rewrite E. cbn [rbind].
  eexists. split; [reflexivity|]. rewrite (tells_eq _ _ T).
  apply (lex_eq value (csz ct)); [|exact S1|exact S2].
  intros c d Hc Hd X. rewrite <- !V in X.
  destruct (cspecial ct); [apply (libval_inj ct); assumption|apply (cval_inj ct); assumption].
Qed.

(** ** Views *)
Lemma v_equal_some : forall ct lib md m1 n1 m2 n2,
  v_equal ct lib md (View (Some m1) n1) (View (Some m2) n2) = is_equal4 ct lib md m1 n1 m2 n2.
Proof. reflexivity. Qed.

Lemma v_compare_some : forall ct lib md m1 n1 m2 n2,
  v_compare ct lib md (View (Some m1) n1) (View (Some m2) n2) = compare4 ct lib md m1 n1 m2 n2.
Proof. reflexivity. Qed.

Lemma tells_unit : forall r o, (-1 <= r <= 1)%Z -> tells r o ->
  (r =? IsSmaller)%Z = match o with Lt => true | _ => false end
  /\ (r =? IsBigger)%Z = match o with Gt => true | _ => false end.
Proof.
  intros r o R T. unfold tells in T. subst o. unfold IsSmaller, IsBigger.
  assert (X : r = (-1)%Z \/ r = 0%Z \/ r = 1%Z) by lia. destruct X as [->|[->| ->]]; split; reflexivity.
Qed.

Lemma sse_operators : forall ct lib s1 s2 e1 e2, fits ct ->
  is_string (csz ct) s1 -> is_string (csz ct) s2 -> is_bytes e1 -> is_bytes e2 ->
  padded ct (lenN s1) e1 -> padded ct (lenN s2) e2 -> lenN s1 < 2 ^ 31 ->
  let a := View (Some (encode (csz ct) s1 ++ e1)) (lenN s1) in
  let b := View (Some (encode (csz ct) s2 ++ e2)) (lenN s2) in
  let smaller := match lex Z.of_N s1 s2 with Lt => true | _ => false end in
  let greater := match lex Z.of_N s1 s2 with Gt => true | _ => false end in
  v_lt ct lib ModeSSE42 a b = Ok smaller /\ v_gt ct lib ModeSSE42 a b = Ok greater
  /\ v_le ct lib ModeSSE42 a b = Ok greater /\ v_ge ct lib ModeSSE42 a b = Ok smaller.
Proof.
  intros ct lib s1 s2 e1 e2 F S1 S2 B1 B2 P1 P2 H a b smaller greater.
  destruct (sse_compare4 ct lib s1 s2 e1 e2 F S1 S2 B1 B2 P1 P2 H) as (r & E & T & R).
  unfold v_lt, v_gt, v_le, v_ge, a, b. rewrite v_compare_some, E. cbn [rbind].
  destruct (tells_unit r _ R T) as [T1 T2]. rewrite T1, T2. repeat split; reflexivity.
Qed.

(** memcmp with results -1 and 1 only. *)
Lemma stl_operators : forall ct lib s1 s2 e1 e2, conforming lib ->
  (forall x y, x <> y -> (-1 <= lib x y <= 1)%Z) -> csz ct = 1 ->
  is_string 1 s1 -> is_string 1 s2 -> lenN s1 < 2 ^ 64 ->
  let a := View (Some (s1 ++ e1)) (lenN s1) in
  let b := View (Some (s2 ++ e2)) (lenN s2) in
  v_lt ct lib ModeSTL a b = Ok (match lex Z.of_N s1 s2 with Lt => true | _ => false end)
  /\ v_gt ct lib ModeSTL a b = Ok (match lex Z.of_N s1 s2 with Gt => true | _ => false end).
Proof.
  intros ct lib s1 s2 e1 e2 C U Z S1 S2 H a b.
  destruct (stl_compare4 ct lib s1 s2 e1 e2 C Z S1 S2 H) as (r & E & T).
  assert (R : (-1 <= r <= 1)%Z).
  { unfold compare4, compare3, stl_StrCmp, memcmp in E.
    destruct (_ && _) in E; [|discriminate]. cbn [rbind] in E. injection E as <-.
    match goal with |- context [by_length (memcmp_from lib ?x ?y)] =>
      assert (M : (-1 <= memcmp_from lib x y <= 1)%Z);
      [generalize x y; clear - U; intros b1; induction b1 as [|c1 b1 IH]; intros [|c2 b2];
         cbn [memcmp_from]; try lia; destruct (N.eqb_spec c1 c2); [apply IH|apply U; lia]|];
      revert M; generalize (memcmp_from lib x y); intros q M end.
    unfold by_length, IsBigger, IsSmaller, IsEqual.
    destruct (q =? 0)%Z; cbn [negb]; [|exact M].
    destruct (lenN s2 <? lenN s1); [lia|]. destruct (lenN s1 <? lenN s2); lia. }
  unfold v_lt, v_gt, a, b. rewrite v_compare_some, E. cbn [rbind].
  destruct (tells_unit r _ R T) as [T1 T2]. rewrite T1, T2. split; reflexivity.
Qed.

(** ** Parts of views *)
Lemma sub_length : forall s pos count, pos <= lenN s ->
  lenN (sub s pos count) = N.min count (lenN s - pos).
Proof. intros s pos count H. unfold sub. rewrite firstn_length, skipn_length. lia. Qed.

Lemma count_spec : forall (s : list N) pos count, pos <= lenN s -> lenN s < 2 ^ 64 -> pos + count < 2 ^ 64 ->
  v_count (lenN s) pos count = N.min count (lenN s - pos).
Proof.
  intros s pos count H L W. unfold v_count, wadd, wsub, w64, two64.
  change (2 ^ 64) with 18446744073709551616 in *.
  rewrite (N.mod_small (pos + count)) by exact W.
  destruct (N.leb_spec (pos + count) (lenN s)) as [G|G]; [lia|].
  lia.
Qed.

Lemma sub_memory : forall sz s pos count e, pos <= lenN s ->
  skipn (N.to_nat (pos * sz)) (encode sz s ++ e)
  = encode sz (sub s pos count)
    ++ (encode sz (skipn (N.to_nat (N.min count (lenN s - pos))) (skipn (N.to_nat pos) s)) ++ e).
Proof.
  intros sz s pos count e H. rewrite (cut sz (N.to_nat pos) s e).
  replace (N.to_nat (pos * sz)) with (length (encode sz (firstn (N.to_nat pos) s)))
    by (rewrite encode_length, firstn_length; nia).
  rewrite skipn_app_len. unfold sub. rewrite skipn_length.
  replace (N.of_nat (length s - N.to_nat pos)) with (lenN s - pos) by lia.
  apply cut.
Qed.

Lemma substr_spec : forall ct s e pos count, pos <= lenN s -> lenN s < 2 ^ 64 ->
  pos + count < 2 ^ 64 \/ count = 2 ^ 64 - 1 ->
  exists e', v_substr ct (View (Some (encode (csz ct) s ++ e)) (lenN s)) pos count
    = Ok (Some (View (Some (encode (csz ct) (sub s pos count) ++ e')) (lenN (sub s pos count)))).
Proof.
  intros ct s e pos count H L W. unfold v_substr. cbn [v_size v_data].
  replace (lenN s <? pos) with false by lia.
  assert (X : (if negb (count =? npos) then v_count (lenN s) pos count else wsub (lenN s) pos)
    = lenN (sub s pos count)).
  { rewrite sub_length by exact H. unfold npos, two64.
    change (2 ^ 64 - 1) with 18446744073709551615 in *.
    destruct (N.eqb_spec count 18446744073709551615) as [E|E]; cbn [negb].
    - change (2 ^ 64) with 18446744073709551616 in L. unfold wsub, w64, two64.
      change (2 ^ 64) with 18446744073709551616. lia.
    - apply count_spec; [exact H|exact L|]. destruct W as [W|W]; [exact W|contradiction]. }
  rewrite X. unfold v_at. cbn [v_data]. cbn [rbind].
  rewrite (sub_memory (csz ct) s pos count e H). eexists. reflexivity.
Qed.

Lemma parts_equal : forall ct lib s1 s2 e1 e2 pos1 count1 pos2 count2, conforming lib ->
  is_string (csz ct) s1 -> is_string (csz ct) s2 ->
  lenN s1 * csz ct < 2 ^ 64 -> lenN s1 < 2 ^ 64 -> lenN s2 < 2 ^ 64 ->
  pos1 <= lenN s1 -> pos2 <= lenN s2 -> pos1 + count1 < 2 ^ 64 -> pos2 + count2 < 2 ^ 64 ->
  exists b, v_equal_parts ct lib ModeSTL (View (Some (encode (csz ct) s1 ++ e1)) (lenN s1)) pos1 count1
      (View (Some (encode (csz ct) s2 ++ e2)) (lenN s2)) pos2 count2 = Ok (Some b)
    /\ (b = true <-> sub s1 pos1 count1 = sub s2 pos2 count2).
Proof.
  intros ct lib s1 s2 e1 e2 pos1 count1 pos2 count2 C S1 S2 W L1 L2 P1 P2 W1 W2.
  unfold v_equal_parts. cbn [v_size v_data].
  replace (lenN s1 <? pos1) with false by lia. replace (lenN s2 <? pos2) with false by lia. cbn [orb].
  unfold v_at. cbn [v_data rbind].
  rewrite (sub_memory (csz ct) s1 pos1 count1 e1 P1), (sub_memory (csz ct) s2 pos2 count2 e2 P2).
  rewrite !count_spec by assumption. rewrite <- !sub_length by assumption.
  match goal with |- context [is_equal_safe4 ct lib ModeSTL (Some (encode _ _ ++ ?a)) _ (Some (encode _ _ ++ ?b)) _] =>
    destruct (stl_equal4 ct lib (sub s1 pos1 count1) (sub s2 pos2 count2) a b C) as (r & E & B) end.
  - unfold sub. apply string_firstn.
    rewrite <- (firstn_skipn (N.to_nat pos1) s1) in S1. apply string_app in S1 as [_ S1]. exact S1.
  - unfold sub. apply string_firstn.
    rewrite <- (firstn_skipn (N.to_nat pos2) s2) in S2. apply string_app in S2 as [_ S2]. exact S2.
  - rewrite sub_length by exact P1. nia.
  - unfold is_equal4 in E. unfold is_equal_safe4, is_equal_safe3. rewrite E. cbn [rbind].
    exists r. split; [reflexivity|exact B].
Qed.

(** ** copy *)
Lemma strncpy_spec : forall ct r p e, is_string (csz ct) r -> ~ In 0 r ->
  strncpy_chars ct (length r) (encode (csz ct) (p ++ r) ++ e) (lenN p) = Ok r.
Proof.
  intros ct. induction r as [|c r IH]; intros p e S Z; [reflexivity|].
  apply string_cons in S as [Hc S]. cbn [length strncpy_chars]. rewrite chr_at by exact Hc. cbn [rbind].
  replace (c =? 0) with false by (destruct (N.eqb_spec c 0) as [Y|Y]; [exfalso; apply Z; left; exact Y|reflexivity]).
  specialize (IH (p ++ [c]) e S). rewrite snoc_app, lenN_snoc in IH.
  rewrite IH; [reflexivity|]. intros X. apply Z. right. exact X.
Qed.

Lemma copy_spec : forall ct s e dest pos count, cspecial ct = true -> is_string (csz ct) s -> ~ In 0 s ->
  pos <= lenN s -> lenN s < 2 ^ 64 -> pos + count < 2 ^ 64 ->
  (length (sub s pos count) <= length dest)%nat ->
  v_copy ct (View (Some (encode (csz ct) s ++ e)) (lenN s)) dest count pos
  = Ok (Some (sub s pos count ++ skipn (length (sub s pos count)) dest, 0)).
Proof.
  intros ct s e dest pos count Y S Z P L W D. unfold v_copy. cbn [v_size v_data].
  replace (lenN s <? pos) with false by lia.
  unfold v_at. cbn [v_data rbind]. rewrite Y.
  rewrite count_spec by assumption. rewrite <- sub_length by exact P.
  replace (lenN dest <? lenN (sub s pos count)) with false by lia.
  unfold str_copy_lib. rewrite Nat2N.id.
  rewrite (sub_memory (csz ct) s pos count e P).
  match goal with |- context [strncpy_chars ct _ (encode _ _ ++ ?x) 0] =>
    pose proof (strncpy_spec ct (sub s pos count) [] x) as X end.
  cbn [app length] in X. change (N.of_nat 0) with 0 in X. rewrite X.
  - reflexivity.
  - unfold sub. apply string_firstn.
    rewrite <- (firstn_skipn (N.to_nat pos) s) in S. apply string_app in S as [_ S]. exact S.
  - intros I. apply Z. unfold sub in I.
    rewrite <- (firstn_skipn (N.to_nat pos) s). apply in_or_app. right.
    rewrite <- (firstn_skipn (N.to_nat (N.min count (N.of_nat (length (skipn (N.to_nat pos) s))))) (skipn (N.to_nat pos) s)).
    apply in_or_app. left. exact I.
Qed.
