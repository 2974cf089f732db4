(** Strings for which the comparisons and the views go wrong. *)
From Coq Require Import Arith NArith ZArith List Bool Lia.
From Coq Require Import ZifyBool ZifyNat ZifyN.
From Verif Require Import Base HashModel HashSpec HashFacts FnvFacts FnvWitness StrModel StrSpec StrFacts StrWords StrViews.
Import ListNotations.
Open Scope N_scope.

Lemma string_dec : forall sz s, forallb (fun c => c <? 2 ^ (8 * sz)) s = true -> is_string sz s.
Proof.
  intros sz s H. unfold is_string. apply Forall_forall. intros c I.
  rewrite forallb_forall in H. specialize (H c I). lia.
Qed.

Lemma diff_conforming : conforming Z.sub.
Proof. intros x y _. unfold tells. symmetry. apply Z.compare_sub. Qed.

(** ** Equality *)
Lemma libc_zero_wrong : forall lib, exists s1 s2, is_string 1 s1 /\ is_string 1 s2 /\ s1 <> s2 /\
  is_equal4 ct_char lib ModeLIBC s1 (lenN s1) s2 (lenN s2) = Ok true.
Proof.
  intros lib. exists [97; 0; 98], [97; 0; 99].
  split; [apply string_dec; reflexivity|]. split; [apply string_dec; reflexivity|].
  split; [discriminate|]. reflexivity.
Qed.

Lemma stl_equal_no_return : forall ct lib m1 m2 n, stl_StrEqual4 ct lib m1 n m2 n = Err EUndef.
Proof.
  intros ct lib m1 m2 n. unfold stl_StrEqual4. rewrite N.eqb_refl. cbn [negb].
  unfold stl_StrEqual, memcmp. destruct (_ && _); reflexivity.
Qed.

(** ** Reads behind the strings *)
Lemma stl_reads : forall ct lib s1 s2 n, length s1 = n -> length s2 = n -> N.of_nat n * csz ct < 2 ^ 64 ->
  (exists b, is_equal3 ct lib ModeSTL (encode (csz ct) s1) (encode (csz ct) s2) (N.of_nat n) = Ok b)
  /\ (exists r, compare3 ct lib ModeSTL (encode (csz ct) s1) (encode (csz ct) s2) (N.of_nat n) = Ok r).
Proof.
  intros ct lib s1 s2 n L1 L2 W. unfold is_equal3, compare3, stl_StrEqual, stl_StrCmp.
  pose proof (memcmp_strings ct lib s1 s2 [] [] n L1 L2 W) as M. rewrite !app_nil_r in M.
  rewrite M. split; eexists; reflexivity.
Qed.

Lemma libc_reads : forall ct lib s1 s2 n, length s1 = n -> length s2 = n ->
  is_string (csz ct) s1 -> is_string (csz ct) s2 ->
  (exists b, is_equal3 ct lib ModeLIBC (encode (csz ct) s1) (encode (csz ct) s2) (N.of_nat n) = Ok b)
  /\ (exists r, compare3 ct lib ModeLIBC (encode (csz ct) s1) (encode (csz ct) s2) (N.of_nat n) = Ok r).
Proof.
  intros ct lib s1 s2 n L1 L2 S1 S2. unfold is_equal3, compare3, libc_StrEqual, libc_StrCmp.
  rewrite Nat2N.id, <- L1. assert (L : length s1 = length s2) by lia.
  destruct (cspecial ct).
  - destruct (strncmp_defined ct lib s1 s2 [] [] [] [] S1 S2 L eq_refl) as [r E].
    rewrite !app_nil_r in E. cbn [app length] in E. change (N.of_nat 0) with 0 in E. rewrite E.
    split; eexists; reflexivity.
  - destruct (eq_loop_spec ct s1 s2 [] [] [] [] S1 S2 L eq_refl) as [b [E _]].
    destruct (cmp_loop_spec ct s1 s2 [] [] [] [] S1 S2 L eq_refl) as [r [E' _]].
    rewrite !app_nil_r in E, E'. cbn [app length] in E, E'. change (N.of_nat 0) with 0 in E, E'.
    rewrite E, E'. split; eexists; reflexivity.
Qed.

Lemma u64_reads : forall ct lib s, (lenN s) mod 8 <> 0 ->
  is_equal3 ct lib ModeU64 s s (lenN s) = Err EUndef.
Proof.
  intros ct lib s H. cbn [is_equal3].
  pose proof (u64_is_equal_out s [] []) as X. rewrite app_nil_r in X. apply X.
  - cbn [length]. lia.
  - right. reflexivity.
Qed.

Lemma sse_reads : forall ct lib s, fits ct -> is_string (csz ct) s -> lenN s < 2 ^ 31 ->
  (lenN s * csz ct) mod 16 <> 0 ->
  is_equal3 ct lib ModeSSE42 (encode (csz ct) s) (encode (csz ct) s) (lenN s) = Err EUndef
  /\ compare3 ct lib ModeSSE42 (encode (csz ct) s) (encode (csz ct) s) (lenN s) = Err EUndef.
Proof.
  intros ct lib s F S L H. cbn [is_equal3 compare3].
  pose proof (sse_out ct s [] [] F S) as X. rewrite app_nil_r in X. apply X.
  - constructor.
  - constructor.
  - unfold padded. cbn [length]. revert H. generalize (lenN s * csz ct). intros x H. lia.
  - right. reflexivity.
  - exact L.
Qed.

(** ** Long strings *)
Lemma sse_long : forall ct lib m1 m2 n, 2 ^ 31 <= n < 2 ^ 32 ->
  is_equal4 ct lib ModeSSE42 m1 n m2 n = Ok true
  /\ compare4 ct lib ModeSSE42 m1 n m2 n = Ok IsEqual.
Proof.
  intros ct lib m1 m2 n H.
  destruct (sse_negative ct m1 m2 n) as [E1 E2].
  { right. rewrite N.mod_small by lia. lia. }
  unfold is_equal4, compare4. rewrite N.eqb_refl, N.leb_refl. cbn [negb is_equal3 compare3].
  rewrite E1, E2. split; [reflexivity|]. cbn [rbind]. unfold by_length.
  change (IsEqual =? 0)%Z with true. cbn [negb]. rewrite N.ltb_irrefl. reflexivity.
Qed.

(** Strings that differ at the first character. *)
Lemma sse_long_wrong : forall lib k, 2 ^ 31 <= k < 2 ^ 32 -> exists s1 s2,
  is_string 1 s1 /\ is_string 1 s2 /\ s1 <> s2 /\ lenN s1 = k /\ lenN s2 = k /\
  forall e1 e2, is_equal4 ct_char lib ModeSSE42 (s1 ++ e1) (lenN s1) (s2 ++ e2) (lenN s2) = Ok true
    /\ compare4 ct_char lib ModeSSE42 (s1 ++ e1) (lenN s1) (s2 ++ e2) (lenN s2) = Ok 0%Z.
Proof.
  intros lib k K.
  assert (K0 : 0 < k) by (apply N.lt_le_trans with (2 ^ 31); [reflexivity|apply K]).
  assert (P : forall (c : N), lenN (c :: repeat 97 (N.to_nat (k - 1))) = k).
  { intros c. cbn [length]. rewrite repeat_length. clear K. lia. }
  assert (B : forall c j, c < 256 -> is_string 1 (c :: repeat 97 j)).
  { intros c j H. unfold is_string. change (2 ^ (8 * 1)) with 256. constructor; [exact H|].
    apply Forall_forall. intros x I. apply repeat_spec in I. subst x. reflexivity. }
  exists (97 :: repeat 97 (N.to_nat (k - 1))), (98 :: repeat 97 (N.to_nat (k - 1))).
  split; [apply B; reflexivity|]. split; [apply B; reflexivity|]. split; [discriminate|].
  rewrite !P. split; [reflexivity|]. split; [reflexivity|].
  intros e1 e2. apply sse_long. exact K.
Qed.

(** ** Wide characters *)
Lemma u64_wide : forall ct lib c d1 d2 e1 e2, 2 <= csz ct -> is_bytes e1 -> is_bytes e2 ->
  8 <= lenN (encode (csz ct) [c; d1] ++ e1) -> 8 <= lenN (encode (csz ct) [c; d2] ++ e2) ->
  is_equal4 ct lib ModeU64 (encode (csz ct) [c; d1] ++ e1) 2 (encode (csz ct) [c; d2] ++ e2) 2 = Ok true.
Proof.
  intros ct lib c d1 d2 e1 e2 H B1 B2 L1 L2.
  unfold is_equal4. rewrite N.eqb_refl. cbn [negb is_equal3].
  set (q := firstn 2 (enc1 (N.to_nat (csz ct)) c)).
  assert (Q : length q = 2%nat) by (unfold q; rewrite firstn_length, enc1_length; lia).
  assert (X : forall d e, encode (csz ct) [c; d] ++ e
     = q ++ (skipn 2 (enc1 (N.to_nat (csz ct)) c) ++ encode (csz ct) [d] ++ e)).
  { intros d e. unfold q. rewrite (app_assoc (firstn 2 _)), firstn_skipn, encode_cons, <- app_assoc. reflexivity. }
  rewrite !X. rewrite X in L1, L2. rewrite app_length, Q in L1, L2.
  destruct (u64_is_equal_spec q q
     (skipn 2 (enc1 (N.to_nat (csz ct)) c) ++ encode (csz ct) [d1] ++ e1)
     (skipn 2 (enc1 (N.to_nat (csz ct)) c) ++ encode (csz ct) [d2] ++ e2)) as (b & E & T).
  - rewrite <- X. apply bytes_app. split; [apply encode_bytes|exact B1].
  - rewrite <- X. apply bytes_app. split; [apply encode_bytes|exact B2].
  - reflexivity.
  - rewrite Q. change ((N.of_nat 2 + 7) / 8 * 8) with 8. lia.
  - rewrite Q. change ((N.of_nat 2 + 7) / 8 * 8) with 8. lia.
  - rewrite Q in E. change (N.of_nat 2) with 2 in E. rewrite E. destruct T as [_ T]. rewrite (T eq_refl). reflexivity.
Qed.

(** SSEHelper<wchar_t> takes 8 words of 2 bytes for 8 characters, the general one 16 bytes for
    16 characters. *)
Lemma sse_wide : forall ct lib p d1 d2, 0 < cword ct ->
  lenN p * csz ct = 16 -> lenN p + lenN d1 = cmax ct -> length d1 = length d2 -> cmax ct < 2 ^ 31 ->
  is_equal4 ct lib ModeSSE42 (encode (csz ct) (p ++ d1)) (cmax ct) (encode (csz ct) (p ++ d2)) (cmax ct)
    = Ok true
  /\ compare4 ct lib ModeSSE42 (encode (csz ct) (p ++ d1)) (cmax ct) (encode (csz ct) (p ++ d2)) (cmax ct)
    = Ok IsEqual.
Proof.
  intros ct lib p d1 d2 W P M L K.
  assert (P0 : length (encode (csz ct) p) = 16%nat) by (rewrite encode_length; lia).
  assert (C : forall a len, cmpestrc ct a len a len = false).
  { intros a len. unfold cmpestrc.
    assert (B : forall j, estr_bit ct a len a len j = false)
      by (intros j; unfold estr_bit; destruct (Z.of_N j <? len)%Z; [rewrite N.eqb_refl|]; reflexivity).
    induction (seqN (16 / cword ct)) as [|j l IH]; cbn [existsb]; [reflexivity|]. rewrite B. exact IH. }
  assert (X : forall d, ld 16 (encode (csz ct) (p ++ d)) (0 * csz ct) = Ok (le (encode (csz ct) p))).
  { intros d. rewrite N.mul_0_l, encode_app.
    pose proof (ld_here 16 [] (encode (csz ct) p ++ encode (csz ct) d)) as H.
    cbn [app length] in H. change (N.of_nat 0) with 0 in H. rewrite H by (rewrite app_length; lia).
    rewrite firstn_exact by lia. reflexivity. }
  assert (NZ : (0 <? Z.of_N (cmax ct))%Z = true).
  { destruct p as [|c p]; [cbn [length] in P; lia|]. cbn [length] in M. lia. }
  unfold is_equal4, compare4. rewrite N.eqb_refl, N.leb_refl. cbn [negb is_equal3 compare3].
  unfold sse_is_equal, sse_compare3. rewrite to_int_small by exact K.
  cbn [sse_equal sse_compare]. rewrite NZ. cbn [negb]. rewrite !X. cbn [rbind]. rewrite !C. cbn [negb].
  rewrite Z.sub_diag.
  split.
  - destruct (N.to_nat (cmax ct / cmax ct)); reflexivity.
  - destruct (N.to_nat (cmax ct / cmax ct)); cbn [sse_compare rbind Z.ltb Z.compare negb];
      unfold by_length; change (IsEqual =? 0)%Z with true; cbn [negb]; rewrite N.ltb_irrefl; reflexivity.
Qed.

Lemma sse_wide_wrong : forall lib,
  (exists s1 s2, is_string 4 s1 /\ is_string 4 s2 /\ s1 <> s2 /\ length s1 = length s2 /\
    is_equal4 ct_wchar lib ModeSSE42 (encode 4 s1) (lenN s1) (encode 4 s2) (lenN s2) = Ok true)
  /\ (exists s1 s2, is_string 2 s1 /\ is_string 2 s2 /\ s1 <> s2 /\ length s1 = length s2 /\
    is_equal4 ct_char16 lib ModeSSE42 (encode 2 s1) (lenN s1) (encode 2 s2) (lenN s2) = Ok true).
Proof.
  intros lib. split.
  - exists [97; 97; 97; 97; 97; 97; 97; 97], [97; 97; 97; 97; 97; 97; 97; 98].
    split; [apply string_dec; reflexivity|]. split; [apply string_dec; reflexivity|].
    split; [discriminate|]. split; [reflexivity|]. vm_compute. reflexivity.
  - exists (repeat 97 16), (repeat 97 15 ++ [98]).
    split; [apply string_dec; reflexivity|]. split; [apply string_dec; reflexivity|].
    split; [discriminate|]. split; [reflexivity|]. vm_compute. reflexivity.
Qed.

(** ** Order *)
Lemma stl_order_wrong : forall lib, conforming lib -> exists s1 s2 r,
  is_string 2 s1 /\ is_string 2 s2 /\
  compare4 ct_ushort lib ModeSTL (encode 2 s1) (lenN s1) (encode 2 s2) (lenN s2) = Ok r
  /\ lex (order_of 2 false) s1 s2 = Gt /\ tells r Lt.
Proof.
  intros lib C. exists [256], [1], (by_length (lib 0%Z 1%Z) 1 1).
  split; [apply string_dec; reflexivity|]. split; [apply string_dec; reflexivity|].
  split; [reflexivity|]. split; [reflexivity|].
  pose proof (C 0%Z 1%Z ltac:(discriminate)) as T. change (0 ?= 1)%Z with Lt in T.
  unfold by_length. destruct (Z.eqb_spec (lib 0%Z 1%Z) 0) as [E|E]; cbn [negb]; [|exact T].
  rewrite E in T. discriminate.
Qed.

Lemma sse_order_wrong : forall lib, exists s1 s2 e,
  is_string 2 s1 /\ is_string 2 s2 /\ is_bytes e /\
  compare4 ct_short lib ModeSSE42 (encode 2 s1 ++ e) (lenN s1) (encode 2 s2 ++ e) (lenN s2) = Ok 1%Z
  /\ lex (order_of 2 true) s1 s2 = Lt.
Proof.
  intros lib. exists [65535], [1], (repeat 0 14).
  split; [apply string_dec; reflexivity|]. split; [apply string_dec; reflexivity|].
  split; [exact (bytes_dec (repeat 0 14) eq_refl)|]. split; vm_compute; reflexivity.
Qed.

Lemma libc_order_wrong : forall lib, exists s1 s2,
  is_string 1 s1 /\ is_string 1 s2 /\
  compare4 ct_char lib ModeLIBC s1 (lenN s1) s2 (lenN s2) = Ok 0%Z
  /\ lex (order_of 1 true) s1 s2 = Lt.
Proof.
  intros lib. exists [97; 0; 98], [97; 0; 99].
  split; [apply string_dec; reflexivity|]. split; [apply string_dec; reflexivity|]. split; reflexivity.
Qed.

(** ** Operators of views *)
Lemma at_most_wrong : forall lib md, exists s e,
  let v := View (Some (s ++ e)) (lenN s) in
  v_eq ct_char lib md v v = Ok true /\ v_le ct_char lib md v v = Ok false /\ v_ge ct_char lib md v v = Ok false.
Proof. intros lib md. exists [97], (repeat 0 15). destruct md; vm_compute; repeat split; reflexivity. Qed.

Lemma at_most_turned : forall lib md, exists s1 s2 e,
  let a := View (Some (s1 ++ e)) (lenN s1) in
  let b := View (Some (s2 ++ e)) (lenN s2) in
  lex Z.of_N s1 s2 = Lt /\ v_le ct_char lib md a b = Ok false /\ v_le ct_char lib md b a = Ok true.
Proof. intros lib md. exists [97], [97; 98], (repeat 0 15). destruct md; vm_compute; repeat split; reflexivity. Qed.

Lemma less_wrong : exists lib, conforming lib /\ exists s1 s2,
  let a := View (Some s1) (lenN s1) in
  let b := View (Some s2) (lenN s2) in
  lex Z.of_N s1 s2 = Lt /\ v_lt ct_char lib ModeSTL a b = Ok false /\ v_gt ct_char lib ModeSTL b a = Ok false.
Proof.
  exists Z.sub. split; [exact diff_conforming|]. exists [97], [99]. vm_compute. repeat split; reflexivity.
Qed.

(** ** Parts *)
Lemma substr_wrong : exists s pos count v,
  pos <= lenN s /\ count < 2 ^ 64 /\
  v_substr ct_char (View (Some s) (lenN s)) pos count = Ok (Some v) /\ lenN s < v_size v.
Proof.
  exists [97; 98; 99], 2, (2 ^ 64 - 2). eexists.
  split; [vm_compute; discriminate|]. split; [vm_compute; reflexivity|].
  split; [vm_compute; reflexivity|]. vm_compute. reflexivity.
Qed.

Lemma equal_at_wrong : forall lib, exists s1 s2 count,
  v_equal_at ct_char lib ModeSTL (View (Some s1) (lenN s1)) 0 count (View (Some s2) (lenN s2)) = Err EUndef
  /\ v_compare_at ct_char lib ModeSTL (View (Some s1) (lenN s1)) 0 count (View (Some s2) (lenN s2)) = Err EUndef
  /\ sub s1 0 count = sub s2 0 count.
Proof.
  intros lib. exists [97; 98; 99], [97; 98; 99], 5. vm_compute. repeat split; reflexivity.
Qed.

(** The length of the second view is not looked at. *)
Lemma equal_at_prefix : forall lib, exists s1 s2,
  is_string 1 s1 /\ is_string 1 s2 /\ s1 <> s2 /\
  v_equal_at ct_char lib ModeSTL (View (Some s1) (lenN s1)) 0 (lenN s1) (View (Some s2) (lenN s2)) = Ok (Some true).
Proof.
  intros lib. exists [97; 98], [97; 98; 99].
  split; [apply string_dec; reflexivity|]. split; [apply string_dec; reflexivity|].
  split; [discriminate|]. reflexivity.
Qed.

Lemma copy_wrong :
  (forall s e dest pos count, is_string 1 s -> ~ In 0 s ->
    pos <= lenN s -> lenN s < 2 ^ 64 -> pos + count < 2 ^ 64 ->
    (length (sub s pos count) <= length dest)%nat ->
    v_copy ct_char (View (Some (s ++ e)) (lenN s)) dest count pos
    = Ok (Some (sub s pos count ++ skipn (length (sub s pos count)) dest, 0))).
Proof.
  intros s e dest pos count S Z P L W D.
  pose proof (copy_spec ct_char s e dest pos count eq_refl S Z P L W D) as X.
  change (csz ct_char) with 1 in X. rewrite encode1 in X by exact S. exact X.
Qed.

Lemma copy_zero_wrong : exists s dest d n,
  is_string 1 s /\ length dest = length s /\
  v_copy ct_char (View (Some s) (lenN s)) dest (lenN s) 0 = Ok (Some (d, n)) /\ d <> s /\ n <> lenN s.
Proof.
  exists [97; 0; 98], [1; 1; 1], [97; 0; 0], 0.
  split; [apply string_dec; reflexivity|]. split; [reflexivity|]. split; [reflexivity|].
  split; discriminate.
Qed.

Lemma copy_other_wrong : forall s e n, is_string 2 s -> (n <= length s)%nat -> (0 < n)%nat ->
  v_copy ct_ushort (View (Some (encode 2 s ++ e)) (lenN s)) (repeat 0 n) (N.of_nat n) 0
  = Ok (Some (repeat 0 n, 0)).
Proof.
  intros s e n S L P. unfold v_copy. cbn [v_size v_data].
  replace (lenN s <? 0) with false by lia.
  unfold v_at. cbn [v_data rbind cspecial ct_ushort].
  assert (C : v_count (lenN s) 0 (N.of_nat n) = N.of_nat n \/ v_count (lenN s) 0 (N.of_nat n) = wsub (lenN s) 0)
    by (unfold v_count; destruct (_ <=? _); [left|right]; reflexivity).
  assert (C' : 0 <= N.of_nat n <= lenN s) by lia.
  assert (E : v_count (lenN s) 0 (N.of_nat n) = N.of_nat n).
  { unfold v_count. replace (wadd 0 (N.of_nat n) <=? lenN s) with true; [reflexivity|].
    symmetry. apply N.leb_le. unfold wadd, w64. rewrite N.add_0_l.
    eapply N.le_trans; [apply N.mod_le; discriminate|apply C']. }
  rewrite E, Nat2N.id. change (N.to_nat (0 * csz ct_ushort)) with 0%nat. rewrite skipn_O.
  destruct s as [|c s]; [cbn [length] in L; lia|]. apply string_cons in S as [Hc S].
  destruct n as [|n]; [lia|]. cbn [repeat str_copy_loop].
  pose proof (chr_at ct_ushort [] c s e Hc) as X. cbn [app length] in X. change (N.of_nat 0) with 0 in X.
  change (csz ct_ushort) with 2 in X. rewrite X. cbn [rbind]. rewrite N.land_0_l. reflexivity.
Qed.

(** ** Views without a string *)
Lemma null_wrong : forall ct lib md,
  v_eq ct lib md v_none v_none = Ok true
  /\ v_compare ct lib md v_none v_none = Ok IsSmaller
  /\ v_lt ct lib md v_none v_none = Ok true
  /\ (forall m, v_eq ct lib md v_none (View (Some m) 0) = Ok false
      /\ v_lt ct lib md v_none (View (Some m) 0) = Ok true).
Proof. intros ct lib md. repeat split; reflexivity. Qed.
