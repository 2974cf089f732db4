(** The claims about strings, for the character types of the model. *)
From Coq Require Import Arith NArith ZArith List Bool Lia.
From Coq Require Import ZifyBool ZifyNat ZifyN.
From Verif Require Import Base HashModel HashSpec HashFacts FnvFacts StrModel StrSpec StrFacts StrWords StrViews StrWitness.
Import ListNotations.
Open Scope N_scope.

Lemma types_fit : forall ct, In ct [ct_char; ct_uchar; ct_short; ct_ushort; ct_wchar_win] -> fits ct.
Proof.
  intros ct I. unfold fits.
  destruct I as [<-|[<-|[<-|[<-|[<-|[]]]]]]; (split; [reflexivity|split; reflexivity]).
Qed.

Lemma types_known : forall ct,
  In ct [ct_char; ct_uchar; ct_wchar; ct_wchar_win; ct_short; ct_ushort; ct_char16] ->
  0 < csz ct /\ (cspecial ct = true \/ 1 < csz ct \/ csigned ct = false).
Proof.
  intros ct I.
  destruct I as [<-|[<-|[<-|[<-|[<-|[<-|[<-|[]]]]]]]]; (split; [reflexivity|]).
  - left; reflexivity.
  - right; right; reflexivity.
  - left; reflexivity.
  - left; reflexivity.
  - right; left; reflexivity.
  - right; left; reflexivity.
  - right; left; reflexivity.
Qed.

Lemma sse_equality :
  forall ct lib s1 s2 e1 e2,
  In ct [ct_char; ct_uchar; ct_short; ct_ushort; ct_wchar_win] ->
  is_string (csz ct) s1 -> is_string (csz ct) s2 -> is_bytes e1 -> is_bytes e2 ->
  (N.of_nat (length s1) * csz ct + 15) / 16 * 16 <= N.of_nat (length s1) * csz ct + N.of_nat (length e1) ->
  (N.of_nat (length s2) * csz ct + 15) / 16 * 16 <= N.of_nat (length s2) * csz ct + N.of_nat (length e2) ->
  N.of_nat (length s1) < 2 ^ 31 ->
  exists b, is_equal4 ct lib ModeSSE42 (encode (csz ct) s1 ++ e1) (N.of_nat (length s1))
      (encode (csz ct) s2 ++ e2) (N.of_nat (length s2)) = Ok b
    /\ (b = true <-> s1 = s2).
Proof.
  intros. apply sse_equal4; try assumption. apply types_fit; assumption.
Qed.

Lemma c_strings :
  forall ct lib s1 s2 e1 e2, conforming lib ->
  In ct [ct_char; ct_uchar; ct_wchar; ct_wchar_win; ct_short; ct_ushort; ct_char16] ->
  let value := order_of (csz ct) (csigned ct) in
  is_string (csz ct) s1 -> is_string (csz ct) s2 ->
  Forall (fun c => 0 < value c)%Z s1 -> Forall (fun c => 0 < value c)%Z s2 ->
  let m1 := encode (csz ct) (s1 ++ [0]) ++ e1 in
  let m2 := encode (csz ct) (s2 ++ [0]) ++ e2 in
  StrLen ct m1 = Ok (N.of_nat (length s1))
  /\ (exists r, libc_StrCmp0 ct lib m1 m2 = Ok r /\ tells r (lex value s1 s2))
  /\ (exists b, libc_StrEqual0 ct lib m1 m2 = Ok b /\ (b = true <-> s1 = s2)).
Proof.
  intros ct lib s1 s2 e1 e2 C I value S1 S2 Z1 Z2 m1 m2.
  destruct (types_known ct I) as [H0 H]. split.
  - apply StrLen_spec; [exact H0|exact S1|]. intros J. rewrite Forall_forall in Z1. specialize (Z1 0 J).
    unfold value, order_of in Z1. destruct (_ && _) in Z1; [|discriminate].
    assert (P : (0 < 2 ^ (8 * Z.of_N (csz ct)))%Z) by (apply Z.pow_pos_nonneg; lia). lia.
  - apply StrCmp0_spec; assumption.
Qed.

Lemma stl_no_return_wrong :
  forall lib, exists s, is_string 1 s /\
  stl_StrEqual4 ct_char lib s (N.of_nat (length s)) s (N.of_nat (length s)) = Err EUndef.
Proof.
  intros lib. exists [97]. split; [apply string_dec; reflexivity|]. reflexivity.
Qed.

Lemma sse_over_reads :
  forall ct lib s,
  In ct [ct_char; ct_uchar; ct_short; ct_ushort; ct_wchar_win] ->
  is_string (csz ct) s -> N.of_nat (length s) < 2 ^ 31 -> (N.of_nat (length s) * csz ct) mod 16 <> 0 ->
  is_equal3 ct lib ModeSSE42 (encode (csz ct) s) (encode (csz ct) s) (N.of_nat (length s)) = Err EUndef
  /\ compare3 ct lib ModeSSE42 (encode (csz ct) s) (encode (csz ct) s) (N.of_nat (length s)) = Err EUndef.
Proof.
  intros ct lib s I S L H. apply sse_reads; try assumption. apply types_fit; assumption.
Qed.

Lemma u64_reads_wrong :
  forall lib, exists s, is_string 1 s /\
  is_equal3 ct_char lib ModeU64 s s (N.of_nat (length s)) = Err EUndef.
Proof.
  intros lib. exists [97; 98; 99]. split; [apply string_dec; reflexivity|]. reflexivity.
Qed.

Lemma sse_reads_wrong :
  forall lib, exists s, is_string 1 s /\
  is_equal3 ct_char lib ModeSSE42 s s (N.of_nat (length s)) = Err EUndef
  /\ compare3 ct_char lib ModeSSE42 s s (N.of_nat (length s)) = Err EUndef.
Proof.
  intros lib. exists [97; 98; 99]. split; [apply string_dec; reflexivity|]. split; reflexivity.
Qed.

Lemma sse_half :
  forall ct lib p d1 d2,
  In ct [ct_wchar; ct_char16] ->
  N.of_nat (length p) * csz ct = 16 -> N.of_nat (length p) + N.of_nat (length d1) = cmax ct -> length d1 = length d2 ->
  is_equal4 ct lib ModeSSE42 (encode (csz ct) (p ++ d1)) (cmax ct) (encode (csz ct) (p ++ d2)) (cmax ct) = Ok true
  /\ compare4 ct lib ModeSSE42 (encode (csz ct) (p ++ d1)) (cmax ct) (encode (csz ct) (p ++ d2)) (cmax ct) = Ok 0%Z.
Proof.
  intros ct lib p d1 d2 I P M L. apply sse_wide; try assumption.
  - destruct I as [<-|[<-|[]]]; reflexivity.
  - destruct I as [<-|[<-|[]]]; reflexivity.
Qed.

Lemma u64_wide_wrong :
  forall lib, exists s1 s2, is_string 4 s1 /\ is_string 4 s2 /\ s1 <> s2 /\ length s1 = length s2 /\
  is_equal4 ct_wchar lib ModeU64 (encode 4 s1) (N.of_nat (length s1)) (encode 4 s2) (N.of_nat (length s2)) = Ok true.
Proof.
  intros lib. exists [97; 98], [97; 99].
  split; [apply string_dec; reflexivity|]. split; [apply string_dec; reflexivity|].
  split; [discriminate|]. split; reflexivity.
Qed.

Lemma sse_order :
  forall ct lib s1 s2 e1 e2,
  In ct [ct_char; ct_uchar; ct_short; ct_ushort; ct_wchar_win] ->
  is_string (csz ct) s1 -> is_string (csz ct) s2 -> is_bytes e1 -> is_bytes e2 ->
  (N.of_nat (length s1) * csz ct + 15) / 16 * 16 <= N.of_nat (length s1) * csz ct + N.of_nat (length e1) ->
  (N.of_nat (length s2) * csz ct + 15) / 16 * 16 <= N.of_nat (length s2) * csz ct + N.of_nat (length e2) ->
  N.of_nat (length s1) < 2 ^ 31 ->
  exists r, compare4 ct lib ModeSSE42 (encode (csz ct) s1 ++ e1) (N.of_nat (length s1))
      (encode (csz ct) s2 ++ e2) (N.of_nat (length s2)) = Ok r
    /\ tells r (lex Z.of_N s1 s2) /\ (-1 <= r <= 1)%Z.
Proof.
  intros. apply sse_compare4; try assumption. apply types_fit; assumption.
Qed.

Lemma libc_order :
  forall ct lib s1 s2 e1 e2, conforming lib ->
  In ct [ct_char; ct_uchar; ct_wchar; ct_wchar_win; ct_short; ct_ushort; ct_char16] ->
  is_string (csz ct) s1 -> is_string (csz ct) s2 -> (cspecial ct = true -> ~ In 0 s1) ->
  exists r, compare4 ct lib ModeLIBC (encode (csz ct) s1 ++ e1) (N.of_nat (length s1))
      (encode (csz ct) s2 ++ e2) (N.of_nat (length s2)) = Ok r
    /\ tells r (lex (order_of (csz ct) (csigned ct)) s1 s2).
Proof.
  intros ct lib s1 s2 e1 e2 C I S1 S2 Z. destruct (types_known ct I) as [H0 H].
  apply libc_compare4'; assumption.
Qed.

Lemma sse_ops :
  forall ct lib s1 s2 e1 e2,
  In ct [ct_char; ct_uchar; ct_short; ct_ushort; ct_wchar_win] ->
  is_string (csz ct) s1 -> is_string (csz ct) s2 -> is_bytes e1 -> is_bytes e2 ->
  (N.of_nat (length s1) * csz ct + 15) / 16 * 16 <= N.of_nat (length s1) * csz ct + N.of_nat (length e1) ->
  (N.of_nat (length s2) * csz ct + 15) / 16 * 16 <= N.of_nat (length s2) * csz ct + N.of_nat (length e2) ->
  N.of_nat (length s1) < 2 ^ 31 ->
  let a := View (Some (encode (csz ct) s1 ++ e1)) (N.of_nat (length s1)) in
  let b := View (Some (encode (csz ct) s2 ++ e2)) (N.of_nat (length s2)) in
  let smaller := match lex Z.of_N s1 s2 with Lt => true | _ => false end in
  let greater := match lex Z.of_N s1 s2 with Gt => true | _ => false end in
  v_lt ct lib ModeSSE42 a b = Ok smaller /\ v_gt ct lib ModeSSE42 a b = Ok greater
  /\ v_le ct lib ModeSSE42 a b = Ok greater /\ v_ge ct lib ModeSSE42 a b = Ok smaller.
Proof.
  intros ct lib s1 s2 e1 e2 I S1 S2 B1 B2 P1 P2 H. apply sse_operators; try assumption. apply types_fit; assumption.
Qed.

Lemma stl_ops :
  forall lib s1 s2 e1 e2, conforming lib ->
  (forall x y, x <> y -> (-1 <= lib x y <= 1)%Z) ->
  is_string 1 s1 -> is_string 1 s2 -> N.of_nat (length s1) < 2 ^ 64 ->
  let a := View (Some (s1 ++ e1)) (N.of_nat (length s1)) in
  let b := View (Some (s2 ++ e2)) (N.of_nat (length s2)) in
  v_lt ct_char lib ModeSTL a b = Ok (match lex Z.of_N s1 s2 with Lt => true | _ => false end)
  /\ v_gt ct_char lib ModeSTL a b = Ok (match lex Z.of_N s1 s2 with Gt => true | _ => false end).
Proof.
  intros lib s1 s2 e1 e2 C U S1 S2 H. exact (stl_operators ct_char lib s1 s2 e1 e2 C U eq_refl S1 S2 H).
Qed.

Lemma copy_number_wrong :
  exists s dest d n,
  is_string 1 s /\ ~ In 0 s /\
  v_copy ct_char (View (Some s) (N.of_nat (length s))) dest (N.of_nat (length s)) 0 = Ok (Some (d, n))
  /\ n <> N.of_nat (length s).
Proof.
  exists [97; 98], [1; 1], [97; 98], 0. split; [apply string_dec; reflexivity|].
  split; [intros [X|[X|[]]]; discriminate|]. split; [reflexivity|]. discriminate.
Qed.

Lemma copy_zeros_wrong :
  exists s d n, is_string 2 s /\
  v_copy ct_ushort (View (Some (encode 2 s)) (N.of_nat (length s))) (repeat 0 (length s)) (N.of_nat (length s)) 0
  = Ok (Some (d, n)) /\ d <> s.
Proof.
  exists [97; 98], [0; 0], 0. split; [apply string_dec; reflexivity|]. split; [reflexivity|]. discriminate.
Qed.

Lemma empty_same :
  forall ct lib md m1 m2,
  v_eq ct lib md (View (Some m1) 0) (View (Some m2) 0) = Ok true
  /\ v_compare ct lib md (View (Some m1) 0) (View (Some m2) 0) = Ok 0%Z.
Proof.
  intros ct lib md m1 m2. destruct md; unfold v_eq, v_equal, v_compare, is_equal_safe4, compare_safe4;
    cbn [v_size v_data is_equal_safe3 compare_safe3 is_equal3 compare3]; rewrite N.eqb_refl, N.leb_refl; cbn [negb].
  - unfold stl_StrEqual, stl_StrCmp, memcmp, wmul. rewrite N.mul_0_l. change (w64 0) with 0.
    replace ((0 <=? N.of_nat (length m1)) && (0 <=? N.of_nat (length m2))) with true by lia. split; reflexivity.
  - unfold u64_is_equal, libc_StrCmp. change (N.to_nat 0) with 0%nat. cbn [u64_equal].
    split; [reflexivity|]. destruct (cspecial ct); reflexivity.
  - destruct (sse_negative ct m1 m2 0) as [E1 E2]; [left; reflexivity|]. rewrite E1, E2. split; reflexivity.
  - unfold libc_StrEqual, libc_StrCmp. change (N.to_nat 0) with 0%nat.
    destruct (cspecial ct); split; reflexivity.
Qed.

Lemma empty_wrong :
  forall lib md, exists a b, v_size a = 0 /\ v_size b = 0 /\
  v_eq ct_char lib md a b = Ok false /\ v_lt ct_char lib md a a = Ok true.
Proof.
  intros lib md. exists v_none, (View (Some [0]) 0). repeat split; reflexivity.
Qed.
