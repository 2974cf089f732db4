(** operator != of string views, and the order of parts of them. *)
From Coq Require Import NArith ZArith List Bool Lia.
From Coq Require Import ZifyBool ZifyNat ZifyN.
From Verif Require Import Base HashModel HashSpec HashFacts FnvFacts StrModel StrSpec StrFacts StrWords StrViews.
Import ListNotations.
Open Scope N_scope.

Notation lenN s := (N.of_nat (length s)).

Lemma ne_of_equal4 ct lib md m1 m2 n1 n2 (s1 s2 : list N) :
  (exists b, is_equal4 ct lib md m1 n1 m2 n2 = Ok b /\ (b = true <-> s1 = s2)) ->
  exists b, v_ne ct lib md (View (Some m1) n1) (View (Some m2) n2) = Ok b /\ (b = true <-> s1 <> s2).
Proof.
  intros (b & E & H). exists (negb b). unfold v_ne. rewrite v_equal_some, E. cbn [rbind]. split; [reflexivity|].
  rewrite negb_true_iff, <- H. destruct b; split; intros; congruence.
Qed.

Lemma ne_stl : forall ct lib s1 s2 e1 e2, conforming lib ->
  is_string (csz ct) s1 -> is_string (csz ct) s2 -> lenN s1 * csz ct < 2 ^ 64 ->
  exists b, v_ne ct lib ModeSTL (View (Some (encode (csz ct) s1 ++ e1)) (lenN s1))
              (View (Some (encode (csz ct) s2 ++ e2)) (lenN s2)) = Ok b /\ (b = true <-> s1 <> s2).
Proof. intros. apply ne_of_equal4. apply stl_equal4; assumption. Qed.

Lemma ne_sse : forall ct lib s1 s2 e1 e2, fits ct ->
  is_string (csz ct) s1 -> is_string (csz ct) s2 -> is_bytes e1 -> is_bytes e2 ->
  padded ct (lenN s1) e1 -> padded ct (lenN s2) e2 -> lenN s1 < 2 ^ 31 ->
  exists b, v_ne ct lib ModeSSE42 (View (Some (encode (csz ct) s1 ++ e1)) (lenN s1))
              (View (Some (encode (csz ct) s2 ++ e2)) (lenN s2)) = Ok b /\ (b = true <-> s1 <> s2).
Proof. intros. apply ne_of_equal4. apply sse_equal4; assumption. Qed.

Lemma parts_order : forall lib s1 s2 e1 e2 pos1 count1 pos2 count2, conforming lib ->
  is_string 1 s1 -> is_string 1 s2 -> lenN s1 < 2 ^ 64 -> lenN s2 < 2 ^ 64 ->
  pos1 <= lenN s1 -> pos2 <= lenN s2 -> pos1 + count1 < 2 ^ 64 -> pos2 + count2 < 2 ^ 64 ->
  exists r, v_compare_parts ct_char lib ModeSTL (View (Some (s1 ++ e1)) (lenN s1)) pos1 count1
      (View (Some (s2 ++ e2)) (lenN s2)) pos2 count2 = Ok (Some r)
    /\ tells r (lex Z.of_N (sub s1 pos1 count1) (sub s2 pos2 count2)).
Proof.
  intros lib s1 s2 e1 e2 pos1 count1 pos2 count2 C S1 S2 L1 L2 P1 P2 W1 W2.
  unfold v_compare_parts. cbn [v_size v_data].
  replace (lenN s1 <? pos1) with false by lia. replace (lenN s2 <? pos2) with false by lia. cbn [orb].
  unfold v_at. cbn [v_data rbind].
  pose proof (sub_memory 1 s1 pos1 count1 e1 P1) as M1. pose proof (sub_memory 1 s2 pos2 count2 e2 P2) as M2.
  assert (T1 : is_string 1 (sub s1 pos1 count1)).
  { unfold sub. apply string_firstn. rewrite <- (firstn_skipn (N.to_nat pos1) s1) in S1. apply string_app in S1 as [_ S1]. exact S1. }
  assert (T2 : is_string 1 (sub s2 pos2 count2)).
  { unfold sub. apply string_firstn. rewrite <- (firstn_skipn (N.to_nat pos2) s2) in S2. apply string_app in S2 as [_ S2]. exact S2. }
  change (csz ct_char) with 1.
  rewrite (encode1 s1 S1), (encode1 _ T1) in M1. rewrite (encode1 s2 S2), (encode1 _ T2) in M2.
  rewrite M1, M2. rewrite !count_spec by assumption. rewrite <- !sub_length by assumption.
  match goal with |- context [compare_safe4 ct_char lib ModeSTL (Some (_ ++ ?a)) _ (Some (_ ++ ?b)) _] =>
    destruct (stl_compare4 ct_char lib (sub s1 pos1 count1) (sub s2 pos2 count2) a b C) as (r & E & B) end;
    auto.
  - rewrite sub_length by exact P1. lia.
  - unfold compare_safe4, compare_safe3. unfold compare4 in E. rewrite E. cbn [rbind].
    exists r. split; [reflexivity|exact B].
Qed.
