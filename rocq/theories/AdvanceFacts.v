(** Facts about advance and distance. *)
From Coq Require Import ZArith NArith List Bool Lia.
From Coq Require Import ZifyBool ZifyNat ZifyN.
From Verif Require Import Base StrIterModel StrIterSpec StrIterFacts AdvanceModel.
Import ListNotations.
Open Scope Z_scope.

Section Advance.

Variable A : Type.
Implicit Types (a : arr A) (p q : ptr).

Lemma up_in n : forall a p, 0 <= p -> p + Z.of_nat n <= Z.of_nat (length a) ->
  up A n a p = Ok (p + Z.of_nat n).
Proof.
  induction n; intros a p H1 H2; cbn [up].
  - f_equal. lia.
  - unfold it_inc. rewrite p_add_in by lia. cbn [rbind]. rewrite IHn by lia. f_equal. lia.
Qed.

Lemma down_in n : forall a p, 0 <= p - Z.of_nat n -> p <= Z.of_nat (length a) ->
  down A n a p = Ok (p - Z.of_nat n).
Proof.
  induction n; intros a p H1 H2; cbn [down].
  - f_equal. lia.
  - unfold it_dec. rewrite p_add_in by lia. cbn [rbind]. rewrite IHn by lia. f_equal. lia.
Qed.

Lemma up_out n : forall a p, position A a p -> Z.of_nat (length a) < p + Z.of_nat n -> up A n a p = Err EUndef.
Proof.
  induction n; intros a p (P1 & P2) H; [lia|]. cbn [up]. unfold it_inc.
  destruct (Z.ltb_spec p (Z.of_nat (length a))).
  - rewrite p_add_in by lia. cbn [rbind]. apply IHn; [split; lia|lia].
  - unfold p_add. replace (_ && _) with false by lia. reflexivity.
Qed.

Lemma down_out n : forall a p, position A a p -> p - Z.of_nat n < 0 -> down A n a p = Err EUndef.
Proof.
  induction n; intros a p (P1 & P2) H; [lia|]. cbn [down]. unfold it_dec.
  destruct (Z.ltb_spec 0 p).
  - rewrite p_add_in by lia. cbn [rbind]. apply IHn; [split; lia|lia].
  - unfold p_add. replace (_ && _) with false by lia. reflexivity.
Qed.

Lemma advance_agree c a p n : c <> CInput \/ 0 <= n -> position A a p ->
  advance A c a p n = (if (0 <=? p + n) && (p + n <=? Z.of_nat (length a)) then Ok (p + n) else Err EUndef).
Proof.
  intros HC (P1 & P2). destruct c; cbn [advance]; [| |reflexivity].
  - assert (Hn : 0 <= n) by (destruct HC as [HC|HC]; [destruct HC; reflexivity|exact HC]).
    destruct (Z.leb_spec (p + n) (Z.of_nat (length a))).
    + rewrite up_in by lia. replace (_ && _) with true by lia. f_equal. lia.
    + rewrite up_out by (try split; lia). replace (_ && _) with false by lia. reflexivity.
  - destruct (Z.leb_spec 0 n).
    + replace (Z.to_nat (- n)) with O by lia. cbn [down].
      destruct (Z.leb_spec (p + n) (Z.of_nat (length a))).
      * rewrite up_in by lia. cbn [rbind]. replace (_ && _) with true by lia. f_equal. lia.
      * rewrite up_out by (try split; lia). cbn [rbind]. replace (_ && _) with false by lia. reflexivity.
    + replace (Z.to_nat n) with O by lia. cbn [up rbind].
      destruct (Z.leb_spec 0 (p + n)).
      * rewrite down_in by lia. replace (_ && _) with true by lia. f_equal. lia.
      * rewrite down_out by (try split; lia). replace (_ && _) with false by lia. reflexivity.
Qed.

Lemma advance_moves c a p q : c <> CInput \/ p <= q -> position A a p -> position A a q ->
  advance A c a p (q - p) = Ok q /\ next A c a p (q - p) = Ok q
  /\ (c <> CInput -> prev A c a p (p - q) = Ok q).
Proof.
  intros HC P Q. destruct P as (P1 & P2), Q as (Q1 & Q2).
  assert (E : advance A c a p (q - p) = Ok q).
  { rewrite advance_agree; [|destruct HC; [left; assumption|right; lia]|split; assumption].
    replace (_ && _) with true by lia. f_equal. lia. }
  split; [exact E|]. split; [exact E|]. intros _. unfold prev.
  replace (- (p - q)) with (q - p) by lia. exact E.
Qed.

Lemma advance_outside c a p n : c <> CInput \/ 0 <= n -> position A a p -> ~ position A a (p + n) ->
  advance A c a p n = Err EUndef.
Proof.
  intros HC P Q. rewrite advance_agree by auto. unfold position in Q.
  replace (_ && _) with false by lia. reflexivity.
Qed.

(** Input iterators stay where they are. *)
Lemma input_stays a p n : n <= 0 -> advance A CInput a p n = Ok p.
Proof. intros H. cbn [advance]. replace (Z.to_nat n) with O by lia. reflexivity. Qed.

Lemma count_in n : forall fuel a p, (n <= fuel)%nat -> 0 <= p -> p + Z.of_nat n <= Z.of_nat (length a) ->
  count A fuel a p (p + Z.of_nat n) = Ok (Z.of_nat n).
Proof.
  induction n; intros fuel a p Hf H1 H2.
  - destruct fuel; cbn [count]; unfold it_eq; replace (p =? p + Z.of_nat 0) with true by lia; reflexivity.
  - destruct fuel as [|fuel]; [lia|]. cbn [count]. unfold it_eq.
    replace (p =? p + Z.of_nat (S n)) with false by lia.
    unfold it_inc. rewrite p_add_in by lia. cbn [rbind].
    replace (p + Z.of_nat (S n)) with (p + 1 + Z.of_nat n) by lia.
    rewrite IHn by lia. cbn [rbind]. f_equal. lia.
Qed.

Lemma distances c a p q : position A a p -> position A a q -> c = CRandom \/ p <= q ->
  distance A c a p q = Ok (q - p).
Proof.
  intros (P1 & P2) (Q1 & Q2) HC.
  assert (E : p <= q -> count A (S (length a)) a p q = Ok (q - p)).
  { intros H. replace q with (p + Z.of_nat (Z.to_nat (q - p))) at 1 by lia.
    rewrite count_in by lia. f_equal. lia. }
  destruct HC as [->|H]; [reflexivity|]. destruct c; cbn [distance]; [exact (E H)|exact (E H)|reflexivity].
Qed.

Lemma count_runs_off fuel : forall a p q, position A a p -> q < p -> Z.of_nat (length a) - p < Z.of_nat fuel ->
  count A fuel a p q = Err EUndef.
Proof.
  induction fuel; intros a p q (P1 & P2) H Hf; [lia|]. cbn [count]. unfold it_eq.
  replace (p =? q) with false by lia. unfold it_inc.
  destruct (Z.ltb_spec p (Z.of_nat (length a))).
  - rewrite p_add_in by lia. cbn [rbind]. rewrite IHfuel; [reflexivity|split; lia|lia|lia].
  - unfold p_add. replace (_ && _) with false by lia. reflexivity.
Qed.

Lemma distance_backwards c a p q : c <> CRandom -> position A a p -> q < p -> distance A c a p q = Err EUndef.
Proof.
  intros HC P H. assert (E : count A (S (length a)) a p q = Err EUndef).
  { apply count_runs_off; auto. destruct P. lia. }
  destruct c; cbn [distance]; auto. destruct HC. reflexivity.
Qed.

End Advance.

Lemma ax_example : position N sx_arr 4 /\ advance N CBidirectional sx_arr 4 (-3) = Ok 1
  /\ advance N CInput sx_arr 1 3 = Ok 4 /\ prev N CBidirectional sx_arr 4 3 = Ok 1
  /\ advance N CBidirectional sx_arr 4 (-5) = Err EUndef /\ distance N CInput sx_arr 1 4 = Ok 3
  /\ distance N CRandom sx_arr 4 1 = Ok (-3) /\ distance N CBidirectional sx_arr 4 1 = Err EUndef.
Proof. unfold position. repeat split; vm_compute; try reflexivity; discriminate. Qed.

Lemma ax_stays : exists a p q, position N a p /\ position N a q /\ q <> p
  /\ advance N CInput a p (q - p) = Ok p /\ advance N CBidirectional a p (q - p) = Ok q.
Proof.
  exists sx_arr, 4, 1. unfold position. repeat split; vm_compute; try reflexivity; discriminate.
Qed.
