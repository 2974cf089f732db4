(** Facts about the iterators of string views. *)
From Coq Require Import ZArith NArith List Bool Lia.
From Coq Require Import ZifyBool ZifyNat ZifyN.
From Verif Require Import Base StrIterModel StrIterSpec.
Import ListNotations.
Open Scope Z_scope.

Section StrIter.

Variable A : Type.
Implicit Types (a : arr A) (p q : ptr) (v : view).

Lemma p_add_in a p n : 0 <= p + n -> p + n <= Z.of_nat (length a) -> p_add A a p n = Ok (p + n).
Proof. intros H1 H2. unfold p_add. replace (_ && _) with true by lia. reflexivity. Qed.

Lemma deref_in a p : 0 <= p < Z.of_nat (length a) ->
  exists x, it_deref A a p = Ok x /\ nth_error a (Z.to_nat p) = Some x.
Proof.
  intros H. unfold it_deref. replace (p <? 0) with false by lia.
  destruct (nth_error a (Z.to_nat p)) as [x|] eqn:E; [eauto|].
  apply nth_error_None in E. lia.
Qed.

Lemma v_end_in a v : inside A a v -> v_end A a v = Ok (v_data v + v_size v).
Proof. intros (H1 & H2 & H3). apply p_add_in; lia. Qed.

Lemma skipn_cons (l : list A) n x : nth_error l n = Some x -> skipn n l = x :: skipn (S n) l.
Proof.
  revert n. induction l; intros [|n] H; cbn in *; try discriminate.
  - congruence.
  - rewrite (IHl n H). reflexivity.
Qed.

Lemma walk_spec n : forall fuel a p, (n <= fuel)%nat -> 0 <= p -> p + Z.of_nat n <= Z.of_nat (length a) ->
  walk A fuel a p (p + Z.of_nat n) = Ok (firstn n (skipn (Z.to_nat p) a)).
Proof.
  induction n; intros fuel a p Hf H1 H2.
  - destruct fuel; cbn [walk]; unfold it_ne, it_eq; replace (p =? p + Z.of_nat 0) with true by lia; reflexivity.
  - destruct fuel as [|fuel]; [lia|]. cbn [walk]. unfold it_ne, it_eq.
    replace (p =? p + Z.of_nat (S n)) with false by lia. cbn [negb].
    destruct (deref_in a p) as (x & E & X); [lia|]. rewrite E. cbn [rbind].
    unfold it_inc. rewrite p_add_in by lia. cbn [rbind].
    replace (p + Z.of_nat (S n)) with (p + 1 + Z.of_nat n) by lia.
    rewrite IHn by lia. cbn [rbind]. rewrite (skipn_cons a _ x X). cbn [firstn].
    replace (Z.to_nat (p + 1)) with (S (Z.to_nat p)) by lia. reflexivity.
Qed.

Lemma firstn_snoc (l : list A) n x : nth_error l n = Some x -> firstn (S n) l = firstn n l ++ [x].
Proof.
  revert n. induction l; intros [|n] H; cbn in *; try discriminate.
  - congruence.
  - f_equal. exact (IHl n H).
Qed.

Lemma nth_error_skip (l : list A) d i : nth_error (skipn d l) i = nth_error l (d + i)%nat.
Proof.
  revert l. induction d; intros l; [reflexivity|]. destruct l; [destruct i; reflexivity|]. exact (IHd l).
Qed.

Lemma r_walk_spec n : forall fuel a p, (n <= fuel)%nat -> 0 <= p -> p + Z.of_nat n <= Z.of_nat (length a) ->
  r_walk A fuel a (p + Z.of_nat n) p = Ok (rev (firstn n (skipn (Z.to_nat p) a))).
Proof.
  induction n; intros fuel a p Hf H1 H2.
  - destruct fuel; cbn [r_walk]; unfold r_ne, it_eq; replace (p + Z.of_nat 0 =? p) with true by lia; reflexivity.
  - destruct fuel as [|fuel]; [lia|]. cbn [r_walk]. unfold r_ne, it_eq.
    replace (p + Z.of_nat (S n) =? p) with false by lia. cbn [negb].
    unfold r_deref, r_inc, it_dec. rewrite p_add_in by lia. cbn [rbind].
    replace (p + Z.of_nat (S n) + -1) with (p + Z.of_nat n) by lia.
    destruct (deref_in a (p + Z.of_nat n)) as (x & E & X); [lia|]. rewrite E. cbn [rbind].
    rewrite IHn by lia. cbn [rbind].
    rewrite (firstn_snoc _ n x); [rewrite rev_app_distr; reflexivity|].
    rewrite nth_error_skip. replace (Z.to_nat p + n)%nat with (Z.to_nat (p + Z.of_nat n)) by lia. exact X.
Qed.

Lemma view_walks a v : inside A a v -> v_walk A a v = Ok (chars A a v) /\ v_walk_back A a v = Ok (rev (chars A a v)).
Proof.
  intros H. unfold v_walk, v_walk_back. rewrite v_end_in by auto. cbn [rbind]. unfold v_begin, chars.
  destruct H as (H1 & H2 & H3).
  replace (v_data v + v_size v) with (v_data v + Z.of_nat (Z.to_nat (v_size v))) by lia.
  split; [apply walk_spec|apply r_walk_spec]; lia.
Qed.

Lemma chars_nth a v i : inside A a v -> 0 <= i < v_size v ->
  nth_error (chars A a v) (Z.to_nat i) = nth_error a (Z.to_nat (v_data v + i)).
Proof.
  intros (H1 & H2 & H3) Hi. unfold chars.
  rewrite <- (firstn_skipn (Z.to_nat (v_size v)) (skipn (Z.to_nat (v_data v)) a)) at 1.
  rewrite firstn_app, firstn_firstn, Nat.min_id.
  rewrite firstn_length, skipn_length.
  replace (Z.to_nat (v_size v) - _)%nat with O by lia. cbn [firstn]. rewrite app_nil_r.
  rewrite <- (nth_error_app1 _ (skipn (Z.to_nat (v_size v)) (skipn (Z.to_nat (v_data v)) a)))
    by (rewrite firstn_length, skipn_length; lia).
  rewrite firstn_skipn. rewrite nth_error_skip. f_equal. lia.
Qed.

Lemma chars_length a v : inside A a v -> length (chars A a v) = Z.to_nat (v_size v).
Proof. intros (H1 & H2 & H3). unfold chars. rewrite firstn_length, skipn_length. lia. Qed.

Lemma rev_nth_error (l : list A) i : (i < length l)%nat ->
  nth_error (rev l) i = nth_error l (length l - 1 - i).
Proof.
  intros H. destruct l as [|d l]; [cbn in H; lia|].
  rewrite (nth_error_nth' (rev (d :: l)) d) by (rewrite rev_length; exact H).
  rewrite rev_nth by exact H.
  rewrite (nth_error_nth' (d :: l) d) by lia. do 2 f_equal. lia.
Qed.

Lemma view_access a v i last : inside A a v -> 0 <= i < v_size v -> v_end A a v = Ok last ->
  exists x y, it_at A a (v_begin v) i = Ok x /\ nth_error (chars A a v) (Z.to_nat i) = Some x
    /\ r_at A a last i = Ok y /\ nth_error (rev (chars A a v)) (Z.to_nat i) = Some y.
Proof.
  intros H Hi E. rewrite v_end_in in E by auto. assert (E' : last = v_data v + v_size v) by congruence.
  subst last. clear E. pose proof H as (H1 & H2 & H3).
  unfold it_at, it_plus, r_at, r_plus, it_minus, v_begin.
  rewrite !p_add_in by lia. cbn [rbind]. unfold r_deref, it_dec. rewrite p_add_in by lia. cbn [rbind].
  destruct (deref_in a (v_data v + i)) as (x & Ex & X); [lia|].
  destruct (deref_in a (v_data v + v_size v + - i + -1)) as (y & Ey & Y); [lia|].
  exists x, y. split; [exact Ex|]. split; [rewrite chars_nth by auto; exact X|]. split; [exact Ey|].
  rewrite rev_nth_error by (rewrite chars_length by auto; lia).
  rewrite chars_length by auto.
  replace (Z.to_nat (v_size v) - 1 - Z.to_nat i)%nat with (Z.to_nat (v_size v - 1 - i)) by lia.
  rewrite chars_nth by (auto; lia). rewrite <- Y. f_equal. lia.
Qed.

Lemma laws a p q : position A a p -> position A a q ->
  it_plus A a p (it_diff q p) = Ok q /\ it_minus A a q (it_diff q p) = Ok p
  /\ r_plus A a p (r_diff q p) = Ok q /\ r_minus A a q (r_diff q p) = Ok p
  /\ (it_lt p q = true <-> 0 < it_diff q p) /\ (r_lt p q = true <-> 0 < r_diff q p)
  /\ (it_eq p q = true <-> p = q)
  /\ it_gt p q = it_lt q p /\ it_le p q = negb (it_lt q p) /\ it_ge p q = negb (it_lt p q)
  /\ r_gt p q = r_lt q p /\ r_le p q = negb (r_lt q p) /\ r_ge p q = negb (r_lt p q).
Proof.
  intros (P1 & P2) (Q1 & Q2).
  unfold it_plus, it_minus, r_plus, r_minus, r_diff, it_diff, it_minus, it_plus.
  rewrite !p_add_in by lia.
  split; [f_equal; lia|]. split; [f_equal; lia|]. split; [f_equal; lia|]. split; [f_equal; lia|].
  unfold it_lt, r_lt, it_lt, it_eq.
  split; [lia|]. split; [lia|]. split; [lia|]. auto 10.
Qed.

Lemma steps a p : position A a p -> p < Z.of_nat (length a) ->
  it_inc A a p = Ok (p + 1) /\ it_dec A a (p + 1) = Ok p
  /\ r_dec A a p = Ok (p + 1) /\ r_inc A a (p + 1) = Ok p.
Proof.
  intros (P1 & P2) H. unfold r_dec, r_inc, it_inc, it_dec. rewrite !p_add_in by lia.
  replace (p + 1 + -1) with p by lia. auto.
Qed.

(** ** Postfix operators *)

Lemma post_moves a p q h : it_post_inc A a p = Ok (q, h) \/ it_post_dec A a p = Ok (q, h) -> use h = Err EUndef.
Proof.
  unfold it_post_inc, it_post_dec.
  intros [H|H]; [destruct (it_inc A a p)|destruct (it_dec A a p)]; cbn [rbind] in H; try discriminate;
    injection H as <- <-; reflexivity.
Qed.

Lemma post_advances a p q :
  (it_inc A a p = Ok q <-> exists h, it_post_inc A a p = Ok (q, h))
  /\ (it_dec A a p = Ok q <-> exists h, it_post_dec A a p = Ok (q, h)).
Proof.
  unfold it_post_inc, it_post_dec.
  split; [destruct (it_inc A a p)|destruct (it_dec A a p)]; cbn [rbind]; split; intros H.
  all: try (destruct H as (h & H)); try discriminate.
  all: try (injection H as <-; eauto; fail).
  all: try (injection H as <- _; reflexivity).
Qed.

Lemma post_walk_undefined a v : inside A a v -> 0 < v_size v -> v_walk_post A a v = Err EUndef.
Proof.
  intros H Hs. unfold v_walk_post. rewrite v_end_in by auto. cbn [rbind]. unfold v_begin.
  destruct H as (H1 & H2 & H3).
  destruct (length a) as [|k] eqn:L; [lia|]. cbn [walk_post]. unfold it_ne, it_eq.
  replace (v_data v =? v_data v + v_size v) with false by lia. cbn [negb].
  unfold it_post_inc, it_inc. rewrite p_add_in by lia. reflexivity.
Qed.

Lemma r_post a p q h : (r_post_inc A a p = Ok (q, h) -> r_inc A a p = Ok q /\ use h = Ok p)
  /\ (r_post_dec A a p = Ok (q, h) -> r_dec A a p = Ok q /\ use h = Ok p).
Proof.
  unfold r_post_inc, r_post_dec, r_inc, r_dec.
  split; [destruct (it_dec A a p)|destruct (it_inc A a p)]; cbn [rbind]; intros H; try discriminate;
    injection H as <- <-; auto.
Qed.

End StrIter.

(** ** Examples *)

Lemma sx_example : inside N sx_arr sx_view /\ chars N sx_arr sx_view = [6; 7; 8; 9]%N
  /\ v_walk N sx_arr sx_view = Ok [6; 7; 8; 9]%N /\ v_walk_back N sx_arr sx_view = Ok [9; 8; 7; 6]%N
  /\ it_at N sx_arr 1 2 = Ok 8%N /\ r_at N sx_arr 5 0 = Ok 9%N /\ position N sx_arr 6
  /\ it_deref N sx_arr 6 = Err EUndef /\ it_inc N sx_arr 6 = Err EUndef
  /\ it_post_inc N sx_arr 1 = Ok (2, Dead) /\ r_post_inc N sx_arr 5 = Ok (4, Live 5).
Proof.
  unfold inside, position. cbn [v_data v_size sx_view].
  repeat split; try (vm_compute; reflexivity); try (vm_compute; discriminate).
Qed.

Lemma sx_post : exists a v, inside N a v /\ v_walk N a v = Ok [6; 7; 8; 9]%N /\ v_walk_post N a v = Err EUndef.
Proof.
  exists sx_arr, sx_view. split; [apply sx_example|]. split; vm_compute; reflexivity.
Qed.
