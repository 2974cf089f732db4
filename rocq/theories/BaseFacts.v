(** Facts about arrays and machine words. *)
From Coq Require Import NArith ZArith List Bool Lia Permutation.
From Coq Require Import ZifyBool ZifyNat ZifyN.
From Verif Require Import Base.
Import ListNotations.
Open Scope N_scope.
Ltac Zify.zify_post_hook ::= Z.div_mod_to_equations.

Lemma upd_length {A} (l : list A) n x : length (upd l n x) = length l.
Proof. revert n; induction l; destruct n; simpl; auto. Qed.

Lemma upd_nth_error_eq {A} (l : list A) n x :
  (n < length l)%nat -> nth_error (upd l n x) n = Some x.
Proof. revert n; induction l; destruct n; simpl; intros; try lia; auto. apply IHl; lia. Qed.

Lemma upd_nth_error_neq {A} (l : list A) n m x :
  n <> m -> nth_error (upd l n x) m = nth_error l m.
Proof.
  revert n m; induction l; destruct n, m; simpl; intros; auto; try lia.
Qed.

Lemma seti_length {A} (l : list A) i x : length (seti l i x) = length l.
Proof. apply upd_length. Qed.

Lemma geti_seti_eq {A} (l : list A) i x :
  i < N.of_nat (length l) -> geti (seti l i x) i = Some x.
Proof. intros. apply upd_nth_error_eq. lia. Qed.

Lemma geti_seti_neq {A} (l : list A) i j x :
  i <> j -> geti (seti l i x) j = geti l j.
Proof. intros. apply upd_nth_error_neq. lia. Qed.

Lemma geti_Some_lt {A} (l : list A) i x : geti l i = Some x -> i < N.of_nat (length l).
Proof.
  unfold geti; intros H.
  assert (nth_error l (N.to_nat i) <> None) by congruence.
  apply nth_error_Some in H0. lia.
Qed.

Lemma geti_lt {A} (l : list A) i : i < N.of_nat (length l) -> exists x, geti l i = Some x.
Proof.
  unfold geti; intros H.
  destruct (nth_error l (N.to_nat i)) eqn:E; eauto.
  apply nth_error_None in E. lia.
Qed.

Lemma geti_ge {A} (l : list A) i : N.of_nat (length l) <= i -> geti l i = None.
Proof. unfold geti; intros. apply nth_error_None. lia. Qed.

Lemma geti_In {A} (l : list A) i x : geti l i = Some x -> In x l.
Proof. apply nth_error_In. Qed.

Lemma In_geti {A} (l : list A) x : In x l -> exists i, geti l i = Some x.
Proof.
  intros H. apply In_nth_error in H. destruct H as [n H].
  exists (N.of_nat n). unfold geti. now rewrite Nat2N.id.
Qed.

Lemma geti_repeat {A} (x : A) n i : i < N.of_nat n -> geti (repeat x n) i = Some x.
Proof.
  intros H. unfold geti. rewrite nth_error_repeat; auto. lia.
Qed.

Lemma geti_ext {A} (l l' : list A) : (forall i, geti l i = geti l' i) -> l = l'.
Proof.
  revert l'; induction l; destruct l'; intros H; auto.
  - specialize (H 0). discriminate.
  - specialize (H 0). discriminate.
  - f_equal.
    + specialize (H 0). now injection H.
    + apply IHl. intros i. specialize (H (i + 1)).
      unfold geti in *. replace (N.to_nat (i + 1)) with (S (N.to_nat i)) in H by lia.
      exact H.
Qed.

Lemma seti_seti {A} (l : list A) i x y : seti (seti l i x) i y = seti l i y.
Proof.
  unfold seti. generalize (N.to_nat i). intros n. revert n.
  induction l; destruct n; simpl; auto. now rewrite IHl.
Qed.

Lemma seti_same {A} (l : list A) i x : geti l i = Some x -> seti l i x = l.
Proof.
  unfold seti, geti. generalize (N.to_nat i). intros n. revert n.
  induction l; destruct n; simpl; auto; intros; try congruence. now rewrite IHl.
Qed.

Lemma seti_comm {A} (l : list A) i j x y :
  i <> j -> seti (seti l i x) j y = seti (seti l j y) i x.
Proof.
  intros H. unfold seti.
  assert (N.to_nat i <> N.to_nat j) by lia. clear H.
  revert H0. generalize (N.to_nat i) (N.to_nat j). clear i j.
  induction l as [|a l IH]; intros n m H; destruct n, m; simpl; auto; try congruence.
  f_equal. apply IH. congruence.
Qed.

Lemma Forall_seti {A} (P : A -> Prop) l i x : Forall P l -> P x -> Forall P (seti l i x).
Proof.
  unfold seti. generalize (N.to_nat i). intros n H Hx. revert n.
  induction H; destruct n; simpl; constructor; auto.
Qed.

(** Words *)
Lemma two64_pos : 0 < two64. Proof. reflexivity. Qed.

Lemma w64_small x : x < two64 -> w64 x = x.
Proof. intros. apply N.mod_small; auto. Qed.

Lemma w64_lt x : w64 x < two64.
Proof. apply N.mod_lt. discriminate. Qed.

Lemma wadd_small x y : x + y < two64 -> wadd x y = x + y.
Proof. apply w64_small. Qed.

Lemma wmul_small x y : x * y < two64 -> wmul x y = x * y.
Proof. apply w64_small. Qed.

Lemma wsub_small x y : y <= x -> x < two64 -> wsub x y = x - y.
Proof.
  intros. unfold wsub. rewrite (w64_small y) by lia.
  unfold w64.
  replace (x + (two64 - y)) with (x - y + 1 * two64) by lia.
  rewrite N.mod_add by discriminate. apply N.mod_small. lia.
Qed.

Lemma wsub_0 x : x < two64 -> wsub x 0 = x.
Proof. intros. rewrite wsub_small; lia. Qed.

Lemma wsub_1_0 : wsub 0 1 = two64 - 1.
Proof. reflexivity. Qed.

Lemma seqN_In n i : In i (seqN n) <-> i < n.
Proof.
  unfold seqN. rewrite in_map_iff. split.
  - intros (m & E & H). apply in_seq in H. lia.
  - intros H. exists (N.to_nat i). rewrite in_seq. lia.
Qed.

Lemma seqN_NoDup n : NoDup (seqN n).
Proof.
  unfold seqN. apply FinFun.Injective_map_NoDup; [|apply seq_NoDup].
  intros a b H. lia.
Qed.

Lemma seqN_length n : length (seqN n) = N.to_nat n.
Proof. unfold seqN. now rewrite map_length, seq_length. Qed.

Lemma pow2_pos k : 0 < 2 ^ k.
Proof. apply N.neq_0_lt_0, N.pow_nonzero. discriminate. Qed.

Lemma pow2_le a b : a <= b -> 2 ^ a <= 2 ^ b.
Proof. apply N.pow_le_mono_r. discriminate. Qed.

Lemma pow2_lt a b : a < b -> 2 ^ a < 2 ^ b.
Proof. apply N.pow_lt_mono_r. reflexivity. Qed.
