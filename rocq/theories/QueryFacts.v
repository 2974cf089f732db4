(** The entries whose key is equal to a key. *)
From Coq Require Import NArith List Bool Permutation.
From Verif Require Import Base TableModel TableInv MapSpec MapFacts.
Import ListNotations.
Open Scope N_scope.

Section Facts.

Context {K V : Type} (hash : K -> N) (keq : K -> K -> bool) (LW : lawful hash keq).

Lemma filter_none (k : K) (m : list (K * V)) : has K V keq k m = false ->
  filter (fun e => keq k (fst e)) m = [].
Proof.
  unfold has. induction m as [|e m IH]; cbn; auto. intros H. apply orb_false_iff in H. destruct H as [H1 H2].
  rewrite H1. auto.
Qed.

Lemma filter_get (k : K) (m : list (K * V)) : distinct_keys K V keq m ->
  filter (fun e => keq k (fst e)) m = match get K V keq k m with Some e => [e] | None => [] end.
Proof.
  induction m as [|e m IH]; intros D; [reflexivity|]. destruct D as [D1 D2]. unfold get. cbn [filter List.find].
  destruct (keq k (fst e)) eqn:E; [|now apply (IH D2)]. f_equal.
  destruct (filter (fun e0 => keq k (fst e0)) m) as [|x l] eqn:EF; auto. exfalso.
  assert (HI : In x (filter (fun e0 => keq k (fst e0)) m)) by (rewrite EF; now left).
  apply filter_In in HI. destruct HI as [HI HK].
  assert (H : has K V keq (fst e) m = true).
  { unfold has. apply existsb_exists. exists x. split; auto.
    apply (lw_trans _ _ LW _ k); auto. now apply (lw_sym _ _ LW). }
  congruence.
Qed.

End Facts.
