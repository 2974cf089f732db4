(** Inserting the elements of a list one after the other. *)
From Coq Require Import NArith List Bool Lia Permutation.
From Coq Require Import ZifyBool ZifyNat ZifyN.
From Verif Require Import Base TableModel TableInv MapSpec MapFacts ReserveSpec FromModel.
Import ListNotations.
Open Scope N_scope.

Section Facts.

Context {K V : Type} (hash : K -> N) (keq : K -> K -> bool) (LW : tame hash keq).
Notation all_put := (all_put K V keq).
Notation get := (get K V keq).

Lemma get_put k (e : K * V) m :
  get k (put_new K V keq (fst e) (snd e) m)
  = match get k m with Some x => Some x | None => if keq k (fst e) then Some e else None end.
Proof.
  unfold put_new. destruct (has K V keq (fst e) m) eqn:H.
  - destruct (get k m) as [x|] eqn:G; auto. destruct (keq k (fst e)) eqn:E; auto. exfalso.
    apply has_true in H. destruct H as (x & Hin & Hx).
    pose proof (find_none _ _ G x Hin) as N1. cbn in N1.
    rewrite (tm_trans _ _ LW k (fst e) (fst x) E Hx) in N1. discriminate.
  - unfold MapSpec.get. cbn [List.find fst]. destruct e as [k1 v1]. cbn [fst snd] in *.
    destruct (keq k k1) eqn:E; [|now destruct (List.find _ m)].
    destruct (List.find _ m) as [x|] eqn:G; auto. exfalso. apply find_some in G. destruct G as [Hin Hx]. cbn in Hx.
    rewrite has_false in H. specialize (H x Hin).
    rewrite (keq_sym_eq hash keq LW) in E. rewrite (tm_trans _ _ LW k1 k (fst x) E Hx) in H. discriminate.
Qed.

Lemma get_all_put k l : forall m,
  get k (all_put l m) = match get k m with Some x => Some x | None => get k l end.
Proof.
  induction l as [|e l IH]; intros m.
  - change (all_put [] m) with m. now destruct (get k m).
  - change (all_put (e :: l) m) with (all_put l (put_new K V keq (fst e) (snd e) m)).
    rewrite IH, get_put. change (get k (e :: l)) with (if keq k (fst e) then Some e else get k l).
    destruct (get k m); auto. destruct (keq k (fst e)); auto.
Qed.

Lemma all_put_distinct l : forall m, distinct_keys K V keq m -> distinct_keys K V keq (all_put l m).
Proof.
  induction l as [|e l IH]; intros m H; auto.
  change (all_put (e :: l) m) with (all_put l (put_new K V keq (fst e) (snd e) m)). apply IH.
  unfold put_new. destruct (has _ _ _ _ m) eqn:E; auto. cbn. auto.
Qed.

Lemma all_put_length l : forall m, (length (all_put l m) <= length l + length m)%nat.
Proof.
  induction l as [|e l IH]; intros m; [auto|].
  change (all_put (e :: l) m) with (all_put l (put_new K V keq (fst e) (snd e) m)).
  specialize (IH (put_new K V keq (fst e) (snd e) m)). unfold put_new in *.
  destruct (has _ _ _ _ m); cbn [length] in *; lia.
Qed.

Lemma from_le cap (l : list (K * V)) : N.of_nat (length l) <= from_capacity K V cap l.
Proof. unfold from_capacity. destruct (N.leb_spec (N.of_nat (length l)) cap); lia. Qed.

Lemma from_cap cap (l : list (K * V)) : cap <= from_capacity K V cap l.
Proof. unfold from_capacity. destruct (N.leb_spec (N.of_nat (length l)) cap); lia. Qed.

Lemma from_bound cap (l : list (K * V)) n : cap <= n -> N.of_nat (length l) <= n -> from_capacity K V cap l <= n.
Proof. unfold from_capacity. destruct (N.leb_spec (N.of_nat (length l)) cap); lia. Qed.

(** What the elements of a map built from [l] are. *)
Lemma from_entries l l' : Permutation l' (all_put l []) ->
  distinct_keys K V keq l' /\ forall k, get k l' = get k l.
Proof.
  intros P. assert (D : distinct_keys K V keq (all_put l [])) by (apply all_put_distinct; exact I).
  split; [eapply (distinct_perm hash keq LW); [symmetry; exact P|exact D]|].
  intros k. rewrite <- (get_perm hash keq LW k _ _ (Permutation_sym P) D), get_all_put. reflexivity.
Qed.

End Facts.
