(** Facts about the abstract map: the order of the entries does not matter. *)
From Coq Require Import NArith List Bool Lia Permutation.
From Verif Require Import Base TableModel TableInv TableFind MapSpec.
Import ListNotations.
Open Scope N_scope.

Section Facts.

Context {K V : Type} (hash : K -> N) (keq : K -> K -> bool).
Context (LW : tame hash keq).

Notation entries := (list (K * V)).
Notation get := (get K V keq).
Notation has := (has K V keq).
Notation distinct_keys := (distinct_keys K V keq).
Notation spec_step := (spec_step K V keq).

Lemma has_get k m : has k m = match get k m with Some _ => true | None => false end.
Proof.
  unfold MapSpec.has, MapSpec.get. induction m as [|e m IH]; simpl; auto.
  destruct (keq k (fst e)); auto.
Qed.

Lemma has_true k m : has k m = true <-> exists e, In e m /\ keq k (fst e) = true.
Proof. apply existsb_exists. Qed.

Lemma has_false k m : has k m = false <-> forall e, In e m -> keq k (fst e) = false.
Proof.
  split.
  - intros H e He. destruct (keq k (fst e)) eqn:E; auto.
    assert (has k m = true) by (apply has_true; eauto). congruence.
  - intros H. destruct (has k m) eqn:E; auto. apply has_true in E.
    destruct E as (e & He & Ek). rewrite H in Ek by auto. discriminate.
Qed.

Lemma has_perm k m m' : Permutation m m' -> has k m = has k m'.
Proof.
  intros P. destruct (has k m') eqn:E.
  - apply has_true in E. destruct E as (e & He & Ek). apply has_true. exists e. split; auto.
    eapply Permutation_in; [symmetry; exact P|auto].
  - apply has_false. intros e He. apply has_false with m'; auto. eapply Permutation_in; eauto.
Qed.

Lemma keq_sym_eq a b : keq a b = keq b a.
Proof.
  destruct (keq a b) eqn:E.
  - symmetry. now apply (tm_sym _ _ LW).
  - destruct (keq b a) eqn:E'; auto. apply (tm_sym _ _ LW) in E'. congruence.
Qed.

Lemma keq_subst a b c : keq a b = true -> keq a c = keq b c.
Proof.
  intros H. destruct (keq b c) eqn:E.
  - eapply (tm_trans _ _ LW); eauto.
  - destruct (keq a c) eqn:E'; auto. apply (tm_sym _ _ LW) in H.
    rewrite (tm_trans _ _ LW _ _ _ H E') in E. discriminate.
Qed.

Lemma has_cons k e m : has k (e :: m) = keq k (fst e) || has k m.
Proof. reflexivity. Qed.

Lemma distinct_perm m m' : Permutation m m' -> distinct_keys m -> distinct_keys m'.
Proof.
  induction 1; cbn [MapSpec.distinct_keys]; auto.
  - intros [H1 H2]. split; auto. now rewrite <- (has_perm _ _ _ H).
  - intros [H1 [H2 H3]]. rewrite has_cons in *. apply orb_false_elim in H1. destruct H1 as [H1 H4].
    repeat split; auto. rewrite H2, orb_false_r. now rewrite keq_sym_eq.
Qed.

Lemma distinct_uniq_In m e e' : distinct_keys m -> In e m -> In e' m ->
  keq (fst e) (fst e') = true -> e = e'.
Proof.
  induction m as [|x m IH]; [easy|]. intros [H1 H2] [->|He] [->|He'] Hk; auto.
  - rewrite has_false in H1. rewrite H1 in Hk by auto. discriminate.
  - rewrite has_false in H1. rewrite keq_sym_eq, H1 in Hk by auto. discriminate.
Qed.

Lemma get_Some k m e : get k m = Some e -> In e m /\ keq k (fst e) = true.
Proof. apply find_some. Qed.

Lemma get_In k m e : distinct_keys m -> In e m -> keq k (fst e) = true -> get k m = Some e.
Proof.
  intros D Hin Hk. destruct (get k m) as [e'|] eqn:E.
  - apply get_Some in E. destruct E as [Hin' Hk']. f_equal.
    eapply distinct_uniq_In; eauto. rewrite <- Hk. symmetry. now apply keq_subst.
  - unfold MapSpec.get in E. apply find_none with (x := e) in E; auto. congruence.
Qed.

Lemma get_perm k m m' : Permutation m m' -> distinct_keys m -> get k m = get k m'.
Proof.
  intros P D. destruct (get k m) as [e|] eqn:E.
  - apply get_Some in E. destruct E as [Hin Hk]. symmetry. apply get_In; auto.
    + eapply distinct_perm; eauto.
    + eapply Permutation_in; eauto.
  - destruct (get k m') as [e|] eqn:E'; auto. apply get_Some in E'. destruct E' as [Hin Hk].
    assert (has k m = true).
    { apply has_true. exists e. split; auto. eapply Permutation_in; [symmetry; exact P|auto]. }
    rewrite has_get, E in H. discriminate.
Qed.

Lemma filter_perm {A} (f : A -> bool) l l' :
  Permutation l l' -> Permutation (filter f l) (filter f l').
Proof.
  induction 1; simpl; auto.
  - destruct (f x); auto.
  - destruct (f x), (f y); auto. apply perm_swap.
  - eapply perm_trans; eauto.
Qed.

Lemma has_filter k f m : has k m = false -> has k (filter f m) = false.
Proof.
  rewrite !has_false. intros H e He. apply filter_In in He. apply H. tauto.
Qed.

Lemma spec_step_perm o m m' : Permutation m m' -> distinct_keys m ->
  Permutation (fst (spec_step o m)) (fst (spec_step o m'))
  /\ snd (spec_step o m) = snd (spec_step o m').
Proof.
  intros P D. destruct o; cbn [MapSpec.spec_step fst snd];
    unfold put_new, put, the, remove, count;
    rewrite ?(has_perm _ _ _ P), ?(get_perm _ _ _ P D), ?(Permutation_length P); split; auto.
  - destruct (has k m'); auto.
  - destruct (has k m'); auto. now apply Permutation_map.
  - now apply filter_perm.
Qed.

Lemma has_map_put k0 k v m :
  has k0 (map (fun e => if keq k (fst e) then (fst e, v) else e) m) = has k0 m.
Proof.
  unfold MapSpec.has. induction m as [|e m IH]; simpl; auto.
  rewrite IH. f_equal. now destruct (keq k (fst e)).
Qed.

Lemma spec_step_distinct o m : distinct_keys m -> distinct_keys (fst (spec_step o m)).
Proof.
  intros D. destruct o; cbn [MapSpec.spec_step fst]; auto.
  - unfold put_new. destruct (has k m) eqn:E; auto. split; auto.
  - unfold put. destruct (has k m) eqn:E; [|split; auto]. clear E.
    induction m as [|e m IH]; [auto|]. destruct D as [D1 D2]. cbn [map MapSpec.distinct_keys].
    split; auto. rewrite has_map_put. now destruct (keq k (fst e)).
  - unfold remove. induction m as [|e m IH]; simpl; auto. destruct D as [D1 D2].
    destruct (negb (keq k (fst e))); simpl; auto. split; auto. now apply has_filter.
  - simpl. auto.
Qed.

Lemma spec_run_perm ops : forall thrown m m', Permutation m m' -> distinct_keys m ->
  Permutation (fst (spec_run _ _ keq ops thrown m)) (fst (spec_run _ _ keq ops thrown m'))
  /\ snd (spec_run _ _ keq ops thrown m) = snd (spec_run _ _ keq ops thrown m').
Proof.
  induction ops as [|o ops IH]; intros [|b thrown] m m' P D; cbn [spec_run]; auto.
  destruct b.
  - specialize (IH thrown m m' P D).
    destruct (spec_run _ _ keq ops thrown m), (spec_run _ _ keq ops thrown m').
    cbn [fst snd] in *. destruct IH as [I1 I2]. split; auto. congruence.
  - destruct (spec_step_perm o m m' P D) as [P1 E1].
    pose proof (spec_step_distinct o m D) as D1.
    destruct (spec_step o m) as [m1 r1], (spec_step o m') as [m1' r1'].
    cbn [fst snd] in P1, E1, D1. specialize (IH thrown m1 m1' P1 D1).
    destruct (spec_run _ _ keq ops thrown m1), (spec_run _ _ keq ops thrown m1').
    cbn [fst snd] in *. destruct IH as [I1 I2]. split; auto. congruence.
Qed.

Lemma spec_run_distinct ops : forall thrown m, distinct_keys m ->
  distinct_keys (fst (spec_run _ _ keq ops thrown m)).
Proof.
  induction ops as [|o ops IH]; intros [|b thrown] m D; cbn [spec_run]; auto.
  destruct b.
  - specialize (IH thrown m D). destruct (spec_run _ _ keq ops thrown m). auto.
  - pose proof (spec_step_distinct o m D) as D1. destruct (spec_step o m) as [m1 r1].
    specialize (IH thrown m1 D1). destruct (spec_run _ _ keq ops thrown m1). auto.
Qed.

Lemma uniq_distinct m : uniq keq m -> distinct_keys m.
Proof.
  induction m as [|e m IH]; cbn [MapSpec.distinct_keys]; auto. intros U. split.
  - apply has_false. intros e' He'. apply in_split in He'. destruct He' as (b & c & ->).
    apply (U [] e b e' c). reflexivity.
  - apply IH. intros a e1 b e2 c ->. apply (U (e :: a) e1 b e2 c). reflexivity.
Qed.

Lemma distinct_uniq m : distinct_keys m -> uniq keq m.
Proof.
  induction m as [|x m IH]; intros D a e1 b e2 c E.
  - destruct a; discriminate.
  - destruct D as [D1 D2]. destruct a as [|y a]; simpl in E; injection E as -> E.
    + rewrite has_false in D1. apply D1. rewrite E, in_app_iff. right. now left.
    + eapply IH; eauto.
Qed.

End Facts.
