(** Every block is returned with the size with which it was requested. *)
From Coq Require Import NArith ZArith List Bool Permutation Lia ZifyBool ZifyNat ZifyN.
From Verif Require Import Base GroupModel TableModel LayoutModel RunModel ReachModel BaseFacts GroupFacts TableInv TableCap MapProps LedgerModel LedgerSpec.
Import ListNotations.
Open Scope N_scope.
Ltac Zify.zify_post_hook ::= Z.div_mod_to_equations.

Section Shape.

Variables K V : Type.
Variable hash : K -> N.
Variable keq : K -> K -> bool.
Variable kd : kind.
Notation table := (table K V).

Definition shape (t : table) : bool * N := (t_alloc _ _ t, t_gmask _ _ t).

Lemma shape_find_empty c t h t' loc :
  find_empty_to_insert K V kd c t h = Ok (t', loc) -> shape t' = shape t.
Proof.
  unfold find_empty_to_insert. destruct (negb _); [discriminate|].
  destruct (find_empty_loop _ _ _ _ _ _) as [[gs [gi p]]|]; [|discriminate].
  intro E. injection E as <- _. reflexivity.
Qed.

Lemma shape_construct t i kv t' : construct_at K V t i kv = Ok t' -> shape t' = shape t.
Proof.
  unfold construct_at. destruct (geti _ _) as [[?|]|]; try discriminate.
  intro E; injection E as <-. reflexivity.
Qed.

Lemma shape_ngui t kv t' : no_grow_unique_insert K V hash kd t kv = Ok t' -> shape t' = shape t.
Proof.
  unfold no_grow_unique_insert. destruct (find_empty_to_insert _ _ _ _ _ _) as [[t1 [gi p]]|] eqn:E; [|discriminate].
  intro H. rewrite (shape_construct _ _ _ _ H). eapply shape_find_empty; eassumption.
Qed.

Lemma each_inv {St} (P : St -> Prop) (f : N -> N -> St -> res St) :
  (forall gi p s s', P s -> f gi p s = Ok s' -> P s') ->
  forall gs gi s s', P s -> each_group kd St f gs gi s = Ok s' -> P s'.
Proof.
  intros Hf. assert (HP : forall g gi ps s s', P s -> each_pos kd St f g gi ps s = Ok s' -> P s').
  { intros g gi ps. induction ps as [|p ps IH]; intros s s' Hs; cbn [each_pos].
    - intro E; injection E as <-; exact Hs.
    - destruct (kd_is_sentinel kd g p); [intro E; injection E as <-; exact Hs|].
      unfold rbind. destruct (f gi p s) eqn:E; [|discriminate]. apply IH. eapply Hf; eassumption. }
  induction gs as [|g gs IH]; intros gi s s' Hs; cbn [each_group].
  - intro E; injection E as <-; exact Hs.
  - unfold rbind. destruct (each_pos _ _ _ _ _ _ _) eqn:E; [|discriminate].
    apply IH. eapply HP; eassumption.
Qed.

Lemma shape_rehash_impl alloc sh t n :
  match rehash_impl K V hash kd alloc sh t n with
  | Ret t' _ =>
      exists cap, calc_capacity _ _ kd t n = Ok cap /\
      if (if sh then negb (cap =? ctrl_capacity _ _ kd t) else ctrl_capacity _ _ kd t <? cap)
      then alloc cap = true /\ shape t' = (true, wsub (calc_group_capacity kd cap) 1)
      else t' = t
  | Throw t' =>
      exists cap, calc_capacity _ _ kd t n = Ok cap /\
      (if sh then negb (cap =? ctrl_capacity _ _ kd t) else ctrl_capacity _ _ kd t <? cap) = true /\
      alloc cap = false /\ t' = t
  | Fail _ => True
  end.
Proof.
  unfold rehash_impl. destruct (calc_capacity _ _ _ _ _) as [cap|] eqn:EC; [|exact I].
  destruct (if sh then _ else _) eqn:EB; [|exists cap; rewrite EB; auto].
  unfold create_slots. destruct (alloc cap) eqn:EA; cbn [obind].
  - destruct (t_alloc K V t).
    + destruct (each_group _ _ _ _ _ _) as [[nt' os]|] eqn:E; [|exact I].
      destruct (forallb _ os); [|exact I]. exists cap. split; [reflexivity|]. rewrite EB. split; [exact EA|].
      revert E. match goal with |- each_group _ _ _ _ _ (?nt, _) = _ -> _ => set (n0 := nt) end.
      intro E.
      assert (HI : shape (fst (nt', os)) = shape n0).
      { refine (each_inv (fun s => shape (fst s) = shape n0) _ _ _ _ _ _ _ E); [|reflexivity].
        intros gi p [s os1] [s' os1'] Hs. cbn [fst] in *. unfold transfer.
        destruct (geti os1 _) as [[kv|]|]; try discriminate.
        destruct (no_grow_unique_insert _ _ _ _ _ _) eqn:EN; [|discriminate].
        intro HE; injection HE as <- <-. rewrite <- Hs. eapply shape_ngui; eassumption. }
      cbn [fst] in HI. rewrite HI. reflexivity.
    + exists cap. split; [reflexivity|]. rewrite EB. split; [exact EA|reflexivity].
  - exists cap. auto.
Qed.

Lemma shape_clear_slots t t' : clear_slots K V kd t = Ok t' -> shape t' = shape t.
Proof.
  unfold clear_slots. destruct (if t_alloc K V t then _ else _); [|discriminate].
  intro E; injection E as <-; reflexivity.
Qed.

Lemma destroy_shape t t' : destroy K V kd t = Ok t' -> t_alloc _ _ t' = false.
Proof.
  unfold destroy. destruct (clear_slots _ _ _ _); [|discriminate].
  destruct (forallb _ _); [|discriminate]. intro E; injection E as <-. reflexivity.
Qed.

Lemma shape_erase_slot t gi p t' : erase_slot K V kd t gi p = Ok t' -> shape t' = shape t.
Proof.
  unfold erase_slot. destruct (geti (t_slots _ _ t) _) as [[?|]|]; try discriminate.
  destruct (geti (t_groups _ _ t) gi); [|discriminate]. intro E; injection E as <-; reflexivity.
Qed.

End Shape.

(** ** The book-keeper *)

Lemma block_eqb_eq b c : block_eqb b c = true <-> b = c.
Proof.
  destruct b as [p a n], c as [q a' n']. unfold block_eqb. cbn [b_pool b_addr b_count].
  destruct p, q; cbn [pool_eqb andb]; split; intro H; try discriminate;
    try (injection H as -> ->; rewrite !N.eqb_refl; reflexivity);
    apply andb_true_iff in H; destruct H as [H1 H2]; apply N.eqb_eq in H1, H2; congruence.
Qed.

Lemma strike_in b l : In b l -> exists l', strike b l = Some l' /\ Permutation l (b :: l').
Proof.
  induction l as [|c l IH]; intro H; [destruct H|]. cbn [strike].
  destruct (block_eqb b c) eqn:E.
  - apply block_eqb_eq in E. subst c. exists l. split; auto.
  - destruct H as [->|H]; [rewrite (proj2 (block_eqb_eq b b) eq_refl) in E; discriminate|].
    destruct (IH H) as (l' & E1 & HP). rewrite E1. exists (c :: l'). split; auto.
    rewrite HP. apply perm_swap.
Qed.

(** The live blocks are those of [l], up to the order. *)
Definition live_is (r : option (list block)) (l : list block) : Prop :=
  exists l', r = Some l' /\ Permutation l' l.

Lemma play_app live es es' : play live (es ++ es') =
  match play live es with Some l => play l es' | None => None end.
Proof.
  revert live. induction es as [|e es IH]; intro live; [reflexivity|].
  cbn [app play]. destruct e as [b|b].
  - destruct (existsb _ _); [reflexivity|apply IH].
  - destruct (strike b live); [apply IH|reflexivity].
Qed.

Lemma existsb_clash p next n l : Forall (fun c => b_addr c < next) l ->
  existsb (clash (mkBlock p next n)) l = false.
Proof.
  induction 1 as [|c l Hc _ IH]; [reflexivity|]. cbn [existsb]. rewrite IH.
  unfold clash. cbn [b_addr]. replace (next =? b_addr c) with false by lia. now rewrite andb_false_r.
Qed.

Lemma play_free b es live l r : Permutation live (b :: l) ->
  (forall live', Permutation live' l -> live_is (play live' es) r) ->
  live_is (play live (EFree b :: es)) r.
Proof.
  intros HP H. cbn [play].
  destruct (strike_in b live) as (l' & E & HP').
  { eapply Permutation_in; [symmetry; exact HP|now left]. }
  rewrite E. apply H. apply (Permutation_cons_inv (a := b)). now rewrite <- HP'.
Qed.

Lemma live_nil live l : Permutation live l -> live_is (play live []) l.
Proof. intro H. exists live. split; auto. Qed.
