(** The representation invariant of the tables and basic facts about it. *)
From Coq Require Import NArith ZArith List Bool Lia Permutation.
From Coq Require Import ZifyBool ZifyNat ZifyN.
From Verif Require Import Base BaseFacts BitsModel BitsFacts ProberModel ProberFacts
  GroupModel GroupFacts TableModel.
Import ListNotations.
Open Scope N_scope.
Ltac Zify.zify_post_hook ::= Z.div_mod_to_equations.

Definition opt_list {A} (o : option A) : list A :=
  match o with Some a => [a] | None => [] end.

Definition elems {A} (l : list (option A)) : list A := flat_map opt_list l.

(** What the C++ standard asks of the hasher and the key comparison of a user. *)
Record lawful {K} (hash : K -> N) (keq : K -> K -> bool) : Prop := {
  lw_hash : forall k, hash k < two64;
  lw_refl : forall k, keq k k = true;
  lw_sym : forall a b, keq a b = true -> keq b a = true;
  lw_trans : forall a b c, keq a b = true -> keq b c = true -> keq a c = true;
  lw_compat : forall a b, keq a b = true -> hash a = hash b
}.

(** The part of it that the proofs about the tables need: a key need not be equal to
    itself. *)
Record tame {K} (hash : K -> N) (keq : K -> K -> bool) : Prop := {
  tm_hash : forall k, hash k < two64;
  tm_sym : forall a b, keq a b = true -> keq b a = true;
  tm_trans : forall a b c, keq a b = true -> keq b c = true -> keq a c = true;
  tm_compat : forall a b, keq a b = true -> hash a = hash b
}.

Coercion lawful_tame {K} (hash : K -> N) keq (LW : lawful hash keq) : tame hash keq :=
  {| tm_hash := lw_hash _ _ LW; tm_sym := lw_sym _ _ LW;
     tm_trans := lw_trans _ _ LW; tm_compat := lw_compat _ _ LW |}.

(** ** Lists of optional elements *)

Lemma elems_app {A} (a b : list (option A)) : elems (a ++ b) = elems a ++ elems b.
Proof. apply flat_map_app. Qed.

Lemma geti_split {A} (l : list A) i o : geti l i = Some o ->
  exists a b, l = a ++ o :: b /\ N.of_nat (length a) = i /\ forall x, seti l i x = a ++ x :: b.
Proof.
  unfold geti, seti. intros H. apply nth_error_split in H. destruct H as (a & b & -> & HL).
  exists a, b. split; auto. split; [lia|]. intros x. rewrite <- HL. clear HL.
  induction a; simpl; auto. now rewrite IHa.
Qed.

Lemma elems_seti_Some {A} (l : list (option A)) i x :
  geti l i = Some None -> Permutation (elems (seti l i (Some x))) (x :: elems l).
Proof.
  intros H. destruct (geti_split _ _ _ H) as (a & b & -> & _ & E). rewrite E, !elems_app.
  simpl. symmetry. apply Permutation_middle.
Qed.

Lemma elems_seti_None {A} (l : list (option A)) i x :
  geti l i = Some (Some x) -> Permutation (x :: elems (seti l i None)) (elems l).
Proof.
  intros H. destruct (geti_split _ _ _ H) as (a & b & -> & _ & E). rewrite E, !elems_app.
  simpl. apply Permutation_middle.
Qed.

Lemma In_elems {A} (l : list (option A)) x :
  In x (elems l) <-> exists i, geti l i = Some (Some x).
Proof.
  unfold elems. rewrite in_flat_map. split.
  - intros ([y|] & H & Hx); simpl in Hx; [|tauto]. destruct Hx as [->|[]].
    now apply In_geti.
  - intros (i & H). exists (Some x). split; [eapply geti_In; eauto|now left].
Qed.

Lemma elems_repeat_None {A} n : elems (repeat (@None A) n) = [].
Proof. induction n; simpl; auto. Qed.

Lemma elems_nil_all_none {A} (l : list (option A)) :
  forallb is_none l = true <-> elems l = [].
Proof.
  induction l as [|[a|] l IH]; simpl; try tauto.
  split; discriminate.
Qed.

Lemma elems_length_le {A} (l : list (option A)) : (length (elems l) <= length l)%nat.
Proof. induction l as [|[a|] l IH]; simpl; lia. Qed.

(** A list with fewer elements than places has a free place. *)
Lemma elems_free {A} (l : list (option A)) :
  (length (elems l) < length l)%nat -> exists i, geti l i = Some None.
Proof.
  induction l as [|[a|] l IH]; simpl; intros H; [lia| |].
  - destruct IH as [i Hi]; [lia|]. exists (i + 1). unfold geti in *.
    now replace (N.to_nat (i + 1)) with (S (N.to_nat i)) by lia.
  - now exists 0.
Qed.

Section Inv.

Context {K V : Type} (hash : K -> N) (keq : K -> K -> bool) (kd : kind) (L : klaws kd).

Notation table := (table K V).
Notation S' := (kd_S kd).
Notation code := (kl_code kd L).
Notation valid := (kl_valid kd L).
Notation sidx := (slot_index kd).

(** Number of element slots of a table with 2^k groups. *)
Definition scap (k : N) : N := if kd_sent kd then 2 ^ k * S' - 1 else 2 ^ k * S'.

(** Position of the sentinel. *)
Definition is_sent (k gi p : N) : bool := kd_sent kd && (gi =? 2 ^ k - 1) && (p =? S' - 1).

(** First group of a probe. *)
Definition home (k x : N) : N := N.shiftr x (64 - k).

(** Relation between the control bytes and the slots. *)
Record gsinv (k : N) (gs : list group) (sl : list (option (K * V))) : Prop := {
  gv_k : 1 <= k;
  gv_big : 2 ^ k * kd_W kd <= 2 ^ 55;
  gv_len : N.of_nat (length gs) = 2 ^ k;
  gv_slen : N.of_nat (length sl) = scap k;
  gv_valid : forall gi g, geti gs gi = Some g -> valid g;
  gv_sent : forall gi p g, geti gs gi = Some g -> p < S' -> is_sent k gi p = true ->
      code g p = 1;
  gv_none : forall gi p g, geti gs gi = Some g -> p < S' ->
      geti sl (sidx gi p) = Some None -> is_sent k gi p = false -> code g p = 0;
  gv_some : forall gi p g kv, geti gs gi = Some g -> p < S' ->
      geti sl (sidx gi p) = Some (Some kv) -> code g p = kd_reduce kd (hash (fst kv));
  gv_chain : forall gi p kv, gi < 2 ^ k -> p < S' ->
      geti sl (sidx gi p) = Some (Some kv) ->
      exists j, j < 2 ^ k /\ gi = probe k (home k (hash (fst kv))) j
        /\ forall i g, i < j -> geti gs (probe k (home k (hash (fst kv))) i) = Some g ->
             kd_is_overflow kd g (kd_reduce kd (hash (fst kv))) = true;
  gv_uniq : forall i j e1 e2, geti sl i = Some (Some e1) -> geti sl j = Some (Some e2) ->
      keq (fst e1) (fst e2) = true -> i = j
}.

(** The invariant of a table. *)
Record Inv0 (t : table) : Prop := {
  iv_unalloc : t_alloc _ _ t = false -> t = empty_table K V kd (t_mlf _ _ t);
  iv_alloc : t_alloc _ _ t = true ->
      exists k, gsinv k (t_groups _ _ t) (t_slots _ _ t)
        /\ t_gmask _ _ t = 2 ^ k - 1 /\ t_shift _ _ t = 64 - k;
  iv_size : t_size _ _ t = N.of_nat (length (elems (t_slots _ _ t)));
  iv_mlf : 128 <= t_mlf _ _ t <= 224
}.

Lemma S_pos : 14 <= S' <= 32.
Proof.
  pose proof (kl_S _ L) as HS. pose proof (kl_W _ L) as HW. pose proof (kl_w_range _ L) as HR.
  assert (H2 : kl_w kd L = 4 \/ kl_w kd L = 5) by lia.
  destruct H2 as [E|E]; rewrite E in HW;
    [change (2 ^ 4) with 16 in HW|change (2 ^ 5) with 32 in HW]; lia.
Qed.

Lemma W_cases : kd_W kd = 16 \/ kd_W kd = 32.
Proof.
  pose proof (kl_W _ L) as HW. pose proof (kl_w_range _ L) as HR.
  assert (H2 : kl_w kd L = 4 \/ kl_w kd L = 5) by lia.
  destruct H2 as [E|E]; rewrite E in HW;
    [change (2 ^ 4) with 16 in HW|change (2 ^ 5) with 32 in HW]; lia.
Qed.

Lemma sidx_inj gi p gi' p' : p < S' -> p' < S' -> sidx gi p = sidx gi' p' -> gi = gi' /\ p = p'.
Proof.
  unfold slot_index. intros Hp Hp' E.
  assert (gi = gi').
  { destruct (N.lt_trichotomy gi gi') as [H|[H|H]]; auto; exfalso.
    - assert (gi + 1 <= gi') by lia. nia.
    - assert (gi' + 1 <= gi) by lia. nia. }
  subst. split; auto. lia.
Qed.

Lemma sidx_divmod i : sidx (i / S') (i mod S') = i /\ i mod S' < S'.
Proof.
  pose proof S_pos. unfold slot_index. split; [|apply N.mod_lt; lia].
  rewrite N.mul_comm. symmetry. apply N.div_mod'.
Qed.

Lemma sidx_lt k gi p : gi < 2 ^ k -> p < S' -> is_sent k gi p = false -> sidx gi p < scap k.
Proof.
  unfold slot_index, scap, is_sent. pose proof S_pos. pose proof (pow2_pos k).
  generalize dependent (2 ^ k). intros P HP Hg Hp Hs.
  destruct (kd_sent kd); simpl in Hs.
  - destruct (N.eqb_spec gi (P - 1)); simpl in Hs.
    + destruct (N.eqb_spec p (S' - 1)); [discriminate|]. nia.
    + assert (gi + 2 <= P) by lia. nia.
  - assert (gi + 1 <= P) by lia. nia.
Qed.

Lemma sidx_sent k gi p : is_sent k gi p = true -> sidx gi p = scap k.
Proof.
  unfold slot_index, scap, is_sent. pose proof S_pos. pose proof (pow2_pos k).
  intros H1. apply andb_prop in H1. destruct H1 as [H1 H2]. apply andb_prop in H1.
  destruct H1 as [-> H1]. apply N.eqb_eq in H1, H2. subst.
  generalize dependent (2 ^ k). intros. nia.
Qed.

Lemma idx_group k i : i < scap k -> i / S' < 2 ^ k /\ is_sent k (i / S') (i mod S') = false.
Proof.
  intros H. pose proof S_pos as HS. pose proof (pow2_pos k) as HP.
  destruct (sidx_divmod i) as [E Hm]. split.
  - apply N.div_lt_upper_bound; [lia|]. unfold scap in H. destruct (kd_sent kd); nia.
  - destruct (is_sent k (i / S') (i mod S')) eqn:Es; auto.
    apply sidx_sent in Es. lia.
Qed.

Lemma home_lt k x : 1 <= k -> k <= 64 -> x < two64 -> home k x < 2 ^ k.
Proof.
  intros H1 H2 Hx. unfold home. rewrite N.shiftr_div_pow2.
  apply N.div_lt_upper_bound; [pose proof (pow2_pos (64 - k)); lia|].
  rewrite <- N.pow_add_r. replace (64 - k + k) with 64 by lia. exact Hx.
Qed.

Lemma k_small k : 2 ^ k * kd_W kd <= 2 ^ 55 -> k <= 51.
Proof.
  intros H. destruct (N.le_gt_cases k 51); auto. exfalso.
  assert (2 ^ 52 <= 2 ^ k) by (apply pow2_le; lia).
  assert (2 ^ 52 * 16 <= 2 ^ k * kd_W kd).
  { apply N.mul_le_mono; auto. destruct W_cases; lia. }
  change (2 ^ 52 * 16) with (2 ^ 56) in H2.
  assert (2 ^ 55 < 2 ^ 56) by (apply pow2_lt; lia). lia.
Qed.

Lemma pow_small k : k <= 51 -> 2 ^ k <= 2251799813685248.
Proof. intros. change 2251799813685248 with (2 ^ 51). now apply pow2_le. Qed.

Lemma two64_eq : two64 = 18446744073709551616.
Proof. reflexivity. Qed.

(** Every slot of an allocated table lies in a group. *)
Lemma slot_group k gs sl i o : gsinv k gs sl -> geti sl i = Some o ->
  exists g, geti gs (i / S') = Some g /\ i / S' < 2 ^ k /\ i mod S' < S'
    /\ sidx (i / S') (i mod S') = i /\ is_sent k (i / S') (i mod S') = false.
Proof.
  intros G H. apply geti_Some_lt in H. rewrite (gv_slen _ _ _ G) in H.
  destruct (idx_group _ _ H) as [Hg Hs]. destruct (sidx_divmod i) as [E Hm].
  destruct (geti_lt gs (i / S')) as [g Hgg]; [rewrite (gv_len _ _ _ G); auto|].
  exists g. auto.
Qed.

Lemma slot_at k gs sl gi p : gsinv k gs sl -> gi < 2 ^ k -> p < S' ->
  is_sent k gi p = false -> exists o, geti sl (sidx gi p) = Some o.
Proof.
  intros G Hg Hp Hs. apply geti_lt. rewrite (gv_slen _ _ _ G). now apply sidx_lt.
Qed.

Lemma sent_slot k gs sl gi p : gsinv k gs sl -> is_sent k gi p = true ->
  geti sl (sidx gi p) = None.
Proof.
  intros G H. apply geti_ge. rewrite (gv_slen _ _ _ G), (sidx_sent _ _ _ H). lia.
Qed.

(** A code that is neither empty nor sentinel belongs to an element. *)
Lemma code_used k gs sl gi g p : gsinv k gs sl -> geti gs gi = Some g -> p < S' ->
  code g p <> 0 -> is_sent k gi p = false ->
  exists kv, geti sl (sidx gi p) = Some (Some kv).
Proof.
  intros G Hg Hp Hc Hs.
  assert (Hgi : gi < 2 ^ k) by (apply geti_Some_lt in Hg; now rewrite (gv_len _ _ _ G) in Hg).
  destruct (slot_at _ _ _ _ _ G Hgi Hp Hs) as [[kv|] Ho]; eauto.
  exfalso. apply Hc. eapply gv_none; eauto.
Qed.

Lemma code_reduce_slot k gs sl gi g p x : gsinv k gs sl -> geti gs gi = Some g -> p < S' ->
  code g p = kd_reduce kd x -> exists kv, geti sl (sidx gi p) = Some (Some kv).
Proof.
  intros G Hg Hp Hc. destruct (is_sent k gi p) eqn:Es.
  - exfalso. pose proof (gv_sent _ _ _ G _ _ _ Hg Hp Es) as C1.
    assert (kd_sent kd = true) by (unfold is_sent in Es; destruct (kd_sent kd); auto).
    apply (kl_reduce_1 _ L x); congruence.
  - eapply code_used; eauto. rewrite Hc. apply (kl_reduce_0 _ L).
Qed.

(** ** Consequences for the contents *)

Definition uniq (l : list (K * V)) : Prop :=
  forall a e1 b e2 c, l = a ++ e1 :: b ++ e2 :: c -> keq (fst e1) (fst e2) = false.

Lemma elems_uniq sl :
  (forall i j e1 e2, geti sl i = Some (Some e1) -> geti sl j = Some (Some e2) ->
      keq (fst e1) (fst e2) = true -> i = j) ->
  uniq (elems sl).
Proof.
  induction sl as [|[e|] sl IH]; intros H.
  - intros a e1 b e2 c E. destruct a; discriminate.
  - assert (H' : uniq (elems sl)).
    { apply IH. intros i j e1 e2 H1 H2 Hk.
      assert (i + 1 = j + 1); [|lia]. apply (H _ _ e1 e2); auto; unfold geti in *.
      - now replace (N.to_nat (i + 1)) with (S (N.to_nat i)) by lia.
      - now replace (N.to_nat (j + 1)) with (S (N.to_nat j)) by lia. }
    intros a e1 b e2 c E. destruct a as [|x a].
    + simpl in E. injection E as <- E.
      destruct (keq (fst e) (fst e2)) eqn:Ek; auto. exfalso.
      assert (Hin : In e2 (elems sl)) by (rewrite E, in_app_iff; right; now left).
      apply In_elems in Hin. destruct Hin as [i Hi].
      assert (0 = i + 1); [|lia]. apply (H 0 (i + 1) e e2); auto. unfold geti in *.
      now replace (N.to_nat (i + 1)) with (S (N.to_nat i)) by lia.
    + simpl in E. injection E as _ E. eapply H'; eauto.
  - assert (H' : uniq (elems sl)).
    { apply IH. intros i j e1 e2 H1 H2 Hk.
      assert (i + 1 = j + 1); [|lia]. apply (H _ _ e1 e2); auto; unfold geti in *.
      - now replace (N.to_nat (i + 1)) with (S (N.to_nat i)) by lia.
      - now replace (N.to_nat (j + 1)) with (S (N.to_nat j)) by lia. }
    exact H'.
Qed.

Lemma Inv0_uniq t : Inv0 t -> uniq (elems (t_slots _ _ t)).
Proof.
  intros I. destruct (t_alloc _ _ t) eqn:E.
  - destruct (iv_alloc _ I E) as (k & G & _). apply elems_uniq. eapply gv_uniq; eauto.
  - rewrite (iv_unalloc _ I E). simpl. intros [|? ?] ? ? ? ? ?; discriminate.
Qed.

Lemma empty_Inv0 mlf : 128 <= mlf <= 224 -> Inv0 (empty_table K V kd mlf).
Proof. intros. constructor; simpl; auto; discriminate. Qed.

End Inv.
