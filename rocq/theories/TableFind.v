(** Lookup is correct on every table that satisfies the invariant. *)
From Coq Require Import NArith ZArith List Bool Lia Permutation.
From Coq Require Import ZifyBool ZifyNat ZifyN.
From Verif Require Import Base BaseFacts BitsModel BitsFacts ProberModel ProberFacts
  GroupModel GroupFacts TableModel TableInv.
Import ListNotations.
Open Scope N_scope.
Ltac Zify.zify_post_hook ::= Z.div_mod_to_equations.

Section Find.

Context {K V : Type} (hash : K -> N) (keq : K -> K -> bool) (kd : kind) (L : klaws kd).
Context (LW : tame hash keq).

Notation table := (table K V).
Notation S' := (kd_S kd).
Notation code := (kl_code kd L).
Notation valid := (kl_valid kd L).
Notation sidx := (slot_index kd).
Notation gsinv := (@TableInv.gsinv K V hash keq kd L).
Notation Inv0 := (@TableInv.Inv0 K V hash keq kd L).
Notation find := (find K V hash keq kd).
Notation find_loop := (find_loop K V keq kd).
Notation scan_keys := (scan_keys K V keq kd).

(** No element of group [gi] has a key equal to [k]. *)
Definition absent_in (sl : list (option (K * V))) (k : K) (gi : N) : Prop :=
  forall p kv, p < S' -> geti sl (sidx gi p) = Some (Some kv) -> keq k (fst kv) = false.

Lemma scan_keys_spec sl k gi ps :
  (forall p, In p ps -> exists kv, geti sl (sidx gi p) = Some (Some kv)) ->
  (exists p kv, scan_keys sl k gi ps = Ok (Some p) /\ In p ps
      /\ geti sl (sidx gi p) = Some (Some kv) /\ keq k (fst kv) = true)
  \/ (scan_keys sl k gi ps = Ok None
      /\ forall p kv, In p ps -> geti sl (sidx gi p) = Some (Some kv) -> keq k (fst kv) = false).
Proof.
  induction ps as [|p ps IH]; intros H.
  - right. split; auto. simpl. tauto.
  - cbn [TableModel.scan_keys]. destruct (H p) as [[k' v] Hp]; [now left|]. rewrite Hp.
    destruct (keq k k') eqn:E.
    + left. exists p, (k', v). simpl; auto.
    + destruct IH as [(q & kv & E1 & Hin & E2 & E3)|[E1 Hall]].
      * intros q Hq. apply H. now right.
      * left. exists q, kv. simpl; auto.
      * right. split; auto. intros q kv [<-|Hq] Hg; [|eauto]. rewrite Hp in Hg.
        injection Hg as <-. exact E.
Qed.

Lemma scan_group k gs sl gi g key :
  gsinv k gs sl -> geti gs gi = Some g ->
  (exists p kv, scan_keys sl key gi (positions (kd_match_hash kd g (kd_reduce kd (hash key))))
                = Ok (Some p) /\ p < S'
      /\ geti sl (sidx gi p) = Some (Some kv) /\ keq key (fst kv) = true)
  \/ (scan_keys sl key gi (positions (kd_match_hash kd g (kd_reduce kd (hash key)))) = Ok None
      /\ absent_in sl key gi).
Proof.
  intros G Hg. pose proof (gv_valid _ _ _ _ _ _ _ G _ _ Hg) as Hv.
  pose proof (proj2 (proj2 (kl_masks _ L g (kd_reduce kd (hash key)) Hv))) as Hm.
  destruct (scan_keys_spec sl key gi (positions (kd_match_hash kd g (kd_reduce kd (hash key)))))
    as [(p & kv & E1 & Hin & E2 & E3)|[E1 Hall]].
  - intros p Hp. apply In_positions in Hp; auto.
    apply (kl_match_hash _ L) in Hp; auto. destruct Hp. eapply code_reduce_slot; eauto.
  - left. exists p, kv. apply In_positions in Hin; auto.
    apply (kl_match_hash _ L) in Hin; auto. destruct Hin. auto.
  - right. split; auto. intros p kv Hp Hs. destruct (keq key (fst kv)) eqn:E; auto.
    rewrite <- E. apply Hall with p; auto. apply In_positions; auto.
    apply (kl_match_hash _ L); auto. split; auto.
    rewrite (gv_some _ _ _ _ _ _ _ G _ _ _ _ Hg Hp Hs). f_equal. symmetry.
    now apply (tm_compat _ _ LW).
Qed.

(** Result of [find]: where the key is, or a proof that it is nowhere. *)
Definition found_at (sl : list (option (K * V))) (k : N) (key : K) (gi p : N) : Prop :=
  gi < 2 ^ k /\ p < S'
  /\ exists kv, geti sl (sidx gi p) = Some (Some kv) /\ keq key (fst kv) = true.

Definition absent (sl : list (option (K * V))) (key : K) : Prop :=
  forall i kv, geti sl i = Some (Some kv) -> keq key (fst kv) = false.

Lemma find_loop_spec k t key : gsinv k (t_groups _ _ t) (t_slots _ _ t) ->
  t_gmask _ _ t = 2 ^ k - 1 ->
  forall fuel j, j < 2 ^ k -> 2 ^ k <= j + N.of_nat fuel ->
  (forall i, i < j -> absent_in (t_slots _ _ t) key (probe k (home k (hash key)) i)) ->
  (exists gi p, find_loop fuel t key (kd_reduce kd (hash key)) (prober_at k (home k (hash key)) j)
                = Ok (Some (gi, p)) /\ found_at (t_slots _ _ t) k key gi p)
  \/ (find_loop fuel t key (kd_reduce kd (hash key)) (prober_at k (home k (hash key)) j) = Ok None
      /\ absent (t_slots _ _ t) key).
Proof.
  intros G Hmask. pose proof (gv_big _ _ _ _ _ _ _ G) as Hbig. apply (k_small kd L) in Hbig.
  pose proof (pow_small _ Hbig) as Hps. pose proof two64_eq as E64.
  assert (Hdone : forall j, j < 2 ^ k ->
     (forall i, i <= j -> absent_in (t_slots _ _ t) key (probe k (home k (hash key)) i)) ->
     (j + 1 = 2 ^ k \/ exists g, geti (t_groups _ _ t) (probe k (home k (hash key)) j) = Some g
        /\ kd_is_overflow kd g (kd_reduce kd (hash key)) = false) ->
     absent (t_slots _ _ t) key).
  { intros j Hj Habs Hend i kv Hi. destruct (keq key (fst kv)) eqn:E; auto.
    rewrite <- E. clear E. rename i into i0.
    destruct (slot_group _ _ _ _ _ _ _ _ _ G Hi) as (g & Hg & Hgi & Hp & Es & Hsent).
    rewrite <- Es in Hi.
    destruct (gv_chain _ _ _ _ _ _ _ G _ _ _ Hgi Hp Hi) as (j' & Hj' & Ej' & Hch).
    destruct (keq key (fst kv)) eqn:E; auto.
    pose proof (tm_compat _ _ LW _ _ E) as Eh. rewrite <- Eh in *.
    destruct (N.le_gt_cases j' j) as [Hle|Hgt].
    - rewrite <- E. apply (Habs j' Hle (i0 mod S')); auto. now rewrite <- Ej'.
    - destruct Hend as [Hend|(g' & Hg' & Ho)]; [lia|].
      rewrite (Hch j g' Hgt Hg') in Ho. discriminate. }
  induction fuel as [|fuel IH]; intros j Hj Hf Habs; [lia|].
  cbn [TableModel.find_loop].
  change (pr_index (prober_at k (home k (hash key)) j)) with (probe k (home k (hash key)) j).
  pose proof (probe_lt k (home k (hash key)) j) as Hpl.
  destruct (geti_lt (t_groups _ _ t) (probe k (home k (hash key)) j)) as [g Hg].
  { rewrite (gv_len _ _ _ _ _ _ _ G). exact Hpl. }
  rewrite Hg.
  destruct (scan_group _ _ _ _ _ key G Hg) as [(p & kv & E1 & Hp & E2 & E3)|[E1 Habs1]].
  - rewrite E1. left. exists (probe k (home k (hash key)) j), p. split; auto.
    split; auto. split; auto. eauto.
  - rewrite E1.
    assert (Habs' : forall i, i <= j -> absent_in (t_slots _ _ t) key (probe k (home k (hash key)) i)).
    { intros i Hi. destruct (N.eq_dec i j) as [->|]; auto. apply Habs. lia. }
    destruct (kd_is_overflow kd g (kd_reduce kd (hash key))) eqn:Eo; cbn [negb].
    + rewrite Hmask, next_bucket_at by lia.
      destruct (N.leb_spec (j + 1) (2 ^ k - 1)).
      * apply IH; try lia. intros i Hi. apply Habs'. lia.
      * right. split; auto. apply (Hdone j); auto. left. lia.
    + right. split; auto. apply (Hdone j); auto. right. eauto.
Qed.

Lemma find_spec_alloc k t key :
  gsinv k (t_groups _ _ t) (t_slots _ _ t) -> t_gmask _ _ t = 2 ^ k - 1 ->
  t_shift _ _ t = 64 - k ->
  (exists gi p, find t key = Ok (Some (gi, p)) /\ found_at (t_slots _ _ t) k key gi p)
  \/ (find t key = Ok None /\ absent (t_slots _ _ t) key).
Proof.
  intros G Hm Hs. unfold TableModel.find, ctrl_for_hash, index_for_hash. rewrite Hs.
  fold (home k (hash key)).
  pose proof (gv_big _ _ _ _ _ _ _ G) as Hbig. apply (k_small kd L) in Hbig.
  pose proof (gv_k _ _ _ _ _ _ _ G).
  rewrite (prober_init_at k); [|apply home_lt; [auto|lia|apply (tm_hash _ _ LW)]].
  pose proof (pow2_pos k).
  apply find_loop_spec; auto; try lia.
Qed.

Lemma shiftr63_cases x : x < two64 -> N.shiftr x 63 = 0 \/ N.shiftr x 63 = 1.
Proof.
  intros H. pose proof (home_lt 1 x ltac:(lia) ltac:(lia) H) as H1.
  unfold home in H1. change (64 - 1) with 63 in H1. change (2 ^ 1) with 2 in H1. lia.
Qed.

Lemma find_unalloc mlf key : find (empty_table K V kd mlf) key = Ok None.
Proof.
  unfold TableModel.find, ctrl_for_hash, index_for_hash.
  destruct (kl_static _ L) as (g & Eg & Hv & Hc & Ho).
  cbn [empty_table t_shift t_gmask]. change (N.to_nat 0) with 0%nat.
  cbn [TableModel.find_loop empty_table t_groups]. rewrite Eg.
  assert (E : geti [g; g] (pr_index (prober_init (N.shiftr (hash key) 63))) = Some g).
  { unfold prober_init, pr_index. destruct (shiftr63_cases (hash key) (tm_hash _ _ LW key)) as [->| ->];
      reflexivity. }
  rewrite E. clear E.
  pose proof (proj2 (proj2 (kl_masks _ L g (kd_reduce kd (hash key)) Hv))) as Hm.
  assert (E : positions (kd_match_hash kd g (kd_reduce kd (hash key))) = []).
  { destruct (positions (kd_match_hash kd g (kd_reduce kd (hash key)))) as [|p ps] eqn:E; auto.
    exfalso. assert (Hin : In p (positions (kd_match_hash kd g (kd_reduce kd (hash key)))))
      by (rewrite E; now left).
    apply In_positions in Hin; auto. apply (kl_match_hash _ L) in Hin; auto.
    destruct Hin as [Hp Hin].
    pose proof (kl_reduce_0 _ L (hash key)). pose proof (kl_reduce_1 _ L (hash key)).
    destruct (Hc p Hp) as [H1|[H1 H2]]; [congruence|]. apply H0; congruence. }
  rewrite E. cbn [TableModel.scan_keys]. rewrite Ho. reflexivity.
Qed.

Lemma find_spec t key : Inv0 t ->
  (exists gi p kv, find t key = Ok (Some (gi, p))
      /\ t_alloc _ _ t = true /\ p < S'
      /\ geti (t_slots _ _ t) (sidx gi p) = Some (Some kv) /\ keq key (fst kv) = true)
  \/ (find t key = Ok None /\ absent (t_slots _ _ t) key).
Proof.
  intros I. destruct (t_alloc _ _ t) eqn:E.
  - destruct (iv_alloc _ _ _ _ _ I E) as (k & G & Hm & Hs).
    destruct (find_spec_alloc k t key G Hm Hs) as [(gi & p & E1 & H1 & H2 & kv & H3)|[E1 H1]].
    + left. exists gi, p, kv. tauto.
    + right. auto.
  - right. rewrite (iv_unalloc _ _ _ _ _ I E). split; [apply find_unalloc|].
    intros i kv H. unfold geti in H. simpl in H. destruct (N.to_nat i); discriminate.
Qed.

(** ** [lookup] against a search in the list of elements *)

Definition lookup_list (key : K) (l : list (K * V)) : option (K * V) :=
  List.find (fun e => keq key (fst e)) l.

Lemma absent_lookup sl key : absent sl key <-> lookup_list key (elems sl) = None.
Proof.
  unfold lookup_list. split.
  - intros H. destruct (List.find _ _) as [e|] eqn:E; auto.
    apply find_some in E. destruct E as [Hin E]. apply In_elems in Hin.
    destruct Hin as [i Hi]. rewrite (H _ _ Hi) in E. discriminate.
  - intros H i kv Hi. apply (find_none _ _ H). apply In_elems. eauto.
Qed.

Lemma uniq_In_lookup l e key : uniq keq l -> In e l -> keq key (fst e) = true ->
  lookup_list key l = Some e.
Proof.
  induction l as [|x l IH]; intros U Hin Hk; [easy|].
  unfold lookup_list. cbn [List.find]. destruct (keq key (fst x)) eqn:Ex.
  - destruct Hin as [->|Hin]; auto. exfalso.
    apply in_split in Hin. destruct Hin as (b & c & ->).
    specialize (U [] x b e c eq_refl).
    rewrite (tm_trans _ _ LW (fst x) key (fst e)) in U; [discriminate| |auto].
    now apply (tm_sym _ _ LW).
  - destruct Hin as [->|Hin]; [congruence|]. apply IH; auto.
    intros a e1 b e2 c ->. apply (U (x :: a) e1 b e2 c). reflexivity.
Qed.

Lemma slot_lookup t i kv key : Inv0 t -> geti (t_slots _ _ t) i = Some (Some kv) ->
  keq key (fst kv) = true -> lookup_list key (elems (t_slots _ _ t)) = Some kv.
Proof.
  intros I Hi Hk. apply uniq_In_lookup; auto.
  - eapply Inv0_uniq; eauto.
  - apply In_elems. eauto.
Qed.

Theorem lookup_correct t key : Inv0 t ->
  lookup K V hash keq kd t key = Ok (lookup_list key (elems (t_slots _ _ t))).
Proof.
  intros I. unfold lookup.
  destruct (find_spec t key I) as [(gi & p & kv & E1 & _ & _ & E2 & E3)|[E1 H1]].
  - rewrite E1, E2. f_equal. symmetry. eapply slot_lookup; eauto.
  - rewrite E1. f_equal. symmetry. now apply absent_lookup.
Qed.

End Find.
