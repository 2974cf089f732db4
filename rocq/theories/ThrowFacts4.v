(** Throwing insertions into the robin16 map, as in ThrowFacts2. *)
From Coq Require Import NArith ZArith List Bool Lia Permutation.
From Verif Require Import Base BaseFacts GroupModel TableModel TableInv MapSpec MapFacts RobinOps
  Flat16Model Flat16Spec Robin16Model Robin16Spec Robin16Ring Robin16Facts Robin16Ops Robin16Refine Robin16Client
  ThrowModel2 ThrowFacts2.
Import ListNotations.
Open Scope N_scope.

Section Robin16.

Context {K V : Type} (hash : K -> N) (keq : K -> K -> bool) (LW : lawful hash keq) (wide : bool).

Notation qmap := (qmap K V).
Notation C_ := (q_ctrls K V).
Notation S_ := (q_slots K V).

(** [t1] is [t2] with a hole; its size does not count it. *)
Definition q_holed (t1 t2 : qmap) (i : N) (kv : K * V) : Prop :=
  hole (S_ t1) (S_ t2) i kv
  /\ t2 = q_with K V t1 (C_ t1) (S_ t2) (wadd (q_size _ _ t1) 1).

Lemma q_insert_at_hole t i d k v : match q_insert_at K V hash false false t i d (k, v) with
  | Ok (t2, false) => exists t1, q_insert_at_t K V hash t i d k = Ok (t1, false) /\ q_holed t1 t2 i (k, v)
  | Ok (t2, true) => q_insert_at_t K V hash t i d k = Ok (t2, true)
  | Err _ => True
  end.
Proof.
  unfold q_insert_at, q_insert_at_t. cbn [fst]. destruct (geti (C_ t) i) as [c|]; [|exact I].
  destruct (if is_empty16 c then _ else _) as [[[cs sl] [|]]|]; cbn [rbind andb negb]; [reflexivity| |exact I].
  unfold q_build, raw_slot. destruct (geti sl i) as [[e|]|] eqn:E; cbn [rbind]; try exact I.
  eexists. split; [reflexivity|]. split; [split; auto|]. reflexivity.
Qed.

Lemma q_emplace_hole alloc (update : bool) k v : forall fuel t,
  match q_emplace K V hash keq wide false fuel alloc update k v t with
  | Ret t2 (i, true) => exists t1,
      q_emplace_t K V hash keq wide fuel alloc update k v t = Throw t1 /\ q_holed t1 t2 i (k, v)
  | Ret t2 (i, false) => q_emplace_t K V hash keq wide fuel alloc update k v t = Ret t2 (i, false)
  | Throw t2 => q_emplace_t K V hash keq wide fuel alloc update k v t = Throw t2
  | Fail _ => True
  end.
Proof.
  induction fuel as [|fuel IH]; intros t; cbn [q_emplace q_emplace_t]; [exact I|].
  destruct (q_prepare K V hash keq wide false 64 alloc k t) as [t1 [[i d] [|]]|t1|]; cbn [obind]; [| |reflexivity|exact I].
  - destruct (q_read K V (S_ t1) i) as [e|]; destruct update; try exact I; reflexivity.
  - pose proof (q_insert_at_hole t1 i d k v) as H.
    destruct (q_insert_at K V hash false false t1 i d (k, v)) as [[t2 [|]]|]; [| |exact I].
    + rewrite H. destruct (q_grow K V hash keq wide false alloc t2) as [t3 []|t3|]; cbn [obind]; try exact I; [|reflexivity].
      apply IH.
    + destruct H as (t3 & E3 & H). rewrite E3. exists t3. auto.
Qed.

Lemma q_read_hole S1 S2 i (kv : K * V) j : hole S1 S2 i kv -> sim (q_read K V S1 j) (q_read K V S2 j).
Proof. intros H. unfold q_read. destruct (hole_at _ _ _ _ j H) as [->| ->]; [now left|now right]. Qed.

Lemma q_singles_hole t1 t2 i kv key tag : q_holed t1 t2 i kv -> forall n j d,
  sim (q_singles K V keq n t1 key tag j d) (q_singles K V keq n t2 key tag j d).
Proof.
  intros [H E]. induction n as [|n IH]; intros j d; cbn [q_singles]; [now left|].
  assert (C_ t1 = C_ t2) as -> by now rewrite E.
  assert (q_succ K V t1 j = q_succ K V t2 j) as -> by now rewrite E.
  destruct (geti (C_ t2) j) as [c|]; [|now left]. destruct (holds d c); [|now left].
  destruct key as [k|]; [|apply IH]. destruct (snd c =? tag); [|apply IH].
  apply sim_bind; [eapply q_read_hole; eauto|]. intros e. destruct (keq (fst e) k); [now left|apply IH].
Qed.

Lemma q_read_in S j e : q_read K V S j = Ok e -> In e (elems S).
Proof.
  unfold q_read. destruct (geti S j) as [[e'|]|] eqn:E; try discriminate. intros X. injection X as <-.
  apply In_elems. eauto.
Qed.

Lemma q_singles_found t k tag : forall n j d m, q_singles K V keq n t (Some k) tag j d = Ok (inl (QHit m)) ->
  exists e, In e (elems (S_ t)) /\ keq (fst e) k = true.
Proof.
  induction n as [|n IH]; intros j d m; cbn [q_singles]; [discriminate|].
  destruct (geti (C_ t) j) as [c|]; [|discriminate]. destruct (holds d c); [|discriminate].
  destruct (snd c =? tag); [|apply IH].
  destruct (q_read K V (S_ t) j) as [e|] eqn:R; cbn [rbind]; [|discriminate].
  destruct (keq (fst e) k) eqn:Q; [|apply IH]. intros _. exists e. split; [eapply q_read_in; eauto|exact Q].
Qed.

Lemma q_match_hole t1 t2 i kv k start : q_holed t1 t2 i kv -> forall ps,
  sim (q_match K V keq wide t1 k start ps) (q_match K V keq wide t2 k start ps).
Proof.
  intros [H E]. induction ps as [|p ps IH]; cbn [q_match]; [now left|].
  assert (ER : forall x, q_round K V t1 x = q_round K V t2 x) by (intros; now rewrite E). rewrite ER.
  apply sim_bind; [eapply q_read_hole; eauto|]. intros e. destruct (keq (fst e) k); [now left|apply IH].
Qed.

Lemma q_match_found t k start : forall ps j, q_match K V keq wide t k start ps = Ok (Some j) ->
  exists e, In e (elems (S_ t)) /\ keq (fst e) k = true.
Proof.
  induction ps as [|p ps IH]; intros j; cbn [q_match]; [discriminate|].
  destruct (q_read K V (S_ t) _) as [e|] eqn:R; cbn [rbind]; [|discriminate].
  destruct (keq (fst e) k) eqn:Q; [|apply IH]. intros _. exists e. split; [eapply q_read_in; eauto|exact Q].
Qed.

Lemma q_groups_hole t1 t2 i kv key tag home : q_holed t1 t2 i kv -> forall fuel j d,
  sim (q_groups K V keq wide fuel t1 key tag home j d) (q_groups K V keq wide fuel t2 key tag home j d).
Proof.
  intros H. pose proof H as [_ E]. induction fuel as [|fuel IH]; intros j d; cbn [q_groups]; [now left|].
  assert (C_ t1 = C_ t2) as -> by now rewrite E.
  destruct (q_group (C_ t2) j) as [g|]; cbn [rbind]; [|now left].
  apply sim_bind; [destruct key; [eapply q_match_hole; eauto|now left]|]. intros [n|]; [now left|]. cbv zeta.
  assert (ER : forall x, q_round K V t1 x = q_round K V t2 x) by (intros; now rewrite E). rewrite ER.
  assert (ED : forall x, q_dist K V t1 x home = q_dist K V t2 x home) by (intros; now rewrite E). rewrite ED.
  assert (EN : q_next K V t1 j = q_next K V t2 j) by now rewrite E. rewrite EN.
  destruct (negb _); [now left|]. destruct (match key with Some _ => _ | None => _ end); [now left|apply IH].
Qed.

Lemma q_groups_found t k tag home : forall fuel j d n,
  q_groups K V keq wide fuel t (Some k) tag home j d = Ok (QHit n) ->
  exists e, In e (elems (S_ t)) /\ keq (fst e) k = true.
Proof.
  induction fuel as [|fuel IH]; intros j d n; cbn [q_groups]; [discriminate|].
  destruct (q_group (C_ t) j) as [g|]; cbn [rbind]; [|discriminate].
  destruct (q_match _ _ _ _ _ _ _ _) as [[n'|]|] eqn:M; cbn [rbind]; [| |discriminate].
  - intros _. eapply q_match_found; eauto.
  - destruct (negb _); [discriminate|]. destruct (_ =? home); [discriminate|apply IH].
Qed.

Lemma q_search_hole t1 t2 i kv n k : q_holed t1 t2 i kv ->
  sim (q_search K V hash keq wide n t1 (Some k) k) (q_search K V hash keq wide n t2 (Some k) k).
Proof.
  intros H. pose proof H as [_ E]. unfold q_search.
  assert (q_home K V hash t1 k = q_home K V hash t2 k) as -> by now rewrite E.
  assert (q_fuel K V t1 = q_fuel K V t2) as -> by now rewrite E.
  apply sim_bind; [eapply q_singles_hole; eauto|]. intros [s|[j d]]; [now left|]. eapply q_groups_hole; eauto.
Qed.

Lemma q_search_found t n k j : q_search K V hash keq wide n t (Some k) k = Ok (QHit j) ->
  exists e, In e (elems (S_ t)) /\ keq (fst e) k = true.
Proof.
  unfold q_search. destruct (q_singles _ _ _ _ _ _ _ _ _) as [[s|[x d]]|] eqn:E; cbn [rbind]; [| |discriminate].
  - intros X. injection X as ->. eapply q_singles_found; eauto.
  - apply q_groups_found.
Qed.

Lemma q_walk_hole t1 t2 i kv : q_holed t1 t2 i kv -> forall fuel j,
  sim (q_walk K V fuel t1 j) (q_walk K V fuel t2 j).
Proof.
  intros [H E].
  assert (EE : q_end K V t1 = q_end K V t2) by now rewrite E.
  assert (EI : forall f j, q_incr K V f t1 j = q_incr K V f t2 j).
  { induction f as [|f IH]; intros j; cbn [q_incr]; [reflexivity|].
    assert (C_ t1 = C_ t2) as -> by now rewrite E. assert (q_cap K V t1 = q_cap K V t2) as -> by now rewrite E.
    now rewrite IH. }
  induction fuel as [|fuel IH]; intros j; cbn [q_walk]; rewrite EE; (destruct (j =? q_end K V t2); [now left|]); [now left|].
  apply sim_bind; [eapply q_read_hole; eauto|].
  intros e. assert (q_fuel K V t1 = q_fuel K V t2) as -> by now rewrite E. rewrite EI.
  apply sim_bind; [apply sim_refl|]. intros n. apply sim_bind; [apply IH|]. intros l. apply sim_refl.
Qed.

Lemma q_walk_in t : forall fuel j l, q_walk K V fuel t j = Ok l -> forall e, In e l -> In e (elems (S_ t)).
Proof.
  induction fuel as [|fuel IH]; intros j l; cbn [q_walk]; (destruct (j =? q_end K V t);
    [intros X; injection X as <-; intros e []|]); [discriminate|].
  unfold q_deref. destruct (q_read K V (S_ t) j) as [e|] eqn:E; cbn [rbind]; [|discriminate].
  destruct (q_incr _ _ _ _ _) as [n|]; cbn [rbind]; [|discriminate].
  destruct (q_walk K V fuel t n) as [l'|] eqn:W; cbn [rbind]; [|discriminate].
  intros X e' He. injection X as <-. destruct He as [<-|He]; [eapply q_read_in; eauto|eapply IH; eauto].
Qed.

Lemma q_destroy_hole C i (kv : K * V) : forall is S1 S2 S2', hole S1 S2 i kv ->
  q_destroy_loop K V false C is S2 = Ok S2' ->
  q_destroy_loop K V false C is S1 = Err EUndef \/ geti S2' i = Some (Some kv).
Proof.
  induction is as [|j is IH]; intros S1 S2 S2' H; cbn [q_destroy_loop].
  - intros E. right. injection E as <-. destruct H as [H ->]. apply geti_seti_eq.
    apply geti_Some_lt in H. exact H.
  - destruct (geti C j) as [c|]; [|discriminate]. destruct (is_used16 c); [|now apply IH].
    unfold q_drop. destruct (N.eq_dec j i) as [->|N].
    + destruct H as [H ->]. rewrite H. now left.
    + rewrite (hole_same _ _ _ _ _ H N).
      destruct (geti S2 j) as [[e|]|]; cbn [rbind]; [|discriminate|discriminate].
      apply IH. destruct H as [H ->]. split; [now rewrite geti_seti_neq by congruence|].
      apply seti_comm. congruence.
Qed.

(** What the caller can still do with the map. *)
Definition q_broken (t : qmap) (k : K) : Prop :=
  q_find_index K V hash keq wide t k = Err EUndef /\ q_erase K V hash keq wide false k t = Err EUndef
  /\ q_traverse K V wide t = Err EUndef /\ q_destroy K V false t = Err EUndef
  /\ forall alloc update v, q_emplace K V hash keq wide false 64 alloc update k v t = Fail EUndef.

Lemma q_prepare_search fuel alloc k t : q_search K V hash keq wide 4 t (Some k) k = Err EUndef ->
  q_prepare K V hash keq wide false (S fuel) alloc k t = Fail EUndef.
Proof. intros E. cbn [q_prepare]. now rewrite E. Qed.

Lemma q_emplace_search fuel alloc update k v t : q_search K V hash keq wide 4 t (Some k) k = Err EUndef ->
  q_emplace K V hash keq wide false (S fuel) alloc update k v t = Fail EUndef.
Proof. intros E. cbn [q_emplace]. change 64%nat with (S 63). now rewrite (q_prepare_search 63 alloc k t E). Qed.

Lemma q_search_broken t k : q_search K V hash keq wide 2 t (Some k) k = Err EUndef ->
  q_search K V hash keq wide 4 t (Some k) k = Err EUndef ->
  q_traverse K V wide t = Err EUndef -> q_destroy K V false t = Err EUndef -> q_broken t k.
Proof.
  intros E E4 T D. unfold q_broken, q_erase, q_find_index. rewrite E. cbn [rbind].
  repeat (split; [now auto|]). intros alloc update v. now apply q_emplace_search.
Qed.

(** Elements with destructors: the slots hold the entries and nothing else. *)
Lemma good_elems b t A : good hash keq false b t A -> elems (S_ t) = ents A.
Proof.
  intros X. pose proof (g_st _ _ _ _ _ _ X) as (G & W & SS & RG & LO).
  assert (E : S_ t = map (option_map snd) A).
  { apply geti_ext. intros i. unfold geti at 2. rewrite nth_error_map.
    change (nth_error A (N.to_nat i)) with (geti A i).
    pose proof (w_alen _ _ _ _ W) as L1. pose proof (s_len _ _ _ _ SS) as L2.
    destruct (N.lt_ge_cases i (2 ^ b)) as [Hi|Hi].
    - destruct (geti_lt A i) as (o & Ho); [lia|]. rewrite Ho. cbn [option_map].
      destruct (s_cell _ _ _ _ SS _ _ Hi Ho) as (s & -> & Hs). destruct o as [[d e]|]; cbn in *; [now subst|].
      now rewrite Hs.
    - rewrite !geti_ge by lia. reflexivity. }
  rewrite E. unfold ents. clear. induction A as [|[[d e]|] A IH]; cbn; [reflexivity|now f_equal|exact IH].
Qed.

Lemma q_holed_broken b t1 t2 A i k v : good hash keq false b t2 A -> 16 <= 2 ^ b \/ q_tag K hash k <> 0 ->
  q_holed t1 t2 i (k, v) -> q_broken t1 k.
Proof.
  intros X HS H. pose proof H as [H1 H2]. pose proof (good_elems b t2 A X) as EL.
  pose proof (g_dist _ _ _ _ _ _ X) as D. rewrite <- EL in D.
  pose proof (hole_fresh hash keq LW _ _ _ _ H1 D) as F. cbn [fst] in F.
  assert (HI : In (k, v) (ents A)).
  { rewrite <- EL. eapply Permutation_in; [symmetry; exact (hole_perm _ _ _ _ H1)|now left]. }
  assert (B : forall n, (n = 2 \/ n = 4)%nat -> q_search K V hash keq wide n t1 (Some k) k = Err EUndef).
  { intros n Hn. destruct (q_search_hole _ _ _ _ n k H) as [Y|Y]; [|exact Y]. exfalso.
    destruct (look_spec hash keq LW wide false b t2 A k n X HS Hn) as [(j & d & e & E & _)|(n' & _ & _ & E)].
    - rewrite E in Y. apply q_search_found in Y. destruct Y as (e' & Y1 & Y2). rewrite (F _ Y1) in Y2. discriminate.
    - rewrite has_false in E. specialize (E _ HI). cbn [fst] in E. rewrite (lw_refl _ _ LW) in E. discriminate. }
  apply q_search_broken; [apply B; auto|apply B; auto| |].
  - pose proof (traverse_spec hash wide false b (g_b2 _ _ _ _ _ _ X) (b50 _ (g_b44 _ _ _ _ _ _ X)) t2 A (g_st _ _ _ _ _ _ X)) as T.
    unfold q_traverse in *.
    assert (q_begin K V wide t1 = q_begin K V wide t2) as -> by now rewrite H2.
    assert (q_fuel K V t1 = q_fuel K V t2) as -> by now rewrite H2.
    destruct (q_begin K V wide t2) as [j|]; cbn [rbind] in *; [|discriminate].
    destruct (q_walk_hole _ _ _ _ H (q_fuel K V t2) j) as [Y|Y]; [|exact Y].
    exfalso. rewrite T in Y. pose proof (q_walk_in _ _ _ _ Y _ HI) as Z. apply F in Z. cbn [fst] in Z.
    rewrite (lw_refl _ _ LW) in Z. discriminate.
  - pose proof (destroy_spec hash keq false b t2 A X) as T. unfold q_destroy, q_destroy_slots in *.
    assert (C_ t1 = C_ t2) as -> by now rewrite H2.
    assert (q_cap K V t1 = q_cap K V t2) as -> by now rewrite H2.
    assert (L1 : S_ t1 <> []) by (destruct H1 as [H1 _]; intros Z; rewrite Z in H1; apply geti_Some_lt in H1; cbn in H1; lia).
    assert (L2 : S_ t2 <> []).
    { destruct H1 as [H1 H3]. intros Z. apply (f_equal (@length _)) in H3. rewrite Z, seti_length in H3.
      destruct (S_ t1); [congruence|discriminate]. }
    destruct (S_ t1) as [|s1 S1] eqn:E1; [congruence|]. destruct (S_ t2) as [|s2 S2] eqn:E2; [congruence|].
    destruct (q_destroy_loop K V false (C_ t2) (seqN (q_cap K V t2)) (s2 :: S2)) as [S'|] eqn:E; cbn [rbind] in T; [|discriminate].
    destruct (q_destroy_hole _ _ _ _ _ _ _ H1 E) as [Y|Y]; [now rewrite Y|].
    exfalso. unfold q_no_leak in T. cbn [orb] in T. destruct (forallb _ S') eqn:A'; [|discriminate].
    rewrite forallb_forall in A'. apply geti_In in Y. apply A' in Y. discriminate.
Qed.

Theorem q_built_insert_t t m alloc update k v : q_built K V hash keq wide false t m -> f_sane alloc ->
  q_seen K V hash k t -> has K V keq k m = false -> q_fine K V hash ((k, v) :: m) ->
  match q_emplace K V hash keq wide false 64 alloc update k v t with
  | Ret _ _ => exists t1, q_emplace_t K V hash keq wide 64 alloc update k v t = Throw t1
      /\ Permutation (elems (S_ t1)) m /\ q_broken t1 k
  | Throw t' => q_emplace_t K V hash keq wide 64 alloc update k v t = Throw t'
  | Fail _ => False
  end.
Proof.
  intros B HA HS HN HF. apply (built_inv hash keq LW) in B. destruct B as (M & _ & b & A & X & P).
  pose proof (seen_spec hash keq false b t A k X HS) as HS'.
  pose proof (q_emplace_hole alloc update k v 64 t) as E.
  destruct (emplace_new hash keq LW wide false alloc update t A b k v 63 HA X M HS') as [(t' & EE)|(t' & i & b' & A' & EE & X' & _ & P' & _ & LB)].
  - now rewrite (has_perm keq k _ _ P).
  - eapply fine_perm; [|exact HF]. now constructor.
  - change (S 63) with 64%nat in EE. rewrite EE in *. exact E.
  - change (S 63) with 64%nat in EE. rewrite EE in *. destruct E as (t1 & E & H). exists t1. split; [exact E|].
    split.
    + apply Permutation_cons_inv with (a := (k, v)). rewrite <- P, <- P', <- (good_elems _ _ _ X').
      symmetry. exact (hole_perm _ _ _ _ (proj1 H)).
    + apply (q_holed_broken b' t1 t' A' i k v X'); [|exact H].
      destruct HS' as [HS'|HS']; [left|now right]. pose proof (pow2_le b b' LB). lia.
Qed.

End Robin16.
