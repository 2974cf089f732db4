(** Throwing insertions: the map left behind is the one of the successful insertion with a
    hole, and the hole is met by whoever looks for the key. *)
From Coq Require Import NArith ZArith List Bool Lia Permutation.
From Verif Require Import Base BaseFacts GroupModel TableModel TableInv MapSpec MapFacts
  RobinModel RobinSpec RobinFacts RobinOps RobinRefine ReachModel ThrowModel2.
Import ListNotations.
Open Scope N_scope.

Section Sim.

(** The first computation goes as the second, or reads the hole. *)
Definition sim {A} (r1 r2 : res A) : Prop := r1 = r2 \/ r1 = Err EUndef.

Lemma sim_refl {A} (r : res A) : sim r r.
Proof. now left. Qed.

Lemma sim_bind {A B} (a1 a2 : res A) (f1 f2 : A -> res B) : sim a1 a2 ->
  (forall x, sim (f1 x) (f2 x)) -> sim (rbind a1 f1) (rbind a2 f2).
Proof.
  intros [->| ->] H.
  - destruct a2 as [x|e]; cbn; [apply H|now left].
  - now right.
Qed.

End Sim.

Section Hole.

Context {K V : Type} (hash : K -> N) (keq : K -> K -> bool) (LW : lawful hash keq).

Notation slots := (list (option (K * V))).

Lemma raw_slot_iff (S : slots) i : raw_slot K V S i = true <-> geti S i = Some None.
Proof. unfold raw_slot. destruct (geti S i) as [[?|]|]; split; congruence. Qed.

(** [S1] is [S2] without the element [kv] in slot [i]. *)
Definition hole (S1 S2 : slots) (i : N) (kv : K * V) : Prop :=
  geti S1 i = Some None /\ S2 = seti S1 i (Some kv).

Lemma hole_same S1 S2 i kv j : hole S1 S2 i kv -> j <> i -> geti S1 j = geti S2 j.
Proof. intros [H ->] N. now rewrite geti_seti_neq by congruence. Qed.

Lemma hole_at S1 S2 i kv j : hole S1 S2 i kv ->
  geti S1 j = geti S2 j \/ geti S1 j = Some None.
Proof.
  intros H. destruct (N.eq_dec j i) as [->|N]; [right; apply H|left; eapply hole_same; eauto].
Qed.

Lemma hole_perm S1 S2 i kv : hole S1 S2 i kv -> Permutation (elems S2) (kv :: elems S1).
Proof. intros [H ->]. now apply elems_seti_Some. Qed.

Lemma hole_fresh S1 S2 i kv : hole S1 S2 i kv -> distinct_keys K V keq (elems S2) ->
  forall e, In e (elems S1) -> keq (fst e) (fst kv) = false.
Proof.
  intros H D e He.
  pose proof (distinct_perm hash keq LW _ _ (hole_perm _ _ _ _ H) D) as [D2 _].
  apply (fresh_has hash keq LW) in D2. now apply D2.
Qed.

(** ** The robin hood map *)

Notation rmap := (rmap K V).
Notation C_ := (r_ctrls K V).
Notation S_ := (r_slots K V).

(** [t1] is [t2] with a hole; its size does not count it. *)
Definition r_holed (t1 t2 : rmap) (i : N) (kv : K * V) : Prop :=
  hole (S_ t1) (S_ t2) i kv /\ t2 = r_with K V t1 (C_ t1) (S_ t2) (wadd (r_size _ _ t1) 1).

Lemma r_insert_at_hole t i d k v : match r_insert_at K V false t i i d (k, v) with
  | Ok (t2, true) => exists t1, r_insert_at_t K V t i d = Ok (t1, true) /\ r_holed t1 t2 i (k, v)
      /\ r_size _ _ t1 = r_size _ _ t
  | Ok (t2, false) => r_insert_at_t K V t i d = Ok (t2, false)
  | Err _ => True
  end.
Proof.
  unfold r_insert_at, r_insert_at_t. rewrite N.eqb_refl. destruct (r_alloc _ _ t); [|exact I].
  destruct (geti (C_ t) i) as [c|]; [|exact I]. destruct (c =? cEmpty).
  - unfold r_construct, raw_slot. destruct (geti (S_ t) i) as [[?|]|] eqn:E; cbn [rbind]; try exact I.
    eexists. split; [reflexivity|]. split; [|reflexivity]. split; [split; auto|]. reflexivity.
  - destruct (r_insert_to_place K V false t i d) as [[[C S] [|]]|]; cbn [rbind orb andb]; try exact I.
    + unfold r_construct, raw_slot. destruct (geti S i) as [[?|]|] eqn:E; cbn [rbind negb]; try exact I.
      eexists. split; [reflexivity|]. split; [|reflexivity]. split; [split; auto|]. reflexivity.
    + reflexivity.
Qed.

(** Sizes are numbers of 64 bits. *)
Definition r_word (t : rmap) : Prop := r_size _ _ t < two64.

Lemma r_insert_at_word (rehashing : bool) t i si d kv t' b : r_word t ->
  r_insert_at K V rehashing t i si d kv = Ok (t', b) -> r_word t'.
Proof.
  intros W. unfold r_insert_at. destruct (r_alloc _ _ t); [|discriminate].
  assert (X : forall C S j t2, r_construct K V t C S j kv = Ok t2 -> r_word t2).
  { intros C S j t2. unfold r_construct. destruct (geti S j) as [[?|]|]; try discriminate.
    intros E. injection E as <-. unfold r_word. cbn. apply w64_lt. }
  destruct (geti (C_ t) i) as [c|]; [|discriminate]. destruct (c =? cEmpty).
  - destruct (r_construct _ _ _ _ _ _ _) as [t2|] eqn:E; cbn [rbind]; [|discriminate].
    intros Y. injection Y as <- _. eapply X; eauto.
  - destruct (i =? si); [|discriminate].
    destruct (r_insert_to_place _ _ _ _ _ _) as [[[C S] ok]|]; cbn [rbind]; [|discriminate].
    destruct (ok || rehashing).
    + destruct (r_construct _ _ _ _ _ _ _) as [t2|] eqn:E; cbn [rbind]; [|discriminate].
      intros Y. injection Y as <- _. eapply X; eauto.
    + intros Y. injection Y as <- _. exact W.
Qed.

Lemma r_insert_all_word : forall l t t', r_word t -> r_insert_all K V hash keq l t = Ok t' -> r_word t'.
Proof.
  induction l as [|kv l IH]; intros t t' W; cbn [r_insert_all].
  - intros E. injection E as <-. exact W.
  - unfold r_insert_no_grow. destruct (r_search _ _ _ _ _ _ _) as [[?|i d]|]; cbn [rbind]; try discriminate.
    destruct (slot_plus _ _) as [si|]; cbn [rbind]; [|discriminate].
    destruct (r_insert_at K V true t i si d kv) as [[t1 b]|] eqn:E; cbn [rbind]; [|discriminate].
    apply IH. eapply r_insert_at_word; eauto.
Qed.

Lemma r_grow_word alloc t t' : r_word t -> r_grow K V hash keq alloc t = Ret t' tt -> r_word t'.
Proof.
  intros W. unfold r_grow, r_rehash_impl. destruct (r_calc_capacity _) as [cap|]; [|discriminate].
  destruct (_ || _ || _); [|intros E; injection E as <-; exact W]. unfold r_create.
  destruct (alloc _); cbn [obind]; [|discriminate].
  destruct (r_elements K V t) as [l|]; cbn [rbind]; [|discriminate].
  destruct (r_insert_all _ _ _ _ _ _) as [t1|] eqn:E; [|discriminate].
  intros X. injection X as <-. eapply r_insert_all_word; [|exact E]. unfold r_word. cbn. reflexivity.
Qed.

Lemma r_emplace_hole alloc (update : bool) k v : forall fuel t, r_word t ->
  match r_emplace K V hash keq fuel alloc update k v t with
  | Ret t2 (i, true) =>
      exists t1, r_emplace_t K V hash keq fuel alloc update k v t = Throw t1 /\ r_holed t1 t2 i (k, v)
        /\ r_word t1
  | Ret t2 (i, false) => r_emplace_t K V hash keq fuel alloc update k v t = Ret t2 (i, false)
  | Throw t2 => r_emplace_t K V hash keq fuel alloc update k v t = Throw t2
  | Fail _ => True
  end.
Proof.
  induction fuel as [|fuel IH]; intros t W; cbn [r_emplace r_emplace_t]; [exact I|].
  destruct (r_search K V hash keq t true k) as [[i|i d]|]; [| |exact I].
  - destruct (geti (S_ t) i) as [[kv|]|]; try exact I. reflexivity.
  - cbv zeta. destruct (if _ || _ then r_grow K V hash keq alloc t else Ret t tt) as [t1 []|t1|] eqn:G; cbn [obind];
      try exact I; [|reflexivity].
    assert (W1 : r_word t1).
    { destruct (_ || _); [eapply r_grow_word; eauto|injection G as <-; exact W]. }
    destruct (if _ || _ then r_search K V hash keq t1 false k else Ok (Stop i d)) as [[i1|i1 d1]|]; try exact I.
    pose proof (r_insert_at_hole t1 i1 d1 k v) as H.
    destruct (r_insert_at K V false t1 i1 i1 d1 (k, v)) as [[t2 [|]]|] eqn:E1; [| |exact I].
    + destruct H as (t3 & E3 & H & H'). rewrite E3. exists t3. split; [reflexivity|]. split; [exact H|].
      unfold r_word. rewrite H'. exact W1.
    + rewrite H. destruct (r_grow K V hash keq alloc t2) as [t3 []|t3|] eqn:G2; cbn [obind]; try exact I; [|reflexivity].
      apply IH. eapply r_grow_word; [|exact G2]. eapply r_insert_at_word; eauto.
Qed.

Lemma r_scan_hole C S1 S2 i kv key : hole S1 S2 i kv -> forall fuel j d,
  sim (r_scan K V keq fuel C S1 key j d) (r_scan K V keq fuel C S2 key j d).
Proof.
  intros H. induction fuel as [|fuel IH]; intros j d; cbn [r_scan]; [now left|].
  destruct (geti C j) as [c|]; [|now left]. destruct (_ <=? _)%Z; [|now left].
  destruct key as [k|]; [|apply IH].
  destruct (hole_at _ _ _ _ j H) as [->| ->]; [|now right].
  destruct (geti S2 j) as [[e|]|]; [|now left|now left]. destruct (keq (fst e) k); [now left|apply IH].
Qed.

Lemma r_scan_found C S k : forall fuel j d n, r_scan K V keq fuel C S (Some k) j d = Ok (Found n) ->
  exists e, In e (elems S) /\ keq (fst e) k = true.
Proof.
  induction fuel as [|fuel IH]; intros j d n; cbn [r_scan]; [discriminate|].
  destruct (geti C j) as [c|]; [|discriminate]. destruct (_ <=? _)%Z; [|discriminate].
  destruct (geti S j) as [[e|]|] eqn:E; try discriminate. destruct (keq (fst e) k) eqn:Q; [|apply IH].
  intros _. exists e. split; [|exact Q]. apply In_elems. eauto.
Qed.

Lemma r_walk_hole t1 t2 i kv : r_holed t1 t2 i kv -> forall fuel j,
  sim (r_walk K V fuel t1 j) (r_walk K V fuel t2 j).
Proof.
  intros [H E]. induction fuel as [|fuel IH]; intros j; cbn [r_walk]; [now left|].
  assert (r_end K V t1 = r_end K V t2) as -> by now rewrite E.
  destruct (j =? r_end K V t2); [now left|].
  apply sim_bind.
  - unfold r_deref. destruct (hole_at _ _ _ _ j H) as [->| ->]; [now left|now right].
  - intros e. apply sim_bind; [rewrite E; apply sim_refl|]. intros n.
    apply sim_bind; [apply IH|]. intros l. apply sim_refl.
Qed.

Lemma r_walk_in t : forall fuel j l, r_walk K V fuel t j = Ok l -> forall e, In e l -> In e (elems (S_ t)).
Proof.
  induction fuel as [|fuel IH]; intros j l; cbn [r_walk]; [discriminate|].
  destruct (j =? r_end K V t).
  - intros X. injection X as <-. intros e [].
  - unfold r_deref. destruct (geti (S_ t) j) as [[e|]|] eqn:E; cbn [rbind]; try discriminate.
    destruct (r_next _ _ _ _) as [n|]; cbn [rbind]; [|discriminate].
    destruct (r_walk K V fuel t n) as [l'|] eqn:W; cbn [rbind]; [|discriminate].
    intros X e' He. injection X as <-. destruct He as [<-|He]; [apply In_elems; eauto|eapply IH; eauto].
Qed.

Lemma r_holed_broken q t1 t2 i k v : q = 1 \/ q = 2 -> rinv hash keq q t2 -> r_holed t1 t2 i (k, v) ->
  r_search K V hash keq t1 true k = Err EUndef /\ r_traverse K V t1 = Err EUndef.
Proof.
  intros Hq I0 H. pose proof H as [H1 H2].
  pose proof (rinv_dist hash keq q t2 I0) as D.
  pose proof (hole_fresh _ _ _ _ H1 D) as F. cbn [fst] in F.
  pose proof (hole_perm _ _ _ _ H1) as P.
  assert (HI : In (k, v) (content t2)).
  { unfold content. eapply Permutation_in; [symmetry; exact P|now left]. }
  split.
  - destruct (search_inv hash keq LW q t2 true k I0) as [(j & e & b & _ & E & _)|(j & n & _ & _ & X)].
    + unfold r_search in *. rewrite H2 in E. cbn [r_with r_ctrls r_slots] in E.
      destruct (r_scan_hole (C_ t1) _ _ _ _ (Some k) H1 (S (length (C_ t1))) (r_home K V hash t1 k) 0) as [Y|Y]; [|exact Y].
      exfalso. change (r_home K V hash (r_with K V t1 (C_ t1) (S_ t2) (wadd (r_size K V t1) 1)) k) with (r_home K V hash t1 k) in E.
      rewrite E in Y. apply r_scan_found in Y. destruct Y as (e' & Y1 & Y2). rewrite (F _ Y1) in Y2. discriminate.
    + exfalso. specialize (X eq_refl _ HI). cbn [fst] in X. rewrite (lw_refl _ _ LW) in X. discriminate.
  - pose proof (traverse_spec hash keq q Hq t2 I0) as T. unfold r_traverse in *.
    assert (r_begin K V t1 = r_begin K V t2) as -> by now rewrite H2.
    assert (C_ t1 = C_ t2) as -> by now rewrite H2.
    destruct (r_begin K V t2) as [j|]; cbn [rbind] in *; [|discriminate].
    destruct (r_walk_hole _ _ _ _ H (S (length (C_ t2))) j) as [Y|Y]; [|exact Y].
    exfalso. rewrite T in Y. pose proof (r_walk_in _ _ _ _ Y _ HI) as Z. apply F in Z. cbn [fst] in Z.
    rewrite (lw_refl _ _ LW) in Z. discriminate.
Qed.

(** What the caller can still do with the map: nothing that meets the key. *)
Definition r_broken (t : rmap) (k : K) : Prop :=
  r_contains K V hash keq t k = Err EUndef /\ r_find K V hash keq t k = Err EUndef
  /\ r_erase K V hash keq k t = Fail EUndef /\ r_traverse K V t = Err EUndef
  /\ forall alloc update v, r_emplace K V hash keq 64 alloc update k v t = Fail EUndef.

Lemma r_emplace_search fuel alloc update k v t : r_search K V hash keq t true k = Err EUndef ->
  r_emplace K V hash keq (S fuel) alloc update k v t = Fail EUndef.
Proof. intros E. cbn [r_emplace]. now rewrite E. Qed.

Lemma r_search_broken t k : r_search K V hash keq t true k = Err EUndef ->
  r_traverse K V t = Err EUndef -> r_broken t k.
Proof.
  intros E T. unfold r_broken, r_contains, r_find, r_erase. rewrite E. cbn [rbind].
  repeat (split; [now auto|]). intros. now apply r_emplace_search.
Qed.

Theorem reach_insert_t q t m alloc update k v : q = 1 \/ q = 2 -> r_reach K V hash keq q t m ->
  sane alloc -> has K V keq k m = false -> spread_all K V hash q ((k, v) :: m) ->
  match r_emplace K V hash keq 64 alloc update k v t with
  | Ret _ _ => exists t1, r_emplace_t K V hash keq 64 alloc update k v t = Throw t1
      /\ r_size _ _ t1 = N.of_nat (length m) /\ r_broken t1 k
  | Throw t' => r_emplace_t K V hash keq 64 alloc update k v t = Throw t'
  | Fail _ => False
  end.
Proof.
  intros Hq R HA HN HS. destruct (reach_inv hash keq LW q t m Hq R) as [I0 P].
  assert (HF : fresh_key keq (content t) k).
  { eapply fresh_perm; [exact P|]. now apply (fresh_has hash keq LW). }
  assert (W : r_word t).
  { unfold r_word. destruct I0 as [_ [X|[b X]]]; [rewrite (re_size _ X); reflexivity|].
    pose proof (rf_rb _ _ _ _ _ X) as Y. rewrite (rb_size _ _ _ _ Y).
    pose proof (elems_length_le (S_ t)). pose proof (cs_len _ _ _ _ _ (rb_cs _ _ _ _ Y)).
    pose proof (rb_big _ _ _ _ Y). unfold two64. lia. }
  pose proof (r_emplace_hole alloc update k v 64 t W) as E.
  destruct (emplace_new hash keq LW q Hq alloc update t k v 63 HA I0 HF) as [(t' & X & _)|(t' & i & X & I1 & P1 & G)].
  - eapply spread_all_perm; [|exact HS]. now constructor.
  - change (S 63) with 64%nat in X. rewrite X in *. exact E.
  - change (S 63) with 64%nat in X. rewrite X in *. destruct E as (t1 & E & H & W1). exists t1. split; [exact E|].
    destruct (r_holed_broken q t1 t' i k v Hq I1 H) as [B1 B2].
    split; [|now apply r_search_broken].
    destruct H as [_ H]. pose proof (rinv_size hash keq q t' I1) as Z. rewrite H in Z at 1. cbn [r_with r_size] in Z.
    apply Permutation_length in P, P1. cbn [length] in P1. rewrite <- P1, <- P in Z.
    unfold wadd, w64, r_word in *. unfold two64 in *.
    assert (C : r_size K V t1 = 2 ^ 64 - 1 \/ r_size K V t1 + 1 < 2 ^ 64) by lia. destruct C as [C|C].
    + rewrite C in Z. change ((2 ^ 64 - 1 + 1) mod 2 ^ 64) with 0 in Z. lia.
    + rewrite N.mod_small in Z by exact C. lia.
Qed.

End Hole.
