(** Consequences for clients of the robin16 map. *)
From Coq Require Import NArith ZArith List Bool Lia Permutation.
From Coq Require Import ZifyBool ZifyNat ZifyN.
From Verif Require Import Base BaseFacts BitsModel BitsFacts GroupModel TableInv TableModel MapSpec MapFacts
  HashModel Flat16Model Flat16Spec RobinFacts Robin16Model Robin16Spec Robin16Ring Robin16Scan
  Robin16Facts Robin16Moves Robin16Ops Robin16Refine.
Import ListNotations.
Open Scope N_scope.

(** ** Both instruction sets do the same *)

Lemma mask_first_same w1 w2 l m1 m2 : mask_of w1 l m1 -> mask_of w2 l m2 ->
  (m1 =? 0) = (m2 =? 0) /\ (m1 <> 0 -> bit_pos w1 (bsf m1) = bit_pos w2 (bsf m2)).
Proof.
  intros H1 H2.
  assert (Z : forall wa wb ma mb, mask_of wa l ma -> mask_of wb l mb -> ma = 0 -> mb = 0).
  { intros wa wb ma mb Ha Hb E. destruct (N.eq_dec mb 0) as [|Hm]; auto. exfalso.
    destruct (mask_first _ _ _ Hb Hm) as [F _]. rewrite (mask_zero _ _ _ Ha E) in F. discriminate. }
  split.
  - destruct (N.eqb_spec m1 0) as [E|E], (N.eqb_spec m2 0) as [E'|E']; auto; exfalso.
    + apply E'. exact (Z _ _ _ _ H1 H2 E).
    + apply E. exact (Z _ _ _ _ H2 H1 E').
  - intros Hm. assert (Hm2 : m2 <> 0) by (intros E; apply Hm; exact (Z _ _ _ _ H2 H1 E)).
    destruct (mask_first _ _ _ H1 Hm) as [F1 G1]. destruct (mask_first _ _ _ H2 Hm2) as [F2 G2].
    destruct (N.lt_trichotomy (bit_pos w1 (bsf m1)) (bit_pos w2 (bsf m2))) as [L|[L|L]]; auto; exfalso.
    + rewrite (G2 _ L) in F1. discriminate.
    + rewrite (G1 _ L) in F2. discriminate.
Qed.

Section Same.

Context {K V : Type} (hash : K -> N) (keq : K -> K -> bool) (trivial : bool).

Notation qmap := (qmap K V).

Lemma match_same wide (t : qmap) k start ps :
  q_match K V keq wide t k start ps = q_match K V keq true t k start (map (bit_pos wide) ps).
Proof.
  induction ps as [|p ps IH]; [reflexivity|]. cbn [map q_match].
  change (bit_pos true (bit_pos wide p)) with (bit_pos wide p).
  destruct (q_read _ _ _ _); [cbn [rbind]|reflexivity]. now rewrite IH.
Qed.

Lemma group_length cs i g : q_group cs i = Ok g -> length g = 16%nat.
Proof.
  unfold q_group. destruct (N.leb_spec (i + 16) (N.of_nat (length cs))); [|discriminate].
  intros E. assert (E' : g = firstn 16 (skipn (N.to_nat i) cs)) by congruence.
  rewrite E', firstn_length, skipn_length. lia.
Qed.

Lemma groups_same fuel (t : qmap) key tag home : forall i d,
  q_groups K V keq true fuel t key tag home i d = q_groups K V keq false fuel t key tag home i d.
Proof.
  induction fuel as [|fuel IH]; intros i d; [reflexivity|]. cbn [q_groups].
  destruct (q_group (q_ctrls _ _ t) i) as [g|] eqn:Eg; [cbn [rbind]|reflexivity].
  apply group_length in Eg.
  assert (E1 : match key with
    | Some k => q_match K V keq true t k i (positions (word_mask true (hash_lanes g tag d)))
    | None => Ok None end = match key with
    | Some k => q_match K V keq false t k i (positions (word_mask false (hash_lanes g tag d)))
    | None => Ok None end).
  { destruct key as [k|]; [|reflexivity]. rewrite (match_same true), (match_same false).
    now rewrite !mask_positions by (now apply hash_lanes_len). }
  rewrite E1. match type of E1 with _ = ?x => clear E1; destruct x as [[j|]|] end; cbn [rbind]; auto.
  pose proof (mask_first_same true false (stop_lanes g d)
    match key with Some _ => word_mask true (stop_lanes g d) | None => word_mask2 true (stop_lanes g d) end
    match key with Some _ => word_mask false (stop_lanes g d) | None => word_mask2 false (stop_lanes g d) end) as F.
  destruct F as [F1 F2].
  { destruct key; [apply word_mask_of|apply word_mask2_of]. }
  { destruct key; [apply word_mask_of|apply word_mask2_of]. }
  cbv zeta.
  set (m1 := match key with Some _ => word_mask true (stop_lanes g d) | None => word_mask2 true (stop_lanes g d) end) in *.
  set (m2 := match key with Some _ => word_mask false (stop_lanes g d) | None => word_mask2 false (stop_lanes g d) end) in *.
  destruct (N.eqb_spec m1 0) as [E|E]; rewrite <- F1; cbn [negb].
  - now rewrite IH.
  - now rewrite (F2 E).
Qed.

Lemma search_same singles (t : qmap) key k :
  q_search K V hash keq true singles t key k = q_search K V hash keq false singles t key k.
Proof.
  unfold q_search. generalize (q_fuel K V t). intros n.
  match goal with |- rbind ?x _ = _ => destruct x as [[s|[i d]]|] end; cbn [rbind]; [reflexivity| |reflexivity].
  apply groups_same.
Qed.

Lemma used_groups_same n cs : forall base, q_used_in_groups true n cs base = q_used_in_groups false n cs base.
Proof.
  induction n as [|n IH]; intros base; [reflexivity|]. cbn [q_used_in_groups]. rewrite IH.
  destruct (q_group cs base) as [g|] eqn:Eg; [cbn [rbind]|reflexivity]. apply group_length in Eg.
  destruct (q_used_in_groups false n cs (base + 16)) as [r|]; [cbn [rbind]|reflexivity].
  rewrite <- (map_map (bit_pos true) (fun j => base + j)), <- (map_map (bit_pos false) (fun j => base + j)).
  rewrite !mask_positions by (unfold used_lanes; now rewrite map_length). reflexivity.
Qed.

Lemma traverse_same (t : qmap) : q_traverse K V true t = q_traverse K V false t.
Proof. unfold q_traverse, q_begin. now rewrite used_groups_same. Qed.

Ltac head_same :=
  match goal with
  | |- rbind ?x _ = rbind ?x _ => destruct x; cbn [rbind]; [|reflexivity]
  | |- obind ?x _ = obind ?x _ => destruct x; cbn [obind]; [|reflexivity|reflexivity]
  end.

Lemma transfer_same is : forall old (t : qmap),
  q_transfer K V hash keq true trivial old is t = q_transfer K V hash keq false trivial old is t.
Proof.
  induction is as [|i is IH]; intros old t; [reflexivity|]. cbn [q_transfer].
  head_same.
  match goal with |- rbind (q_move_insert _ _ _ _ _ _ _ ?e) _ = _ =>
    replace (q_move_insert K V hash keq true trivial t e) with (q_move_insert K V hash keq false trivial t e)
      by (unfold q_move_insert; now rewrite search_same)
  end.
  head_same. head_same. apply IH.
Qed.

Lemma moved_same (x : res (list N)) old (t : qmap) :
  rbind x (fun is => q_transfer K V hash keq true trivial old is t)
  = rbind x (fun is => q_transfer K V hash keq false trivial old is t).
Proof.
  destruct x as [is|e].
  - change (q_transfer K V hash keq true trivial old is t = q_transfer K V hash keq false trivial old is t).
    exact (transfer_same is old t).
  - cbn [rbind]. reflexivity.
Qed.

Lemma rehash_same (shrink always : bool) alloc (t : qmap) n :
  q_rehash_impl K V hash keq true trivial shrink always alloc t n
  = q_rehash_impl K V hash keq false trivial shrink always alloc t n.
Proof.
  unfold q_rehash_impl. destruct (q_calc_capacity n); [|reflexivity].
  match goal with |- (if ?x then _ else _) = _ => destruct x end; [|reflexivity].
  match goal with |- match ?x with _ => _ end = _ => destruct x end; [|reflexivity|reflexivity].
  unfold q_used_positions. rewrite used_groups_same.
  now rewrite moved_same.
Qed.

Lemma prepare_same fuel alloc k : forall (t : qmap),
  q_prepare K V hash keq true trivial fuel alloc k t = q_prepare K V hash keq false trivial fuel alloc k t.
Proof.
  induction fuel as [|fuel IH]; intros t; [reflexivity|]. cbn [q_prepare]. rewrite search_same.
  unfold q_grow. rewrite rehash_same.
  match goal with |- match ?x with _ => _ end = _ => destruct x as [[| |]|] end; [reflexivity| | |reflexivity].
  - match goal with |- (if ?x then _ else _) = _ => destruct x end; [|reflexivity]. head_same. apply IH.
  - head_same. apply IH.
Qed.

Lemma emplace_same fuel alloc (update : bool) k v : forall (t : qmap),
  q_emplace K V hash keq true trivial fuel alloc update k v t
  = q_emplace K V hash keq false trivial fuel alloc update k v t.
Proof.
  induction fuel as [|fuel IH]; intros t; [reflexivity|]. cbn [q_emplace].
  rewrite (prepare_same 64). generalize 64%nat. intros n.
  match goal with |- obind ?x _ = _ => destruct x as [t1 [[i d] e]| |] end; cbn [obind]; [|reflexivity|reflexivity].
  destruct e; [reflexivity|].
  match goal with |- match ?x with _ => _ end = _ => destruct x as [[t2 []]|] end; [|reflexivity|reflexivity].
  unfold q_grow. rewrite rehash_same. head_same. apply IH.
Qed.

Lemma insert_unique_same fuel alloc kv : forall (t : qmap),
  q_insert_unique K V hash keq true trivial fuel alloc kv t
  = q_insert_unique K V hash keq false trivial fuel alloc kv t.
Proof.
  induction fuel as [|fuel IH]; intros t; [reflexivity|]. cbn [q_insert_unique]. rewrite search_same.
  match goal with |- match ?x with _ => _ end = _ => destruct x as [[| |]|] end; [reflexivity| |reflexivity|reflexivity].
  match goal with |- match ?x with _ => _ end = _ => destruct x as [[t2 []]|] end; [|reflexivity|reflexivity].
  unfold q_grow. rewrite rehash_same. head_same. apply IH.
Qed.

Lemma insert_unique_all_same alloc l : forall (t : qmap),
  q_insert_unique_all K V hash keq true trivial alloc l t
  = q_insert_unique_all K V hash keq false trivial alloc l t.
Proof.
  induction l as [|kv l IH]; intros t; [reflexivity|].
  cbn [q_insert_unique_all]. rewrite insert_unique_same. generalize 64%nat. intros n. head_same. apply IH.
Qed.

Lemma copy_same alloc (t : qmap) : q_copy K V hash keq true trivial alloc t = q_copy K V hash keq false trivial alloc t.
Proof.
  unfold q_copy. rewrite traverse_same. head_same.
  match goal with |- match ?x with _ => _ end = _ => destruct x end; [|reflexivity].
  apply insert_unique_all_same.
Qed.

Lemma step_same alloc o (t : qmap) :
  q_step K V hash keq true trivial alloc o t = q_step K V hash keq false trivial alloc o t.
Proof.
  destruct o; cbn [q_step]; unfold q_find_obs, q_erase, q_find_index, q_rehash, q_shrink, q_set_mlf; cbv zeta;
    unfold q_rehash; rewrite ?emplace_same, ?search_same, ?rehash_same; auto.
Qed.

End Same.

Section Client.

Context {K V : Type} (hash : K -> N) (keq : K -> K -> bool) (LW : tame hash keq) (wide trivial : bool).

Notation qmap := (qmap K V).
Notation fine := (q_fine K V hash).
Notation built := (q_built K V hash keq wide trivial).
Notation hq := (hq (V := V) hash).

(** ** The map *)

Lemma q_map_lemma calls t m : (forall c, In c calls -> f_sane (fst c)) -> built t m ->
  q_agrees K V hash keq wide trivial fine (q_client K V hash keq) calls t m.
Proof. intros HA B. apply (agrees_spec hash keq LW); auto. now apply (built_inv hash keq LW wide trivial). Qed.

Lemma shorter_filter {A} (f : A -> bool) l : (length (filter f l) <= length l)%nat.
Proof. induction l as [|x l IH]; cbn [filter length]; [lia|]. destruct (f x); cbn [length]; lia. Qed.

Lemma few_fine (m : list (K * V)) : N.of_nat (length m) <= 129 -> fine m.
Proof.
  intros H b Hb Hl a n Ha H1 H2. unfold q_wanted.
  pose proof (shorter_filter (fun e : K * V => (hash (fst e) mod 2 ^ b + 2 ^ b - a) mod 2 ^ b <? n) m) as F.
  clear - F H H1. lia.
Qed.

Lemma agrees_weaken (f f' : list (K * V) -> Prop) (c c' : op K V -> qmap -> Prop) :
  (forall m, f' m -> f m) -> (forall o t, c' o t -> c o t) ->
  forall calls t m, q_agrees K V hash keq wide trivial f c calls t m ->
  q_agrees K V hash keq wide trivial f' c' calls t m.
Proof.
  intros Hf Hc. induction calls as [|[alloc o] calls IH]; intros t m; cbn [q_agrees]; auto.
  destruct (spec_step K V keq o m) as [m' r']. intros H H1 H2. specialize (H (Hc _ _ H1) (Hf _ H2)).
  destruct (q_step _ _ _ _ _ _ _ _ _); auto. destruct H. split; auto.
Qed.

Lemma q_few_lemma calls t m : (forall c, In c calls -> f_sane (fst c)) -> built t m ->
  q_agrees K V hash keq wide trivial (fun m => N.of_nat (length m) <= 129) (q_client K V hash keq) calls t m.
Proof.
  intros HA B. eapply agrees_weaken; [apply few_fine|intros o t' H; exact H|]. now apply q_map_lemma.
Qed.

(** Without erasing, with at least sixteen slots. *)
Lemma ins_cap fuel alloc (update : bool) k v t b A t' r : f_sane alloc -> good hash keq trivial b t A -> mlf_ok t ->
  16 <= 2 ^ b ->
  fine (fst (spec_step K V keq (if update then OAssign K V k v else OInsert K V k v) (ents A))) ->
  q_ins K V (q_emplace K V hash keq wide trivial (S fuel) alloc update k v t) = Ret t' r -> 16 <= q_cap _ _ t'.
Proof.
  intros HA X M HC HF3 E. destruct (has K V keq k (ents A)) eqn:EH.
  - destruct (emplace_old hash keq LW wide trivial alloc update t A b k v fuel X M (or_introl HC) EH)
      as (t1 & i & kv & A' & E1 & _ & X' & _ & _ & ES).
    rewrite E1 in E. cbn [q_ins obind] in E. unfold q_deref, q_read in E. rewrite ES in E. injection E as <- _.
    now rewrite (good_cap hash keq trivial _ _ _ X').
  - assert (EN : fst (spec_step K V keq (if update then OAssign K V k v else OInsert K V k v) (ents A)) = (k, v) :: ents A).
    { destruct update; cbn [spec_step fst]; unfold put, put_new; rewrite EH; reflexivity. }
    rewrite EN in HF3.
    destruct (emplace_new hash keq LW wide trivial alloc update t A b k v fuel HA X M (or_introl HC) EH HF3)
      as [(t1 & E1)|(t1 & i & b' & A' & E1 & X' & _ & _ & ES & LB)]; rewrite E1 in E; [discriminate|].
    cbn [q_ins obind] in E. unfold q_deref, q_read in E. rewrite ES in E. injection E as <- _.
    rewrite (good_cap hash keq trivial _ _ _ X'). pose proof (pow2_le b b' LB). lia.
Qed.

Lemma lift_state {A} (t : qmap) (f : A -> obs K V) x t' r : q_lift K V t f x = Ret t' r -> t' = t.
Proof. destruct x; cbn [q_lift]; congruence. Qed.

Lemma step_insert alloc k v t : q_step K V hash keq wide trivial alloc (OInsert K V k v) t
  = q_ins K V (q_emplace K V hash keq wide trivial 64 alloc false k v t).
Proof. reflexivity. Qed.

Lemma step_assign alloc k v t : q_step K V hash keq wide trivial alloc (OAssign K V k v) t
  = q_ins K V (q_emplace K V hash keq wide trivial 64 alloc true k v t).
Proof. reflexivity. Qed.

Lemma adds_cap alloc o t m t' r : f_sane alloc -> qinv hash keq trivial t m -> q_adds K V o ->
  fine (fst (spec_step K V keq o m)) -> 16 <= q_cap _ _ t ->
  q_step K V hash keq wide trivial alloc o t = Ret t' r -> 16 <= q_cap _ _ t'.
Proof.
  intros HA (M & HF & b & A & X & P) HO HF' HC E.
  destruct (spec_step_perm hash keq LW o (ents A) m P (g_dist _ _ _ _ _ _ X)) as [P1 _].
  pose proof (fine_perm hash _ _ (Permutation_sym P1) HF') as HF2. clear HF' P1.
  assert (HC' := HC). rewrite (good_cap hash keq trivial _ _ _ X) in HC'.
  destruct o; cbn [q_adds] in HO; try contradiction.
  - rewrite step_insert in E. exact (ins_cap 63 alloc false k v t b A t' r HA X M HC' HF2 E).
  - rewrite step_assign in E. exact (ins_cap 63 alloc true k v t b A t' r HA X M HC' HF2 E).
  - apply lift_state in E. subst t'. exact HC.
  - apply lift_state in E. subst t'. exact HC.
  - injection E as <- _. exact HC.
Qed.

Lemma adds_agrees : forall calls t m, (forall c, In c calls -> f_sane (fst c)) -> qinv hash keq trivial t m ->
  16 <= q_cap _ _ t ->
  q_agrees K V hash keq wide trivial fine (fun o _ => q_adds K V o) calls t m.
Proof.
  induction calls as [|[alloc o] calls IH]; intros t m HA I HC; cbn [q_agrees]; [exact Logic.I|].
  destruct (spec_step K V keq o m) as [m' r'] eqn:E. intros HO HF.
  pose proof (HA _ (or_introl eq_refl)) as HA1. cbn [fst] in HA1.
  assert (CL : q_client K V hash keq o t) by (destruct o; cbn in *; try contradiction; auto; now left).
  pose proof (step_spec hash keq LW wide trivial alloc o t m HA1 I CL) as F. rewrite E in F. specialize (F HF).
  pose proof (adds_cap alloc o t m) as G. rewrite E in G.
  destruct (q_step K V hash keq wide trivial alloc o t) as [t' r|t'|]; auto.
  unfold follows in F. rewrite E in F. destruct F as [F1 F2]. split; auto. apply IH; auto.
  - intros c Hc. apply HA. now right.
  - apply (G t' r); auto.
Qed.

Lemma q_adds_lemma calls alloc n t : (forall c, In c calls -> f_sane (fst c)) -> f_sane alloc ->
  9 <= n -> n <= 2 ^ 44 -> q_new K V alloc n = Ret t tt ->
  q_agrees K V hash keq wide trivial fine (fun o _ => q_adds K V o) calls t [].
Proof.
  intros HA HA0 Hn1 Hn E. apply adds_agrees; auto.
  - now apply (new_inv hash keq trivial alloc n).
  - destruct (new_spec (V := V) hash keq trivial alloc n HA0) as [(t' & E')|(t' & b & E' & X & _ & Hb)].
    + etransitivity; [exact Hn|]. apply pow2_le. lia.
    + congruence.
    + rewrite E in E'. injection E' as <-. rewrite (good_cap hash keq trivial _ _ _ X).
      destruct (b_cases b (g_b2 _ _ _ _ _ _ X)) as [[Q _]|[Q|Q]]; [auto| |]; rewrite Q in Hb |- *; lia.
Qed.

Lemma q_adds_few_lemma calls alloc n t : (forall c, In c calls -> f_sane (fst c)) -> f_sane alloc ->
  9 <= n -> n <= 2 ^ 44 -> q_new K V alloc n = Ret t tt ->
  q_agrees K V hash keq wide trivial (fun m => N.of_nat (length m) <= 129) (fun o _ => q_adds K V o) calls t [].
Proof.
  intros. eapply agrees_weaken; [apply few_fine|intros o t' G; exact G|]. eapply q_adds_lemma; eauto.
Qed.

(** ** Iteration, copies, destruction *)

Lemma q_traverse_lemma t m : built t m -> exists l, q_traverse K V wide t = Ok l /\ Permutation l m.
Proof.
  intros B. apply (built_inv hash keq LW) in B. destruct B as (M & HF & b & A & X & P). exists (ents A). split; auto.
  apply (traverse_spec hash wide trivial b); [apply (g_b2 _ _ _ _ _ _ X)|apply b50, (g_b44 _ _ _ _ _ _ X)|apply (g_st _ _ _ _ _ _ X)].
Qed.

Lemma q_copy_lemma alloc t m : f_sane alloc -> built t m ->
  match q_copy K V hash keq wide trivial alloc t with
  | Ret t' _ => q_size _ _ t' = N.of_nat (length m)
      /\ exists l, q_traverse K V wide t' = Ok l /\ Permutation l m
  | Throw _ => True
  | Fail _ => False
  end.
Proof.
  intros HA B. apply (built_inv hash keq LW) in B. destruct B as (M & HF & b & A & X & P).
  destruct (copy_spec hash keq LW wide trivial alloc b t A HA X (fine_perm hash _ _ (Permutation_sym P) HF))
    as [(t2 & ->)|(t2 & b2 & A2 & -> & X2 & M2 & P2)]; auto.
  split.
  - rewrite (g_size _ _ _ _ _ _ X2), (Permutation_length P2), (Permutation_length P). reflexivity.
  - exists (ents A2). split; [|now rewrite P2].
    apply (traverse_spec hash wide trivial b2); [apply (g_b2 _ _ _ _ _ _ X2)|apply b50, (g_b44 _ _ _ _ _ _ X2)|apply (g_st _ _ _ _ _ _ X2)].
Qed.

Lemma q_destroy_lemma t m : built t m -> q_destroy K V trivial t = Ok tt.
Proof.
  intros B. apply (built_inv hash keq LW) in B. destruct B as (M & HF & b & A & X & P).
  now apply (destroy_spec hash keq trivial b t A).
Qed.

(** ** Erasure *)

Lemma q_erase_exact_lemma t m k : built t m -> q_seen K V hash k t -> q_size _ _ t < q_cap _ _ t ->
  has K V keq k m = true ->
  (q_cut K V keq k t -> exists t', q_erase K V hash keq wide trivial k t = Ok (t', 1)
     /\ exists l, q_traverse K V wide t' = Ok l /\ Permutation l (remove K V keq k m))
  /\ (~ q_cut K V keq k t -> q_erase K V hash keq wide trivial k t = Err EUndef).
Proof.
  intros B Hs HZ Hh. apply (built_inv hash keq LW) in B. destruct B as (M & HF & b & A & X & P).
  apply (seen_spec hash keq trivial b t A k X) in Hs. rewrite <- (has_perm _ _ _ _ P) in Hh. split.
  - intros HC. destruct (erase_spec hash keq LW wide trivial b t A k X Hs HC) as (t' & A' & E & X' & _ & _ & P').
    unfold count in E. rewrite Hh in E. exists t'. split; auto. exists (ents A'). split.
    + apply (traverse_spec hash wide trivial b); [apply (g_b2 _ _ _ _ _ _ X')|apply b50, (g_b44 _ _ _ _ _ _ X')|apply (g_st _ _ _ _ _ _ X')].
    + rewrite P'. unfold remove. now apply filter_perm.
  - intros HC. unfold q_erase, q_find_index.
    destruct (look_spec hash keq LW wide trivial b t A k 2 X Hs (or_introl eq_refl))
      as [(i & d & kv & -> & Hi & Ha & Hsl & Hin & Hk)|(n & _ & _ & E)]; [cbn [rbind]|congruence].
    destruct (erase_slot_spec hash trivial b (g_b2 _ _ _ _ _ _ X) (b50 _ (g_b44 _ _ _ _ _ _ X)) t A i d kv (g_st _ _ _ _ _ _ X) Hi Ha)
      as [_ H2].
    assert (NC : ~ cut b (seti A i None) i d).
    { intros C. apply HC. intros i2 d2 x2 kv2 Hi2 Hc2 Hd2 Hs2 Hk2.
      pose proof (g_st _ _ _ _ _ _ X) as (G & W & SS & RG & LO).
      rewrite (good_cap hash keq trivial _ _ _ X) in Hi2 |- *.
      assert (i2 = i).
      { destruct (geti_lt A i2) as (o2 & Ho2); [rewrite (w_alen _ _ _ _ W); lia|].
        destruct (w_cell _ _ _ _ W _ _ Hi2 Ho2) as (c2 & E2 & Hw2). rewrite Hc2 in E2. injection E2 as <-.
        destruct o2 as [[d2' e2]|]; [|cbn in Hw2; lia].
        destruct (s_cell _ _ _ _ SS _ _ Hi2 Ho2) as (s2 & E3 & Hss2). cbn in Hss2. subst s2.
        rewrite Hs2 in E3. injection E3 as ->.
        destruct (N.eq_dec i2 i) as [|Hne]; auto. exfalso.
        (* two elements with equivalent keys *)
        pose proof (ents_take _ _ _ _ Ha) as T1.
        assert (Ho3 : geti (seti A i None) i2 = Some (Some (d2', e2))) by (rewrite geti_seti_neq; auto).
        pose proof (ents_take _ _ _ _ Ho3) as T2.
        assert (D : distinct_keys K V keq (kv :: e2 :: ents (seti (seti A i None) i2 None))).
        { eapply (distinct_perm hash keq LW); [|apply (g_dist _ _ _ _ _ _ X)]. rewrite T1. now rewrite T2. }
        destruct D as [D _]. rewrite has_false in D. specialize (D e2 (or_introl eq_refl)).
        rewrite <- (keq_subst hash keq LW _ _ _ Hk), (keq_sym_eq hash keq LW) in D. congruence. }
      subst i2. rewrite <- (good_cap hash keq trivial _ _ _ X) in *.
      rewrite (good_cap hash keq trivial _ _ _ X) in *.
      apply (cut_spec hash keq trivial b t A i d kv X Hi Ha). exact C. }
    destruct (N.eq_dec i 0) as [->|Hi0]; [|rewrite H2; auto; lia].
    exfalso. apply NC.
    (* there is a free cell *)
    pose proof (g_st _ _ _ _ _ _ X) as (G & W & SS & RG & LO).
    rewrite (good_cap hash keq trivial _ _ _ X), (g_size _ _ _ _ _ _ X) in HZ.
    destruct (elems_free A) as (z & Hz).
    { unfold ents in HZ. rewrite map_length in HZ. pose proof (w_alen _ _ _ _ W). lia. }
    assert (Hz' : z < 2 ^ b) by (rewrite <- (w_alen _ _ _ _ W); eapply geti_Some_lt; eauto).
    left. exists z. destruct (N.eq_dec z 0) as [->|Hz0]; [congruence|]. split; [lia|]. split; auto.
    rewrite geti_seti_neq by auto. now left.
Qed.

(** ** Structure *)

Lemma q_structure_lemma t m : built t m ->
  exists b, 2 <= b /\ b <= 44 /\ q_cap _ _ t = 2 ^ b /\ q_size _ _ t = N.of_nat (length m) /\ q_size _ _ t <= q_cap _ _ t
  /\ (forall i, i < q_cap _ _ t -> exists d x, geti (q_ctrls _ _ t) i = Some (d, x)
        /\ (d = 255 \/ (d <= 128 /\ exists kv, geti (q_slots _ _ t) i = Some (Some kv) /\ In kv m
             /\ (hash (fst kv) + d) mod q_cap _ _ t = i /\ x = q_tag K hash (fst kv)
             /\ (0 < d -> exists d0 x0, geti (q_ctrls _ _ t) ((i + (q_cap _ _ t - 1)) mod q_cap _ _ t) = Some (d0, x0)
                  /\ d0 <= 128 /\ d <= d0 + 1))))
  /\ (forall i, i < q_cap _ _ t -> i < 16 -> geti (q_ctrls _ _ t) (q_cap _ _ t + i) = geti (q_ctrls _ _ t) i).
Proof.
  intros B. apply (built_inv hash keq LW) in B. destruct B as (M & HF & b & A & X & P). exists b.
  pose proof (g_b2 _ _ _ _ _ _ X) as Hb2. pose proof (g_b44 _ _ _ _ _ _ X) as Hb44.
  pose proof (cap4 b Hb2 (b50 _ Hb44)) as C4.
  split; auto. split; auto. rewrite (good_cap hash keq trivial _ _ _ X). split; auto.
  pose proof (g_st _ _ _ _ _ _ X) as (G & W & SS & RG & LO).
  split; [rewrite (g_size _ _ _ _ _ _ X), (Permutation_length P); auto|].
  split; [rewrite (g_size _ _ _ _ _ _ X); apply (good_len hash keq trivial _ _ _ X)|].
  split; [|apply (w_mirror _ _ _ _ W)].
  intros i Hi. destruct (geti_lt A i) as (o & Ho); [rewrite (w_alen _ _ _ _ W); lia|].
  destruct (w_cell _ _ _ _ W _ _ Hi Ho) as ([d x] & Hc & Hw). exists d, x. split; auto.
  destruct o as [[d' kv]|]; [|now left]. right. cbn in Hw. destruct Hw as [_ E]. injection E as -> ->.
  destruct (LO _ _ _ Ho) as [L1 L2]. split; auto. exists kv.
  destruct (s_cell _ _ _ _ SS _ _ Hi Ho) as (s & Hs & Hss). cbn in Hss. subst s. split; auto. split.
  { eapply Permutation_in; [exact P|]. unfold ents. apply in_map_iff. exists (d', kv). split; auto. apply In_elems. eauto. }
  assert (Ha : at_ (2 ^ b) A i = Some (Some (d', kv))) by (now rewrite at_small).
  split.
  { pose proof (r_home _ _ _ RG i d' kv Ha) as H. rewrite (N.mod_small i) in H by auto. exact H. }
  split; auto. intros Hd.
  assert (Ha2 : at_ (2 ^ b) A (i + (2 ^ b - 1) + 1) = Some (Some (d', kv))).
  { rewrite <- Ha. apply at_cong. replace (i + (2 ^ b - 1) + 1) with (i + 2 ^ b) by lia. apply mod_up. lia. }
  destruct (r_order _ _ _ RG _ _ _ Ha2 Hd) as (d0 & e0 & H0 & HB0). unfold at_ in H0.
  assert (Hj : (i + (2 ^ b - 1)) mod 2 ^ b < 2 ^ b) by (apply N.mod_lt; lia).
  destruct (w_cell _ _ _ _ W _ _ Hj H0) as (c0 & Hc0 & _ & E0). subst c0.
  exists d0, (q_tag K hash (fst e0)). split; auto. split; auto. apply (LO _ _ _ H0).
Qed.

(** ** The length of a search *)

Lemma groups_more n1 : forall n2 (t : qmap) key tag home i d s, (n1 <= n2)%nat ->
  q_groups K V keq wide n1 t key tag home i d = Ok s -> q_groups K V keq wide n2 t key tag home i d = Ok s.
Proof.
  induction n1 as [|n1 IH]; intros n2 t key tag home i d s H; [discriminate|].
  destruct n2 as [|n2]; [lia|]. cbn [q_groups].
  destruct (q_group (q_ctrls _ _ t) i) as [g|]; [cbn [rbind]|discriminate].
  match goal with |- rbind ?x _ = _ -> _ => destruct x as [[j|]|] end; cbn [rbind]; try discriminate; auto.
  cbv zeta. match goal with |- (if ?x then _ else _) = _ -> _ => destruct x end; auto.
  match goal with |- (if ?x then _ else _) = _ -> _ => destruct x end; auto.
  apply IH. lia.
Qed.

Lemma q_probes_lemma t m k singles : built t m -> q_seen K V hash k t -> (singles = 2 \/ singles = 4)%nat ->
  rbind (q_singles K V keq singles t (Some k) (q_tag K hash k) (q_home K V hash t k) 0) (fun r =>
    match r with
    | inl s => Ok s
    | inr (i, d) => q_groups K V keq wide 8 t (Some k) (q_tag K hash k) (q_home K V hash t k) i d
    end) = q_search K V hash keq wide singles t (Some k) k.
Proof.
  intros B Hs Hn. apply (built_inv hash keq LW) in B. destruct B as (M & HF & b & A & X & P).
  apply (seen_spec hash keq trivial b t A k X) in Hs.
  pose proof (g_b2 _ _ _ _ _ _ X) as Hb2. pose proof (b50 _ (g_b44 _ _ _ _ _ _ X)) as Hb50.
  pose proof (g_st _ _ _ _ _ _ X) as (G & W & SS & RG & LO).
  unfold q_search. rewrite (geo_home hash b _ _ G).
  assert (P0 : passed hash keq b A k (Some k) 0) by (intros j Hj; lia).
  destruct (singles_spec hash keq LW trivial b Hb2 Hb50 t A G W SS k (Some k) (or_introl eq_refl)
    (fun _ => Hs) singles 0 P0) as (r & Er & Hr); [lia|].
  rewrite N.add_0_r, N.mod_mod in Er by (pose proof (cap4 b Hb2 Hb50); lia). rewrite Er. cbn [rbind].
  destruct r as [s|[i d]]; [reflexivity|]. destruct Hr as (Hd & -> & Pd).
  destruct (groups_spec hash keq LW wide trivial b Hb2 Hb50 t A G W SS LO k (Some k) (or_introl eq_refl)
    (fun _ => Hs) 8 d Pd) as (s & Es & _).
  - intros _. rewrite Hd. destruct Hn as [->| ->]; discriminate.
  - lia.
  - lia.
  - rewrite Es. symmetry. eapply groups_more; [|exact Es]. unfold q_fuel. lia.
Qed.

End Client.
