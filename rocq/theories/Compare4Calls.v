(** Calls on a robin16 map whatever its key equality answers. *)
From Coq Require Import NArith List Bool Lia Permutation ZifyBool ZifyNat ZifyN.
From Verif Require Import Base BaseFacts BitsModel GroupModel TableModel TableInv MapSpec MapFacts Flat16Spec
  Robin16Model Robin16Spec Robin16Ring Robin16Scan Robin16Facts Robin16Moves Robin16Ops Robin16Refine
  CompareModel CompareSpec CompareFacts Compare2Model Compare3Spec Compare4Model Compare4Spec Compare4Facts.
Import ListNotations.
Open Scope N_scope.

Section Calls.

Context {K V : Type} (hash : K -> N) (wide trivial : bool) (H64 : forall k, hash k < two64).

Notation never := (fun _ _ : K => false).
Notation qmap := (qmap K V).
Notation cells := (list (option (N * (K * V)))).
Notation tag k := (q_tag K hash k).
Notation good := (good hash never trivial).
Notation hq := (@hq K V hash).
Notation roomy b := (roomy hq (2 ^ b) 128).
Notation fine := (q_fine K V hash).
Notation look := (look_c_spec hash wide trivial H64).
Notation tame_never := (q_never_tame hash H64).

Section Cmp.

Context (cmp : comparison K).

Lemma denied_perm k (l l' : list (K * V)) : Permutation l l' -> all_denied hash cmp k l -> all_denied hash cmp k l'.
Proof. intros P H e He. apply H. eapply Permutation_in; [symmetry; exact P|exact He]. Qed.

(** ** find_or_prepare_insert *)

Definition prepared_c (b0 : N) (k : K) (l : list (K * V)) (r : out qmap (list K * looked (N * N * bool))) : Prop :=
  (exists t', r = Throw t')
  \/ exists t' b A' seen' x, r = Ret t' (seen', x)
       /\ good b t' A' /\ mlf_ok t' /\ Permutation (ents A') l /\ b0 <= b
       /\ match x with
          | Done (i, d, false) => exists n, i = (hash k mod 2 ^ b + n) mod 2 ^ b /\ d = n mod 2 ^ b
              /\ q_size _ _ t' < q_thr _ _ t' /\ stopat (2 ^ b) A' (hash k mod 2 ^ b) n
              /\ all_denied hash cmp k l
          | Done (i, _, true) => exists d kv, i < 2 ^ b /\ geti A' i = Some (Some (d, kv))
              /\ geti (q_slots _ _ t') i = Some (Some kv) /\ In kv (ents A') /\ said true cmp k (fst kv)
          | Escaped => exists kv s, In kv l /\ cmp s k (fst kv) = None
          end.

Lemma prepared_later b0 b1 k l l' r : b0 <= b1 -> Permutation l' l ->
  prepared_c b1 k l' r -> prepared_c b0 k l r.
Proof.
  intros HB P [H|(t & b & A & seen & x & E & X & M & P' & L & H)]; [now left|]. right.
  exists t, b, A, seen, x. split; auto. split; auto. split; auto. split; [now rewrite P'|]. split; [lia|].
  destruct x as [[[i d] [|]]|]; auto.
  - destruct H as (n & H1 & H2 & H3 & H4 & H5). exists n. repeat (split; [solve [auto]|]).
    now apply (denied_perm k l').
  - destruct H as (kv & s & H1 & H2). exists kv, s. split; auto. eapply Permutation_in; eauto.
Qed.

Lemma prepare_c_exact alloc k : f_sane alloc -> forall f fuel (t : qmap) A b seen, (f < fuel)%nat ->
  good b t A -> mlf_ok t -> 16 <= 2 ^ b \/ tag k <> 0 ->
  q_thr _ _ t = 2 ^ b * q_mlf _ _ t / 65536 ->
  8 * (q_size _ _ t + 1) <= 2 ^ b * 2 ^ N.of_nat f ->
  (forall b', b < b' -> roomy b' (ents A)) ->
  prepared_c b k (ents A) (q_prepare_c K V hash cmp wide trivial fuel alloc k seen t).
Proof.
  intros HA f. induction f as [|f IH]; intros fuel t A b seen Hf X M Hs HT HZ HB;
    (destruct fuel as [|fuel]; [lia|]); cbn [q_prepare_c];
    destruct (look cmp b t A k 4 seen X Hs (or_intror eq_refl)) as (n & s & l1 & l2 & _ & _ & _ & -> & HS);
    (destruct s as [[i|i d|]|];
     [ destruct HS as (d & kv & H1 & H2 & H3 & H4 & _ & H5); right; eexists t, b, A, _, _;
       (split; [reflexivity|]); (split; [exact X|]); (split; [exact M|]); (split; [reflexivity|]);
       (split; [lia|]); exists d, kv; auto 10
     | | contradiction
     | right; eexists t, b, A, _, _; (split; [reflexivity|]); (split; [exact X|]); (split; [exact M|]);
       (split; [reflexivity|]); (split; [lia|]); exact HS ]);
    destruct HS as (Ei & Ed & St & HD & _);
    unfold q_need_grow; destruct (N.leb_spec (q_thr _ _ t) (q_size _ _ t)) as [Hge|Hlt].
  - exfalso. rewrite HT in Hge. destruct M as [[M1 M2] _]. change (2 ^ N.of_nat 0) with 1 in HZ.
    rewrite N.mul_1_r in HZ.
    assert (Q : q_size _ _ t + 1 <= 2 ^ b * q_mlf _ _ t / 65536); [|lia].
    apply N.div_le_lower_bound; [lia|]. clear - HZ M1. nia.
  - right. eexists t, b, A, _, _. split; [reflexivity|]. split; auto. split; auto. split; auto. split; [lia|].
    exists n. auto.
  - clear Ei Ed St HD. destruct (grow_spec hash never tame_never wide trivial alloc t A b X M HA HB)
      as [(t' & E)|(t' & b' & A' & E & X' & M' & P & Hc & HT')]; unfold q_grow_c; rewrite E;
      cbn [obind]; [left; eauto|].
    assert (ES : q_size _ _ t' = q_size _ _ t).
    { rewrite (g_size _ _ _ _ _ _ X'), (g_size _ _ _ _ _ _ X). now rewrite (Permutation_length P). }
    assert (Hb : b < b').
    { apply (N.pow_lt_mono_r_iff 2 b b'); [lia|]. pose proof (pow2_pos b). lia. }
    apply (prepared_later b b' k (ents A) (ents A')); [lia|exact P|]. apply IH; auto.
    + lia.
    + destruct Hs as [Hs|Hs]; [left; lia|now right].
    + rewrite ES. etransitivity; [exact HZ|].
      replace (N.of_nat (S f)) with (N.succ (N.of_nat f)) by lia. rewrite N.pow_succ_r'.
      etransitivity; [|apply N.mul_le_mono_r, Hc]. lia.
    + intros b2 Hb2. apply (roomy_perm hash b2 _ (ents A)); [now symmetry|]. apply HB. lia.
  - right. eexists t, b, A, _, _. split; [reflexivity|]. split; auto. split; auto. split; auto. split; [lia|].
    exists n. auto.
Qed.

Lemma prepare_c_spec alloc k (t : qmap) A b fuel seen : f_sane alloc -> good b t A -> mlf_ok t ->
  16 <= 2 ^ b \/ tag k <> 0 -> (forall b', b < b' -> roomy b' (ents A)) -> (4 < fuel)%nat ->
  prepared_c b k (ents A) (q_prepare_c K V hash cmp wide trivial fuel alloc k seen t).
Proof.
  intros HA X M Hs HB Hf. destruct fuel as [|fuel]; [lia|]. cbn [q_prepare_c].
  destruct (look cmp b t A k 4 seen X Hs (or_intror eq_refl)) as (n & s & l1 & l2 & _ & _ & _ & -> & HS).
  destruct s as [[i|i d|]|]; [| |contradiction|].
  - destruct HS as (d & kv & H1 & H2 & H3 & H4 & _ & H5). right. eexists t, b, A, _, _.
    split; [reflexivity|]. split; [exact X|]. split; [exact M|]. split; [reflexivity|]. split; [lia|]. exists d, kv. auto 10.
  - destruct HS as (Ei & Ed & St & HD & _).
    unfold q_need_grow. destruct (N.leb_spec (q_thr _ _ t) (q_size _ _ t)) as [Hge|Hlt].
    2:{ right. eexists t, b, A, _, _. split; [reflexivity|]. split; auto. split; auto. split; auto. split; [lia|].
        exists n. auto. }
    clear Ei Ed St HD. destruct (grow_spec hash never tame_never wide trivial alloc t A b X M HA HB)
      as [(t' & E)|(t' & b' & A' & E & X' & M' & P & Hc & HT')]; unfold q_grow_c; rewrite E;
      cbn [obind]; [left; eauto|].
    assert (Hb : b < b').
    { apply (N.pow_lt_mono_r_iff 2 b b'); [lia|]. pose proof (pow2_pos b). lia. }
    apply (prepared_later b b' k (ents A) (ents A')); [lia|exact P|].
    apply (prepare_c_exact alloc k HA 3); auto.
    + lia.
    + destruct Hs as [Hs|Hs]; [left; lia|now right].
    + rewrite (g_size _ _ _ _ _ _ X'), (Permutation_length P). pose proof (good_len hash never trivial _ _ _ X).
      pose proof (cap4 b (g_b2 _ _ _ _ _ _ X) (b50 _ (g_b44 _ _ _ _ _ _ X))). change (2 ^ N.of_nat 3) with 8. lia.
    + intros b2 Hb2. apply (roomy_perm hash b2 _ (ents A)); [now symmetry|]. apply HB. lia.
  - right. eexists t, b, A, _, _. split; [reflexivity|]. split; [exact X|]. split; [exact M|].
    split; [reflexivity|]. split; [lia|]. exact HS.
Qed.

(** ** One call *)

Definition followed (o : op K V) (t : qmap) (m : list (K * V)) (r : out qmap (option (obs K V))) : Prop :=
  (exists t', r = Throw t')
  \/ exists t' x b' A', r = Ret t' x /\ good b' t' A' /\ mlf_ok t' /\
      match x with
      | Some x => exists m', bag_step hash cmp o m x m' /\ Permutation (ents A') m'
      | None => Permutation (ents A') m /\ (adding o \/ t' = t)
          /\ exists k e seen, concerns o k /\ In e m /\ cmp seen k (fst e) = None
      end.

Lemma insert_followed (update : bool) alloc t A b k v fuel : f_sane alloc -> good b t A -> mlf_ok t ->
  16 <= 2 ^ b \/ tag k <> 0 -> fine ((k, v) :: ents A) ->
  followed (if update then OAssign K V k v else OInsert K V k v) t (ents A)
    (q_ins_c K V (q_emplace_c K V hash cmp wide trivial (S fuel) alloc update k v [] t)).
Proof.
  intros HA X M Hs HF. cbn [q_emplace_c].
  destruct (prepare_c_spec alloc k t A b 64 [] HA X M Hs)
    as [(t' & ->)|(t1 & b1 & A1 & seen' & x & -> & X1 & M1 & P1 & LB & HX)].
  - intros b' Hb'. apply (roomy_tail hash b' [(k, v)]). refine (HF b' _ _).
    + pose proof (g_b2 _ _ _ _ _ _ X). lia.
    + cbn [length]. pose proof (good_len hash never trivial _ _ _ X).
      assert (2 ^ b < 2 ^ b') by (apply N.pow_lt_mono_r; lia). lia.
  - lia.
  - left. unfold q_ins_c, q_obs_c. cbn [obind]. eauto.
  - right. unfold q_ins_c, q_obs_c. cbn [obind]. destruct x as [[[i d] [|]]|].
    + destruct HX as (d' & kv & Hi & Ha & Hsl & Hin & Hsd). unfold q_read at 1. rewrite Hsl. destruct update.
      * destruct (good_put hash never trivial b1 t1 A1 i d' kv v X1 Hi Ha) as (G & la & lb & E1 & E2).
        cbn [obind]. unfold q_deref, q_read. cbn [q_slots q_with]. rewrite geti_seti_eq by (eapply geti_Some_lt; eauto).
        cbn [rbind]. eexists _, _, b1, _. split; [reflexivity|]. split; [exact G|]. split; [exact M1|].
        exists ((fst kv, v) :: la ++ lb). rewrite E2. split; [|symmetry; apply Permutation_middle].
        cbn [bag_step]. left. exists kv, (la ++ lb). split; [|auto]. rewrite E1 in P1. etransitivity; [symmetry; exact P1|]. symmetry. apply Permutation_middle.
      * cbn [obind]. unfold q_deref, q_read. rewrite Hsl. cbn [rbind]. eexists _, _, b1, A1. split; [reflexivity|].
        split; [exact X1|]. split; [exact M1|]. exists (ents A). split; auto. cbn [bag_step]. left. exists kv.
        split; auto. eapply Permutation_in; eauto.
    + destruct HX as (n & -> & -> & T1 & St & HD).
      assert (HL : N.of_nat (length (ents A1)) < 2 ^ b1).
      { rewrite <- (g_size _ _ _ _ _ _ X1). pose proof (g_thr _ _ _ _ _ _ X1). lia. }
      destruct (insert_at_spec hash trivial b1 (g_b2 _ _ _ _ _ _ X1) (b50 _ (g_b44 _ _ _ _ _ _ X1)) false t1 A1 (hash k mod 2 ^ b1) n (k, v))
        as (C & S & A' & E1 & E2 & E3 & E4); auto.
      * apply (g_st _ _ _ _ _ _ X1).
      * apply N.mod_lt. apply N.pow_nonzero. lia.
      * apply (roomy_perm hash b1 _ ((k, v) :: ents A)); [constructor; now symmetry|]. refine (HF b1 _ _).
        -- apply (g_b2 _ _ _ _ _ _ X1).
        -- cbn [length]. rewrite (Permutation_length P1) in HL. lia.
      * rewrite E1. cbn [obind]. unfold q_deref, q_read. cbn [q_slots q_with]. rewrite E2. cbn [rbind].
        eexists _, _, b1, A'. split; [reflexivity|]. split; [|split; [exact M1|]].
        -- apply (good_insert hash never tame_never trivial b1 t1 A1 C S A' (k, v)); auto. now apply has_false.
        -- exists ((k, v) :: ents A). split; [destruct update; cbn [bag_step]; right; auto|].
           rewrite E4. now constructor.
    + destruct HX as (kv & s & H1 & H2). eexists _, _, b1, A1. split; [reflexivity|]. split; [exact X1|].
      split; [exact M1|]. split; auto. split; [left; destruct update; exact I|].
      exists k, kv, s. destruct update; cbn [concerns]; auto.
Qed.

Lemma step_c_followed alloc o t A b : f_sane alloc -> good b t A -> mlf_ok t ->
  q_client K V hash (same_byte hash) o t -> fine (at_most o (ents A)) ->
  followed o t (ents A) (q_step_c K V hash cmp wide trivial alloc o t).
Proof.
  intros HA X M HC HF.
  assert (OTHER : (forall m, bag_step hash cmp o m (snd (spec_step K V never o m)) (fst (spec_step K V never o m))) ->
    (forall m : list (K * V), fst (spec_step K V never o m) = m \/ fst (spec_step K V never o m) = []) ->
    fine (ents A) -> q_client K V hash never o t ->
    followed o t (ents A) (obind (q_step K V hash never wide trivial alloc o t) (fun t' r => Ret t' (Some r)))).
  { intros HB HX HF1 HC1.
    assert (HF2 : fine (fst (spec_step K V never o (ents A)))).
    { destruct (HX (ents A)) as [->| ->]; auto. apply fine_nil. }
    pose proof (step_ents hash never tame_never wide trivial alloc o t b A HA X M HF1 HC1 HF2) as H. unfold follows in H.
    destruct (q_step K V hash never wide trivial alloc o t) as [t' x|t'|e]; cbn [obind]; [|left; eauto|contradiction].
    destruct H as (-> & M' & _ & b' & A' & X' & P). right. eexists _, _, b', A'. split; [reflexivity|]. split; auto. split; auto.
    eexists. split; [apply HB|exact P]. }
  destruct o as [k v|k v|k|k|k| |need|n|n|ro|x]; cbn [q_step_c]; cbn [at_most] in HF; cbn [q_client] in HC;
    try (apply OTHER; auto; intros m; cbn; auto; fail).
  - apply (insert_followed false alloc t A b k v 63); auto. now apply (seen_spec hash never trivial b t A).
  - apply (insert_followed true alloc t A b k v 63); auto. now apply (seen_spec hash never trivial b t A).
  - destruct HC as [Hs HC]. apply (seen_spec hash never trivial b t A k X) in Hs. unfold q_erase_c.
    destruct (look cmp b t A k 2 [] X Hs (or_introl eq_refl)) as (n & s & l1 & l2 & _ & _ & _ & -> & HS).
    right. destruct s as [[i|i d|]|]; unfold q_obs_c.
    + destruct HS as (d & kv & Hi & Ha & Hsl & Hin & Ht & Hsd).
      pose proof (g_st _ _ _ _ _ _ X) as (G & W & SS & RG & LO).
      destruct (w_cell _ _ _ _ W _ _ Hi Ha) as (c & Hc & Hw & Ec). subst c.
      destruct (HC i d (tag (fst kv)) kv) as (j & d' & x' & J1 & J2 & J3 & J4); auto.
      { now rewrite (good_cap hash never trivial _ _ _ X). }
      { unfold same_byte. now apply N.eqb_eq. }
      rewrite (good_cap hash never trivial _ _ _ X) in J2, J3.
      destruct (erase_slot_spec hash trivial b (g_b2 _ _ _ _ _ _ X) (b50 _ (g_b44 _ _ _ _ _ _ X)) t A i d kv (g_st _ _ _ _ _ _ X) Hi Ha)
        as [H1 _].
      destruct H1 as (C & S & A' & E1 & E2 & E3).
      { apply (cut_spec hash never trivial b t A i d kv X Hi Ha). eauto 10. }
      rewrite E1. cbn [obind]. eexists _, _, b, A'. split; [reflexivity|].
      split; [eapply (good_erase hash never tame_never); eauto|]. split; [exact M|].
      exists (ents A'). split; auto. cbn [bag_step]. left. exists kv. auto.
    + destruct HS as (_ & _ & _ & HD & _). cbn [obind]. eexists _, _, b, A. split; [reflexivity|].
      split; [exact X|]. split; [exact M|]. exists (ents A). split; auto. cbn [bag_step]. right. auto.
    + contradiction.
    + destruct HS as (kv & s & H1 & H2). cbn [obind]. eexists _, _, b, A. split; [reflexivity|].
      split; [exact X|]. split; [exact M|]. split; auto. split; auto. exists k, kv, s. cbn [concerns]. auto.
  - apply (seen_spec hash never trivial b t A k X) in HC. unfold q_lookup_c.
    destruct (look cmp b t A k 2 [] X HC (or_introl eq_refl)) as (n & s & l1 & l2 & _ & _ & _ & -> & HS).
    right. destruct s as [[i|i d|]|]; unfold q_obs_c.
    + destruct HS as (d & kv & Hi & Ha & Hsl & Hin & Ht & Hsd). unfold q_deref, q_read. rewrite Hsl. cbn [obind].
      eexists _, _, b, A. split; [reflexivity|]. split; [exact X|]. split; [exact M|].
      exists (ents A). split; auto. cbn [bag_step]. split; auto. left. exists kv. auto.
    + destruct HS as (_ & _ & _ & HD & _). cbn [obind]. eexists _, _, b, A. split; [reflexivity|].
      split; [exact X|]. split; [exact M|]. exists (ents A). split; auto. cbn [bag_step]. auto.
    + contradiction.
    + destruct HS as (kv & s & H1 & H2). cbn [obind]. eexists _, _, b, A. split; [reflexivity|].
      split; [exact X|]. split; [exact M|]. split; auto. split; auto. exists k, kv, s. cbn [concerns]. auto.
  - apply (seen_spec hash never trivial b t A k X) in HC. unfold q_lookup_c.
    destruct (look cmp b t A k 2 [] X HC (or_introl eq_refl)) as (n & s & l1 & l2 & _ & _ & _ & -> & HS).
    right. destruct s as [[i|i d|]|]; unfold q_obs_c.
    + destruct HS as (d & kv & Hi & Ha & Hsl & Hin & Ht & Hsd). unfold q_deref, q_read. rewrite Hsl. cbn [obind].
      eexists _, _, b, A. split; [reflexivity|]. split; [exact X|]. split; [exact M|].
      exists (ents A). split; auto. cbn [bag_step]. split; auto. left. exists kv. auto.
    + destruct HS as (_ & _ & _ & HD & _). cbn [obind]. eexists _, _, b, A. split; [reflexivity|].
      split; [exact X|]. split; [exact M|]. exists (ents A). split; auto. cbn [bag_step]. auto.
    + contradiction.
    + destruct HS as (kv & s & H1 & H2). cbn [obind]. eexists _, _, b, A. split; [reflexivity|].
      split; [exact X|]. split; [exact M|]. split; auto. split; auto. exists k, kv, s. cbn [concerns]. auto.
Qed.

(** ** Every element is compared once *)

Lemma ring_inj c h i j : 0 < c -> i < c -> j < c -> (h + i) mod c = (h + j) mod c -> i = j.
Proof.
  intros Hc Hi Hj H. pose proof (N.div_mod (h + i) c ltac:(lia)). pose proof (N.div_mod (h + j) c ltac:(lia)).
  assert ((h + i) / c = (h + j) / c); [|nia]. nia.
Qed.

Lemma positions_seg b (A : cells) k n : n <= 2 ^ b -> 2 <= b ->
  NoDup (map fst (seg hash b A k 0 n)).
Proof.
  intros Hn Hb2. assert (H0 : 2 ^ b <> 0) by (apply N.pow_nonzero; lia).
  assert (D : NoDup (seqN n)) by apply seqN_NoDup.
  unfold seg. rewrite N.sub_0_r.
  assert (B : forall j, In j (seqN n) -> j < n) by (intros j Hj; now apply seqN_In in Hj).
  revert B. induction D as [|j l Hj D IH]; intros B; cbn [flat_map map]; [constructor|].
  rewrite map_app. assert (IH' := IH (fun j H => B j (or_intror H))).
  unfold cell at 1. destruct (at_ (2 ^ b) A _) as [[[d e]|]|]; cbn [map app]; auto.
  destruct (tag (fst e) =? tag k); cbn [map app fst]; auto. constructor; auto.
  intros HI. apply in_map_iff in HI. destruct HI as ([i kv] & Ei & HI). cbn [fst] in Ei.
  apply in_flat_map in HI. destruct HI as (j' & Hj' & HI). unfold cell in HI.
  destruct (at_ (2 ^ b) A _) as [[[d' e']|]|]; try contradiction.
  destruct (tag (fst e') =? tag k); [|contradiction]. destruct HI as [HI|[]]. injection HI as <- <-.
  apply Hj. replace j with j'; auto.
  pose proof (B j (or_introl eq_refl)) as B1. pose proof (B j' (or_intror Hj')) as B2.
  rewrite !N.add_0_l in Ei. apply (ring_inj (2 ^ b)) in Ei; lia.
Qed.

Lemma length_seg b (A : cells) k n : N.of_nat (length (seg hash b A k 0 n)) <= n.
Proof.
  unfold seg. rewrite N.sub_0_r. transitivity (N.of_nat (length (seqN n))).
  2:{ rewrite seqN_length. lia. }
  induction (seqN n) as [|j l IH]; cbn [flat_map length]; [lia|]. rewrite app_length.
  assert (length (cell hash b A k (0 + j)) <= 1)%nat; [|lia].
  unfold cell. destruct (at_ (2 ^ b) A _) as [[[d e]|]|]; cbn [length]; try lia.
  destruct (tag (fst e) =? tag k); cbn [length]; lia.
Qed.

Lemma geti_map {B C} (f : B -> C) l i : geti (map f l) i = option_map f (geti l i).
Proof. apply nth_error_map. Qed.

Lemma ents_slots (A : cells) : elems (map (option_map snd) A) = ents A.
Proof.
  unfold ents. induction A as [|[x|] A IH]; [reflexivity| |]; cbn [map option_map elems flat_map app opt_list] in *;
    [f_equal|]; exact IH.
Qed.

Lemma search_c_once b t A k singles compared r : good b t A -> 16 <= 2 ^ b \/ tag k <> 0 ->
  (singles = 2 \/ singles = 4)%nat ->
  q_search_c K V hash cmp wide singles t k [] = Ok (compared, r) ->
  (exists rest, Permutation (compared ++ rest) (map fst (ents A)))
  /\ N.of_nat (length compared) <= 129 /\ N.of_nat (length compared) <= q_size _ _ t
  /\ Forall (fun k' => tag k' = tag k) compared.
Proof.
  intros X Hs Hn E. destruct (look cmp b t A k singles [] X Hs Hn) as (n & s & l1 & l2 & EL & B1 & B2 & E' & _).
  rewrite E in E'. injection E' as -> <-. rewrite app_nil_r.
  pose proof (g_b2 _ _ _ _ _ _ X) as Hb2.
  assert (IN : forall i kv, In (i, kv) l1 -> (exists d, geti A i = Some (Some (d, kv))) /\ tag (fst kv) = tag k).
  { intros i kv H. assert (H' : In (i, kv) (seg hash b A k 0 n)) by (rewrite EL; apply in_or_app; auto).
    apply In_seg in H'. destruct H' as (j & d & _ & Ha & -> & HT). split; eauto. }
  assert (PP : exists rest, Permutation (rev (map (fun x => fst (snd x)) l1) ++ rest) (map fst (ents A))).
  { destruct (part_of (map fst l1) (map (option_map snd) A) (map (fun x => fst (snd x)) l1)) as (rest & P).
    - pose proof (positions_seg b A k n B2 Hb2) as ND. rewrite EL, map_app in ND.
      clear - ND. induction (map fst l1) as [|x l IH]; [constructor|]. cbn [app] in ND. inversion ND; subst.
      constructor; [intros HI; apply H1; apply in_or_app; auto|auto].
    - clear - IN. induction l1 as [|[i [k' v]] l1 IH]; cbn [map fst snd]; constructor.
      + destruct (IN i (k', v) (or_introl eq_refl)) as [(d & Hd) _]. exists v.
        rewrite geti_map, Hd. reflexivity.
      + apply IH. intros j kv H. apply IN. now right.
    - exists rest. rewrite ents_slots in P. rewrite <- P. apply Permutation_app_tail. symmetry. apply Permutation_rev. }
  split; [exact PP|]. rewrite rev_length, map_length. split; [|split].
  - pose proof (length_seg b A k n) as HL. rewrite EL, app_length in HL. lia.
  - rewrite (g_size _ _ _ _ _ _ X). destruct PP as (rest & P). apply Permutation_length in P.
    rewrite app_length, rev_length, !map_length in P. lia.
  - apply Forall_rev. rewrite Forall_forall. intros k' H. apply in_map_iff in H. destruct H as ([i kv] & <- & H).
    now apply (IN i kv H).
Qed.

End Cmp.

(** ** Runs *)

Lemma q_traverse_ents b t A : good b t A -> q_traverse K V wide t = Ok (ents A).
Proof.
  intros X. apply (traverse_spec hash wide trivial b);
    [apply (g_b2 _ _ _ _ _ _ X)|apply b50, (g_b44 _ _ _ _ _ _ X)|apply (g_st _ _ _ _ _ _ X)].
Qed.

Lemma q_run_c_bag (calls : list (@q_call_c K V)) : forall t A b, good b t A -> mlf_ok t ->
  Forall (fun c => f_sane (fst (fst c))) calls -> q_obeys_c hash wide trivial calls t ->
  match q_run_c hash wide trivial calls t with
  | Ret t' outs => exists b' A', good b' t' A' /\ mlf_ok t' /\ bag_run hash calls outs (ents A) (ents A')
  | Throw _ => True
  | Fail _ => False
  end.
Proof.
  induction calls as [|[[alloc cmp] o] calls IH]; intros t A b X M HA Ho; cbn [q_run_c].
  - exists b, A. split; auto. split; auto. constructor. reflexivity.
  - inversion HA as [|? ? HA1 HA2]; subst. cbn [fst] in HA1. cbn [q_obeys_c] in Ho.
    destruct Ho as [(Ho1 & m & Em & Hm) Ho2].
    rewrite (q_traverse_ents b t A X) in Em. injection Em as <-.
    destruct (step_c_followed cmp alloc o t A b HA1 X M Ho1 Hm) as [(t' & E)|(t' & x & b' & A' & E & X' & M' & HX)];
      rewrite E in *; cbn [obind]; auto.
    pose proof (IH t' A' b' X' M' HA2 Ho2) as H.
    destruct (q_run_c hash wide trivial calls t') as [t2 outs|t2|e]; cbn [obind]; auto.
    destruct H as (b2 & A2 & X2 & M2 & H2). exists b2, A2. split; auto. split; auto. destruct x as [x|].
    + destruct HX as (m & Hb & HP). econstructor; eauto. eapply bag_run_perm; eauto.
    + destruct HX as [HP _]. constructor. eapply bag_run_perm; eauto.
Qed.

Lemma q_new_good alloc n t : f_sane alloc -> n <= 2 ^ 44 -> q_new K V alloc n = Ret t tt ->
  exists b A, good b t A /\ mlf_ok t /\ ents A = [].
Proof.
  intros HA Hn E. destruct (new_inv hash never trivial alloc n t HA Hn E) as (M & _ & b & A & X & P).
  exists b, A. split; auto. split; auto. now apply Permutation_nil, Permutation_sym.
Qed.

Lemma q_reached_good (t : qmap) : q_reached_c hash wide trivial t -> exists b A, good b t A /\ mlf_ok t.
Proof.
  intros (alloc & n & t0 & calls & outs & HA & Hn & E & HS & Ho & ER).
  destruct (q_new_good alloc n t0 HA Hn E) as (b & A & X & M & _).
  pose proof (q_run_c_bag calls t0 A b X M HS Ho) as H. rewrite ER in H.
  destruct H as (b' & A' & X' & M' & _). eauto.
Qed.

(** ** The properties *)

Lemma robin16_is_a_bag alloc n t0 (calls : list (@q_call_c K V)) :
  f_sane alloc -> n <= 2 ^ 44 -> q_new K V alloc n = Ret t0 tt ->
  Forall (fun c => f_sane (fst (fst c))) calls -> q_obeys_c hash wide trivial calls t0 ->
  match q_run_c hash wide trivial calls t0 with
  | Ret t outs => exists l, q_traverse K V wide t = Ok l /\ bag_run hash calls outs [] l
                   /\ q_size _ _ t = N.of_nat (length l)
  | Throw _ => True
  | Fail _ => False
  end.
Proof.
  intros HA Hn E HS Ho. destruct (q_new_good alloc n t0 HA Hn E) as (b & A & X & M & E0).
  pose proof (q_run_c_bag calls t0 A b X M HS Ho) as H.
  destruct (q_run_c hash wide trivial calls t0) as [t outs|t|e]; auto.
  destruct H as (b' & A' & X' & _ & HB). rewrite E0 in HB. exists (ents A').
  split; [now apply (q_traverse_ents b')|]. split; auto. apply (g_size _ _ _ _ _ _ X').
Qed.

Lemma robin16_escapes (t : qmap) : q_reached_c hash wide trivial t ->
  forall alloc cmp o t', f_sane alloc -> q_client_c hash wide o t ->
  q_step_c K V hash cmp wide trivial alloc o t = Ret t' None ->
  exists l l' k e seen, q_traverse K V wide t = Ok l /\ q_traverse K V wide t' = Ok l' /\ Permutation l l'
    /\ q_size _ _ t' = q_size _ _ t
    /\ concerns o k /\ In e l /\ cmp seen k (fst e) = None
    /\ (adding o \/ t' = t).
Proof.
  intros R alloc cmp o t' HA (HC & m & Em & Hm) E. destruct (q_reached_good t R) as (b & A & X & M).
  rewrite (q_traverse_ents b t A X) in Em. injection Em as <-.
  destruct (step_c_followed cmp alloc o t A b HA X M HC Hm) as [(t2 & E2)|(t2 & x & b' & A' & E2 & X' & M' & HX)];
    rewrite E in E2; [discriminate|]. injection E2 as <- <-.
  destruct HX as (P & H1 & k & e & seen & H2 & H3 & H4). exists (ents A), (ents A'), k, e, seen.
  split; [now apply (q_traverse_ents b)|]. split; [now apply (q_traverse_ents b')|]. split; [now symmetry|].
  split; [|auto]. rewrite (g_size _ _ _ _ _ _ X), (g_size _ _ _ _ _ _ X'). now rewrite (Permutation_length P).
Qed.

Lemma robin16_compared_once (t : qmap) : q_reached_c hash wide trivial t ->
  forall cmp k singles, (singles = 2 \/ singles = 4)%nat -> q_seen K V hash k t ->
  exists compared r m rest, q_search_c K V hash cmp wide singles t k [] = Ok (compared, r)
    /\ q_traverse K V wide t = Ok m /\ Permutation (compared ++ rest) (map fst m)
    /\ N.of_nat (length compared) <= 129
    /\ Forall (fun k' => tag k' = tag k) compared.
Proof.
  intros R cmp k singles Hn Hs. destruct (q_reached_good t R) as (b & A & X & M).
  apply (seen_spec hash never trivial b t A k X) in Hs.
  destruct (look cmp b t A k singles [] X Hs Hn) as (n & s & l1 & l2 & _ & _ & _ & E & _).
  destruct (search_c_once cmp b t A k singles _ _ X Hs Hn E) as ((rest & P) & H1 & _ & H3).
  eexists _, _, (ents A), rest. split; [exact E|]. split; [now apply (q_traverse_ents b)|]. auto.
Qed.

End Calls.
