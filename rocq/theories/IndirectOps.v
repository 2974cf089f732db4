(** The indirect layout of the robin hood map: the invariant of the map; search,
    insertion, deletion and creation. *)
From Coq Require Import NArith ZArith List Bool Lia Permutation.
From Coq Require Import ZifyBool ZifyNat ZifyN.
From Verif Require Import Base BaseFacts BitsModel BitsFacts GroupModel HashModel TableModel TableInv
  MapSpec MapFacts FallbackFacts ReachModel RobinModel RobinSpec RobinFacts RobinOps
  IndirectModel IndirectSpec IndirectFacts.
Import ListNotations.
Open Scope N_scope.
Ltac Zify.zify_post_hook ::= Z.div_mod_to_equations.

Ltac icbn := unfold i_with; cbn [i_alloc i_ctrls i_slots i_last i_size i_mask i_lookups i_thr i_mlf i_rev].

(** ** Spread depends on the keys only *)

Lemma homes_fst {K V} (hash : K -> N) cap a n (m : list (K * V)) :
  homes_in K V hash cap a n m
  = N.of_nat (length (filter (fun k => (a <=? hash k mod cap) && (hash k mod cap <? a + n)) (map fst m))).
Proof.
  unfold homes_in. f_equal. induction m as [|e m IH]; [reflexivity|]. cbn [map filter].
  cbv zeta in *. destruct (_ && _); cbn [length]; lia.
Qed.

Lemma spread_fst {K V1 V2} (hash : K -> N) cap (l1 : list (K * V1)) (l2 : list (K * V2)) :
  Permutation (map fst l1) (map fst l2) -> spread K V1 hash cap l1 -> spread K V2 hash cap l2.
Proof.
  intros P H a n Hn. rewrite homes_fst. rewrite <- (Permutation_length (filter_perm _ _ _ P)).
  rewrite <- homes_fst. now apply H.
Qed.

(** ** Elements stored one after another *)

Section Dense.

Context {K V : Type}.

Notation slots := (list (option (K * V))).

Fixpoint numd (a : N) (l : list (K * V)) : list (K * N) :=
  match l with
  | [] => []
  | e :: l' => (fst e, a) :: numd (a + 1) l'
  end.

Lemma numd_app l l' : forall a, numd a (l ++ l') = numd a l ++ numd (a + N.of_nat (length l)) l'.
Proof.
  induction l as [|e l IH]; intros a; cbn [app numd length].
  - f_equal. lia.
  - rewrite IH. do 3 f_equal. lia.
Qed.

Lemma numd_fst l : forall a, map fst (numd a l) = map fst l.
Proof. induction l as [|e l IH]; intros a; cbn; [reflexivity|]. now rewrite IH. Qed.

Lemma numd_length l : forall a, length (numd a l) = length l.
Proof. induction l as [|e l IH]; intros a; cbn; [reflexivity|]. now rewrite IH. Qed.

Lemma numd_In l : forall a k n, In (k, n) (numd a l) ->
  a <= n < a + N.of_nat (length l) /\ exists v, geti l (n - a) = Some (k, v).
Proof.
  induction l as [|[k0 v0] l IH]; intros a k n; cbn [numd fst]; [intros []|].
  intros [E|H].
  - injection E as <- <-. cbn [length]. split; [lia|]. exists v0. now rewrite N.sub_diag.
  - destruct (IH _ _ _ H) as (H1 & v & H2). cbn [length]. split; [lia|]. exists v.
    unfold geti in *. replace (N.to_nat (n - a)) with (S (N.to_nat (n - (a + 1)))) by lia. exact H2.
Qed.

Lemma numd_NoDup l : forall a, NoDup (map snd (numd a l)).
Proof.
  induction l as [|e l IH]; intros a; cbn; constructor; auto.
  intros H. apply in_map_iff in H. destruct H as ([k n] & E & H). cbn in E. subst.
  apply numd_In in H. lia.
Qed.

Definition dense (M : N) (l : list (K * V)) : slots :=
  map Some l ++ repeat None (N.to_nat M - length l).

Lemma elems_map_Some (l : list (K * V)) : elems (map Some l) = l.
Proof. induction l as [|e l IH]; cbn; [reflexivity|]. unfold elems in IH. now rewrite IH. Qed.

Lemma dense_elems M l : elems (dense M l) = l.
Proof. unfold dense. rewrite elems_app, elems_map_Some, elems_none. apply app_nil_r. Qed.

Lemma dense_length M l : N.of_nat (length l) <= M -> N.of_nat (length (dense M l)) = M.
Proof. intros H. unfold dense. rewrite app_length, map_length, repeat_length. lia. Qed.

Lemma dense_lt M l i : i < N.of_nat (length l) -> geti (dense M l) i = option_map Some (geti l i).
Proof. intros H. unfold dense. rewrite geti_app_l by (rewrite map_length; lia). apply geti_map. Qed.

Lemma dense_ge M l i : N.of_nat (length l) <= i -> i < M -> geti (dense M l) i = Some None.
Proof.
  intros H1 H2. unfold dense.
  replace i with (N.of_nat (length (map Some l)) + (i - N.of_nat (length l))) by (rewrite map_length; lia).
  rewrite geti_app_r. apply geti_repeat. lia.
Qed.

Lemma dense_geti M l i kv : geti (dense M l) i = Some (Some kv) <-> geti l i = Some kv.
Proof.
  destruct (N.lt_ge_cases i (N.of_nat (length l))) as [H|H].
  - rewrite dense_lt by auto. destruct (geti_lt l i H) as [e E]. rewrite E. cbn. split; congruence.
  - rewrite (geti_ge l) by auto. split; [|discriminate]. intros E.
    pose proof (geti_Some_lt _ _ _ E) as HL. destruct (N.lt_ge_cases i M) as [HM|HM].
    + rewrite dense_ge in E by auto. discriminate.
    + unfold dense in HL. rewrite app_length, map_length, repeat_length in HL. lia.
Qed.

Lemma seti_app_eq {A} (l l' : list A) i x : i = N.of_nat (length l) ->
  seti (l ++ l') i x = l ++ seti l' 0 x.
Proof.
  intros ->. unfold seti. rewrite Nat2N.id. induction l as [|a l IH]; cbn; [reflexivity|]. now rewrite IH.
Qed.

Lemma dense_push M l kv : N.of_nat (length l) < M ->
  seti (dense M l) (N.of_nat (length l)) (Some kv) = dense M (l ++ [kv]).
Proof.
  intros H. unfold dense. rewrite seti_app_eq by (now rewrite map_length).
  rewrite map_app, <- app_assoc, app_length. cbn [map length].
  replace (N.to_nat M - length l)%nat with (S (N.to_nat M - (length l + 1))) by lia. reflexivity.
Qed.

Lemma dense_pop M l z : N.of_nat (length l) < M ->
  seti (dense M (l ++ [z])) (N.of_nat (length l)) None = dense M l.
Proof.
  intros H. rewrite <- dense_push by auto. rewrite seti_seti.
  apply geti_ext. intros j. destruct (N.eq_dec j (N.of_nat (length l))) as [->|Hne].
  - rewrite geti_seti_eq by (rewrite dense_length; lia). symmetry. apply dense_ge; lia.
  - apply geti_seti_neq. congruence.
Qed.

Lemma dense_set M l1 x l2 y :
  seti (dense M (l1 ++ x :: l2)) (N.of_nat (length l1)) (Some y) = dense M (l1 ++ y :: l2).
Proof.
  unfold dense. rewrite !map_app. cbn [map]. rewrite <- !app_assoc. cbn [app].
  rewrite seti_app_eq by (now rewrite map_length). rewrite !app_length. reflexivity.
Qed.

Lemma dense_nil M : dense M [] = repeat None (N.to_nat M).
Proof. unfold dense. cbn. now rewrite Nat.sub_0_r. Qed.

Lemma read_dense_from M l2 : forall l1, i_read K V (dense M (l1 ++ l2)) (map N.of_nat (seq (length l1) (length l2))) = Ok l2.
Proof.
  induction l2 as [|e l2 IH]; intros l1; cbn [length seq map i_read]; [reflexivity|].
  assert (E : geti (dense M (l1 ++ e :: l2)) (N.of_nat (length l1)) = Some (Some e)).
  { apply dense_geti. unfold geti. rewrite Nat2N.id, nth_error_app2, Nat.sub_diag by lia. reflexivity. }
  rewrite E. specialize (IH (l1 ++ [e])). rewrite <- app_assoc, app_length in IH. cbn [app length] in IH.
  replace (length l1 + 1)%nat with (S (length l1)) in IH by lia. rewrite IH. reflexivity.
Qed.

Lemma read_dense M l : i_read K V (dense M l) (seqN (N.of_nat (length l))) = Ok l.
Proof. unfold seqN. rewrite Nat2N.id. apply (read_dense_from M l []). Qed.

Lemma destroy_dense_from (l2 : list (K * V)) : forall (a : slots) r,
  i_destroy K V (a ++ map Some l2 ++ r) (map N.of_nat (seq (length a) (length l2)))
  = Ok (a ++ repeat None (length l2) ++ r).
Proof.
  induction l2 as [|e l2 IH]; intros a r; cbn [length seq map i_destroy repeat app]; [reflexivity|].
  assert (E : geti (a ++ Some e :: map Some l2 ++ r) (N.of_nat (length a)) = Some (Some e)).
  { unfold geti. rewrite Nat2N.id, nth_error_app2, Nat.sub_diag by lia. reflexivity. }
  rewrite E. rewrite seti_app_eq by reflexivity. cbn [seti N.to_nat upd].
  specialize (IH (a ++ [None]) r). rewrite <- !app_assoc, app_length in IH. cbn [app length] in IH.
  replace (length a + 1)%nat with (S (length a)) in IH by lia. exact IH.
Qed.

Lemma destroy_dense M l : N.of_nat (length l) <= M ->
  i_destroy K V (dense M l) (seqN (N.of_nat (length l))) = Ok (dense M []).
Proof.
  intros H. unfold seqN. rewrite Nat2N.id. unfold dense.
  pose proof (destroy_dense_from l [] (repeat None (N.to_nat M - length l))) as E. cbn [app length] in E.
  rewrite E. f_equal. rewrite <- repeat_app. cbn. f_equal. lia.
Qed.

(** Positions of a table whose numbers are distinct. *)
Lemma elems_pos {A} (S : list (option (A * N))) : NoDup (map snd (elems S)) ->
  forall i j e e', geti S i = Some (Some e) -> geti S j = Some (Some e') -> snd e = snd e' -> i = j.
Proof.
  induction S as [|o S IH]; intros HN i j e e' Hi Hj E.
  - unfold geti in Hi. destruct (N.to_nat i); discriminate.
  - assert (HN' : NoDup (map snd (elems S))).
    { destruct o as [x|]; cbn in HN; [now inversion HN|exact HN]. }
    assert (TL : forall k y, 0 < k -> geti (o :: S) k = Some (Some y) -> geti S (k - 1) = Some (Some y)).
    { intros k y Hk. unfold geti. replace (N.to_nat k) with (Datatypes.S (N.to_nat (k - 1))) by lia. auto. }
    assert (HD : forall y k y', geti (o :: S) 0 = Some (Some y) -> 0 < k ->
      geti (o :: S) k = Some (Some y') -> snd y = snd y' -> False).
    { intros y k y' H0 Hk H1 Ey. unfold geti in H0. cbn in H0. injection H0 as ->. cbn in HN.
      inversion HN as [|? ? N1 N2]. apply N1. rewrite Ey. apply in_map. apply In_elems.
      exists (k - 1). now apply TL. }
    destruct (N.eq_dec i 0) as [->|Hi0], (N.eq_dec j 0) as [->|Hj0]; auto.
    + exfalso. eapply (HD e j e'); eauto. lia.
    + exfalso. eapply (HD e' i e); eauto. lia.
    + assert (i - 1 = j - 1); [|lia]. eapply IH; eauto; apply TL; auto; lia.
Qed.

End Dense.

Section Ops.

Context {K V : Type} (hash : K -> N) (keq : K -> K -> bool) (LW : lawful hash keq).

Notation slots := (list (option (K * V))).
Notation imap := (imap K V).
Notation C_ := (i_ctrls K V).
Notation S_ := (i_slots K V).
Notation spread := (spread K V hash).
Notation spreadN := (RobinSpec.spread K N hash).

Definition icontent (t : imap) : list (K * V) := elems (S_ t).
Definition igc (b : N) : N := (mx b + 3) / 4.

Definition last_ok (b : N) (t : imap) : Prop :=
  match i_last _ _ t with LEnd n => n = mx b | _ => True end.

Record ib (b : N) (t : imap) : Prop := {
  ib_b : 2 <= b;
  ib_big : mx b <= 2 ^ 55;
  ib_alloc : i_alloc _ _ t = true;
  ib_mask : i_mask _ _ t = 2 ^ b - 1;
  ib_look : i_lookups _ _ t = r_calc_lookups (2 ^ b);
  ib_last : last_ok b t;
  ib_clen : N.of_nat (length (C_ t)) = (igc b + 1) * 4;
  ib_cs : cs hash b (mx b) (DS (C_ t)) (VSM (mx b) (S_ t) (C_ t));
  ib_tags : tags hash (S_ t) (C_ t);
  ib_slots : S_ t = dense (mx b) (icontent t);
  ib_fit : N.of_nat (length (icontent t)) <= mx b;
  ib_idx : N.of_nat (length (icontent t)) <= 2 ^ 32;
  ib_size : i_size _ _ t = N.of_nat (length (icontent t));
  ib_perm : Permutation (elems (VSM (mx b) (S_ t) (C_ t))) (numd 0 (icontent t));
  ib_dist : distinct_keys K V keq (icontent t)
}.

Lemma ib_slot_capacity b t : ib b t -> i_slot_capacity _ _ t = 2 ^ b.
Proof.
  intros X. unfold i_slot_capacity. rewrite (ib_mask _ _ X).
  pose proof (pow_ge4 b (ib_b _ _ X)). pose proof (ib_big _ _ X) as HB. unfold mx in HB.
  destruct (N.eqb_spec (2 ^ b - 1) 0); [lia|]. rewrite wadd_small by (unfold two64; lia). lia.
Qed.

Lemma ib_max b t : ib b t -> i_max_slot_capacity _ _ t = mx b.
Proof.
  intros X. unfold i_max_slot_capacity. rewrite (ib_slot_capacity _ _ X), (ib_look _ _ X).
  pose proof (ib_big _ _ X) as HB. unfold mx in *. apply wadd_small. unfold two64. lia.
Qed.

Lemma ib_gc b t : ib b t -> i_group_count _ _ t = igc b.
Proof.
  intros X. unfold i_group_count, igc. rewrite (ib_max _ _ X). unfold iGroupWidth.
  pose proof (mx_lt b (ib_big _ _ X)). rewrite wadd_small; [reflexivity|lia].
Qed.

Lemma ib_home b t k : ib b t -> i_home K V hash t k = hm hash b k.
Proof. intros X. unfold i_home, hm. rewrite (ib_mask _ _ X). apply land_mask_n. Qed.

Lemma ib_clt b t : ib b t -> mx b < N.of_nat (length (C_ t)).
Proof. intros X. rewrite <- (DS_length (C_ t)). apply (cs_clen _ _ _ _ _ (ib_cs _ _ X)). Qed.

Lemma ib_fst b t : ib b t ->
  Permutation (map fst (icontent t)) (map fst (elems (VSM (mx b) (S_ t) (C_ t)))).
Proof. intros X. rewrite (ib_perm _ _ X), numd_fst. reflexivity. Qed.

(** ** Search *)

Lemma cs_calm {W} b (C : list N) (S : list (option (K * W))) : 2 <= b -> cs hash b (mx b) C S ->
  RobinSpec.spread K W hash (2 ^ b) (elems S) -> calm C.
Proof.
  intros Hb X HS p c Hc Hu.
  destruct (crowd _ _ _ _ _ X _ _ Hc Hu) as (a & Ha & Hall).
  pose proof (proj1 (spread_cnt hash _ _) HS a (p - c - a + 1) ltac:(lia)) as H.
  pose proof (cs_used_lt _ _ _ _ _ _ _ X Hc Hu) as Hp.
  assert (HN : p - a + 1 <= cnt (inwin hash b a (p - c - a + 1)) (elems S)).
  { apply (cnt_range 0) with a.
    - rewrite (cs_len _ _ _ _ _ X). lia.
    - intros j Hj1 Hj2. destruct (Hall j) as (kv' & E2 & E3 & E4); [lia|lia|].
      exists kv'. split; auto. unfold inwin. lia. }
  pose proof (room_le b Hb). lia.
Qed.

Lemma ib_calm b t : ib b t -> spread (2 ^ b) (icontent t) -> calm (DS (C_ t)).
Proof.
  intros X HS. eapply cs_calm; [apply (ib_b _ _ X)|apply (ib_cs _ _ X)|].
  eapply spread_fst; [apply (ib_fst _ _ X)|exact HS].
Qed.

(** The slot that a used control refers to. *)
Lemma ib_entry b t i k n : ib b t -> geti (VSM (mx b) (S_ t) (C_ t)) i = Some (Some (k, n)) ->
  exists c v, geti (C_ t) i = Some c /\ vw (S_ t) c = Some (k, n) /\ c_idx c = n /\ c_dist c < 128
    /\ geti (S_ t) n = Some (Some (k, v)) /\ geti (icontent t) n = Some (k, v)
    /\ n < i_size _ _ t.
Proof.
  intros X H. rewrite geti_VS in H. destruct (i <? mx b); [|discriminate].
  destruct (geti (C_ t) i) as [c|] eqn:Ec; [|discriminate]. cbn in H. injection H as H.
  destruct (vw_Some _ _ _ _ H) as (A & B & v & D).
  assert (E : geti (icontent t) n = Some (k, v)).
  { pose proof D as D'. rewrite (ib_slots _ _ X) in D'. now apply dense_geti in D'. }
  exists c, v. do 6 (split; [auto|]). rewrite (ib_size _ _ X). eapply geti_Some_lt; eauto.
Qed.

Lemma search_ind b t (cmp : bool) k : ib b t -> spread (2 ^ b) (icontent t) ->
  (exists i c kv, cmp = true /\ i_search K V hash keq t cmp k = Ok (Found i)
     /\ geti (C_ t) i = Some c /\ c_dist c < 128 /\ vw (S_ t) c = Some (fst kv, c_idx c)
     /\ geti (S_ t) (c_idx c) = Some (Some kv) /\ geti (icontent t) (c_idx c) = Some kv
     /\ i < mx b /\ keq (fst kv) k = true)
  \/ (exists n, i_search K V hash keq t cmp k = Ok (Stop (hm hash b k + n) n)
     /\ n <= 127 /\ stopat (DS (C_ t)) (hm hash b k) n
     /\ (cmp = true -> fresh_key keq (icontent t) k)).
Proof.
  intros X HS. unfold i_search. rewrite (ib_home _ _ _ X).
  pose proof (ib_calm _ _ X HS) as Cl. pose proof (ib_cs _ _ X) as XC.
  pose proof (hm_lt hash b k) as Hh.
  assert (HM : hm hash b k <= mx b) by (unfold mx; lia).
  destruct (scan_spec hash keq LW b (mx b) (DS (C_ t)) (VSM (mx b) (S_ t) (C_ t))
    (if cmp then Some k else None) k XC Cl HM
    ltac:(destruct cmp; auto) (S (length (C_ t))) 0) as [(i & kv & A & B & D & E)|(n & A & B & D & E)].
  - lia.
  - rewrite DS_length. lia.
  - intros j Hj. lia.
  - intros _ j kv Hj. lia.
  - left. rewrite N.add_0_r in B. apply (scan_sim hash keq LW (mx b) _ _ _ (ib_tags _ _ X)) in B.
    destruct kv as [k' n]. destruct (ib_entry _ _ _ _ _ X D) as (c & v & E1 & E2 & E3 & E4 & E5 & E6 & E7).
    exists i, c, (k', v). subst n. destruct cmp; [|discriminate]. do 7 (split; [auto|]). split; [|auto].
    rewrite geti_VS in D. destruct (N.ltb_spec i (mx b)); [auto|discriminate].
  - right. exists n. rewrite N.add_0_r in A. split.
    { apply (scan_sim hash keq LW (mx b) _ _ _ (ib_tags _ _ X)). exact A. }
    split; auto. split; auto.
    intros ->. specialize (E eq_refl). intros e He.
    assert (HI : In (fst e) (map fst (elems (VSM (mx b) (S_ t) (C_ t))))).
    { eapply Permutation_in; [apply (ib_fst _ _ X)|]. now apply in_map. }
    apply in_map_iff in HI. destruct HI as (e' & E1 & E2). apply In_elems in E2. destruct E2 as [j Hj].
    rewrite <- E1. eapply E; eauto.
Qed.

(** ** Insertion *)

Lemma spread_size b (l : list (K * V)) : spread (2 ^ b) l -> N.of_nat (length l) <= 2 ^ b + room (2 ^ b).
Proof.
  intros H. specialize (H 0 (2 ^ b)). pose proof (pow2_pos b). specialize (H ltac:(lia)).
  unfold homes_in in H. replace (filter _ l) with l in H; [exact H|].
  symmetry. clear H. induction l as [|e l IH]; [reflexivity|]. cbn [filter].
  assert (hash (fst e) mod 2 ^ b < 2 ^ b) by (apply N.mod_lt; lia).
  destruct (N.leb_spec 0 (hash (fst e) mod 2 ^ b)); [|lia].
  destruct (N.ltb_spec (hash (fst e) mod 2 ^ b) (0 + 2 ^ b)); [|lia]. cbn [andb]. cbv zeta in *. now rewrite IH.
Qed.

Lemma has_app k (l l' : list (K * V)) : has K V keq k (l ++ l') = has K V keq k l || has K V keq k l'.
Proof. unfold has. apply existsb_app. Qed.

Lemma distinct_snoc (l : list (K * V)) kv : distinct_keys K V keq l -> fresh_key keq l (fst kv) ->
  distinct_keys K V keq (l ++ [kv]).
Proof.
  intros D F. eapply (distinct_perm hash keq LW); [apply Permutation_cons_append|]. cbn. split; auto.
  apply (fresh_has hash keq LW). exact F.
Qed.

(** The view does not change when slots are changed that no control refers to. *)
Lemma view_ext b C (sl sl' : slots) : cs hash b (mx b) (DS C) (VSM (mx b) sl C) -> tags hash sl C ->
  (forall i k n, geti (VSM (mx b) sl C) i = Some (Some (k, n)) -> geti sl' n = geti sl n) ->
  VSM (mx b) sl' C = VSM (mx b) sl C /\ tags hash sl' C.
Proof.
  intros X HT H.
  assert (E : forall i c, geti C i = Some c -> vw sl' c = vw sl c).
  { intros i c Hc. destruct (N.lt_ge_cases (c_dist c) 128) as [Hu|Hu].
    - assert (HD : geti (DS C) i = Some (c_dist c)) by (rewrite geti_DS, Hc; reflexivity).
      destruct (cs_used _ _ _ _ _ X _ _ HD Hu) as ([k n] & E & _).
      pose proof (H _ _ _ E) as H'. rewrite geti_VS in E. destruct (i <? mx b); [|discriminate].
      rewrite Hc in E. cbn in E. injection E as E. destruct (vw_Some _ _ _ _ E) as (_ & -> & _).
      unfold vw. now rewrite H'.
    - unfold vw. destruct (N.ltb_spec (c_dist c) 128); [lia|reflexivity]. }
  split.
  - apply geti_ext. intros i. rewrite !geti_VS. destruct (i <? mx b); auto.
    destruct (geti C i) as [c|] eqn:Ec; auto. cbn. f_equal. eauto.
  - intros i c Hc. destruct (HT _ _ Hc) as [A B]. split; auto. rewrite (E _ _ Hc). auto.
Qed.

Lemma insert_at_ind (rehashing : bool) b t n kv : ib b t ->
  spread (2 ^ b) (kv :: icontent t) -> fresh_key keq (icontent t) (fst kv) ->
  N.of_nat (length (icontent t)) < 2 ^ 32 ->
  n <= 127 -> stopat (DS (C_ t)) (hm hash b (fst kv)) n ->
  exists C', let t' := i_with K V t C' (seti (S_ t) (i_size _ _ t) (Some kv)) (i_size _ _ t + 1) in
    i_insert_at K V hash rehashing t (hm hash b (fst kv) + n) n kv = Ok (t', true)
    /\ ib b t' /\ icontent t' = icontent t ++ [kv]
    /\ geti (S_ t') (i_size _ _ t) = Some (Some kv).
Proof.
  intros X HS HF H32 Hn [HA (c & Hc & Hcn)]. cbv zeta. set (i := hm hash b (fst kv) + n) in *.
  pose proof (ib_cs _ _ X) as XC. pose proof (ib_b _ _ X) as Hb.
  pose proof (ib_clt _ _ X) as HCL.
  pose proof (mx_room b Hb) as HR. pose proof (room_le b Hb) as [_ HR2].
  assert (Hsz : i_size _ _ t < mx b).
  { apply spread_size in HS. cbn [length] in HS. rewrite (ib_size _ _ X). lia. }
  set (s := i_size _ _ t) in *.
  assert (Es : s = N.of_nat (length (icontent t))) by apply (ib_size _ _ X).
  set (sl' := seti (S_ t) s (Some kv)).
  assert (Esl : sl' = dense (mx b) (icontent t ++ [kv])).
  { unfold sl'. rewrite (ib_slots _ _ X), Es. apply dense_push. lia. }
  assert (Gs : geti (S_ t) s = Some None).
  { rewrite (ib_slots _ _ X). apply dense_ge; lia. }
  assert (Gs' : geti sl' s = Some (Some kv)).
  { unfold sl'. apply geti_seti_eq. eapply geti_Some_lt; eauto. }
  destruct (view_ext b (C_ t) (S_ t) sl' XC (ib_tags _ _ X)) as [EV HT].
  { intros j k m Hj. destruct (ib_entry _ _ _ _ _ X Hj) as (c' & v & _ & _ & _ & _ & _ & _ & Hm).
    unfold sl'. apply geti_seti_neq. fold s in Hm. lia. }
  assert (XC' : cs hash b (mx b) (DS (C_ t)) (VSM (mx b) sl' (C_ t))) by now rewrite EV.
  set (new := mkC n (ctrl_hash K hash (fst kv)) (w32 s)).
  assert (Ew : w32 s = s). { unfold w32, two32. apply N.mod_small. lia. }
  assert (Vnew : vw sl' new = Some (fst kv, s)).
  { unfold vw, new. cbn [c_dist c_idx]. rewrite Ew, Gs'. destruct (N.ltb_spec n 128); [reflexivity|lia]. }
  assert (Tnew : tagok hash sl' new).
  { split; [apply ctrl_hash_lt|]. intros k m E. rewrite Vnew in E. injection E as <- <-. reflexivity. }
  set (l := (fst kv, s) :: elems (VSM (mx b) sl' (C_ t))).
  assert (Pl : Permutation l (numd 0 (icontent t ++ [kv]))).
  { unfold l. rewrite EV, (ib_perm _ _ X), numd_app. cbn [numd]. rewrite N.add_0_l, <- Es.
    apply Permutation_cons_append. }
  assert (SL : spreadN (2 ^ b) l).
  { eapply spread_fst; [|exact HS]. rewrite Pl, numd_fst, map_app. cbn [map]. apply Permutation_cons_append. }
  pose proof (spread_cons hash _ _ _ SL) as SL'.
  assert (F : fits hash b (DS (C_ t)) i n (fst kv, s)).
  { split; [lia|]. split; [reflexivity|]. intros H0. destruct (HA (n - 1)) as (c1 & E & L & U); [lia|].
    exists c1. replace (i - 1) with (hm hash b (fst kv) + (n - 1)) by (unfold i; lia). split; auto. lia. }
  pose proof (fits_room _ _ _ _ _ _ _ _ _ _ XC' F (Permutation_refl _) (proj1 (spread_cnt hash _ _) SL)) as HnD.
  pose proof (hm_lt hash b (fst kv)) as Hh.
  assert (Hi : i < mx b) by (unfold i; lia).
  assert (Hsz2 : s + 1 < two64).
  { pose proof (ib_big _ _ X). unfold two64. lia. }
  assert (MK : forall C', cs hash b (mx b) (DS C') (VSM (mx b) sl' C') -> length C' = length (C_ t) ->
     tags hash sl' C' -> Permutation l (elems (VSM (mx b) sl' C')) ->
     ib b (i_with K V t C' sl' (s + 1))
     /\ icontent (i_with K V t C' sl' (s + 1)) = icontent t ++ [kv]
     /\ geti (S_ (i_with K V t C' sl' (s + 1))) s = Some (Some kv)).
  { intros C' XX EL TT P.
    assert (EC : icontent (i_with K V t C' sl' (s + 1)) = icontent t ++ [kv]).
    { unfold icontent at 1. icbn. rewrite Esl. apply dense_elems. }
    split; [|split; [exact EC|exact Gs']].
    pose proof (ib_dist _ _ X) as XD. destruct X. split; rewrite ?EC; icbn; auto.
    - now rewrite EL.
    - rewrite app_length. cbn [length]. lia.
    - rewrite app_length. cbn [length]. lia.
    - rewrite app_length. cbn [length]. lia.
    - rewrite <- P. exact Pl.
    - now apply distinct_snoc. }
  assert (Hc' : geti (DS (C_ t)) i = Some c) by exact Hc.
  rewrite geti_DS in Hc. destruct (geti (C_ t) i) as [cc|] eqn:Ecc; [|discriminate]. cbn in Hc. injection Hc as Hcc.
  unfold i_insert_at. rewrite (ib_alloc _ _ X). fold s new. rewrite Ecc.
  unfold i_construct. fold s. rewrite Gs. fold sl'. rewrite (wadd_small s 1) by auto.
  destruct (N.eqb_spec (c_dist cc) cEmpty) as [He|Hne].
  - cbn [rbind]. exists (seti (C_ t) i new). split; [reflexivity|]. apply MK.
    + rewrite DS_seti, VS_seti, Vnew by lia. eapply put_cs; eauto. left. unfold cEmpty in He. lia.
    + apply seti_length.
    + now apply tags_seti.
    + rewrite VS_seti, Vnew by lia. symmetry. apply elems_seti_Some.
      rewrite geti_VS, Ecc. destruct (N.ltb_spec i (mx b)); [|lia]. cbn. unfold vw.
      unfold cEmpty in He. destruct (N.ltb_spec (c_dist cc) 128); [lia|reflexivity].
  - assert (Hu : c < 128).
    { destruct (N.lt_ge_cases c 128) as [|Hge]; auto.
      destruct (cs_free _ _ _ _ _ XC _ _ Hc' Hge) as (_ & [A|A] & _); [unfold cEmpty in Hne; lia|lia]. }
    destruct Hcn as [Hcn|Hcn]; [lia|].
    unfold i_insert_to_place. rewrite Ecc, (ib_max _ _ X).
    destruct (cs_used _ _ _ _ _ XC' _ _ Hc' Hu) as (kv' & E & Ei).
    assert (Vcc : vw sl' cc = Some kv').
    { rewrite geti_VS, Ecc in E. destruct (N.ltb_spec i (mx b)); [|lia]. cbn in E. congruence. }
    assert (Einc : c_dist (c_inc cc) = c + 1).
    { cbn [c_inc c_dist]. rewrite Hcc. apply inc8_small. lia. }
    destruct (place_ind hash b (mx b) rehashing i (room (2 ^ b)) sl' HR HR2 (S (length (C_ t)))
      (seti (C_ t) i new) (i + 1) (c_inc cc) kv' l) as (C' & R & R1 & R2 & R3 & R4).
    + rewrite seti_len. lia.
    + rewrite DS_seti, VS_seti, Vnew by lia. eapply put_cs; eauto.
    + now apply tags_seti.
    + apply (tagok_idx hash b sl' cc); auto; [eapply HT; eauto|lia].
    + eapply vw_idx; eauto. lia.
    + rewrite DS_seti, Einc. split; [lia|]. split; [lia|]. intros _. exists n.
      replace (i + 1 - 1) with i by lia.
      rewrite geti_seti_eq by (rewrite DS_length; lia). split; [auto|lia].
    + intros j cj Hj. rewrite DS_seti, geti_seti_neq by lia. rewrite EV in SL'.
      apply (cs_calm b _ _ Hb XC SL').
    + rewrite VS_seti, Vnew by lia. symmetry. now apply Perm_swap_at.
    + apply (spread_cnt hash). exact SL.
    + rewrite R. cbn [rbind orb]. exists C'. split; [reflexivity|]. apply MK; auto.
      now rewrite R1, seti_length.
Qed.

Lemma insert_no_grow_ind b t kv : ib b t ->
  spread (2 ^ b) (kv :: icontent t) -> fresh_key keq (icontent t) (fst kv) ->
  N.of_nat (length (icontent t)) < 2 ^ 32 ->
  exists C' S', let t' := i_with K V t C' S' (i_size _ _ t + 1) in
    i_insert_no_grow K V hash keq t kv = Ok t' /\ ib b t' /\ icontent t' = icontent t ++ [kv].
Proof.
  intros X HS HF H32. unfold i_insert_no_grow.
  destruct (search_ind b t false (fst kv) X (spread_cons hash _ _ _ HS))
    as [(i & c & kv' & A & _)|(n & A & B & D & _)]; [discriminate|].
  rewrite A. cbn [rbind].
  destruct (insert_at_ind true b t n kv X HS HF H32 B D) as (C' & R1 & R2 & R3 & _).
  cbv zeta in *. rewrite R1. cbn [rbind]. eauto.
Qed.

Lemma spread_app_l c (l l' : list (K * V)) : spread c (l ++ l') -> spread c l.
Proof.
  intros H. apply (spread_tail hash c l' l). eapply spread_perm; [|exact H]. apply Permutation_app_comm.
Qed.

Lemma insert_all_ind b l : forall t, ib b t ->
  spread (2 ^ b) (icontent t ++ l) -> distinct_keys K V keq (icontent t ++ l) ->
  N.of_nat (length (icontent t ++ l)) <= 2 ^ 32 ->
  exists C' S' s', let t' := i_with K V t C' S' s' in
    i_insert_all K V hash keq l t = Ok t' /\ ib b t' /\ icontent t' = icontent t ++ l.
Proof.
  induction l as [|kv l IH]; intros t X HS HD H32; cbv zeta; cbn [i_insert_all] in *.
  - exists (C_ t), (S_ t), (i_size _ _ t). rewrite app_nil_r. destruct t. cbn in *. auto.
  - assert (EA : icontent t ++ kv :: l = (icontent t ++ [kv]) ++ l) by now rewrite <- app_assoc.
    assert (P1 : Permutation (icontent t ++ [kv]) (kv :: icontent t)) by (symmetry; apply Permutation_cons_append).
    rewrite EA in HS, HD, H32.
    destruct (insert_no_grow_ind b t kv X) as (C' & S' & R1 & R2 & R3).
    + eapply spread_perm; [exact P1|]. eapply spread_app_l; eauto.
    + assert (D2 : distinct_keys K V keq (kv :: icontent t ++ l)).
      { eapply (distinct_perm hash keq LW); [|exact HD]. rewrite <- app_assoc. symmetry. apply Permutation_middle. }
      cbn in D2. destruct D2 as [D2 _]. apply (fresh_has hash keq LW). rewrite has_app in D2.
      apply orb_false_iff in D2. apply D2.
    + rewrite !app_length in H32. cbn [length] in H32. lia.
    + cbv zeta in *. rewrite R1. cbn [rbind].
      destruct (IH _ R2) as (C2 & S2 & s2 & A1 & A2 & A3); try (rewrite R3; assumption).
      cbv zeta in *. exists C2, S2, s2. split; [exact A1|]. split; [exact A2|].
      rewrite EA, <- R3. exact A3.
Qed.

(** ** Creation *)

Lemma DS_repeat n : DS (repeat iEmpty n) = repeat 255 n.
Proof. unfold DS. induction n; cbn; [reflexivity|]. now rewrite IHn. Qed.

Lemma fresh_ind b n (sl : slots) : mx b < n -> 
  cs hash b (mx b) (DS (repeat iEmpty (N.to_nat n))) (VSM (mx b) sl (repeat iEmpty (N.to_nat n)))
  /\ elems (VSM (mx b) sl (repeat iEmpty (N.to_nat n))) = []
  /\ tags hash sl (repeat iEmpty (N.to_nat n)).
Proof.
  intros HM.
  assert (EV : VSM (mx b) sl (repeat iEmpty (N.to_nat n)) = repeat None (N.to_nat (mx b))).
  { apply geti_ext. intros i. rewrite geti_VS. destruct (N.ltb_spec i (mx b)) as [Hi|Hi].
    - rewrite !geti_repeat by lia. reflexivity.
    - symmetry. apply geti_ge. rewrite repeat_length. lia. }
  split; [|split].
  - rewrite EV, DS_repeat. split.
    + intros i c H Hc. apply geti_In, repeat_spec in H. lia.
    + intros i c H Hc. pose proof H as H'. apply geti_In, repeat_spec in H. subst. split; [lia|]. split; [auto|].
      intros Hi. apply geti_repeat. lia.
    + intros i c c' H H' P1 P2. apply geti_In, repeat_spec in H'. lia.
    + rewrite repeat_length. lia.
    + rewrite repeat_length. lia.
  - rewrite EV. apply elems_none.
  - intros i c H. apply geti_In, repeat_spec in H. subst. split; [reflexivity|]. intros k m. discriminate.
Qed.

(** An empty map with storage. *)
Lemma empty_ib b t : 2 <= b -> mx b <= 2 ^ 55 -> i_alloc _ _ t = true -> i_mask _ _ t = 2 ^ b - 1 ->
  i_lookups _ _ t = r_calc_lookups (2 ^ b) -> last_ok b t ->
  C_ t = repeat iEmpty (N.to_nat ((igc b + 1) * 4)) -> S_ t = dense (mx b) [] -> i_size _ _ t = 0 ->
  ib b t /\ icontent t = [].
Proof.
  intros Hb HB HA Hm Hl Hlo HC HS Hz.
  assert (E : icontent t = []) by (unfold icontent; rewrite HS; apply dense_elems).
  split; [|exact E].
  assert (HM : mx b < (igc b + 1) * 4) by (unfold igc; lia).
  destruct (fresh_ind b ((igc b + 1) * 4) (S_ t) HM) as (F1 & F2 & F3).
  split; rewrite ?E; auto; try (rewrite HC; auto; fail).
  - rewrite HC, repeat_length. lia.
  - cbn. lia.
  - cbn. lia.
  - rewrite HC, F2. reflexivity.
  - exact I.
Qed.

Lemma create_ind alloc t b : sane alloc -> 2 <= b -> b <= 63 ->
  (exists t', i_create K V alloc t (2 ^ b) = Throw t')
  \/ exists t', i_create K V alloc t (2 ^ b) = Ret t' tt /\ ib b t' /\ icontent t' = []
       /\ i_mlf _ _ t' = i_mlf _ _ t /\ i_rev _ _ t' = i_rev _ _ t
       /\ i_thr _ _ t' = wmul (2 ^ b) (i_mlf _ _ t) / 256.
Proof.
  intros HA Hb Hb63. unfold i_create.
  pose proof (lookups_range b Hb) as HLk. pose proof (pow2_le b 63 Hb63).
  rewrite (wadd_small (2 ^ b)) by (unfold two64; lia). fold (mx b).
  destruct (alloc (mx b)) eqn:EA; [|left; eauto]. right.
  apply HA in EA. pose proof (mx_lt b EA).
  rewrite (wadd_small (mx b)) by (unfold iGroupWidth; lia).
  change ((mx b + (iGroupWidth - 1)) / iGroupWidth) with (igc b).
  eexists. split; [reflexivity|].
  match goal with |- ib b ?x /\ _ => destruct (empty_ib b x) as [E1 E2]; icbn; auto end.
  - rewrite wsub_small; [reflexivity|lia|unfold two64; lia].
  - reflexivity.
  - symmetry. apply dense_nil.
Qed.

(** ** Deletion *)

Lemma last_split {A} (l : list A) : l <> [] -> exists l' z, l = l' ++ [z].
Proof. intros H. destruct (exists_last H) as (l' & z & E). eauto. Qed.

Lemma geti_mid {A} (l : list A) i x : geti l i = Some x ->
  exists l1 l2, l = l1 ++ x :: l2 /\ N.of_nat (length l1) = i.
Proof. intros H. destruct (geti_split _ _ _ H) as (a & c & E & L & _). eauto. Qed.

(** The entries after the deletion of the entry number n. *)
Definition swap_at (l : list (K * V)) (l1 : list (K * V)) (l2 : list (K * V)) : list (K * V) :=
  match rev l2 with [] => l1 | z :: r => l1 ++ z :: rev r end.

Lemma erase_slot_ind b t i c kv : ib b t ->
  geti (C_ t) i = Some c -> c_dist c < 128 -> i < mx b ->
  vw (S_ t) c = Some (fst kv, c_idx c) -> geti (icontent t) (c_idx c) = Some kv ->
  exists C' S' l1 l2, let t' := i_with K V t C' S' (i_size _ _ t - 1) in
    i_erase_slot K V hash t i = Ok t' /\ ib b t'
    /\ icontent t = l1 ++ kv :: l2 /\ icontent t' = swap_at (icontent t) l1 l2.
Proof.
  intros X Hc Hu Hi Hv Hn. cbv zeta. pose proof (ib_cs _ _ X) as XC.
  set (n := c_idx c) in *. set (s := i_size _ _ t - 1).
  destruct (geti_mid _ _ _ Hn) as (l1 & l2 & EL & L1).
  assert (HD : geti (DS (C_ t)) i = Some (c_dist c)) by (rewrite geti_DS, Hc; reflexivity).
  assert (HV : geti (VSM (mx b) (S_ t) (C_ t)) i = Some (Some (fst kv, n))).
  { rewrite geti_VS, Hc. destruct (N.ltb_spec i (mx b)); [|lia]. cbn. now rewrite Hv. }
  pose proof (ib_size _ _ X) as Hsz. pose proof (ib_fit _ _ X) as Hfit. pose proof (ib_idx _ _ X) as H32.
  pose proof (ib_big _ _ X) as Hbig.
  assert (Hpos : 0 < i_size _ _ t).
  { rewrite Hsz, EL, app_length. cbn [length]. lia. }
  assert (Ew : wsub (i_size _ _ t) 1 = s).
  { apply wsub_small; [lia|]. rewrite Hsz. unfold two64. lia. }
  assert (Es : s = N.of_nat (length l1 + length l2)).
  { unfold s. rewrite Hsz, EL, app_length. cbn [length]. lia. }
  unfold i_erase_slot. rewrite Hc. fold n.
  destruct (shift_ind hash b (mx b) (S_ t) (S (length (C_ t))) (C_ t) i (c_dist c))
    as (C1 & R1 & R2 & R3 & R4 & R5).
  { eapply cs_hole; eauto. }
  { auto. }
  { lia. }
  { apply (ib_tags _ _ X). }
  rewrite R1. cbn [rbind]. rewrite Ew.
  (* the table after the shift *)
  assert (P0 : Permutation ((fst kv, n) :: elems (VSM (mx b) (S_ t) C1)) (numd 0 (icontent t))).
  { rewrite R5, <- (ib_perm _ _ X). now apply elems_seti_None. }
  assert (N0 : numd 0 (icontent t) = numd 0 l1 ++ (fst kv, n) :: numd (n + 1) l2).
  { rewrite EL, numd_app. cbn [numd]. rewrite N.add_0_l, L1. reflexivity. }
  assert (P1 : Permutation (elems (VSM (mx b) (S_ t) C1)) (numd 0 l1 ++ numd (n + 1) l2)).
  { rewrite N0 in P0. apply (Permutation_cons_app_inv _ _ P0). }
  assert (ND : NoDup (map snd ((fst kv, n) :: elems (VSM (mx b) (S_ t) C1)))).
  { eapply Permutation_NoDup; [apply Permutation_map; symmetry; exact P0|]. apply numd_NoDup. }
  assert (DD : distinct_keys K V keq (kv :: l1 ++ l2)).
  { eapply (distinct_perm hash keq LW); [|apply (ib_dist _ _ X)]. rewrite EL. symmetry. apply Permutation_middle. }
  assert (Hsl : i_slots K V t = dense (mx b) (l1 ++ kv :: l2)) by (rewrite <- EL; apply (ib_slots _ _ X)).
  (* an entry of the table after the shift *)
  assert (EN : forall j k m, geti (VSM (mx b) (S_ t) C1) j = Some (Some (k, m)) ->
     m <> n /\ m < i_size _ _ t).
  { intros j k m Hj. assert (HI : In (k, m) (elems (VSM (mx b) (S_ t) C1))) by (apply In_elems; eauto).
    split.
    - intros ->. cbn [map] in ND. inversion ND as [|? ? N1 N2]. apply N1. cbn [snd].
      change n with (snd (k, n)). now apply in_map.
    - assert (HI2 : In (k, m) (numd 0 (icontent t))).
      { eapply Permutation_in; [exact P0|]. now right. }
      apply numd_In in HI2. lia. }
  assert (FIN : forall C' sl' l', cs hash b (mx b) (DS C') (VSM (mx b) sl' C') -> length C' = length (C_ t) ->
    tags hash sl' C' -> sl' = dense (mx b) l' -> N.of_nat (length l') = s ->
    Permutation (elems (VSM (mx b) sl' C')) (numd 0 l') -> Permutation l' (l1 ++ l2) ->
    ib b (i_with K V t C' sl' s) /\ icontent (i_with K V t C' sl' s) = l').
  { intros C' sl' l' A1 A2 A3 A4 A5 A6 A7.
    assert (EC : icontent (i_with K V t C' sl' s) = l').
    { unfold icontent. icbn. rewrite A4. apply dense_elems. }
    split; [|exact EC]. destruct X. split; rewrite ?EC; icbn; auto.
    - now rewrite A2.
    - lia.
    - lia.
    - eapply (distinct_perm hash keq LW); [symmetry; exact A7|]. apply DD. }
  destruct (rev l2) as [|z r] eqn:ER.
  - (* the last entry is erased *)
    assert (l2 = []) as -> by (rewrite <- (rev_involutive l2), ER; reflexivity).
    cbn [length] in Es. rewrite Nat.add_0_r in Es.
    assert (En : n = s) by lia.
    assert (G : geti (S_ t) s = Some (Some kv)).
    { rewrite Hsl. apply dense_geti. rewrite <- En. rewrite <- EL. exact Hn. }
    rewrite G. destruct (N.eqb_spec n s); [|lia].
    destruct (view_ext b C1 (S_ t) (seti (S_ t) s None) R2 R4) as [EV HT].
    { intros j k m Hj. destruct (EN _ _ _ Hj). apply geti_seti_neq. lia. }
    destruct (FIN C1 (seti (S_ t) s None) l1) as [F1 F2]; auto.
    + now rewrite EV.
    + rewrite Hsl, Es. apply dense_pop. lia.
    + rewrite EV, P1. cbn [numd]. rewrite app_nil_r. reflexivity.
    + now rewrite app_nil_r.
    + exists C1, (seti (S_ t) s None), l1, []. split; [reflexivity|]. split; [exact F1|].
      split; [exact EL|]. exact F2.
  - (* the last entry moves into the gap *)
    assert (E2 : l2 = rev r ++ [z]) by (rewrite <- (rev_involutive l2), ER; reflexivity).
    set (l2' := rev r) in *. 
    assert (Es2 : s = N.of_nat (length (l1 ++ kv :: l2'))).
    { rewrite Es, E2, !app_length. cbn [length]. lia. }
    assert (Hls : l1 ++ kv :: l2 = (l1 ++ kv :: l2') ++ [z]) by (rewrite E2, <- app_assoc; reflexivity).
    assert (G : geti (S_ t) s = Some (Some z)).
    { rewrite Hsl. apply dense_geti. rewrite Hls, Es2. unfold geti.
      rewrite Nat2N.id, nth_error_app2, Nat.sub_diag by lia. reflexivity. }
    rewrite G.
    assert (Hne : n <> s). { rewrite Es2, app_length. cbn [length]. lia. }
    destruct (N.eqb_spec n s); [contradiction|].
    assert (G2 : geti (S_ t) n = Some (Some kv)).
    { rewrite Hsl. apply dense_geti. rewrite <- EL. exact Hn. }
    rewrite G2.
    (* the control of the last entry *)
    assert (HI : In (fst z, s) (elems (VSM (mx b) (S_ t) C1))).
    { eapply Permutation_in; [symmetry; exact P1|]. apply in_or_app. right. rewrite E2, numd_app.
      apply in_or_app. right. cbn [numd]. left. f_equal. rewrite Es, E2, app_length. cbn [length]. lia. }
    apply In_elems in HI. destruct HI as [p Hp].
    pose proof Hp as Hp'. rewrite geti_VS in Hp'. destruct (N.ltb_spec p (mx b)) as [HpM|]; [|discriminate].
    destruct (geti C1 p) as [cl|] eqn:Ecl; [|discriminate]. cbn in Hp'. injection Hp' as Hvl.
    destruct (vw_Some _ _ _ _ Hvl) as (Hul & Eidx & _).
    rewrite (ib_home _ _ _ X).
    rewrite (find_ctrl_ind hash b (mx b) C1 (S_ t) p cl (fst z) s R2 Ecl Hvl).
    2:{ intros j c' Hj Huj Hij.
        assert (HDj : geti (DS C1) j = Some (c_dist c')) by (rewrite geti_DS, Hj; reflexivity).
        destruct (cs_used _ _ _ _ _ R2 _ _ HDj Huj) as ([k' m'] & Ej & _).
        pose proof Ej as Ej'. rewrite geti_VS, Hj in Ej'. destruct (j <? mx b); [|discriminate].
        cbn in Ej'. injection Ej' as Ej'. destruct (vw_Some _ _ _ _ Ej') as (_ & Em & _).
        cbn [map] in ND. inversion ND as [|? ? N1 N2].
        eapply (elems_pos _ N2); eauto. cbn [snd]. congruence. }
    cbn [rbind]. rewrite Ecl.
    set (cn := mkC (c_dist cl) (c_hash cl) (w32 n)).
    set (sl' := seti (seti (S_ t) n (Some z)) s None).
    assert (Ew2 : w32 n = n). { unfold w32, two32. apply N.mod_small. unfold two32 in *. lia. }
    assert (Esl : sl' = dense (mx b) (l1 ++ z :: l2')).
    { unfold sl'. rewrite Hsl, <- L1, dense_set.
      replace (l1 ++ z :: l2) with ((l1 ++ z :: l2') ++ [z]) by (rewrite E2, <- app_assoc; reflexivity).
      replace s with (N.of_nat (length (l1 ++ z :: l2'))) by (rewrite Es2, !app_length; reflexivity).
      apply dense_pop. rewrite Es2 in *. rewrite app_length in *. cbn [length] in *. lia. }
    assert (Gsl : forall m, m <> n -> m <> s -> geti sl' m = geti (S_ t) m).
    { intros m H1 H2. unfold sl'. rewrite !geti_seti_neq by auto. reflexivity. }
    assert (Gn : geti sl' n = Some (Some z)).
    { rewrite Esl. apply dense_geti. rewrite <- L1. unfold geti.
      rewrite Nat2N.id, nth_error_app2, Nat.sub_diag by lia. reflexivity. }
    assert (Vcn : vw sl' cn = Some (fst z, n)).
    { unfold vw, cn. cbn [c_dist c_idx]. rewrite Ew2, Gn. destruct (N.ltb_spec (c_dist cl) 128); [reflexivity|lia]. }
    assert (HpC : p < N.of_nat (length C1)) by (eapply geti_Some_lt; eauto).
    (* all other controls keep their view *)
    assert (OTH : forall j c', j <> p -> geti C1 j = Some c' -> vw sl' c' = vw (S_ t) c').
    { intros j c' Hjp Hj. destruct (N.lt_ge_cases (c_dist c') 128) as [Huj|Huj].
      - assert (HDj : geti (DS C1) j = Some (c_dist c')) by (rewrite geti_DS, Hj; reflexivity).
        destruct (cs_used _ _ _ _ _ R2 _ _ HDj Huj) as ([k' m'] & Ej & _).
        pose proof Ej as Ej'. rewrite geti_VS, Hj in Ej'. destruct (j <? mx b); [|discriminate].
        cbn in Ej'. injection Ej' as Ej'. destruct (vw_Some _ _ _ _ Ej') as (_ & Em & _).
        destruct (EN _ _ _ Ej) as [H1 _].
        unfold vw. rewrite Gsl; [reflexivity|congruence|].
        intros Hs. apply Hjp. cbn [map] in ND. inversion ND as [|? ? N1 N2].
        eapply (elems_pos _ N2); eauto. cbn [snd]. congruence.
      - unfold vw. destruct (N.ltb_spec (c_dist c') 128); [lia|reflexivity]. }
    assert (EV : VSM (mx b) sl' (seti C1 p cn) = seti (VSM (mx b) (S_ t) C1) p (Some (fst z, n))).
    { apply geti_ext. intros j. rewrite geti_VS.
      assert (HpV : p < N.of_nat (length (VSM (mx b) (S_ t) C1))) by (eapply geti_Some_lt; eauto).
      rewrite !geti_seti by auto. destruct (N.eqb_spec j p) as [->|Hjp].
      - destruct (N.ltb_spec p (mx b)); [|lia]. cbn. now rewrite Vcn.
      - rewrite geti_VS. destruct (j <? mx b); auto. destruct (geti C1 j) as [c'|] eqn:Ej; auto.
        cbn. f_equal. eauto. }
    assert (HTn : tagok hash sl' cn).
    { destruct (R4 _ _ Ecl) as [T1 T2]. split; [exact T1|]. intros k m E. rewrite Vcn in E.
      injection E as <- <-. cbn [c_hash cn]. now apply (T2 _ s). }
    destruct (FIN (seti C1 p cn) sl' (l1 ++ z :: l2')) as [F1 F2].
    + rewrite EV, DS_seti. cbn [c_dist cn].
      assert (ED : seti (DS C1) p (c_dist cl) = DS C1).
      { apply geti_ext. intros j. rewrite geti_seti by (rewrite DS_length; auto).
        destruct (N.eqb_spec j p) as [->|]; auto. rewrite geti_DS, Ecl. reflexivity. }
      rewrite ED. eapply cs_keys; [|exact R2].
      apply geti_ext. intros j. rewrite !geti_map.
      rewrite geti_seti by (eapply geti_Some_lt; eauto). destruct (N.eqb_spec j p) as [->|]; auto.
      rewrite Hp. reflexivity.
    + now rewrite seti_length.
    + intros j c' Hj. rewrite geti_seti in Hj by auto. destruct (N.eqb_spec j p) as [->|Hjp].
      * injection Hj as <-. exact HTn.
      * destruct (R4 _ _ Hj) as [T1 T2]. split; [exact T1|]. rewrite (OTH _ _ Hjp Hj). exact T2.
    + exact Esl.
    + rewrite Es2, !app_length. reflexivity.
    + rewrite EV. apply (Permutation_cons_inv (a := (fst z, s))).
      rewrite (Perm_swap_at _ _ _ (fst z, n) Hp), P1, E2, !numd_app. cbn [numd]. rewrite N.add_0_l, L1.
      replace (n + 1 + N.of_nat (length l2')) with s.
      2:{ rewrite Es2, app_length. cbn [length]. lia. }
      transitivity ((fst z, n) :: (fst z, s) :: numd 0 l1 ++ numd (n + 1) l2').
      { constructor. rewrite app_assoc. symmetry. apply Permutation_cons_append. }
      rewrite perm_swap. constructor. apply Permutation_middle.
    + rewrite E2. apply Permutation_app_head. apply Permutation_cons_append.
    + exists (seti C1 p cn), sl', l1, l2. split; [reflexivity|]. split; [exact F1|].
      split; [exact EL|]. rewrite F2. unfold swap_at. rewrite ER. reflexivity.
Qed.

End Ops.
