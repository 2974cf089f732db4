(** The flat16 map with any key equality. *)
From Coq Require Import NArith ZArith List Bool Lia Permutation.
From Coq Require Import ZifyBool ZifyNat ZifyN.
From Verif Require Import Base BaseFacts BitsModel BitsFacts GroupModel GroupFacts TableModel TableInv
  MapSpec MapFacts FallbackFacts RobinFacts Flat16Model Flat16Spec Flat16Facts Flat16Ops Flat16Refine Flat16Calls
  Flat16Runs CompareModel CompareSpec CompareFacts Compare2Model Compare2Spec.
Import ListNotations.
Open Scope N_scope.

Section Facts.

Context {K V : Type} (hash : K -> N) (mix : N -> N).

Notation slots := (list (option (K * V))).
Notation fmap := (fmap K V).
Notation C_ := (f_ctrls K V).
Notation S_ := (f_slots K V).
Notation oracle := (bool -> N -> bool).
Notation core := (@core K V hash mix).
Notation home := (home hash).
Notation f_near := (f_near K V hash).
Notation f_tidy := (f_tidy K V).
Notation f_roomy := (f_roomy K V).
Notation content := (@content K V).
Notation tidied := (@tidied K V).
Notation tag := (f_tag K hash mix).
Notation never := (fun _ _ : K => false).

Lemma f_never_tame : (forall k, hash k < two64) -> tame hash never.
Proof. constructor; auto; discriminate. Qed.

Lemma distinct_never (l : list (K * V)) : distinct_keys K V never l.
Proof.
  induction l as [|e l IH]; [exact I|]. split; auto. apply has_false. auto.
Qed.

Section Cmp.
Context (cmp : comparison K).

(** ** The search *)

Section Ring.
Variable b : N.
Hypothesis Hb2 : 2 <= b.
Hypothesis Hb : b <= 55.
Notation cap := (2 ^ b).
Notation fc := (@fc K V hash mix b).
Notation nw := (nw b).
Notation win := (win b).
Notation wrap := (wrap b).

Definition answered (t : fmap) (k : K) (a : option bool) (kv : K * V) : Prop :=
  exists seen, cmp seen k (fst kv) = a.

Lemma match_c_spec (t : fmap) k s ps : fc (C_ t) (S_ t) -> f_mask _ _ t = cap - 1 -> s < cap ->
  (forall p, In p ps -> p < 16 /\ geti (C_ t) (s + p) = Some (tag k)) -> forall seen,
  exists seen' a, f_match_c K V cmp t k s ps seen = Ok (seen', a) /\
  match a with
  | Found i => exists kv, geti (S_ t) i = Some (Some kv) /\ answered t k (Some true) kv
  | Thrown => exists i kv, geti (S_ t) i = Some (Some kv) /\ answered t k None kv
  | Absent => f_match K V never t k s ps = Ok None
      /\ forall p kv, In p ps -> geti (S_ t) (wrap (s + p)) = Some (Some kv) -> said false cmp k (fst kv)
  end.
Proof.
  intros X HM Hs. pose proof (cap_bound b Hb2 Hb) as CB. induction ps as [|p ps IH]; intros HP seen.
  - exists seen, Absent. split; [reflexivity|]. split; [reflexivity|]. intros p kv [].
  - destruct (HP p (or_introl eq_refl)) as [Hp Ep].
    destruct (fc_see hash mix b Hb2 Hb _ _ (s + p) X (in_clen b Hb2 Hb s p Hs Hp)) as (c & Ec & HH).
    rewrite Ep in Ec. injection Ec as <-. pose proof (tag_lt hash mix k).
    destruct HH as [(H2 & kv & Es & _)|[(_ & _ & _ & [E|E] & _)|(E & _)]];
      [|rewrite E in *; unfold fEmpty, fDeleted, fEndOf in *; lia..].
    cbn [f_match_c f_match]. unfold f_round. rewrite HM, wadd_small by (unfold two64; lia).
    rewrite (land_wrap b Hb2 Hb), Es by auto.
    destruct (cmp seen k (fst kv)) as [[|]|] eqn:EK.
    + eexists _, _. split; [reflexivity|]. exists kv. split; auto. exists seen. auto.
    + destruct (IH (fun p' Hp' => HP p' (or_intror Hp')) (fst kv :: seen)) as (seen' & a & A & B).
      eexists _, _. split; [exact A|]. destruct a as [i| |]; auto. destruct B as [B1 B2].
      split; auto. intros p' kv' [<-|Hin] E'; [|eauto].
      rewrite Es in E'. injection E' as <-. exists seen. auto.
    + eexists _, _. split; [reflexivity|]. eexists _, kv. split; [exact Es|]. exists seen. auto.
Qed.

Definition denied_at (S : slots) (k : K) (s : N) : Prop :=
  forall p kv, p < 16 -> s + p < 2 * cap -> geti S (wrap (s + p)) = Some (Some kv) ->
    hash (fst kv) = hash k -> said false cmp k (fst kv).

Lemma match_c_win (t : fmap) k s seen : fc (C_ t) (S_ t) -> f_mask _ _ t = cap - 1 -> s < cap ->
  let ps := positions (match_tag (window (C_ t) s) (tag k)) in
  exists seen' a, f_match_c K V cmp t k s ps seen = Ok (seen', a) /\
  match a with
  | Found i => exists kv, geti (S_ t) i = Some (Some kv) /\ answered t k (Some true) kv
  | Thrown => exists i kv, geti (S_ t) i = Some (Some kv) /\ answered t k None kv
  | Absent => f_match K V never t k s ps = Ok None /\ denied_at (S_ t) k s
  end.
Proof.
  intros X HM Hs ps. pose proof (window_length hash mix b Hb2 Hb _ _ s X Hs) as HL.
  assert (HI : forall p, In p ps <-> p < 16 /\ geti (C_ t) (s + p) = Some (tag k)).
  { intros p. unfold ps. rewrite match_tag_map, In_scan by auto. split.
    - intros (c & E & Hc). destruct (N.lt_ge_cases p 16) as [G|G].
      + rewrite window_geti in E by auto. apply N.eqb_eq in Hc. subst. auto.
      + now rewrite window_geti_hi in E.
    - intros (Hp & E). exists (tag k). rewrite window_geti by auto. split; auto. apply N.eqb_refl. }
  destruct (match_c_spec t k s ps X HM Hs (fun p => proj1 (HI p)) seen) as (seen' & a & A & B).
  exists seen', a. split; auto. destruct a as [i| |]; auto. destruct B as [B1 B2]. split; auto.
  intros p kv Hp H2 E EH. apply (B2 p kv); auto. apply HI. split; auto.
  destruct (fc_see hash mix b Hb2 Hb _ _ (s + p) X (in_clen b Hb2 Hb s p Hs Hp)) as (c & Ec & HH). rewrite Ec. f_equal.
  destruct HH as [(_ & kv' & Es & ->)|[(_ & _ & Es & _)|(_ & [G|(G & Es)])]].
  - rewrite E in Es. injection Es as <-. unfold f_tag. now rewrite EH.
  - rewrite E in Es. discriminate.
  - lia.
  - rewrite G in E. replace (wrap cap) with 0 in E; [rewrite E in Es; discriminate|].
    unfold Flat16Facts.wrap. destruct (N.ltb_spec cap cap); lia.
Qed.

Lemma scan_c_loop (t : fmap) k : fc (C_ t) (S_ t) -> f_mask _ _ t = cap - 1 ->
  forall fuel w seen, w < nw -> nw - w <= N.of_nat fuel ->
  (forall w', w' < w -> denied_at (S_ t) k (win (home b k) w')) ->
  exists seen' r, f_scan_c K V hash mix cmp fuel t k (home b k) (win (home b k) w) seen = Ok (seen', r) /\
  match r with
  | Scanned (FHit i) => exists kv, geti (S_ t) i = Some (Some kv) /\ answered t k (Some true) kv
  | CompareThrows => exists i kv, geti (S_ t) i = Some (Some kv) /\ answered t k None kv
  | Scanned s => f_scan K V hash never mix fuel t k (home b k) (win (home b k) w) = Ok s
      /\ match s with
         | FHit _ => False
         | FStop i _ => match_empty (window (C_ t) i) <> 0
             /\ forall w', w' < nw -> denied_at (S_ t) k (win (home b k) w') \/
             exists w1, w1 < w' /\ i = win (home b k) w1
         | FFull => forall w', w' < nw -> denied_at (S_ t) k (win (home b k) w')
         end
  end.
Proof.
  intros X HM. pose proof (home_lt' hash b Hb2 Hb k) as Hh.
  induction fuel as [|fuel IH]; intros w seen Hw HF HP; [lia|].
  cbn [f_scan_c f_scan]. pose proof (win_lt b Hb2 Hb _ _ Hh Hw) as HL.
  rewrite (f_group_ok hash mix b Hb2 Hb _ _ _ X HL). cbn [rbind].
  destruct (match_c_win t k (win (home b k) w) seen X HM HL) as (seen' & a & A & B). cbv zeta in *.
  rewrite A. cbn [rbind]. destruct a as [i| |].
  - eexists _, _. split; [reflexivity|]. exact B.
  - destruct B as [B1 B2]. rewrite B1. cbn [rbind].
    assert (HP' : forall w', w' < w + 1 -> denied_at (S_ t) k (win (home b k) w')).
    { intros w' Hw'. destruct (N.eq_dec w' w) as [->|]; [|apply HP; lia]. auto. }
    destruct (N.eqb_spec (match_empty (window (C_ t) (win (home b k) w))) 0) as [E|E]; cbn [negb].
    + unfold f_next, f_round, fGroupWidth. rewrite HM, (next_win b Hb2 Hb) by auto.
      destruct (N.eqb_spec (w + 1) nw) as [E1|E1].
      * rewrite N.eqb_refl. eexists _, _. split; [reflexivity|]. split; [reflexivity|].
        intros w' Hw'. apply HP'. lia.
      * destruct (N.eqb_spec (win (home b k) (w + 1)) (home b k)) as [E2|E2].
        { apply (win_first b Hb2 Hb) in E2; auto; lia. }
        apply IH; auto; lia.
    + eexists _, _. split; [reflexivity|]. split; [reflexivity|]. split; [exact E|].
      intros w' Hw'. destruct (N.lt_ge_cases w' (w + 1)) as [G|G]; auto.
      right. exists w. split; [lia|reflexivity].
  - eexists _, _. split; [reflexivity|]. exact B.
Qed.

End Ring.

Lemma search_c_spec b t k seen : core b t ->
  exists seen' r, f_search_c K V hash mix cmp t k seen = Ok (seen', r) /\
  match r with
  | Scanned (FHit i) => exists kv, geti (S_ t) i = Some (Some kv) /\ said true cmp k (fst kv)
  | CompareThrows => exists kv seen, In kv (content t) /\ cmp seen k (fst kv) = None
  | Scanned s => f_search K V hash never mix t k = Ok s /\ all_denied hash cmp k (content t)
  end.
Proof.
  intros X. pose proof (core_55 _ _ _ _ X) as Hb. pose proof (co_b2 _ _ _ _ X) as H2.
  pose proof (co_fc _ _ _ _ X) as XF. pose proof (co_mask _ _ _ _ X) as HM.
  unfold f_search_c, f_search. rewrite (f_home_eq hash b) by auto.
  pose proof (home_lt' hash b H2 Hb k) as Hh.
  destruct (scan_c_loop b H2 Hb t k XF HM (f_fuel K V t) 0 seen) as (seen' & r & A & B).
  { unfold nw. pose proof (cap_bound b H2 Hb). lia. }
  { rewrite N.sub_0_r. now apply (fuel_ok hash mix b H2 Hb). }
  { intros w' Hw'. lia. }
  rewrite win_0 in A, B by auto. exists seen', r. split; auto.
  assert (HD : forall e j, geti (S_ t) j = Some (Some e) -> hash (fst e) = hash k ->
    denied_at b (S_ t) k (win b (home b k) (dist b (home b k) j / 16)) -> said false cmp k (fst e)).
  { intros e j E EH H. pose proof (geti_Some_lt _ _ _ E) as Hj. rewrite (fc_slen _ _ _ _ _ XF) in Hj.
    destruct (cover b H2 Hb (home b k) j Hh Hj) as (_ & Hp & HW2 & HW).
    apply (H (dist b (home b k) j mod 16)); auto. now rewrite HW. }
  destruct r as [[i|i m|]|]; auto.
  - destruct B as (B1 & BM & B2). split; auto. intros e He EH. apply In_elems in He. destruct He as (j & Ej).
    apply (HD e j Ej EH).
    pose proof (geti_Some_lt _ _ _ Ej) as Hj. rewrite (fc_slen _ _ _ _ _ XF) in Hj.
    destruct (cover b H2 Hb (home b k) j Hh Hj) as (Hc & _).
    destruct (B2 _ Hc) as [|(w1 & Hw1 & Ei)]; auto. exfalso. apply BM.
    apply (match_empty_0 hash mix b H2 Hb _ _ _ XF). rewrite Ei.
    assert (Hkk : home b (fst e) = home b k) by (unfold Flat16Facts.home; now rewrite EH).
    rewrite <- Hkk in *. apply (co_chain _ _ _ _ X j e w1 Ej). lia.
  - destruct B as [B1 B2]. split; auto. intros e He EH. apply In_elems in He. destruct He as (j & Ej).
    apply (HD e j Ej EH). apply B2.
    pose proof (geti_Some_lt _ _ _ Ej) as Hj. rewrite (fc_slen _ _ _ _ _ XF) in Hj.
    now destruct (cover b H2 Hb (home b k) j Hh Hj).
  - destruct B as (i & kv & Ei & sn & Hc). exists kv, sn. split; auto. apply In_elems. eauto.
Qed.

(** ** Insertion *)

Context (H64 : forall k, hash k < two64).

Definition lifted {A} (r : out fmap A) : out fmap (looked A) := obind r (fun t x => Ret t (Done x)).

(** The end of an insertion that does not find all comparisons denied. *)
Definition cut (t : fmap) (k : K) (r : out fmap (looked (N * bool))) : Prop :=
  exists b' t', core b' t' /\ Permutation (content t) (content t')
    /\ ((r = Ret t' Escaped /\ exists kv seen, In kv (content t') /\ cmp seen k (fst kv) = None)
        \/ exists i kv, r = Ret t' (Done (i, true)) /\ geti (S_ t') i = Some (Some kv) /\ said true cmp k (fst kv)).

Lemma denied_perm k (m m' : list (K * V)) : Permutation m m' -> all_denied hash cmp k m' -> all_denied hash cmp k m.
Proof. intros P H e He. apply H. eapply Permutation_in; eauto. Qed.

Lemma tidied_tidy b t : core b t -> tidied t -> f_tidy t.
Proof. intros X T. apply (exact_tidy hash mix b); auto. split; [apply T|now right]. Qed.

Lemma full_tidy b t k : core b t -> f_tidy t \/ f_roomy t -> f_search K V hash never mix t k = Ok FFull -> f_tidy t.
Proof.
  intros X [H|[_ (j & Hj & Ej)]] ES; auto. exfalso.
  pose proof (core_55 _ _ _ _ X) as Hb. pose proof (co_b2 _ _ _ _ X) as H2.
  destruct (search_spec hash never mix (f_never_tame H64) b H2 Hb t k (co_fc _ _ _ _ X) (co_mask _ _ _ _ X) (co_chain _ _ _ _ X))
    as (r & ES' & HR).
  assert (r = FFull) as -> by congruence. destruct HR as [HR _]. rewrite (core_cap _ _ _ _ X) in Hj.
  destruct (visible hash mix b H2 Hb _ _ (home b k) j (co_fc _ _ _ _ X)) as (w & Hw & NS); try lia; auto.
  apply home_lt'; auto.
Qed.

Lemma prepare_c_spec alloc k : f_sane alloc -> forall fuel b t seen, core b t -> f_tidy t \/ f_roomy t ->
  cut t k (f_prepare_c K V hash mix cmp fuel alloc k seen t)
  \/ f_prepare_c K V hash mix cmp fuel alloc k seen t = lifted (f_prepare K V hash never mix fuel alloc k t)
     /\ (forall t' x, f_prepare K V hash never mix fuel alloc k t = Ret t' x -> all_denied hash cmp k (content t)).
Proof.
  intros HA. induction fuel as [|fuel IH]; intros b t seen X HC.
  { right. split; [reflexivity|]. discriminate. }
  destruct (search_c_spec b t k seen X) as (seen' & r & A & B). cbn [f_prepare_c f_prepare]. rewrite A.
  assert (GROW : f_tidy t -> all_denied hash cmp k (content t) ->
    let r1 := obind (f_grow K V hash mix alloc t) (fun t' _ => f_prepare_c K V hash mix cmp fuel alloc k seen' t') in
    let r2 := obind (f_grow K V hash mix alloc t) (fun t' _ => f_prepare K V hash never mix fuel alloc k t') in
    cut t k r1 \/ r1 = lifted r2 /\ (forall t' x, r2 = Ret t' x -> all_denied hash cmp k (content t))).
  { intros HT HDn r1 r2. unfold r1, r2.
    destruct (grow_spec hash mix alloc b t HA X HT) as [(t' & ->)|(b1 & t1 & -> & X1 & HT1 & HB1 & P1 & M1)]; cbn [obind].
    { right. split; [reflexivity|]. discriminate. }
    destruct (IH b1 t1 seen' X1 (or_introl (tidied_tidy b1 t1 X1 HT1))) as [(b' & t' & X' & P' & H)|(E & _)].
    - left. exists b', t'. split; auto. split; auto. now rewrite P1.
    - right. split; auto. }
  destruct r as [[i|last m|]|].
  - left. exists b, t. split; auto. split; auto. right. destruct B as (kv & Ei & Hs). eauto.
  - destruct B as [ES HDn]. rewrite ES. destruct (f_need_grow K V t) eqn:EN.
    + apply GROW; auto. destruct HC as [HT|[HL _]]; auto. unfold f_need_grow in EN. lia.
    + right. split; [|auto]. unfold lifted.
      destruct (negb (last =? f_home K V hash t k)).
      * destruct (f_deleted_loop _ _ _ _ _ _ _) as [[i|]|e]; reflexivity.
      * destruct (f_group (C_ t) last) as [g|e]; [|reflexivity]. destruct (negb (match_deleted g =? 0)); reflexivity.
  - destruct B as [ES HDn]. rewrite ES. apply GROW; auto. eapply full_tidy; eauto.
  - left. exists b, t. auto 6.
Qed.

(** emplace_impl after find_and_prepare_insert. *)
Definition finish_c (update : bool) (k : K) (v : V) (t1 : fmap) (r : looked (N * bool)) : out fmap (looked (N * bool)) :=
  match r with
  | Escaped => Ret t1 Escaped
  | Done (i, true) =>
      match geti (S_ t1) i with
      | Some (Some kv) =>
          if update
          then Ret (f_with K V t1 (C_ t1) (seti (S_ t1) i (Some (fst kv, v))) (f_size _ _ t1) (f_left _ _ t1))
                   (Done (i, false))
          else Ret t1 (Done (i, false))
      | _ => Fail EUndef
      end
  | Done (i, false) =>
      match f_construct K V hash mix t1 i (k, v) with
      | Ok t2 => Ret t2 (Done (i, true))
      | Err e => Fail e
      end
  end.

Definition finish (update : bool) (k : K) (v : V) (t1 : fmap) (r : N * bool) : out fmap (N * bool) :=
  let '(i, exists_) := r in
  if exists_ : bool then
    match geti (S_ t1) i with
    | Some (Some kv) =>
        if update
        then Ret (f_with K V t1 (C_ t1) (seti (S_ t1) i (Some (fst kv, v))) (f_size _ _ t1) (f_left _ _ t1)) (i, false)
        else Ret t1 (i, false)
    | _ => Fail EUndef
    end
  else
    match f_construct K V hash mix t1 i (k, v) with
    | Ok t2 => Ret t2 (i, true)
    | Err e => Fail e
    end.

Lemma emplace_c_finish alloc update k v t : f_emplace_c K V hash mix cmp alloc update k v t
  = obind (f_prepare_c K V hash mix cmp 64 alloc k [] t) (finish_c update k v).
Proof. reflexivity. Qed.

Lemma emplace_finish alloc update k v t : f_emplace K V hash never mix alloc update k v t
  = obind (f_prepare K V hash never mix 64 alloc k t) (finish update k v).
Proof. reflexivity. Qed.

Lemma finish_lifted update k v r : obind (lifted r) (finish_c update k v) = lifted (obind r (finish update k v)).
Proof.
  unfold lifted. destruct r as [t1 [i [|]]|t1|e]; cbn [obind finish finish_c]; auto.
  - destruct (geti (S_ t1) i) as [[kv|]|]; auto. destruct update; reflexivity.
  - destruct (f_construct K V hash mix t1 i (k, v)); reflexivity.
Qed.

(** ** One call *)

Definition followed_c (o : op K V) (t : fmap) (r : out fmap (option (obs K V))) : Prop :=
  (exists t', r = Throw t')
  \/ exists b' t' x, r = Ret t' x /\ core b' t' /\
      match x with
      | Some x => exists m, bag_step hash cmp o (content t) x m /\ Permutation (content t') m
      | None => Permutation (content t') (content t)
      end.

Lemma cut_followed (update : bool) t k v r : cut t k r ->
  followed_c (if update then OAssign K V k v else OInsert K V k v) t (f_ins_c K V (obind r (finish_c update k v))).
Proof.
  intros (b' & t' & X' & P' & [(E & _)|(i & kv & E & Ei & Hs)]); rewrite E; cbn [obind finish_c]; right.
  - exists b', t', None. split; [reflexivity|]. split; auto. now symmetry.
  - rewrite Ei.
    assert (Hin : In kv (content t)).
    { apply Permutation_in with (content t'); [now symmetry|]. apply In_elems. eauto. }
    destruct update; unfold f_ins_c, f_obs_c; cbn [obind].
    + unfold f_deref at 1. fcbn. rewrite geti_seti_eq by (eapply geti_Some_lt; eauto). cbn [rbind].
      eexists b', _, _. split; [reflexivity|]. split; [now apply (update_core hash mix)|].
      destruct (geti_split _ _ _ Ei) as (sa & sb & EE & _ & EU).
      exists ((fst kv, v) :: elems sa ++ elems sb). cbn [bag_step]. split.
      * left. exists kv, (elems sa ++ elems sb). split; [|auto]. rewrite P'. unfold Flat16Ops.content.
        rewrite EE, !elems_app. symmetry. apply Permutation_middle.
      * unfold Flat16Ops.content. fcbn. rewrite EU, !elems_app. symmetry. apply Permutation_middle.
    + unfold f_deref. rewrite Ei. cbn [rbind]. eexists b', t', _. split; [reflexivity|]. split; auto.
      exists (content t). split; [|now symmetry]. cbn [bag_step]. left. eauto.
Qed.

Lemma insert_c_followed (update : bool) alloc b t k v : f_sane alloc -> core b t -> f_tidy t \/ f_roomy t ->
  followed_c (if update then OAssign K V k v else OInsert K V k v) t
    (f_ins_c K V (f_emplace_c K V hash mix cmp alloc update k v t)).
Proof.
  intros HA X HC. rewrite emplace_c_finish.
  pose proof (prepare_c_spec alloc k HA 64 b t [] X HC) as HP.
  assert (HF : has K V never k (content t) = false) by (apply has_false; auto).
  pose proof (emplace_new hash never mix (f_never_tame H64) alloc update b t k v HA X (distinct_never _) HF HC) as HN.
  rewrite emplace_finish in HN. revert HP HN.
  generalize (f_prepare_c K V hash mix cmp 64 alloc k [] t) (f_prepare K V hash never mix 64 alloc k t).
  intros r r' [HP|(-> & HDn)] HN; [now apply cut_followed|].
  rewrite finish_lifted.
  destruct HN as [(t' & E')|(b' & t' & i & E' & X' & _ & P & Ei & _)]; rewrite E'; unfold lifted; cbn [obind].
  - left. exists t'. reflexivity.
  - right. unfold f_ins_c, f_obs_c. cbn [obind]. unfold f_deref. rewrite Ei. cbn [rbind].
    eexists b', t', _. split; [reflexivity|]. split; auto. exists ((k, v) :: content t). split; [|now symmetry].
    assert (all_denied hash cmp k (content t)).
    { destruct r' as [t1 x|t1|e]; try discriminate E'. eapply HDn; eauto. }
    destruct update; cbn [bag_step]; right; auto.
Qed.

Lemma step_c_followed (trivial : bool) alloc o b t : f_sane alloc -> core b t -> f_client K V hash o t ->
  followed_c o t (f_step_c K V hash mix cmp trivial alloc o t).
Proof.
  intros HA X HC.
  assert (OTHER : (forall m, bag_step hash cmp o m (snd (spec_step K V never o m)) (fst (spec_step K V never o m))) ->
    followed_c o t (obind (f_step K V hash never mix trivial alloc o t) (fun t' r => Ret t' (Some r)))).
  { intros HB.
    destruct (step_spec hash never mix (f_never_tame H64) trivial alloc o b t HA X (distinct_never _) HC)
      as [(t' & ->)|(b' & t' & -> & X' & P & _)]; cbn [obind]; [left; eauto|].
    right. eexists b', t', _. split; [reflexivity|]. split; auto.
    eexists. split; [apply HB|]. now symmetry. }
  destruct o as [k v|k v|k|k|k| |need|n|n|ro|x]; cbn [f_step_c]; cbn [f_client] in HC;
    try (apply OTHER; intros m; cbn; auto; fail).
  - exact (insert_c_followed false alloc b t k v HA X HC).
  - exact (insert_c_followed true alloc b t k v HA X HC).
  - unfold f_erase_c. destruct (search_c_spec b t k [] X) as (seen' & r & A & B). rewrite A. right.
    destruct r as [[i|last m|]|]; unfold f_obs_c.
    + destruct B as (kv & Ei & Hs).
      destruct (erase_slot_spec hash mix b t i kv X HC Ei) as (C' & tag' & left' & E & X' & _). rewrite E.
      cbn [obind]. eexists b, _, _. split; [reflexivity|]. split; [exact X'|].
      eexists. split; [|reflexivity]. cbn [bag_step]. left. exists kv. split; [|auto].
      symmetry. exact (elems_seti_None _ _ _ Ei).
    + cbn [obind]. eexists b, t, _. split; [reflexivity|]. split; auto. exists (content t). split; auto.
      cbn [bag_step]. right. tauto.
    + cbn [obind]. eexists b, t, _. split; [reflexivity|]. split; auto. exists (content t). split; auto.
      cbn [bag_step]. right. tauto.
    + cbn [obind]. eexists b, t, _. split; [reflexivity|]. split; auto.
  - unfold f_lookup_c. destruct (search_c_spec b t k [] X) as (seen' & r & A & B). rewrite A. right.
    destruct r as [[i|last m|]|]; unfold f_obs_c.
    + destruct B as (kv & Ei & Hs). unfold f_deref. rewrite Ei. cbn [obind].
      eexists b, t, _. split; [reflexivity|]. split; auto. exists (content t). split; auto.
      cbn [bag_step]. split; auto. left. exists kv. split; auto. apply In_elems. eauto.
    + cbn [obind]. eexists b, t, _. split; [reflexivity|]. split; auto. exists (content t). split; auto.
      cbn [bag_step]. split; auto. right. tauto.
    + cbn [obind]. eexists b, t, _. split; [reflexivity|]. split; auto. exists (content t). split; auto.
      cbn [bag_step]. split; auto. right. tauto.
    + cbn [obind]. eexists b, t, _. split; [reflexivity|]. split; auto.
  - unfold f_lookup_c. destruct (search_c_spec b t k [] X) as (seen' & r & A & B). rewrite A. right.
    destruct r as [[i|last m|]|]; unfold f_obs_c.
    + destruct B as (kv & Ei & Hs). unfold f_deref. rewrite Ei. cbn [obind is_none negb].
      eexists b, t, _. split; [reflexivity|]. split; auto. exists (content t). split; auto.
      cbn [bag_step]. split; auto. left. exists kv. split; auto. apply In_elems. eauto.
    + cbn [obind is_none negb]. eexists b, t, _. split; [reflexivity|]. split; auto. exists (content t). split; auto.
      cbn [bag_step]. split; auto. right. tauto.
    + cbn [obind is_none negb]. eexists b, t, _. split; [reflexivity|]. split; auto. exists (content t). split; auto.
      cbn [bag_step]. split; auto. right. tauto.
    + cbn [obind]. eexists b, t, _. split; [reflexivity|]. split; auto.
Qed.

End Cmp.

(** ** Runs *)

Context (H64 : forall k, hash k < two64).

Lemma f_run_c_bag trivial (calls : list (@f_call_c K V)) : forall b t,
  Forall (fun c => f_sane (fst (fst c))) calls -> core b t -> f_obeys_c hash mix trivial calls t ->
  match f_run_c hash mix trivial calls t with
  | Ret t' outs => (exists b', core b' t') /\ bag_run hash calls outs (content t) (content t')
  | Throw _ => True
  | Fail _ => False
  end.
Proof.
  induction calls as [|[[alloc cmp] o] calls IH]; intros b t HA X Ho; cbn [f_run_c].
  - split; [eauto|]. constructor. reflexivity.
  - inversion HA as [|? ? HA1 HA2]; subst. cbn [fst] in HA1. cbn [f_obeys_c] in Ho. destruct Ho as [Ho1 Ho2].
    destruct (step_c_followed cmp H64 trivial alloc o b t HA1 X Ho1) as [(t' & E)|(b' & t' & x & E & X' & HX)];
      rewrite E in *; cbn [obind]; auto.
    pose proof (IH b' t' HA2 X' Ho2) as H.
    destruct (f_run_c hash mix trivial calls t') as [t2 outs|t2|e]; cbn [obind]; auto.
    destruct H as [H1 H2]. split; auto. destruct x as [x|].
    + destruct HX as (m & Hb & HP). econstructor; eauto. eapply bag_run_perm; eauto.
    + constructor. eapply bag_run_perm; eauto.
Qed.

Lemma f_reached_core trivial t : f_reached_c hash mix trivial t -> exists b, core b t.
Proof.
  intros (alloc & n & t0 & calls & outs & HA & Hn & E0 & HAs & Ho & E).
  destruct (new_spec hash mix alloc n t0 HA Hn E0) as (b & X & _).
  pose proof (f_run_c_bag trivial calls b t0 HAs X Ho) as H. rewrite E in H. tauto.
Qed.

End Facts.
