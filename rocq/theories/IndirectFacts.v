(** The indirect layout of the robin hood map: its controls, read as a table from
    keys to slot numbers, satisfy the invariant of RobinFacts.v. *)
From Coq Require Import NArith ZArith List Bool Lia Permutation.
From Coq Require Import ZifyBool ZifyNat ZifyN.
From Verif Require Import Base BaseFacts BitsModel BitsFacts GroupModel HashModel TableModel TableInv
  MapSpec MapFacts RobinModel RobinSpec RobinFacts IndirectModel.
Import ListNotations.
Open Scope N_scope.

Lemma geti_map {A B} (f : A -> B) l i : geti (map f l) i = option_map f (geti l i).
Proof. unfold geti. apply nth_error_map. Qed.

Lemma geti_firstn {A} (l : list A) m i : geti (firstn (N.to_nat m) l) i = if i <? m then geti l i else None.
Proof.
  unfold geti. destruct (N.ltb_spec i m) as [H|H].
  - rewrite <- (firstn_skipn (N.to_nat m) l) at 2.
    destruct (Nat.lt_ge_cases (N.to_nat i) (length (firstn (N.to_nat m) l))) as [Hl|Hl].
    + now rewrite nth_error_app1 by auto.
    + rewrite firstn_length in Hl. rewrite skipn_all2 by lia. now rewrite app_nil_r.
  - apply nth_error_None. rewrite firstn_length. lia.
Qed.

Lemma low_cmp d c : c_hash c < 256 -> (s16 (d * 256) <=? low16 c)%Z = (s8 d <=? s8 (c_dist c))%Z.
Proof.
  intros H. unfold low16, s16, s8.
  destruct (N.ltb_spec (d * 256) 32768), (N.ltb_spec (c_dist c * 256 + c_hash c) 32768),
    (N.ltb_spec d 128), (N.ltb_spec (c_dist c) 128); lia.
Qed.

Section Ind.

Context {K V : Type} (hash : K -> N) (keq : K -> K -> bool) (LW : lawful hash keq).

Notation slots := (list (option (K * V))).
Notation ctrl_hash := (ctrl_hash K hash).

Lemma ctrl_hash_lt k : ctrl_hash k < 256.
Proof.
  unfold IndirectModel.ctrl_hash. change 255 with (N.ones 8). rewrite N.land_ones.
  apply N.mod_lt. discriminate.
Qed.

Lemma ctrl_hash_keq k k' : keq k k' = true -> ctrl_hash k = ctrl_hash k'.
Proof. intros H. unfold IndirectModel.ctrl_hash. now rewrite (lw_compat _ _ LW _ _ H). Qed.

(** ** The controls as a table from keys to slots *)

Definition vw (sl : slots) (c : ictl) : option (K * N) :=
  if c_dist c <? 128
  then match geti sl (c_idx c) with Some (Some kv) => Some (fst kv, c_idx c) | _ => None end
  else None.

Definition DS (C : list ictl) : list N := map c_dist C.
Definition VSM (M : N) (sl : slots) (C : list ictl) : list (option (K * N)) :=
  firstn (N.to_nat M) (map (vw sl) C).

Definition tagok (sl : slots) (c : ictl) : Prop :=
  c_hash c < 256 /\ forall k n, vw sl c = Some (k, n) -> c_hash c = ctrl_hash k.

Definition tags (sl : slots) (C : list ictl) : Prop := forall i c, geti C i = Some c -> tagok sl c.

Variables b M : N.

Notation VS := (VSM M).
Notation cs := (cs hash b M).

Lemma geti_DS C i : geti (DS C) i = option_map c_dist (geti C i).
Proof. apply geti_map. Qed.

Lemma geti_VS sl C i : geti (VS sl C) i = if i <? M then option_map (vw sl) (geti C i) else None.
Proof. unfold VSM. rewrite geti_firstn. destruct (i <? M); auto. apply geti_map. Qed.

Lemma DS_length C : length (DS C) = length C.
Proof. apply map_length. Qed.

Lemma DS_seti C i c : DS (seti C i c) = seti (DS C) i (c_dist c).
Proof.
  unfold DS, seti. generalize (N.to_nat i). intros n. revert C. induction n; intros [|a C]; cbn; auto.
  now rewrite IHn.
Qed.

Lemma seti_ge {A} (l : list A) i x : N.of_nat (length l) <= i -> seti l i x = l.
Proof.
  unfold seti. intros H. assert (Hn : (length l <= N.to_nat i)%nat) by lia. clear H. revert Hn.
  generalize (N.to_nat i). intros n. revert l. induction n; intros [|a l] H; cbn in *; auto; try lia.
  now rewrite IHn by lia.
Qed.

Lemma VS_length sl C : (N.to_nat M <= length C)%nat -> N.of_nat (length (VS sl C)) = M.
Proof. intros H. unfold VSM. rewrite firstn_length, map_length. lia. Qed.

Lemma VS_seti sl C i c : i < N.of_nat (length C) -> VS sl (seti C i c) = seti (VS sl C) i (vw sl c).
Proof.
  intros Hi. apply geti_ext. intros j. rewrite geti_VS.
  destruct (N.lt_ge_cases i M) as [HM|HM].
  - assert (Hv : i < N.of_nat (length (VS sl C))).
    { unfold VSM. rewrite firstn_length, map_length. lia. }
    rewrite !geti_seti by auto. destruct (N.eqb_spec j i) as [->|Hn].
    + destruct (N.ltb_spec i M); [reflexivity|lia].
    + now rewrite geti_VS.
  - rewrite (seti_ge (VS sl C)).
    + rewrite geti_VS. destruct (N.ltb_spec j M); auto. now rewrite geti_seti_neq by lia.
    + unfold VSM. rewrite firstn_length, map_length. lia.
Qed.

Lemma tags_seti sl C i c : tags sl C -> tagok sl c -> tags sl (seti C i c).
Proof.
  intros HT Hc j c' Hj. destruct (N.lt_ge_cases i (N.of_nat (length C))) as [Hi|Hi].
  - rewrite geti_seti in Hj by auto. destruct (j =? i); [congruence|eauto].
  - rewrite seti_ge in Hj by auto. eauto.
Qed.

Lemma vw_Some sl c k n : vw sl c = Some (k, n) ->
  c_dist c < 128 /\ n = c_idx c /\ exists v, geti sl n = Some (Some (k, v)).
Proof.
  unfold vw. destruct (N.ltb_spec (c_dist c) 128); [|discriminate].
  destruct (geti sl (c_idx c)) as [[[k' v]|]|] eqn:E; try discriminate.
  intros X. injection X as <- <-. cbn. eauto.
Qed.

(** The view of a control depends on its index only, as long as it is used. *)
Lemma vw_idx sl c c' e : vw sl c = Some e -> c_idx c' = c_idx c -> c_dist c' < 128 -> vw sl c' = Some e.
Proof.
  unfold vw. intros H E H'. rewrite E. destruct (N.ltb_spec (c_dist c') 128); [|lia].
  destruct (c_dist c <? 128); [auto|discriminate].
Qed.

Lemma tagok_idx sl c c' : tagok sl c -> c_idx c' = c_idx c -> c_hash c' = c_hash c ->
  c_dist c < 128 -> tagok sl c'.
Proof.
  intros [H1 H2] E1 E2 Hd. split; [lia|]. intros k n Hv. rewrite E2. apply (H2 k n).
  destruct (vw_Some _ _ _ _ Hv) as (A & B & _). eapply vw_idx; eauto.
Qed.

(** ** Search *)

Lemma scan_sim C sl key : tags sl C -> forall fuel i d r,
  r_scan K N keq fuel (DS C) (VS sl C) key i d = Ok r ->
  i_scan K V hash keq fuel C sl key i d = Ok r.
Proof.
  intros HT. induction fuel as [|fuel IH]; intros i d r H; [discriminate|].
  cbn [r_scan] in H. cbn [i_scan]. rewrite geti_DS in H.
  destruct (geti C i) as [c|] eqn:Ec; cbn [option_map] in H; [|discriminate].
  destruct (HT _ _ Ec) as [Hh Ht]. rewrite (low_cmp d c Hh).
  destruct (s8 d <=? s8 (c_dist c))%Z; [|exact H].
  destruct key as [k|]; [|now apply IH].
  rewrite geti_VS, Ec in H. destruct (i <? M); [|discriminate]. cbn [option_map] in H.
  destruct (vw sl c) as [[k' n]|] eqn:Ev; [|discriminate]. cbn [fst] in H.
  destruct (vw_Some _ _ _ _ Ev) as (_ & -> & v & Es). rewrite (Ht _ _ eq_refl), Es. cbn [fst].
  destruct (keq k' k) eqn:Ek.
  - rewrite (ctrl_hash_keq _ _ Ek), N.eqb_refl. exact H.
  - destruct (_ =? _); now apply IH.
Qed.

(** ** indirect_insert_to_place *)

Lemma place_ind (rehashing : bool) ins D sl (Hroom : 2 ^ b + D <= M) (HD : D <= 126) :
  forall fuel C i rich car l,
  N.of_nat (length C) < N.of_nat fuel + i ->
  cs (DS C) (VS sl C) -> tags sl C -> tagok sl rich -> vw sl rich = Some car ->
  fits hash b (DS C) i (c_dist rich) car ->
  (forall j c, i <= j -> geti (DS C) j = Some c -> c < 128 -> c < 127) ->
  Permutation l (car :: elems (VS sl C)) ->
  (forall a n, 1 <= n -> cnt (inwin hash b a n) l <= n + D) ->
  exists C', i_place fuel rehashing M ins C i rich = Ok (C', true)
    /\ length C' = length C /\ cs (DS C') (VS sl C') /\ tags sl C'
    /\ Permutation l (elems (VS sl C')).
Proof.
  induction fuel as [|fuel IH]; intros C i rich car l Hfu X HT Hr Hv F Cl P HS.
  { pose proof (fits_room _ _ _ _ _ _ _ _ _ _ X F P HS). destruct F as (F1 & F2 & F3).
    pose proof (hm_lt hash b (fst car)). pose proof (cs_clen _ _ _ _ _ X) as HL.
    rewrite DS_length in HL. lia. }
  cbn [i_place].
  pose proof (fits_room _ _ _ _ _ _ _ _ _ _ X F P HS) as HrD.
  assert (HiM : i < M). { destruct F as (F1 & F2 & F3). pose proof (hm_lt hash b (fst car)). lia. }
  destruct (N.ltb_spec i M); [|lia].
  pose proof (cs_clen _ _ _ _ _ X) as HCL. rewrite DS_length in HCL.
  destruct (geti_lt C i) as [c Hc]; [lia|]. rewrite Hc.
  assert (HDc : geti (DS C) i = Some (c_dist c)) by (rewrite geti_DS, Hc; reflexivity).
  assert (EV : geti (VS sl C) i = Some (vw sl c)).
  { rewrite geti_VS, Hc. destruct (N.ltb_spec i M); [reflexivity|lia]. }
  assert (PUT : c_dist c = 255 \/ c_dist c < c_dist rich ->
     cs (DS (seti C i rich)) (VS sl (seti C i rich))).
  { intros Hlt. rewrite DS_seti, VS_seti, Hv by lia. eapply put_cs; eauto. }
  destruct (N.eqb_spec (c_dist c) cEmpty) as [He|Hne].
  - exists (seti C i rich). split; [reflexivity|]. split; [apply seti_length|].
    split; [apply PUT; unfold cEmpty in He; lia|]. split; [now apply tags_seti|].
    rewrite VS_seti, Hv by lia. rewrite P. symmetry. apply elems_seti_Some.
    rewrite EV. unfold vw. unfold cEmpty in He. destruct (N.ltb_spec (c_dist c) 128); [lia|reflexivity].
  - assert (Hu : c_dist c < 128).
    { destruct (N.lt_ge_cases (c_dist c) 128) as [|Hge]; auto.
      destruct (cs_free _ _ _ _ _ X _ _ HDc Hge) as (_ & [A|A] & _); [contradiction|lia]. }
    pose proof (Cl i _ ltac:(lia) HDc Hu) as Hc127.
    assert (HF : fits hash b (DS C) i (c_dist rich) car) by exact F.
    destruct F as (F1 & F2 & F3).
    rewrite (s8_used (c_dist c)), (s8_used (c_dist rich)) by lia.
    assert (INC : forall x, c_dist x < 127 -> c_dist (c_inc x) = c_dist x + 1).
    { intros x Hx. cbn [c_inc c_dist]. apply inc8_small. lia. }
    destruct (Z.ltb_spec (Z.of_N (c_dist c)) (Z.of_N (c_dist rich))) as [Hlt|Hge].
    + destruct (cs_used _ _ _ _ _ X _ _ HDc Hu) as (kv' & E & Ei).
      rewrite EV in E. injection E as E.
      rewrite (INC c) by auto. destruct (N.ltb_spec 127 (c_dist c + 1)); [lia|]. rewrite andb_false_r.
      destruct (IH (seti C i rich) (i + 1) (c_inc c) kv' l) as (C' & R & R1 & R2 & R3 & R4); auto.
      * rewrite seti_len. lia.
      * apply PUT. lia.
      * now apply tags_seti.
      * eapply tagok_idx; [eapply HT; eauto| | |]; auto.
      * eapply vw_idx; eauto. rewrite INC; lia.
      * rewrite DS_seti, INC by auto. split; [lia|]. split; [lia|]. intros _. exists (c_dist rich).
        replace (i + 1 - 1) with i by lia. rewrite geti_seti_eq by (rewrite DS_length; lia). split; [auto|lia].
      * intros j cj Hj. rewrite DS_seti, geti_seti_neq by lia. apply Cl. lia.
      * rewrite VS_seti, Hv by lia. rewrite P. symmetry. apply Perm_swap_at. now rewrite EV, E.
      * exists C'. rewrite R1, seti_length. auto.
    + rewrite (INC rich) by lia.
      destruct (N.ltb_spec 127 (c_dist rich + 1)); [lia|]. rewrite andb_false_r.
      apply (IH C (i + 1) (c_inc rich) car l); auto; try lia.
      * eapply tagok_idx; eauto.
      * eapply vw_idx; eauto. rewrite INC; lia.
      * rewrite INC by lia. split; [lia|]. split; [lia|]. intros _. exists (c_dist c).
        replace (i + 1 - 1) with i by lia. split; [auto|lia].
      * intros j cj Hj. apply Cl. lia.
Qed.

(** ** indirect_erase_slot, the controls *)

Lemma shift_ind sl : forall fuel C i c0, hole hash b M (DS C) (seti (VS sl C) i None) i c0 -> i < M ->
  N.of_nat (length C) <= N.of_nat fuel + i -> tags sl C ->
  exists C', i_shift fuel C i = Ok C' /\ cs (DS C') (VS sl C') /\ length C' = length C
    /\ tags sl C' /\ Permutation (elems (VS sl C')) (elems (seti (VS sl C) i None)).
Proof.
  induction fuel as [|fuel IH]; intros C i c0 X Hi Hf HT.
  { pose proof (h_clen _ _ _ _ _ _ _ X) as HL. rewrite DS_length in HL. lia. }
  cbn [i_shift]. pose proof (h_clen _ _ _ _ _ _ _ X) as HCL. rewrite DS_length in HCL.
  destruct (geti_lt C (i + 1)) as [c Hc]; [lia|]. rewrite Hc.
  assert (HDc : geti (DS C) (i + 1) = Some (c_dist c)) by (rewrite geti_DS, Hc; reflexivity).
  assert (CLOSE : (c_dist c = 0 \/ 128 <= c_dist c) ->
    exists C', Ok (seti C i iEmpty) = Ok C' /\ cs (DS C') (VS sl C') /\ length C' = length C
      /\ tags sl C' /\ Permutation (elems (VS sl C')) (elems (seti (VS sl C) i None))).
  { intros H0. exists (seti C i iEmpty). split; [reflexivity|].
    rewrite DS_seti, VS_seti by lia.
    split; [|split; [apply seti_length|split]].
    - change (vw sl iEmpty) with (@None (K * N)). eapply hole_close; eauto.
      intros c' E. rewrite HDc in E. injection E as <-. lia.
    - apply tags_seti; auto. split; [reflexivity|]. intros k n. discriminate.
    - reflexivity. }
  destruct (N.lt_ge_cases (c_dist c) 128) as [Hu|Hge].
  - rewrite s8_used by auto. destruct (Z.leb_spec (Z.of_N (c_dist c)) 0) as [Hz|Hpos].
    + apply CLOSE. lia.
    + destruct (h_used _ _ _ _ _ _ _ X (i + 1) _ ltac:(lia) HDc Hu) as (kv & E & Ei).
      pose proof (hole_move _ _ _ _ _ _ _ _ _ X Hi HDc ltac:(lia) Hu E Ei) as X'.
      pose proof (geti_Some_lt _ _ _ E) as Hi1. rewrite (h_len _ _ _ _ _ _ _ X) in Hi1.
      rewrite geti_seti_neq, geti_VS, Hc in E by lia.
      destruct (N.ltb_spec (i + 1) M); [|lia]. cbn [option_map] in E. injection E as E.
      assert (EDc : c_dist (c_dec c) = c_dist c - 1) by (cbn [c_dec c_dist]; apply dec8_small; lia).
      assert (EVc : vw sl (c_dec c) = Some kv) by (eapply vw_idx; eauto; lia).
      assert (EQ : seti (seti (seti (VS sl C) i None) i (Some kv)) (i + 1) None
        = seti (VS sl (seti C i (c_dec c))) (i + 1) None).
      { rewrite VS_seti, EVc, seti_seti by lia. reflexivity. }
      rewrite EQ, <- EDc, <- DS_seti in X'.
      destruct (IH (seti C i (c_dec c)) (i + 1) _ X') as (C' & R1 & R2 & R3 & R4 & R5).
      * auto.
      * rewrite seti_len. lia.
      * apply tags_seti; auto. eapply tagok_idx; [eapply HT; eauto| | |]; auto.
      * exists C'. split; [auto|]. split; [auto|]. split; [now rewrite R3, seti_length|]. split; [auto|].
        rewrite R5, <- EQ. set (S0 := seti (VS sl C) i None) in *.
        assert (E2 : geti S0 (i + 1) = Some (Some kv)).
        { unfold S0. rewrite geti_seti_neq, geti_VS, Hc by lia.
          destruct (N.ltb_spec (i + 1) M); [|lia]. cbn [option_map]. now rewrite E. }
        rewrite seti_comm by lia. rewrite elems_seti_Some.
        { now apply elems_seti_None. }
        rewrite geti_seti_neq by lia. apply (h_raw _ _ _ _ _ _ _ X).
  - destruct (h_free _ _ _ _ _ _ _ X (i + 1) _ ltac:(lia) HDc Hge) as (H255 & _).
    pose proof (s8_neg _ Hge H255). destruct (Z.leb_spec (s8 (c_dist c)) 0); [|lia].
    apply CLOSE. lia.
Qed.

(** ** The invariant depends on the keys only *)

Lemma cs_keys {V1 V2} (D : list N) (S1 : list (option (K * V1))) (S2 : list (option (K * V2))) :
  map (option_map fst) S1 = map (option_map fst) S2 ->
  RobinFacts.cs hash b M D S1 -> RobinFacts.cs hash b M D S2.
Proof.
  intros E X.
  assert (EL : length S1 = length S2).
  { rewrite <- (map_length (option_map fst) S1), E. apply map_length. }
  assert (G : forall i, option_map (option_map fst) (geti S1 i) = option_map (option_map fst) (geti S2 i)).
  { intros i. rewrite <- !geti_map. now rewrite E. }
  split.
  - intros i c Hc Hu. destruct (cs_used _ _ _ _ _ X _ _ Hc Hu) as (kv & E1 & E2).
    specialize (G i). rewrite E1 in G. cbn in G.
    destruct (geti S2 i) as [[kv2|]|] eqn:EG; cbn in G; try discriminate. injection G as G.
    exists kv2. split; auto. now rewrite <- G.
  - intros i c Hc Hu. destruct (cs_free _ _ _ _ _ X _ _ Hc Hu) as (A & B & F). split; auto. split; auto.
    intros Hi. specialize (F Hi). specialize (G i). rewrite F in G. cbn in G.
    destruct (geti S2 i) as [[kv2|]|] eqn:EG; cbn in G; try discriminate. reflexivity.
  - apply (cs_order _ _ _ _ _ X).
  - rewrite <- EL. apply (cs_len _ _ _ _ _ X).
  - apply (cs_clen _ _ _ _ _ X).
Qed.

(** ** find_ctrl *)

(** The control with index [n] is found from the home position of its key, when no
    control before it has that index. *)
Lemma find_ctrl_ind C sl p c k n : cs (DS C) (VS sl C) -> geti C p = Some c -> vw sl c = Some (k, n) ->
  (forall j c', geti C j = Some c' -> c_dist c' < 128 -> c_idx c' = n -> j = p) ->
  i_find_ctrl (S (length C)) C n (hm hash b k) = Ok p.
Proof.
  intros X Hc Hv HU. destruct (vw_Some _ _ _ _ Hv) as (Hu & En & _).
  assert (HD : geti (DS C) p = Some (c_dist c)) by (rewrite geti_DS, Hc; reflexivity).
  pose proof (cs_used_lt _ _ _ _ _ _ _ X HD Hu) as HpM.
  destruct (cs_used _ _ _ _ _ X _ _ HD Hu) as (kv & E & Ei).
  rewrite geti_VS, Hc in E. destruct (N.ltb_spec p M); [|lia]. cbn [option_map] in E.
  rewrite Hv in E. injection E as <-. cbn [fst] in Ei.
  pose proof (geti_Some_lt _ _ _ Hc) as Hpl.
  assert (G : forall m fuel, m <= c_dist c -> (N.to_nat m < fuel)%nat ->
    i_find_ctrl fuel C n (p - m) = Ok p).
  { intros m. induction m as [|m IHm] using N.peano_ind; intros fuel Hm Hf.
    - destruct fuel; [lia|]. cbn [i_find_ctrl]. rewrite N.sub_0_r, Hc, <- En, N.eqb_refl. reflexivity.
    - destruct fuel; [lia|]. cbn [i_find_ctrl].
      destruct (cs_chain _ _ _ _ _ X (N.succ m) _ _ HD Hu ltac:(lia)) as (c' & E' & L' & _).
      rewrite geti_DS in E'. destruct (geti C (p - N.succ m)) as [cc|] eqn:Ecc; [|discriminate].
      cbn in E'. injection E' as <-.
      destruct (N.eqb_spec (c_idx cc) n) as [Heq|Hne].
      + pose proof (HU _ _ Ecc L' Heq). lia.
      + replace (p - N.succ m + 1) with (p - m) by lia. apply IHm; lia. }
  replace (hm hash b k) with (p - c_dist c) by lia. apply G; lia.
Qed.

End Ind.
