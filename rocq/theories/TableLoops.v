(** The loops over the used slots visit exactly the occupied slots, in order. *)
From Coq Require Import NArith ZArith List Bool Lia Permutation Sorted.
From Coq Require Import ZifyBool ZifyNat ZifyN.
From Verif Require Import Base BaseFacts BitsModel BitsFacts ProberModel ProberFacts
  GroupModel GroupFacts TableModel TableInv TableFind TableInsert.
Import ListNotations.
Open Scope N_scope.
Ltac Zify.zify_post_hook ::= Z.div_mod_to_equations.

(** ** Ranges *)

Definition range (a n : N) : list N := map (N.add a) (seqN n).


Lemma seq_shift_n n m : seq n m = map (Nat.add n) (seq 0 m).
Proof.
  induction n.
  - rewrite map_id. reflexivity.
  - rewrite <- seq_shift, IHn, map_map. apply map_ext. reflexivity.
Qed.

Lemma range_app a n m : range a (n + m) = range a n ++ range (a + n) m.
Proof.
  unfold range, seqN. rewrite !map_map.
  replace (N.to_nat (n + m)) with (N.to_nat n + N.to_nat m)%nat by lia.
  rewrite seq_app, map_app. f_equal. simpl plus.
  rewrite (seq_shift_n (N.to_nat n)), map_map. apply map_ext. intros. lia.
Qed.

Lemma range_0 n : range 0 n = seqN n.
Proof. unfold range. apply map_id. Qed.

Lemma In_range a n i : In i (range a n) <-> a <= i < a + n.
Proof.
  unfold range. rewrite in_map_iff. split.
  - intros (x & <- & H). apply seqN_In in H. lia.
  - intros H. exists (i - a). split; [lia|]. apply seqN_In. lia.
Qed.

Lemma seqN_app n m : seqN (n + m) = seqN n ++ range n m.
Proof. now rewrite <- !range_0, range_app. Qed.

Lemma sorted_seqN n : StronglySorted N.lt (seqN n).
Proof.
  unfold seqN. generalize 0%nat. generalize (N.to_nat n). clear n.
  induction n; intros s; simpl; constructor; auto.
  apply Forall_forall. intros x Hx. apply in_map_iff in Hx. destruct Hx as (y & <- & Hy).
  apply in_seq in Hy. lia.
Qed.

Lemma sorted_filter f l : StronglySorted N.lt l -> StronglySorted N.lt (filter f l).
Proof.
  induction 1; simpl; [constructor|]. destruct (f a); auto. constructor; auto.
  rewrite Forall_forall in *. intros x Hx. apply filter_In in Hx. apply H0. tauto.
Qed.

Lemma sorted_positions m : m < two32 -> StronglySorted N.lt (positions m).
Proof. intros. rewrite positions_spec by auto. apply sorted_filter, sorted_seqN. Qed.

Lemma filter_none {A} (f : A -> bool) l : (forall x, In x l -> f x = false) -> filter f l = [].
Proof.
  induction l; simpl; intros H; auto. rewrite H by now left. apply IHl. intros. apply H. now right.
Qed.

Lemma filter_filter {A} (f g : A -> bool) l :
  filter f (filter g l) = filter (fun x => g x && f x) l.
Proof.
  induction l; simpl; auto. destruct (g a); simpl; [destruct (f a)|]; rewrite IHl; auto.
Qed.

(** ** Folding a partial function over a list of indices *)

Section Fold.
  Context {St : Type} (f : N -> St -> res St).
  Fixpoint fold_res (l : list N) (st : St) : res St :=
    match l with
    | [] => Ok st
    | i :: l' => rbind (f i st) (fold_res l')
    end.

  Lemma fold_res_app l1 l2 st : fold_res (l1 ++ l2) st = rbind (fold_res l1 st) (fold_res l2).
  Proof.
    revert st; induction l1; simpl; intros; auto.
    destruct (f a st); simpl; auto.
  Qed.
End Fold.

Section Loops.

Context {K V : Type} (hash : K -> N) (keq : K -> K -> bool) (kd : kind) (L : klaws kd).
Context (LW : tame hash keq).

Notation table := (table K V).
Notation S' := (kd_S kd).
Notation code := (kl_code kd L).
Notation valid := (kl_valid kd L).
Notation sidx := (slot_index kd).
Notation gsinv := (@TableInv.gsinv K V hash keq kd L).
Notation Inv0 := (@TableInv.Inv0 K V hash keq kd L).
Notation ovf := (kd_is_overflow kd).

Definition occ (sl : list (option (K * V))) (i : N) : bool :=
  match geti sl i with Some (Some _) => true | _ => false end.

Lemma occ_true sl i : occ sl i = true <-> exists kv, geti sl i = Some (Some kv).
Proof.
  unfold occ. destruct (geti sl i) as [[kv|]|]; split; intros H; eauto; try discriminate;
    destruct H; discriminate.
Qed.

Section Generic.
  Context {St : Type} (f : N -> N -> St -> res St) (fi : N -> St -> res St).
  Context (Hf : forall gi p st, f gi p st = fi (sidx gi p) st).

  Lemma each_pos_fold g gi ps st : 
    (forall p, In p ps -> p < S') ->
    StronglySorted N.lt ps ->
    (forall p, In p ps -> kd_is_sentinel kd g p = true -> p = S' - 1) ->
    each_pos kd St f g gi ps st
    = fold_res fi (map (sidx gi) (filter (fun p => negb (kd_is_sentinel kd g p)) ps)) st.
  Proof.
    revert st. induction ps as [|p ps IH]; intros st Hlt Hso Hse; [reflexivity|].
    cbn [each_pos filter]. inversion Hso as [|? ? Hso' Hall]; subst.
    destruct (kd_is_sentinel kd g p) eqn:E; cbn [negb].
    - assert (p = S' - 1) by (apply Hse; auto; now left).
      destruct ps as [|q ps]; [reflexivity|]. exfalso.
      inversion Hall; subst. specialize (Hlt q ltac:(right; now left)). lia.
    - cbn [map fold_res]. rewrite Hf. destruct (fi (sidx gi p) st); [|reflexivity].
      cbn [rbind]. apply IH; auto.
      + intros. apply Hlt. now right.
      + intros. apply Hse; auto. now right.
  Qed.

  (** The positions of one group. *)
  Lemma group_positions k gs sl gi g : gsinv k gs sl -> geti gs gi = Some g ->
    map (sidx gi) (filter (fun p => negb (kd_is_sentinel kd g p)) (positions (kd_match_used kd g)))
    = filter (occ sl) (range (gi * S') S').
  Proof.
    intros G Hg. pose proof (gv_valid _ _ _ _ _ _ _ G _ _ Hg) as Hv.
    pose proof (proj1 (proj2 (kl_masks _ L g 0 Hv))) as Hm.
    rewrite positions_spec by auto. rewrite filter_filter.
    pose proof (S_pos kd L) as HS.
    replace 32 with (S' + (32 - S')) by lia. rewrite seqN_app, filter_app.
    rewrite (filter_none _ (range S' (32 - S'))).
    2:{ intros x Hx. apply In_range in Hx.
        destruct (N.testbit (kd_match_used kd g) x) eqn:E; [|reflexivity].
        apply (kl_match_used _ L) in E; auto. lia. }
    rewrite app_nil_r. unfold range. rewrite filter_map.
    f_equal. apply filter_ext_in. intros p Hp. apply seqN_In in Hp.
    assert (Hgi : gi < 2 ^ k) by (apply geti_Some_lt in Hg; now rewrite (gv_len _ _ _ _ _ _ _ G) in Hg).
    fold (sidx gi p).
    destruct (is_sent kd k gi p) eqn:Es.
    - pose proof (gv_sent _ _ _ _ _ _ _ G _ _ _ Hg Hp Es) as Hc.
      rewrite (kl_is_sentinel _ L), Hc by auto.
      assert (Hsn : kd_sent kd = true) by (unfold is_sent in Es; destruct (kd_sent kd); auto).
      rewrite Hsn. change (gi * S' + p) with (sidx gi p).
      unfold occ. rewrite (sent_slot _ _ _ _ _ _ _ _ _ G Es). cbn. apply andb_false_r.
    - change (gi * S' + p) with (sidx gi p).
      destruct (slot_at _ _ _ _ _ _ _ _ _ G Hgi Hp Es) as [[kv|] Ho].
      + pose proof (gv_some _ _ _ _ _ _ _ G _ _ _ _ Hg Hp Ho) as Hc.
        unfold occ. rewrite Ho. rewrite (kl_is_sentinel _ L) by auto.
        assert (Hu : N.testbit (kd_match_used kd g) p = true).
        { apply (kl_match_used _ L); auto. split; auto. rewrite Hc. apply (kl_reduce_0 _ L). }
        rewrite Hu. cbn [andb]. rewrite Hc.
        destruct (kd_sent kd) eqn:Esn; [|reflexivity]. cbn [andb].
        destruct (N.eqb_spec (kd_reduce kd (hash (fst kv))) 1) as [E|]; [|reflexivity].
        exfalso. now apply (kl_reduce_1 _ L) in E.
      + unfold occ. rewrite Ho.
        destruct (N.testbit (kd_match_used kd g) p) eqn:Hu; [|reflexivity].
        apply (kl_match_used _ L) in Hu; auto. destruct Hu as [_ Hu]. exfalso. apply Hu.
        eapply gv_none; eauto.
  Qed.

  Lemma each_pos_group k gs sl gi g st : gsinv k gs sl -> geti gs gi = Some g ->
    each_pos kd St f g gi (positions (kd_match_used kd g)) st
    = fold_res fi (filter (occ sl) (range (gi * S') S')) st.
  Proof.
    intros G Hg. pose proof (gv_valid _ _ _ _ _ _ _ G _ _ Hg) as Hv.
    pose proof (proj1 (proj2 (kl_masks _ L g 0 Hv))) as Hm.
    rewrite <- (group_positions k gs sl gi g G Hg).
    assert (Hlt : forall p, In p (positions (kd_match_used kd g)) -> p < S').
    { intros p Hp. apply In_positions in Hp; auto. apply (kl_match_used _ L) in Hp; tauto. }
    apply each_pos_fold; auto.
    - now apply sorted_positions.
    - intros p Hp Hse. pose proof (Hlt p Hp) as Hp'.
      rewrite (kl_is_sentinel _ L) in Hse by auto. apply andb_prop in Hse.
      destruct Hse as [Hsn Hc]. apply N.eqb_eq in Hc.
      assert (Hgi : gi < 2 ^ k) by (apply geti_Some_lt in Hg; now rewrite (gv_len _ _ _ _ _ _ _ G) in Hg).
      destruct (is_sent kd k gi p) eqn:Es.
      + unfold is_sent in Es. apply andb_prop in Es. destruct Es as [_ Es]. now apply N.eqb_eq in Es.
      + exfalso. destruct (slot_at _ _ _ _ _ _ _ _ _ G Hgi Hp' Es) as [[kv|] Ho].
        * pose proof (gv_some _ _ _ _ _ _ _ G _ _ _ _ Hg Hp' Ho) as E.
          apply (kl_reduce_1 _ L (hash (fst kv))); congruence.
        * pose proof (gv_none _ _ _ _ _ _ _ G _ _ _ Hg Hp' Ho Es). lia.
  Qed.

  Lemma each_group_fold k gs sl st : gsinv k gs sl ->
    each_group kd St f gs 0 st = fold_res fi (filter (occ sl) (seqN (2 ^ k * S'))) st.
  Proof.
    intros G.
    assert (H : forall rest pre st, gs = pre ++ rest ->
      each_group kd St f rest (N.of_nat (length pre)) st
      = fold_res fi (filter (occ sl) (range (N.of_nat (length pre) * S')
                                            (N.of_nat (length rest) * S'))) st).
    { induction rest as [|g rest IH]; intros pre st0 E.
      - reflexivity.
      - cbn [each_group length].
        assert (Hg : geti gs (N.of_nat (length pre)) = Some g).
        { unfold geti. rewrite Nat2N.id, E, nth_error_app2, Nat.sub_diag by lia. reflexivity. }
        rewrite (each_pos_group k gs sl _ g st0 G Hg).
        replace (N.of_nat (S (length rest)) * S') with (S' + N.of_nat (length rest) * S') by lia.
        rewrite range_app, filter_app, fold_res_app.
        destruct (fold_res fi _ st0) as [st1|e]; [|reflexivity]. cbn [rbind].
        specialize (IH (pre ++ [g]) st1). rewrite app_length in IH. cbn [length] in IH.
        replace (N.of_nat (length pre) + 1) with (N.of_nat (length pre + 1)) by lia.
        rewrite IH by (rewrite <- app_assoc; exact E). f_equal. f_equal. f_equal. lia. }
    rewrite <- range_0. specialize (H gs [] st eq_refl). cbn [length] in H.
    change (N.of_nat 0) with 0 in H. rewrite N.mul_0_l in H. rewrite H.
    now rewrite (gv_len _ _ _ _ _ _ _ G).
  Qed.
End Generic.

(** The elements are those at the occupied indices, in order. *)
Lemma elems_occ (sl : list (option (K * V))) n : N.of_nat (length sl) <= n ->
  map Some (elems sl) = map (fun i => match geti sl i with Some o => o | None => None end)
                            (filter (occ sl) (seqN n)).
Proof.
  revert n. induction sl as [|o sl IH]; intros n Hn.
  - rewrite filter_none; [reflexivity|]. intros x _. unfold occ, geti.
    destruct (N.to_nat x); reflexivity.
  - cbn [length] in Hn. replace n with ((n - 1) + 1) by lia. rewrite seqN_succ.
    assert (E : forall i, geti (o :: sl) (1 + i) = geti sl i).
    { intros i. unfold geti. now replace (N.to_nat (1 + i)) with (S (N.to_nat i)) by lia. }
    assert (E1 : filter (occ (o :: sl)) (map (N.add 1) (seqN (n - 1)))
                 = map (N.add 1) (filter (occ sl) (seqN (n - 1)))).
    { rewrite filter_map. f_equal. apply filter_ext. intros i. unfold occ. now rewrite E. }
    cbn [filter]. rewrite E1.
    assert (E2 : map (fun i => match geti (o :: sl) i with Some o => o | None => None end)
                     (map (N.add 1) (filter (occ sl) (seqN (n - 1))))
                 = map Some (elems sl)).
    { rewrite map_map. rewrite (IH (n - 1)) by lia. apply map_ext. intros i. now rewrite E. }
    assert (E0 : occ (o :: sl) 0 = match o with Some _ => true | None => false end)
      by (destruct o; reflexivity).
    rewrite E0. destruct o as [kv|]; cbv iota.
    + rewrite map_cons, E2. reflexivity.
    + rewrite E2. reflexivity.
Qed.

(** ** Destroying every element *)

Definition destroy_i (i : N) (os : list (option (K * V))) : res (list (option (K * V))) :=
  match geti os i with
  | Some (Some _) => Ok (seti os i None)
  | _ => Err EUndef
  end.

Lemma fold_destroy l : forall os, NoDup l -> (forall i, In i l -> occ os i = true) ->
  exists os', fold_res destroy_i l os = Ok os' /\ length os' = length os
    /\ (forall i, In i l -> geti os' i = Some None)
    /\ (forall i, ~ In i l -> geti os' i = geti os i).
Proof.
  induction l as [|i l IH]; intros os Hnd Hocc.
  - exists os. simpl. repeat split; auto; tauto.
  - inversion Hnd; subst. cbn [fold_res].
    destruct (proj1 (occ_true _ _) (Hocc i ltac:(now left))) as [kv Hi].
    unfold destroy_i at 1. rewrite Hi. cbn [rbind].
    destruct (IH (seti os i None)) as (os' & E & Hl & H3 & H4); auto.
    + intros j Hj. apply occ_true. rewrite geti_seti_neq by congruence.
      apply occ_true. apply Hocc. now right.
    + exists os'. split; auto. rewrite seti_length in Hl. split; auto. split.
      * intros j [<-|Hj]; auto. rewrite H4 by auto. apply geti_seti_eq.
        eapply geti_Some_lt; eauto.
      * intros j Hj. rewrite H4 by (intros ?; apply Hj; now right).
        apply geti_seti_neq. intros ->. apply Hj. now left.
Qed.

Lemma destroy_all k gs sl : gsinv k gs sl ->
  each_group kd _ (destroy_one K V kd) gs 0 sl = Ok (repeat None (length sl)).
Proof.
  intros G. rewrite (each_group_fold (destroy_one K V kd) destroy_i (fun _ _ _ => eq_refl) k gs sl sl G).
  destruct (fold_destroy (filter (occ sl) (seqN (2 ^ k * S'))) sl) as (os' & E & Hl & H3 & H4).
  - apply NoDup_filter, seqN_NoDup.
  - intros i Hi. apply filter_In in Hi. tauto.
  - rewrite E. f_equal. apply geti_ext. intros i.
    destruct (N.lt_ge_cases i (N.of_nat (length sl))) as [Hlt|Hge].
    + rewrite geti_repeat by auto.
      destruct (occ sl i) eqn:Eo.
      * apply H3. apply filter_In. split; auto. apply seqN_In.
        rewrite (gv_slen _ _ _ _ _ _ _ G) in Hlt. unfold scap in Hlt. destruct (kd_sent kd); lia.
      * rewrite H4 by (intros Hin; apply filter_In in Hin; destruct Hin; congruence).
        destruct (geti_lt sl i Hlt) as [[kv|] Hi]; auto.
        unfold occ in Eo. rewrite Hi in Eo. discriminate.
    + rewrite !geti_ge; auto; rewrite ?repeat_length, ?Hl; auto.
Qed.

(** ** Moving every element to a new table *)

Definition transfer_i (i : N) (st : table * list (option (K * V)))
  : res (table * list (option (K * V))) :=
  let '(nt, os) := st in
  match geti os i with
  | Some (Some kv) =>
      match no_grow_unique_insert K V hash kd nt kv with
      | Ok nt' => Ok (nt', seti os i None)
      | Err e => Err e
      end
  | _ => Err EUndef
  end.

Lemma fold_transfer k l : forall nt os, 
  Inv0 nt -> t_alloc _ _ nt = true -> t_gmask _ _ nt = 2 ^ k - 1 ->
  NoDup l -> (forall i, In i l -> occ os i = true) ->
  (forall i j e1 e2, geti os i = Some (Some e1) -> geti os j = Some (Some e2) ->
      keq (fst e1) (fst e2) = true -> i = j) ->
  (forall i e, geti os i = Some (Some e) -> absent keq (t_slots _ _ nt) (fst e)) ->
  (t_size _ _ nt + N.of_nat (length l) <= scap kd k ->
   exists nt' os', fold_res transfer_i l (nt, os) = Ok (nt', os')
    /\ Inv0 nt' /\ same_geom nt nt' /\ t_thr _ _ nt' = t_thr _ _ nt
    /\ t_size _ _ nt' = t_size _ _ nt + N.of_nat (length l)
    /\ Permutation (elems (t_slots _ _ nt') ++ elems os') (elems (t_slots _ _ nt) ++ elems os)
    /\ (pristine kd L (t_groups _ _ nt) -> pristine kd L (t_groups _ _ nt'))
    /\ length os' = length os
    /\ (forall i, In i l -> geti os' i = Some None)
    /\ (forall i, ~ In i l -> geti os' i = geti os i))
  /\ (scap kd k < t_size _ _ nt + N.of_nat (length l) ->
      t_size _ _ nt <= scap kd k ->
      fold_res transfer_i l (nt, os) = Err ELoop).
Proof.
  induction l as [|i l IH]; intros nt os I Ha Hm Hnd Hocc Huq Habs.
  - split.
    + intros _. exists nt, os. cbn [fold_res length]. split; auto. split; auto. split.
      { unfold same_geom; auto. }
      split; auto. split; [lia|]. repeat split; auto; simpl; tauto.
    + cbn [length]. lia.
  - inversion Hnd as [|? ? Hni Hnd']; subst. cbn [fold_res length].
    destruct (proj1 (occ_true _ _) (Hocc i ltac:(now left))) as [[key v] Hi].
    unfold transfer_i at 1 3. cbv beta iota. rewrite Hi.
    pose proof (Habs _ _ Hi) as Habs_i. cbn [fst] in Habs_i.
    destruct (N.lt_ge_cases (t_size _ _ nt) (scap kd k)) as [Hlt|Hge].
    + destruct (no_grow_unique_insert_spec hash keq kd L LW k nt key v I Ha Hm Habs_i Hlt)
        as (t2 & E2 & I2 & SG & Hthr & Hsz2 & Hperm & Hpr).
      rewrite E2. cbn [rbind].
      destruct SG as (Sa & Sm & Ss & Sl).
      assert (Hother : forall j e, geti (seti os i None) j = Some (Some e) ->
                        j <> i /\ geti os j = Some (Some e)).
      { intros j e Hj. destruct (N.eq_dec i j) as [<-|Hne].
        - rewrite geti_seti_eq in Hj by (eapply geti_Some_lt; eauto). discriminate.
        - rewrite geti_seti_neq in Hj by auto. split; auto. }
      destruct (IH t2 (seti os i None)) as [IHok IHloop]; auto; try congruence.
      * intros j Hj. apply occ_true. rewrite geti_seti_neq by congruence.
        apply occ_true. apply Hocc. now right.
      * intros j1 j2 e1 e2 H1 H2 Hk. apply Hother in H1, H2. eapply Huq; [apply H1|apply H2|auto].
      * intros j e Hj. apply Hother in Hj. destruct Hj as [Hne Hj].
        apply absent_lookup. destruct (lookup_list keq (fst e) (elems (t_slots K V t2))) as [e'|] eqn:El; auto.
        exfalso. unfold lookup_list in El. apply find_some in El. destruct El as [Hin Hk].
        apply (Permutation_in _ Hperm) in Hin. destruct Hin as [<-|Hin].
        -- cbn [fst] in Hk. apply Hne. eapply (Huq j i); eauto.
        -- apply In_elems in Hin. destruct Hin as [j' Hj'].
           rewrite (Habs _ _ Hj _ _ Hj') in Hk. discriminate.
      * split.
        -- intros Hfit. destruct IHok as (nt' & os' & E & I' & SG' & Ht' & Hs' & Hp' & Hpr' & Hl' & H3 & H4);
             [lia|].
           exists nt', os'. split; auto. split; auto. split.
           { unfold same_geom in *. intuition congruence. }
           split; [congruence|]. split; [lia|]. split.
           { eapply perm_trans; [exact Hp'|].
             eapply perm_trans; [apply Permutation_app_tail; exact Hperm|].
             cbn [app]. eapply perm_trans; [apply Permutation_middle|].
             apply Permutation_app_head. now apply elems_seti_None. }
           split; [auto|]. rewrite seti_length in Hl'. split; auto. split.
           { intros j [<-|Hj]; auto. rewrite H4 by auto. apply geti_seti_eq.
             eapply geti_Some_lt; eauto. }
           { intros j Hj. rewrite H4 by (intros ?; apply Hj; now right).
             apply geti_seti_neq. intros ->. apply Hj. now left. }
        -- intros Hov Hle. apply IHloop; lia.
    + split; [lia|]. intros _ Hle.
      unfold no_grow_unique_insert. cbn [fst].
      destruct (find_empty_insert hash keq kd L LW false k nt key v I Ha Hm Habs_i)
        as [[E _]|(t1 & gi & p & t2 & E1 & E2 & Hp & Hgi & Hn & Hsl & I2 & SG & Hs2 & _)].
      * now rewrite E.
      * exfalso. destruct (iv_alloc _ _ _ _ _ I2) as (k2 & G2 & Hm2 & _).
        { destruct SG as (-> & _). auto. }
        destruct SG as (_ & Hm3 & _). rewrite Hm3, Hm in Hm2.
        assert (k = k2).
        { apply (N.pow_inj_r 2); [lia|]. pose proof (pow2_pos k). pose proof (pow2_pos k2). lia. }
        subst k2. pose proof (gv_slen _ _ _ _ _ _ _ G2) as HL.
        rewrite (iv_size _ _ _ _ _ I2) in Hs2.
        pose proof (elems_length_le (t_slots _ _ t2)). lia.
Qed.

End Loops.
