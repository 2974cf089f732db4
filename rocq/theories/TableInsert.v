(** Finding an empty slot and constructing an element in it. *)
From Coq Require Import NArith ZArith List Bool Lia Permutation.
From Coq Require Import ZifyBool ZifyNat ZifyN.
From Verif Require Import Base BaseFacts BitsModel BitsFacts ProberModel ProberFacts
  GroupModel GroupFacts TableModel TableInv TableFind.
Import ListNotations.
Open Scope N_scope.
Ltac Zify.zify_post_hook ::= Z.div_mod_to_equations.

Section Insert.

Context {K V : Type} (hash : K -> N) (keq : K -> K -> bool) (kd : kind) (L : klaws kd).
Context (LW : tame hash keq).

Notation table := (table K V).
Notation S' := (kd_S kd).
Notation code := (kl_code kd L).
Notation valid := (kl_valid kd L).
Notation sidx := (slot_index kd).
Notation gsinv := (@TableInv.gsinv K V hash keq kd L).
Notation Inv0 := (@TableInv.Inv0 K V hash keq kd L).
Notation find_empty_loop := (find_empty_loop kd).
Notation ovf := (kd_is_overflow kd).

Definition full (g : group) : Prop := forall p, p < S' -> code g p <> 0.

Lemma match_empty_0 g : valid g -> (kd_match_empty kd g = 0 <-> full g).
Proof.
  intros Hv. split.
  - intros E p Hp Hc. assert (H : N.testbit (kd_match_empty kd g) p = true).
    { apply (kl_match_empty _ L); auto. }
    rewrite E, N.bits_0 in H. discriminate.
  - intros F. destruct (N.eq_dec (kd_match_empty kd g) 0) as [|H]; auto. exfalso.
    apply testbit_bsf in H. apply (kl_match_empty _ L) in H; auto. destruct H.
    eapply F; eauto.
Qed.

(** Effect of an insertion on the control bytes.  [bumped]: the groups whose
    overflow flag of class [ch] was set. *)
Record ins_rel (gs gs' : list group) (gi0 p0 ch : N) (bumped : N -> Prop) : Prop := {
  ir_len : length gs' = length gs;
  ir_at : forall gi g, geti gs gi = Some g -> exists g',
      geti gs' gi = Some g' /\ valid g'
      /\ (forall q, q < S' -> code g' q = if (gi =? gi0) && (q =? p0) then ch else code g q)
      /\ (forall h, ovf g h = true -> ovf g' h = true)
      /\ (forall h, ovf g' h = ovf g h \/ (gi <> gi0 /\ full g))
      /\ (bumped gi -> ovf g' ch = true)
}.

Lemma find_empty_loop_spec k hm x : k <= 51 -> hm < 2 ^ k ->
  forall fuel gs j, N.of_nat (length gs) = 2 ^ k ->
  (forall gi g, geti gs gi = Some g -> valid g) ->
  j + N.of_nat fuel <= 2 ^ k ->
  (find_empty_loop fuel gs (2 ^ k - 1) (kd_reduce kd x) (prober_at k hm j) = Err ELoop
   /\ forall i g, j <= i < j + N.of_nat fuel -> geti gs (probe k hm i) = Some g -> full g)
  \/ (exists j' p gs' g,
        find_empty_loop fuel gs (2 ^ k - 1) (kd_reduce kd x) (prober_at k hm j)
        = Ok (gs', (probe k hm j', p))
        /\ j <= j' < j + N.of_nat fuel /\ p < S'
        /\ geti gs (probe k hm j') = Some g /\ code g p = 0
        /\ (forall q, q < p -> code g q <> 0)
        /\ (forall i g, j <= i < j' -> geti gs (probe k hm i) = Some g -> full g)
        /\ ins_rel gs gs' (probe k hm j') p (kd_reduce kd x)
                   (fun gi => exists i, j <= i < j' /\ gi = probe k hm i)).
Proof.
  intros Hk Hh. pose proof (pow_small _ Hk) as Hps. pose proof two64_eq as E64.
  induction fuel as [|fuel IH]; intros gs j Hlen Hval Hf.
  - left. split; [reflexivity|]. intros. lia.
  - cbn [TableModel.find_empty_loop].
    change (pr_index (prober_at k hm j)) with (probe k hm j).
    pose proof (probe_lt k hm j) as Hpl.
    destruct (geti_lt gs (probe k hm j)) as [g Hg]; [now rewrite Hlen|].
    rewrite Hg. pose proof (Hval _ _ Hg) as Hv.
    destruct (N.eqb_spec (kd_match_empty kd g) 0) as [Em|Em].
    + apply match_empty_0 in Em; auto.
      rewrite next_bucket_at by lia. cbn [fst].
      set (g1 := kd_set_overflow kd g (kd_reduce kd x)).
      set (gs1 := seti gs (probe k hm j) g1).
      assert (Hv1 : valid g1) by (apply (kl_set_overflow_valid _ L); auto).
      assert (Hfull1 : full g1).
      { intros p Hp. unfold g1. rewrite (kl_set_overflow_code _ L) by auto. auto. }
      destruct (IH gs1 (j + 1)) as [[E1 H1]|(j' & p & gs' & g' & E1 & Hj' & Hp & Hg' & Hc & Hlow & Hfl & Hr)].
      * unfold gs1. now rewrite seti_length.
      * unfold gs1. intros gi g0 H0. destruct (N.eq_dec (probe k hm j) gi) as [<-|Hne].
        -- rewrite geti_seti_eq in H0 by now rewrite Hlen. injection H0 as <-. auto.
        -- rewrite geti_seti_neq in H0 by auto. eauto.
      * lia.
      * left. split; auto. intros i g0 Hi Hgi.
        destruct (N.eq_dec i j) as [->|]; [assert (g0 = g) by congruence; now subst|].
        apply (H1 i); [lia|]. unfold gs1. rewrite geti_seti_neq; auto.
        intros Ep. apply probe_inj in Ep; lia.
      * assert (Hne : probe k hm j <> probe k hm j') by (intros Ep; apply probe_inj in Ep; lia).
        assert (Hne' : forall i, j < i < j' -> probe k hm j <> probe k hm i)
          by (intros i Hi Ep; apply probe_inj in Ep; lia).
        right. exists j', p, gs', g'. split; [exact E1|]. split; [lia|]. split; [auto|].
        unfold gs1 in Hg'. rewrite geti_seti_neq in Hg' by auto.
        split; [auto|]. split; [auto|]. split; [auto|]. split.
        { intros i g0 Hi Hgi. destruct (N.eq_dec i j) as [->|]; [assert (g0 = g) by congruence; now subst|].
          apply (Hfl i); [lia|]. unfold gs1. rewrite geti_seti_neq; auto. apply Hne'. lia. }
        destruct Hr as [Hrl Hra]. constructor.
        { rewrite Hrl. unfold gs1. apply seti_length. }
        intros gi g0 Hgi. destruct (N.eq_dec (probe k hm j) gi) as [<-|Hngi].
        -- rewrite Hg in Hgi. injection Hgi as <-.
           destruct (Hra (probe k hm j) g1) as (g'' & A1 & A2 & A3 & A4 & A5 & A6).
           { unfold gs1. apply geti_seti_eq. now rewrite Hlen. }
           exists g''. split; [auto|]. split; [auto|]. split; [|split; [|split]].
           ++ intros q Hq. rewrite A3 by auto. unfold g1.
              now rewrite (kl_set_overflow_code _ L) by auto.
           ++ intros h Hh'. apply A4. unfold g1. apply (kl_set_overflow_ovf _ L); auto.
           ++ intros h. right. auto.
           ++ intros _. apply A4. unfold g1. apply (kl_set_overflow_ovf _ L); auto.
        -- destruct (Hra gi g0) as (g'' & A1 & A2 & A3 & A4 & A5 & A6).
           { unfold gs1. now rewrite geti_seti_neq. }
           exists g''. split; [auto|]. split; [auto|]. split; [auto|]. split; [auto|]. split; [auto|].
           intros (i & Hi & ->). apply A6. exists i. split; auto.
           destruct (N.eq_dec i j) as [->|]; [congruence|lia].
    + pose proof (testbit_bsf _ Em) as Hb. apply (kl_match_empty _ L) in Hb; auto.
      destruct Hb as [Hp Hc].
      right. exists j, (bsf (kd_match_empty kd g)), (seti gs (probe k hm j)
        (kd_set_used kd g (bsf (kd_match_empty kd g)) (kd_reduce kd x))), g.
      split; [reflexivity|]. split; [lia|]. split; [auto|]. split; [auto|]. split; [auto|].
      split.
      { intros q Hq Hc'. assert (Hb : N.testbit (kd_match_empty kd g) q = true).
        { apply (kl_match_empty _ L); auto. split; auto. lia. }
        apply bsf_lowest in Hb. lia. }
      split; [intros; lia|].
      constructor; [apply seti_length|].
      intros gi g0 Hgi. destruct (N.eq_dec (probe k hm j) gi) as [<-|Hngi].
      * rewrite Hg in Hgi. injection Hgi as <-.
        eexists. split; [apply geti_seti_eq; now rewrite Hlen|].
        split; [apply (kl_set_used_valid _ L); auto|].
        split; [|split; [|split]].
        -- intros q Hq. rewrite (kl_set_used_code _ L) by auto. now rewrite N.eqb_refl.
        -- intros h Hh'. rewrite (kl_set_used_ovf _ L); auto.
        -- intros h. left. apply (kl_set_used_ovf _ L); auto.
        -- intros (i & Hi & _). lia.
      * exists g0. rewrite geti_seti_neq by auto. split; [auto|]. split; [eauto|].
        split; [|split; [auto|split; [auto|]]].
        -- intros q Hq. destruct (N.eqb_spec gi (probe k hm j)); [congruence|reflexivity].
        -- intros (i & Hi & _). lia.
Qed.

(** When every group is full, no amount of fuel gets out of the loop. *)
Lemma find_empty_loop_forever k hm x : k <= 51 ->
  forall fuel gs j, N.of_nat (length gs) = 2 ^ k ->
  (forall gi g, geti gs gi = Some g -> valid g /\ full g) ->
  find_empty_loop fuel gs (2 ^ k - 1) (kd_reduce kd x)
    (mkProber (probe k hm j) (w64 j)) = Err ELoop.
Proof.
  intros Hk. induction fuel as [|fuel IH]; intros gs j Hlen Hall; [reflexivity|].
  cbn [TableModel.find_empty_loop pr_index].
  destruct (geti_lt gs (probe k hm j)) as [g Hg]; [rewrite Hlen; apply probe_lt|].
  rewrite Hg. destruct (Hall _ _ Hg) as [Hv Hf].
  rewrite (proj2 (match_empty_0 g Hv) Hf), N.eqb_refl.
  assert (E : fst (next_bucket (2 ^ k - 1) (mkProber (probe k hm j) (w64 j)))
              = mkProber (probe k hm (j + 1)) (w64 (j + 1))).
  { pose proof (next_bucket_index k hm j ltac:(lia)) as E1.
    destruct (next_bucket (2 ^ k - 1) (mkProber (probe k hm j) (w64 j))) as [[pi ps] b] eqn:E2.
    cbn [fst pr_index] in *. subst pi. f_equal.
    unfold next_bucket in E2. cbn [pr_step] in E2. injection E2 as _ <- _.
    unfold wadd, w64. rewrite N.add_mod_idemp_l by discriminate. reflexivity. }
  rewrite E. apply IH.
  - now rewrite seti_length.
  - intros gi g0 H0. destruct (N.eq_dec (probe k hm j) gi) as [<-|Hne].
    + rewrite geti_seti_eq in H0 by (rewrite Hlen; apply probe_lt). injection H0 as <-.
      split; [apply (kl_set_overflow_valid _ L); auto|].
      intros p Hp. rewrite (kl_set_overflow_code _ L) by auto. auto.
    + rewrite geti_seti_neq in H0 by auto. eauto.
Qed.

(** A table with a free slot has a group that is not full, and conversely. *)
Lemma full_groups_elems k gs sl : gsinv k gs sl ->
  (forall gi g, geti gs gi = Some g -> full g) ->
  N.of_nat (length (elems sl)) = scap kd k.
Proof.
  intros G Hf. rewrite <- (gv_slen _ _ _ _ _ _ _ G). f_equal.
  pose proof (elems_length_le sl) as Hle.
  destruct (Nat.lt_ge_cases (length (elems sl)) (length sl)) as [Hlt|]; [|lia].
  exfalso. apply elems_free in Hlt. destruct Hlt as [i Hi].
  destruct (slot_group _ _ _ _ _ _ _ _ _ G Hi) as (g & Hg & Hgi & Hp & Es & Hsent).
  rewrite <- Es in Hi.
  apply (Hf _ _ Hg _ Hp). eapply gv_none; eauto.
Qed.

Lemma elems_full_groups k gs sl : gsinv k gs sl ->
  N.of_nat (length (elems sl)) = scap kd k ->
  forall gi g, geti gs gi = Some g -> full g.
Proof.
  intros G Hl gi g Hg p Hp Hc.
  assert (Hgi : gi < 2 ^ k) by (apply geti_Some_lt in Hg; now rewrite (gv_len _ _ _ _ _ _ _ G) in Hg).
  destruct (is_sent kd k gi p) eqn:Es.
  - rewrite (gv_sent _ _ _ _ _ _ _ G _ _ _ Hg Hp Es) in Hc. discriminate.
  - destruct (slot_at _ _ _ _ _ _ _ _ _ G Hgi Hp Es) as [[kv|] Ho].
    + rewrite (gv_some _ _ _ _ _ _ _ G _ _ _ _ Hg Hp Ho) in Hc.
      now apply (kl_reduce_0 _ L) in Hc.
    + rewrite <- (gv_slen _ _ _ _ _ _ _ G) in Hl.
      destruct (geti_split _ _ _ Ho) as (a & b & -> & _ & _).
      rewrite elems_app, !app_length in Hl. simpl in Hl.
      pose proof (elems_length_le a). pose proof (elems_length_le b). unfold elems in *. lia.
Qed.

(** An insertion keeps the relation between control bytes and slots. *)
Lemma insert_gsinv k gs sl gs' j p g key v :
  gsinv k gs sl -> absent keq sl key -> j < 2 ^ k -> p < S' ->
  geti gs (probe k (home k (hash key)) j) = Some g -> code g p = 0 ->
  ins_rel gs gs' (probe k (home k (hash key)) j) p (kd_reduce kd (hash key))
     (fun gi => exists i, 0 <= i < j /\ gi = probe k (home k (hash key)) i) ->
  geti sl (sidx (probe k (home k (hash key)) j) p) = Some None
  /\ gsinv k gs' (seti sl (sidx (probe k (home k (hash key)) j) p) (Some (key, v))).
Proof.
  intros G Habs Hj Hp Hg Hc [Hrl Hra].
  set (gi0 := probe k (home k (hash key)) j) in *.
  set (i0 := sidx gi0 p).
  assert (Hgi0 : gi0 < 2 ^ k) by apply probe_lt.
  assert (Hsent0 : is_sent kd k gi0 p = false).
  { destruct (is_sent kd k gi0 p) eqn:Es; auto.
    rewrite (gv_sent _ _ _ _ _ _ _ G _ _ _ Hg Hp Es) in Hc. discriminate. }
  assert (Hslot : geti sl i0 = Some None).
  { destruct (slot_at _ _ _ _ _ _ _ _ _ G Hgi0 Hp Hsent0) as [[kv|] Ho]; auto.
    rewrite (gv_some _ _ _ _ _ _ _ G _ _ _ _ Hg Hp Ho) in Hc.
    now apply (kl_reduce_0 _ L) in Hc. }
  split; auto.
  assert (Hi0 : i0 < N.of_nat (length sl)) by (eapply geti_Some_lt; eauto).
  assert (Hback : forall gi g', geti gs' gi = Some g' -> exists g0, geti gs gi = Some g0).
  { intros gi g' H. apply geti_lt. apply geti_Some_lt in H. now rewrite Hrl in H. }
  constructor.
  - eapply gv_k; eauto.
  - eapply gv_big; eauto.
  - rewrite Hrl. eapply gv_len; eauto.
  - rewrite seti_length. eapply gv_slen; eauto.
  - intros gi g' H. destruct (Hback _ _ H) as [g0 H0].
    destruct (Hra _ _ H0) as (g'' & A1 & A2 & _). congruence.
  - intros gi q g' H Hq Hs. destruct (Hback _ _ H) as [g0 H0].
    destruct (Hra _ _ H0) as (g'' & A1 & _ & A3 & _). rewrite A1 in H. injection H as ->.
    rewrite A3 by auto. destruct (N.eqb_spec gi gi0) as [->|]; cbn [andb].
    + destruct (N.eqb_spec q p) as [->|]; [congruence|]. eapply gv_sent; eauto.
    + eapply gv_sent; eauto.
  - intros gi q g' H Hq Hn Hs. destruct (Hback _ _ H) as [g0 H0].
    destruct (Hra _ _ H0) as (g'' & A1 & _ & A3 & _). rewrite A1 in H. injection H as ->.
    rewrite A3 by auto. destruct (N.eq_dec i0 (sidx gi q)) as [E|Hne].
    + rewrite <- E, geti_seti_eq in Hn by auto. discriminate.
    + rewrite geti_seti_neq in Hn by auto.
      destruct (N.eqb_spec gi gi0) as [->|]; cbn [andb].
      * destruct (N.eqb_spec q p) as [->|]; [unfold i0 in Hne; congruence|]. eapply gv_none; eauto.
      * eapply gv_none; eauto.
  - intros gi q g' kv H Hq Hn. destruct (Hback _ _ H) as [g0 H0].
    destruct (Hra _ _ H0) as (g'' & A1 & _ & A3 & _). rewrite A1 in H. injection H as ->.
    rewrite A3 by auto. destruct (N.eq_dec i0 (sidx gi q)) as [E|Hne].
    + rewrite <- E, geti_seti_eq in Hn by auto. injection Hn as <-.
      unfold i0 in E. destruct (sidx_inj _ _ _ _ _ Hp Hq E) as [<- <-].
      rewrite !N.eqb_refl. reflexivity.
    + rewrite geti_seti_neq in Hn by auto.
      destruct (N.eqb_spec gi gi0) as [->|]; cbn [andb].
      * destruct (N.eqb_spec q p) as [->|]; [unfold i0 in Hne; congruence|]. eapply gv_some; eauto.
      * eapply gv_some; eauto.
  - intros gi q kv Hgi Hq Hn. destruct (N.eq_dec i0 (sidx gi q)) as [E|Hne].
    + rewrite <- E, geti_seti_eq in Hn by auto. injection Hn as <-. cbn [fst].
      unfold i0 in E. destruct (sidx_inj _ _ _ _ _ Hp Hq E) as [<- <-].
      exists j. split; auto. split; [reflexivity|].
      intros i g' Hi Hgg. destruct (Hback _ _ Hgg) as [g0 H0].
      destruct (Hra _ _ H0) as (g'' & A1 & _ & _ & _ & _ & A6). rewrite A1 in Hgg.
      injection Hgg as ->. apply A6. exists i. split; [lia|reflexivity].
    + rewrite geti_seti_neq in Hn by auto.
      destruct (gv_chain _ _ _ _ _ _ _ G _ _ _ Hgi Hq Hn) as (j1 & Hj1 & E1 & Hch).
      exists j1. split; auto. split; auto.
      intros i g' Hi Hgg. destruct (Hback _ _ Hgg) as [g0 H0].
      destruct (Hra _ _ H0) as (g'' & A1 & _ & _ & A4 & _). rewrite A1 in Hgg.
      injection Hgg as ->. apply A4. eapply Hch; eauto.
  - intros a b e1 e2 Ha Hb Hk.
    destruct (N.eq_dec i0 a) as [<-|Hna], (N.eq_dec i0 b) as [<-|Hnb]; auto.
    + rewrite geti_seti_eq in Ha by auto. rewrite geti_seti_neq in Hb by auto.
      injection Ha as <-. cbn [fst] in Hk. rewrite (Habs _ _ Hb) in Hk. discriminate.
    + rewrite geti_seti_eq in Hb by auto. rewrite geti_seti_neq in Ha by auto.
      injection Hb as <-. cbn [fst] in Hk. apply (tm_sym _ _ LW) in Hk.
      rewrite (Habs _ _ Ha) in Hk. discriminate.
    + rewrite geti_seti_neq in Ha by auto. rewrite geti_seti_neq in Hb by auto.
      eapply gv_uniq; eauto.
Qed.

(** ** find_empty_to_insert followed by the construction of the element *)

Definition same_geom (t t' : table) : Prop :=
  t_alloc _ _ t' = t_alloc _ _ t /\ t_gmask _ _ t' = t_gmask _ _ t
  /\ t_shift _ _ t' = t_shift _ _ t /\ t_mlf _ _ t' = t_mlf _ _ t.

(** [pristine]: a group with an empty slot has no overflow flag. *)
Definition pristine (gs : list group) : Prop :=
  forall gi g p h, geti gs gi = Some g -> p < S' -> code g p = 0 -> ovf g h = false.

Lemma find_empty_insert check k t key v : Inv0 t -> t_alloc _ _ t = true ->
  t_gmask _ _ t = 2 ^ k - 1 ->
  absent keq (t_slots _ _ t) key ->
  (find_empty_to_insert K V kd check t (hash key) = Err ELoop
   /\ t_size _ _ t = scap kd k)
  \/ (exists t1 gi p t2,
        find_empty_to_insert K V kd check t (hash key) = Ok (t1, (gi, p))
        /\ construct_at K V t1 (sidx gi p) (key, v) = Ok t2
        /\ p < S' /\ gi < 2 ^ k
        /\ geti (t_slots _ _ t) (sidx gi p) = Some None
        /\ t_slots _ _ t2 = seti (t_slots _ _ t) (sidx gi p) (Some (key, v))
        /\ Inv0 t2 /\ same_geom t t2
        /\ t_size _ _ t2 = t_size _ _ t + 1
        /\ (t_thr _ _ t2 = t_thr _ _ t
            \/ check && kd_count_deleted kd = true /\ t_thr _ _ t2 = wadd (t_thr _ _ t) 1
               /\ ~ pristine (t_groups _ _ t))
        /\ (pristine (t_groups _ _ t) -> pristine (t_groups _ _ t2)
              /\ exists g', geti (t_groups _ _ t2) gi = Some g'
                           /\ ovf g' (kd_reduce kd (hash key)) = false)).
Proof.
  intros I Ha Hmask Habs. destruct (iv_alloc _ _ _ _ _ I Ha) as (k1 & G & Hm & Hs).
  assert (k1 = k).
  { apply (N.pow_inj_r 2); [lia|]. pose proof (pow2_pos k). pose proof (pow2_pos k1). lia. }
  subst k1.
  pose proof (gv_big _ _ _ _ _ _ _ G) as Hbig. apply (k_small kd L) in Hbig.
  pose proof (gv_k _ _ _ _ _ _ _ G) as Hk1.
  assert (Hh : home k (hash key) < 2 ^ k) by (apply home_lt; [auto|lia|apply (tm_hash _ _ LW)]).
  pose proof (pow2_pos k) as HP.
  unfold find_empty_to_insert, ctrl_for_hash, index_for_hash. rewrite Ha, Hm, Hs. cbn [negb].
  fold (home k (hash key)). rewrite (prober_init_at k) by auto.
  destruct (find_empty_loop_spec k (home k (hash key)) (hash key) Hbig Hh
              (S (N.to_nat (2 ^ k - 1))) (t_groups _ _ t) 0)
    as [[E1 H1]|(j & p & gs' & g & E1 & Hj & Hp & Hg & Hc & Hlow & Hfl & Hr)].
  - eapply gv_len; eauto.
  - intros. eapply gv_valid; eauto.
  - lia.
  - left. rewrite E1. split; auto. rewrite (iv_size _ _ _ _ _ I).
    eapply full_groups_elems; eauto. intros gi g Hg.
    destruct (probe_surj k (home k (hash key)) gi) as (i & Hi & <-).
    { apply geti_Some_lt in Hg. now rewrite (gv_len _ _ _ _ _ _ _ G) in Hg. }
    apply (H1 i); auto. lia.
  - right. rewrite E1.
    destruct (insert_gsinv k _ _ gs' j p g key v G Habs ltac:(lia) Hp Hg Hc Hr) as [Hslot G'].
    set (gi0 := probe k (home k (hash key)) j) in *.
    destruct (ir_at _ _ _ _ _ _ Hr gi0 g Hg) as (g' & A1 & A2 & A3 & A4 & A5 & A6).
    rewrite A1.
    assert (Hsz : t_size _ _ t + 1 < two64).
    { rewrite (iv_size _ _ _ _ _ I). pose proof (elems_length_le (t_slots _ _ t)) as HL.
      pose proof (gv_slen _ _ _ _ _ _ _ G) as HSL. rewrite two64_eq.
      pose proof (pow_small _ Hbig). pose proof (S_pos kd L) as HS.
      assert (scap kd k <= 2 ^ k * 32).
      { unfold scap. assert (2 ^ k * S' <= 2 ^ k * 32) by (apply N.mul_le_mono_l; lia).
        destruct (kd_sent kd); lia. }
      lia. }
    eexists _, gi0, p, _. split; [reflexivity|].
    unfold construct_at. cbn [t_slots t_alloc t_groups t_size t_thr t_gmask t_shift t_mlf].
    rewrite Hslot. split; [reflexivity|].
    cbn [t_slots t_alloc t_groups t_size t_thr t_gmask t_shift t_mlf].
    split; [auto|]. split; [apply probe_lt|]. split; [auto|]. split; [reflexivity|].
    split; [|split; [|split; [|split]]].
    + constructor; cbn [t_slots t_alloc t_groups t_size t_thr t_gmask t_shift t_mlf].
      * discriminate.
      * intros _. exists k. auto.
      * rewrite wadd_small by auto.
        rewrite (Permutation_length (elems_seti_Some _ _ (key, v) Hslot)).
        rewrite (iv_size _ _ _ _ _ I). simpl length. lia.
      * apply (iv_mlf _ _ _ _ _ I).
    + unfold same_geom. cbn [t_slots t_alloc t_groups t_size t_thr t_gmask t_shift t_mlf].
      repeat split; auto; congruence.
    + now rewrite wadd_small by auto.
    + destruct (check && kd_count_deleted kd) eqn:Ed; [|now left]. cbn [andb].
      destruct (ovf g' (kd_reduce kd (hash key))) eqn:Eo; [|now left].
      right. split; auto. split; auto. intros Hpr.
      destruct (A5 (kd_reduce kd (hash key))) as [E|[E _]]; [|congruence].
      rewrite (Hpr _ _ _ (kd_reduce kd (hash key)) Hg Hp Hc) in E. congruence.
    + intros Hpr. split; [|exists g'; split; [exact A1|]; destruct (A5 (kd_reduce kd (hash key))) as [E|[E _]];
        [rewrite E; eapply Hpr; eauto|congruence]].
      intros gi g2 q h Hg2 Hq Hc2.
      assert (Hex : exists g0, geti (t_groups _ _ t) gi = Some g0).
      { apply geti_lt. apply geti_Some_lt in Hg2. now rewrite (ir_len _ _ _ _ _ _ Hr) in Hg2. }
      destruct Hex as [g0 Hg0].
      destruct (ir_at _ _ _ _ _ _ Hr gi g0 Hg0) as (g3 & B1 & B2 & B3 & B4 & B5 & B6).
      rewrite B1 in Hg2. injection Hg2 as <-. rewrite B3 in Hc2 by auto.
      destruct ((gi =? gi0) && (q =? p)) eqn:Eq.
      { now apply (kl_reduce_0 _ L) in Hc2. }
      destruct (B5 h) as [E|[_ E]].
      * rewrite E. eapply Hpr; eauto.
      * now apply E in Hc2.
Qed.

Lemma no_grow_unique_insert_spec k t key v : Inv0 t -> t_alloc _ _ t = true ->
  t_gmask _ _ t = 2 ^ k - 1 ->
  absent keq (t_slots _ _ t) key ->
  t_size _ _ t < scap kd k ->
  exists t2, no_grow_unique_insert K V hash kd t (key, v) = Ok t2
    /\ Inv0 t2 /\ same_geom t t2 /\ t_thr _ _ t2 = t_thr _ _ t
    /\ t_size _ _ t2 = t_size _ _ t + 1
    /\ Permutation (elems (t_slots _ _ t2)) ((key, v) :: elems (t_slots _ _ t))
    /\ (pristine (t_groups _ _ t) -> pristine (t_groups _ _ t2)).
Proof.
  intros I Ha Hm Habs Hsz.
  destruct (find_empty_insert false k t key v I Ha Hm Habs)
    as [[_ E]|(t1 & gi & p & t2 & E1 & E2 & Hp & Hgi & Hn & Hsl & I2 & SG & Hs2 & Ht2 & Hpr)]; [lia|].
  exists t2. unfold no_grow_unique_insert. cbn [fst]. rewrite E1. split; [exact E2|].
  split; auto. split; auto. split.
  - destruct Ht2 as [|[Hf _]]; [auto|]. discriminate.
  - split; auto. split; [rewrite Hsl; now apply elems_seti_Some|]. intros H. now apply Hpr.
Qed.

End Insert.
