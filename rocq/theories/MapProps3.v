(** One call in any state; element constructors that throw. *)
From Coq Require Import NArith ZArith List Bool Lia Permutation.
From Coq Require Import ZifyBool ZifyNat ZifyN.
From Verif Require Import Base BaseFacts GroupModel GroupFacts TableModel TableInv TableFind TableInsert
  TableLoops TableCap TableOps IterModel CopyModel CopyFacts MapSpec MapFacts RunModel Refine ReachModel
  ReachFacts MapProps ProberModel.
Import ListNotations.
Open Scope N_scope.

Section Props.

Context {K V : Type} (hash : K -> N) (keq : K -> K -> bool).
Context (LW : lawful hash keq).
Context (kd : kind) (HK : group_kind kd).

Notation table := (table K V).
Notation content t := (elems (t_slots _ _ t)).
Notation built := (built K V hash keq kd).
Notation traverse := (traverse K V kd).
Notation lookup := (lookup K V hash keq kd).
Notation step := (step K V hash keq kd).

Lemma built_step t t' r alloc o past : built t -> sane alloc -> client_ok K V kd o t ->
  step alloc o t = Ret t' r ->
  exists l l', traverse past t = Ok l /\ traverse past t' = Ok l'
    /\ Permutation l' (fst (spec_step K V keq o l)) /\ r = snd (spec_step K V keq o l).
Proof.
  intros B HA Hok E. destruct (kind_laws kd HK) as [L R].
  assert (I : Inv0 hash keq kd L t) by (apply (built_Inv0 hash keq kd L LW); auto).
  pose proof (step_refines hash keq kd L LW alloc o t HA I Hok) as H. rewrite E in H.
  destruct H as (I' & HP & Er). exists (content t), (content t').
  split; [now apply (traverse_spec hash keq kd L)|].
  split; [now apply (traverse_spec hash keq kd L)|auto].
Qed.

Lemma built_empty t past : built t ->
  (t_size _ _ t =? 0) = true <-> traverse past t = Ok [].
Proof.
  intros B. destruct (built_size hash keq LW kd HK t past B) as (l & E & Hs). rewrite E, Hs. split.
  - intros H. destruct l; auto. cbn [length] in H. lia.
  - intros H. injection H as ->. reflexivity.
Qed.

(** ** A constructor that throws *)

Lemma fold_destroy_hole l : forall (os : list (option (K * V))) i, In i l ->
  geti os i = Some None -> NoDup l -> exists j, fold_res destroy_i l os = Err EUndef /\ In j l.
Proof.
  induction l as [|j l IH]; intros os i Hi Hn Hd; [destruct Hi|]. cbn [fold_res].
  unfold destroy_i at 1. destruct (geti os j) as [[kv|]|] eqn:Ej; cbn [rbind].
  - destruct Hi as [->|Hi]; [congruence|]. inversion Hd; subst.
    destruct (IH (seti os j None) i) as (x & Hx & _); auto.
    + rewrite geti_seti_neq; auto. intros ->. congruence.
    + exists j. split; [exact Hx|now left].
  - exists j. split; auto. now left.
  - exists j. split; auto. now left.
Qed.

(** The same slots but for a hole at [i]. *)
Definition holed (t t1 : table) (i : N) : Prop :=
  t_groups _ _ t1 = t_groups _ _ t /\ t_gmask _ _ t1 = t_gmask _ _ t
  /\ t_shift _ _ t1 = t_shift _ _ t
  /\ (forall j, j <> i -> geti (t_slots _ _ t1) j = geti (t_slots _ _ t) j)
  /\ geti (t_slots _ _ t1) i = Some None.

Lemma scan_holed t t1 i k gi ps p : holed t t1 i ->
  (forall q, keq k (match geti (t_slots _ _ t) (slot_index kd gi q) with
                    | Some (Some (k', _)) => k' | _ => k end) = true ->
     (exists kv, geti (t_slots _ _ t) (slot_index kd gi q) = Some (Some kv)) -> slot_index kd gi q = i) ->
  scan_keys K V keq kd (t_slots _ _ t) k gi ps = Ok (Some p) ->
  scan_keys K V keq kd (t_slots _ _ t1) k gi ps = Err EUndef.
Proof.
  intros (_ & _ & _ & H1 & H2) Hu. induction ps as [|q ps IH]; cbn [scan_keys]; [discriminate|].
  destruct (N.eq_dec (slot_index kd gi q) i) as [Eq|Eq].
  - intros _. now rewrite Eq, H2.
  - rewrite H1 by auto. specialize (Hu q).
    destruct (geti (t_slots _ _ t) (slot_index kd gi q)) as [[[k' v']|]|]; try discriminate.
    destruct (keq k k') eqn:Ek; auto. intros _. exfalso. apply Eq, Hu; eauto.
Qed.

Lemma scan_holed_none t t1 i k gi ps : holed t t1 i ->
  scan_keys K V keq kd (t_slots _ _ t) k gi ps = Ok None ->
  scan_keys K V keq kd (t_slots _ _ t1) k gi ps = Ok None
  \/ scan_keys K V keq kd (t_slots _ _ t1) k gi ps = Err EUndef.
Proof.
  intros (_ & _ & _ & H1 & H2). induction ps as [|q ps IH]; cbn [scan_keys]; [auto|].
  destruct (N.eq_dec (slot_index kd gi q) i) as [Eq|Eq].
  - intros _. rewrite Eq, H2. now right.
  - rewrite H1 by auto.
    destruct (geti (t_slots _ _ t) (slot_index kd gi q)) as [[[k' v']|]|]; try discriminate.
    destruct (keq k k'); [discriminate|auto].
Qed.

Lemma find_holed t t1 i k : holed t t1 i ->
  (forall j kv, geti (t_slots _ _ t) j = Some (Some kv) -> keq k (fst kv) = true -> j = i) ->
  forall fuel ch pr loc, find_loop K V keq kd fuel t k ch pr = Ok (Some loc) ->
  find_loop K V keq kd fuel t1 k ch pr = Err EUndef.
Proof.
  intros H Hu. induction fuel as [|fuel IH]; intros ch pr loc; cbn [find_loop]; [discriminate|].
  destruct H as (Hg & Hm & Hs & H1 & H2). rewrite Hg, Hm.
  destruct (geti (t_groups _ _ t) (pr_index pr)) as [g|]; [|discriminate].
  assert (H : holed t t1 i) by (unfold holed; auto).
  destruct (scan_keys K V keq kd (t_slots _ _ t) k (pr_index pr) _) as [[p|]|e] eqn:Es; [| |discriminate].
  - intros _. rewrite (scan_holed t t1 i k (pr_index pr) _ p H); auto.
    intros q Hq ([k' v'] & Hkv). rewrite Hkv in Hq. eapply Hu; eauto.
  - destruct (scan_holed_none t t1 i k _ _ H Es) as [E|E]; rewrite E; auto.
    destruct (negb (kd_is_overflow kd g ch)); [discriminate|].
    destruct (next_bucket (t_gmask _ _ t) pr) as [pr' more]. destruct more; [|discriminate].
    apply IH.
Qed.

(** Whatever the state: if inserting a key whose constructor does not throw adds an
    entry, then with a constructor that throws the insertion throws and leaves a map
    that cannot be searched for the key and cannot be destroyed. *)
Lemma ctor_throw_breaks t alloc k v t2 i : built t -> sane alloc ->
  emplace_impl K V hash keq kd alloc false true t k v = Ret t2 (i, true) ->
  exists t1, emplace_impl K V hash keq kd alloc false false t k v = Throw t1
    /\ lookup t1 k = Err EUndef /\ destroy K V kd t1 = Err EUndef.
Proof.
  intros B HA E. destruct (kind_laws kd HK) as [L R].
  assert (I : Inv0 hash keq kd L t) by (apply (built_Inv0 hash keq kd L LW); auto).
  destruct (emplace_spec hash keq kd L LW alloc false t k v HA I)
    as [(gi & p & kv & _ & _ & _ & _ & _ & Ee)|(Habs & Ef & [(_ & Ee)|(t0 & kk & HR & Hk & I0 & H)])];
    [rewrite Ee in E; discriminate..|].
  destruct H as [(Ee & _)|(t2' & i' & Ee & H)]; [rewrite Ee in E; discriminate|].
  rewrite Ee in E. injection E as -> ->. destruct H as (I2 & SG & Hn & Hsl & _).
  unfold emplace_impl in *.
  destruct (find_or_insert K V hash keq kd alloc t k) as [t1 [[gi p] need]|t1|e]; cbn [obind] in *;
    try discriminate.
  destruct need; [|discriminate].
  unfold construct_at in Ee.
  destruct (geti (t_slots _ _ t1) (slot_index kd gi p)) as [[kv|]|] eqn:Es; try discriminate.
  injection Ee as Et Ei. exists t1. split; auto.
  assert (Hh : holed t2 t1 i).
  { subst t2 i. unfold holed. cbn [t_groups t_gmask t_shift t_slots]. repeat split; auto.
    intros j Hj. now rewrite geti_seti_neq by auto. }
  assert (Hi2 : geti (t_slots _ _ t2) i = Some (Some (k, v))).
  { subst t2 i. cbn [t_slots]. apply geti_seti_eq. eapply geti_Some_lt; eauto. }
  assert (Ha2 : t_alloc _ _ t2 = true).
  { destruct (t_alloc _ _ t2) eqn:Ea; auto. pose proof (iv_unalloc _ _ _ _ _ I2 Ea) as Eu.
    rewrite Eu in Hi2. unfold geti in Hi2. cbn [empty_table t_slots] in Hi2.
    destruct (N.to_nat i); discriminate. }
  assert (Ha1 : t_alloc _ _ t1 = true) by (subst t2; exact Ha2).
  destruct (iv_alloc _ _ _ _ _ I2 Ha2) as (k2 & G & Hm & Hs).
  assert (Hu : forall j kv, geti (t_slots _ _ t2) j = Some (Some kv) -> keq k (fst kv) = true -> j = i).
  { intros j kv Hj Hkk. symmetry. exact (gv_uniq _ _ _ _ _ _ _ G i j (k, v) kv Hi2 Hj Hkk). }
  split.
  - unfold TableModel.lookup. destruct (find_spec hash keq kd L LW t2 k I2)
      as [(gj & q & kv & Ef2 & _)|[_ Habs2]].
    + unfold TableModel.find in *. pose proof Hh as (_ & Hgm & Hsh & _).
      unfold index_for_hash in *. rewrite Hgm, Hsh.
      now rewrite (find_holed t2 t1 i k Hh Hu _ _ _ _ Ef2).
    + exfalso. pose proof (Habs2 i (k, v) Hi2) as Hx. cbn [fst] in Hx.
      rewrite (lw_refl _ _ LW) in Hx. discriminate.
  - unfold destroy, clear_slots. rewrite Ha1.
    pose proof Hh as (Hgr & _ & _ & _ & Hni). rewrite Hgr.
    rewrite (each_group_fold hash keq kd L (destroy_one K V kd) destroy_i (fun _ _ _ => eq_refl) k2
               (t_groups _ _ t2) (t_slots _ _ t2) (t_slots _ _ t1) G).
    destruct (fold_destroy_hole (filter (occ (t_slots _ _ t2)) (seqN (2 ^ k2 * kd_S kd)))
                (t_slots _ _ t1) i) as (j & Ej & _); auto.
    + apply filter_In. split; [|apply occ_true; eauto]. apply seqN_In.
      pose proof (geti_Some_lt _ _ _ Hi2) as Hl. rewrite (gv_slen _ _ _ _ _ _ _ G) in Hl.
      unfold scap in Hl. destruct (kd_sent kd); lia.
    + apply NoDup_filter, seqN_NoDup.
    + now rewrite Ej.
Qed.

End Props.
