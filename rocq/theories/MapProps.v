(** Properties of the maps as a client sees them. *)
From Coq Require Import NArith ZArith List Bool Lia Permutation.
From Coq Require Import ZifyBool ZifyNat ZifyN.
From Verif Require Import Base BaseFacts BitsModel BitsFacts GroupModel GroupFacts
  TableModel TableInv TableFind TableInsert TableLoops TableCap TableOps IterModel IterFacts
  CopyModel CopyFacts MapSpec MapFacts RunModel Refine Progress ReachModel ReachFacts.
Import ListNotations.
Open Scope N_scope.
Ltac Zify.zify_post_hook ::= Z.div_mod_to_equations.

Lemma kind_laws kd : group_kind kd -> exists L : klaws kd, readable kd L.
Proof.
  intros [-> | ->]; [exists k15_laws; exact readable15|exists k16_laws; exact readable16].
Qed.

Section Props.

Context {K V : Type} (hash : K -> N) (keq : K -> K -> bool).
Context (LW : lawful hash keq).

Notation table := (table K V).
Notation content t := (elems (t_slots _ _ t)).

(** ** Behaviour as a map *)

Lemma run_map kd (HK : group_kind kd) calls outs t past :
  Forall (fun c => sane (fst c)) calls ->
  obeys K V hash keq kd (client_ok K V kd) calls (new_map K V kd) ->
  run K V hash keq kd calls (new_map K V kd) = Ok (outs, t) ->
  outs = snd (spec_run K V keq (map snd calls) (map threw outs) [])
  /\ exists l, traverse K V kd past t = Ok l
       /\ Permutation l (fst (spec_run K V keq (map snd calls) (map threw outs) [])).
Proof.
  intros HA Ho E. destruct (kind_laws kd HK) as [L R].
  pose proof (run_refines hash keq kd L LW calls (new_map K V kd) HA
                (default_Inv0 hash keq kd L) Ho) as H.
  rewrite E in H. destruct H as (I & HP & HO). split; [exact HO|].
  exists (content t). split; [now apply (traverse_spec hash keq kd L)|exact HP].
Qed.

Lemma run_no_undef kd (HK : group_kind kd) calls e :
  Forall (fun c => sane (fst c)) calls ->
  obeys K V hash keq kd (client_ok K V kd) calls (new_map K V kd) ->
  run K V hash keq kd calls (new_map K V kd) = Err e -> e = ELoop.
Proof.
  intros HA Ho E. destruct (kind_laws kd HK) as [L R].
  pose proof (run_refines hash keq kd L LW calls (new_map K V kd) HA
                (default_Inv0 hash keq kd L) Ho) as H.
  now rewrite E in H.
Qed.

Lemma run_returns15 calls :
  Forall (fun c => sane (fst c)) calls ->
  obeys K V hash keq k15 (client_noshrink K V k15) calls (new_map K V k15) ->
  exists outs t, run K V hash keq k15 calls (new_map K V k15) = Ok (outs, t).
Proof.
  intros HA Ho.
  destruct (run_keeps hash keq k15 (Inv1 hash keq k15 k15_laws) (client_noshrink K V k15)
              (step_keeps1 hash keq k15 k15_laws LW eq_refl eq_refl) calls (new_map K V k15) HA)
    as (outs & t & E & _); eauto.
  apply empty_Inv1. unfold kDefaultMaxLoadFactor. lia.
Qed.

Lemma run_returns_no_erase kd (HK : group_kind kd) calls :
  Forall (fun c => sane (fst c)) calls ->
  obeys K V hash keq kd (erase_free K V kd) calls (new_map K V kd) ->
  exists outs t, run K V hash keq kd calls (new_map K V kd) = Ok (outs, t).
Proof.
  intros HA Ho. destruct (kind_laws kd HK) as [L R].
  destruct (run_keeps hash keq kd (Inv2 hash keq kd L) (erase_free K V kd)
              (step_keeps2 hash keq kd L LW) calls (new_map K V kd) HA)
    as (outs & t & E & _); eauto.
  apply empty_Inv2. unfold kDefaultMaxLoadFactor. lia.
Qed.

Lemma noshrink_client kd (o : op K V) t : client_noshrink K V kd o t -> client_ok K V kd o t.
Proof. destruct o; cbn; tauto. Qed.

Lemma erase_free_client kd (o : op K V) t : erase_free K V kd o t -> client_ok K V kd o t.
Proof. destruct o as [| | | | | | | | |[]|]; cbn; tauto. Qed.

Lemma obeys_weaken kd (ok ok' : op K V -> table -> Prop) :
  (forall o t, ok o t -> ok' o t) ->
  forall calls t, obeys K V hash keq kd ok calls t -> obeys K V hash keq kd ok' calls t.
Proof.
  intros H calls. induction calls as [|[alloc o] calls IH]; intros t; cbn [obeys]; auto.
  intros [H1 H2]. split; auto. destruct (step K V hash keq kd alloc o t); auto.
Qed.

Lemma run_map15 calls past :
  Forall (fun c => sane (fst c)) calls ->
  obeys K V hash keq k15 (client_noshrink K V k15) calls (new_map K V k15) ->
  exists outs t, run K V hash keq k15 calls (new_map K V k15) = Ok (outs, t)
  /\ outs = snd (spec_run K V keq (map snd calls) (map threw outs) [])
  /\ exists l, traverse K V k15 past t = Ok l
       /\ Permutation l (fst (spec_run K V keq (map snd calls) (map threw outs) [])).
Proof.
  intros HA Ho. destruct (run_returns15 calls HA Ho) as (outs & t & E).
  exists outs, t. split; auto. apply run_map; auto. { now left. }
  eapply obeys_weaken; [|exact Ho]. apply noshrink_client.
Qed.

(** Insertion in any state. *)
Lemma insert_returns15 alloc t k v : sane alloc ->
  reachable K V hash keq k15 (client_noshrink K V k15) t ->
  forall e, step K V hash keq k15 alloc (OInsert _ _ k v) t <> Fail e
         /\ step K V hash keq k15 alloc (OAssign _ _ k v) t <> Fail e.
Proof.
  intros HA HR. apply (reachable_Inv1 hash keq k15 k15_laws LW t eq_refl eq_refl) in HR.
  assert (H : forall o, client_noshrink K V k15 o t -> forall e, step K V hash keq k15 alloc o t <> Fail e).
  { intros o Ho e E.
    pose proof (step_keeps1 hash keq k15 k15_laws LW eq_refl eq_refl alloc o t HA HR Ho) as H.
    rewrite E in H. exact H. }
  intros e. split; apply H; exact Logic.I.
Qed.

(** ** Iteration, size *)

Section Built.

Context (kd : kind) (HK : group_kind kd).
Notation built := (built K V hash keq kd).
Notation traverse := (traverse K V kd).
Notation lookup := (lookup K V hash keq kd).
Notation step := (step K V hash keq kd).
Notation capacity := (capacity K V kd).

Lemma built_traverse t past : built t -> traverse past t = Ok (content t).
Proof.
  intros B. destruct (kind_laws kd HK) as [L R].
  apply (traverse_spec hash keq kd L); auto. now apply (built_Inv0 hash keq kd L LW).
Qed.

Lemma distinct_ForallOrdPairs l : distinct_keys K V keq l ->
  ForallOrdPairs (fun a b => keq (fst a) (fst b) = false) l.
Proof.
  induction l as [|e l IH]; intros H; constructor.
  - destruct H as [H _]. unfold has in H. apply Forall_forall. intros x Hx.
    destruct (keq (fst e) (fst x)) eqn:E; auto.
    assert (existsb (fun e0 => keq (fst e) (fst e0)) l = true); [|congruence].
    apply existsb_exists. eauto.
  - apply IH, H.
Qed.

Lemma built_unique t past l : built t -> traverse past t = Ok l ->
  ForallOrdPairs (fun a b => keq (fst a) (fst b) = false) l.
Proof.
  intros B E. rewrite (built_traverse t past B) in E. injection E as <-.
  destruct (kind_laws kd HK) as [L R]. apply distinct_ForallOrdPairs.
  apply (Inv0_distinct hash keq kd L). now apply (built_Inv0 hash keq kd L LW).
Qed.

Lemma built_size t past : built t ->
  exists l, traverse past t = Ok l /\ t_size _ _ t = N.of_nat (length l).
Proof.
  intros B. exists (content t). split; [now apply built_traverse|].
  destruct (kind_laws kd HK) as [L R].
  apply (iv_size _ _ _ _ _ (built_Inv0 hash keq kd L LW t R B)).
Qed.

Lemma built_lookup t past : built t ->
  exists l, traverse past t = Ok l /\ forall k, lookup t k = Ok (get K V keq k l).
Proof.
  intros B. exists (content t). split; [now apply built_traverse|].
  destruct (kind_laws kd HK) as [L R]. intros k.
  apply (lookup_correct hash keq kd L LW t k (built_Inv0 hash keq kd L LW t R B)).
Qed.

(** The whole content: every live slot, in order. *)
Lemma built_traverse_slots t past : built t ->
  traverse past t = Ok (flat_map (fun o => match o with Some e => [e] | None => [] end) (t_slots _ _ t)).
Proof. exact (built_traverse t past). Qed.

Lemma built_size_capacity t : built t -> t_size _ _ t <= capacity t.
Proof.
  intros B. destruct (kind_laws kd HK) as [L R].
  pose proof (built_Inv0 hash keq kd L LW t R B) as I.
  rewrite (capacity_slots hash keq kd L t I), (iv_size _ _ _ _ _ I).
  pose proof (elems_length_le (t_slots _ _ t)). lia.
Qed.

Lemma built_destroy t : built t -> exists t', destroy K V kd t = Ok t' /\ t_alloc _ _ t' = false.
Proof.
  intros B. destruct (kind_laws kd HK) as [L R].
  exists (empty_table K V kd (t_mlf _ _ t)). split; [|reflexivity].
  apply (destroy_spec hash keq kd L t (built_Inv0 hash keq kd L LW t R B)).
Qed.

Lemma built_no_undef t alloc o e : built t -> sane alloc -> client_ok K V kd o t ->
  step alloc o t = Fail e -> e = ELoop.
Proof.
  intros B HA Hok E. destruct (kind_laws kd HK) as [L R].
  pose proof (step_refines hash keq kd L LW alloc o t HA (built_Inv0 hash keq kd L LW t R B) Hok) as H.
  now rewrite E in H.
Qed.

(** ** Content preserved *)

Definition resizing (o : op K V) : bool :=
  match o with OReserve _ _ _ | ORehash _ _ _ | OShrink _ _ _ | OMlf _ _ _ => true | _ => false end.

Lemma built_resize t t' r alloc o past : built t -> sane alloc -> client_ok K V kd o t ->
  resizing o = true -> step alloc o t = Ret t' r ->
  exists l l', traverse past t = Ok l /\ traverse past t' = Ok l' /\ Permutation l' l
    /\ t_size _ _ t' = t_size _ _ t /\ forall k, lookup t' k = lookup t k.
Proof.
  intros B HA Hok Ho E. destruct (kind_laws kd HK) as [L R].
  pose proof (built_Inv0 hash keq kd L LW t R B) as I.
  pose proof (step_refines hash keq kd L LW alloc o t HA I Hok) as H. rewrite E in H.
  destruct H as (I' & HP & _).
  assert (Eo : fst (spec_step K V keq o (content t)) = content t) by (destruct o; try discriminate; reflexivity).
  rewrite Eo in HP. exists (content t), (content t').
  split; [now apply (traverse_spec hash keq kd L)|]. split; [now apply (traverse_spec hash keq kd L)|].
  split; auto. split.
  - rewrite (iv_size _ _ _ _ _ I), (iv_size _ _ _ _ _ I'). now rewrite HP.
  - intros k. rewrite !(lookup_correct hash keq kd L LW) by auto. f_equal.
    change (get K V keq k (content t') = get K V keq k (content t)).
    apply (get_perm hash keq LW); auto.
    apply (Inv0_distinct hash keq kd L); auto.
Qed.

Lemma built_shrink_returns t alloc : built t -> sane alloc ->
  forall e, step alloc (OShrink _ _ false) t <> Fail e.
Proof.
  intros B HA e E. destruct (kind_laws kd HK) as [L R].
  pose proof (built_Inv0 hash keq kd L LW t R B) as I. cbn [TableModel.step] in E.
  destruct (shrink_returns hash keq kd L LW alloc false t HA I) as [H|H]; [discriminate| |].
  - destruct H as [H|[H|(nt & c & H & _)]]; rewrite H in E; discriminate.
  - rewrite H in E. discriminate.
Qed.

(** ** Exceptions *)

Lemma built_throw_unchanged t t' alloc o : built t -> sane alloc -> client_ok K V kd o t ->
  step alloc o t = Throw t' ->
  t' = t \/ exists m m', o = OMlf _ _ m /\ t' = set_mlf K V t m'.
Proof.
  intros B HA Hok E. destruct (kind_laws kd HK) as [L R].
  pose proof (step_refines hash keq kd L LW alloc o t HA (built_Inv0 hash keq kd L LW t R B) Hok) as H.
  rewrite E in H. destruct H as [H|(m & H1 & H2)]; eauto.
Qed.

(** ** clear *)

Lemma built_clear t alloc past : built t -> capacity t <> 0 ->
  exists t', step alloc (OClear _ _ false) t = Ret t' (RUnit _ _)
    /\ t_size _ _ t' = 0 /\ traverse past t' = Ok []
    /\ capacity t' = capacity t
    /\ (forall k, lookup t' k = Ok None)
    /\ Forall (fun s => s = None) (t_slots _ _ t').
Proof.
  intros B Hc. destruct (kind_laws kd HK) as [L R].
  pose proof (built_Inv0 hash keq kd L LW t R B) as I.
  assert (Ha : t_alloc _ _ t = true).
  { destruct (t_alloc _ _ t) eqn:E; auto. exfalso. apply Hc. unfold TableModel.capacity. now rewrite E. }
  destruct (clear_data_alloc hash keq kd L t I Ha) as (t' & E & I' & SG & Hsl & Hs & _).
  exists t'. unfold TableModel.step, clear. rewrite E. cbn [lift obind]. split; auto. split; auto.
  assert (Hn : content t' = []) by (rewrite Hsl; apply elems_repeat_None).
  split; [|split; [|split]].
  - rewrite (traverse_spec hash keq kd L) by auto. now rewrite Hn.
  - destruct SG as (G1 & G2 & _). unfold TableModel.capacity, group_capacity. now rewrite G1, G2.
  - intros k. rewrite (lookup_correct hash keq kd L LW) by auto. now rewrite Hn.
  - rewrite Hsl. apply Forall_forall. intros x Hx. now apply repeat_spec in Hx.
Qed.

(** ** No storage *)

Lemma nostorage_lookup t alloc k : built t -> capacity t = 0 ->
  lookup t k = Ok None /\ step alloc (OErase _ _ k) t = Ret t (RNum _ _ 0)
  /\ step alloc (OContains _ _ k) t = Ret t (RBool _ _ false) /\ t_slots _ _ t = [].
Proof.
  intros B Hc. destruct (kind_laws kd HK) as [L R].
  pose proof (built_Inv0 hash keq kd L LW t R B) as I.
  assert (Ha : t_alloc _ _ t = false).
  { destruct (t_alloc _ _ t) eqn:E; auto. exfalso.
    destruct (Inv0_kof hash keq kd L t I E) as [k0 Hk].
    rewrite (capacity_kof kd L _ _ Hk) in Hc. pose proof (scap_pos kd L k0).
    destruct Hk as (_ & _ & Hk & _). specialize (H Hk). lia. }
  rewrite (iv_unalloc _ _ _ _ _ I Ha).
  pose proof (find_unalloc (V:=V) hash keq kd L LW (t_mlf _ _ t) k) as Hf.
  unfold TableModel.step, TableModel.lookup, find_and_erase. rewrite Hf. cbn. auto.
Qed.

(** ** Duplicates *)

Lemma built_duplicate t alloc k v e : built t -> sane alloc -> lookup t k = Ok (Some e) ->
  step alloc (OInsert _ _ k v) t = Ret t (RIns _ _ e false)
  /\ exists t', step alloc (OAssign _ _ k v) t = Ret t' (RIns _ _ (fst e, v) false)
     /\ t_groups _ _ t' = t_groups _ _ t
     /\ exists i, geti (t_slots _ _ t) i = Some (Some e)
          /\ t_slots _ _ t' = seti (t_slots _ _ t) i (Some (fst e, v)).
Proof.
  intros B HA E. destruct (kind_laws kd HK) as [L R].
  pose proof (built_Inv0 hash keq kd L LW t R B) as I. unfold TableModel.lookup in E.
  assert (H : forall upd : bool, exists i, geti (t_slots _ _ t) i = Some (Some e)
     /\ emplace_impl K V hash keq kd alloc upd true t k v
        = Ret (if upd then set_slot t i (fst e, v) else t) (i, false)).
  { intros upd. destruct (emplace_spec hash keq kd L LW alloc upd t k v HA I)
      as [(gi & p & kv & Ef & Hp & Ha & Hs & Hk & Ee)|(Habs & Ef & _)]; rewrite Ef in E.
    - rewrite Hs in E. injection E as ->. eauto.
    - discriminate. }
  split.
  - destruct (H false) as (i & Hi & Ei). unfold TableModel.step, observe_ins. rewrite Ei.
    cbn [obind fst snd]. unfold entry_at. now rewrite Hi.
  - destruct (H true) as (i & Hi & Ei). exists (set_slot t i (fst e, v)).
    unfold TableModel.step, observe_ins. rewrite Ei. cbn [obind fst snd].
    rewrite (entry_at_seti t i (fst e, v) _ Hi) by reflexivity.
    split; auto. split; auto. exists i. auto.
Qed.

(** ** Other entries stay in place *)

Lemma built_insert_stable t t' r alloc k v : built t -> sane alloc ->
  step alloc (OInsert _ _ k v) t = Ret t' r -> capacity t' = capacity t ->
  forall i e, geti (t_slots _ _ t) i = Some (Some e) -> geti (t_slots _ _ t') i = Some (Some e).
Proof.
  intros B HA E Hc i e Hi. destruct (kind_laws kd HK) as [L R].
  pose proof (built_Inv0 hash keq kd L LW t R B) as I. unfold TableModel.step, observe_ins in E.
  destruct (emplace_spec hash keq kd L LW alloc false t k v HA I)
    as [(gi & p & kv & Ef & Hp & Ha & Hs & Hk & Ee)|(Habs & Ef & [(Hn & Ee)|(t1 & kk & HR & Hk & I1 & H)])].
  - rewrite Ee in E. cbn [obind fst snd] in E. unfold entry_at in E. rewrite Hs in E.
    injection E as <- <-. exact Hi.
  - rewrite Ee in E. discriminate.
  - destruct H as [(Ee & _)|(t2 & i2 & Ee & I2 & SG & Hf & Hsl & _)]; rewrite Ee in E; [discriminate|].
    cbn [obind fst snd] in E.
    rewrite (entry_at_seti t1 i2 (k, v) _ Hf t2 Hsl) in E. injection E as <- <-.
    rewrite Hsl. destruct HR as [[-> _]|(Hg & c & HR & Hcw & Hkc & Hac & _)].
    + rewrite geti_seti_neq; auto. intros ->. rewrite Hf in Hi. discriminate.
    + exfalso. destruct HR as (_ & Hk1 & _).
      assert (Hcc : capacity t2 = capacity t1).
      { destruct SG as (G1 & G2 & _). unfold TableModel.capacity, group_capacity. now rewrite G1, G2. }
      rewrite Hcc, (capacity_kof kd L _ _ Hk1) in Hc.
      destruct (t_alloc _ _ t) eqn:Ea.
      * destruct (Inv0_kof hash keq kd L t I Ea) as [k0 Hk0].
        rewrite (capacity_kof kd L _ _ Hk0) in Hc. rewrite (Hkc _ Hk0) in Hc.
        replace (k0 + 1 + kl_w kd L - kl_w kd L) with (k0 + 1) in Hc by lia.
        pose proof (scap_lt_succ kd L k0). lia.
      * unfold TableModel.capacity in Hc. rewrite Ea in Hc.
        pose proof (scap_pos kd L (c - kl_w kd L)) as Hp. destruct Hk1 as (_ & _ & Hk1 & _).
        specialize (Hp Hk1). lia.
Qed.

Lemma built_erase_stable t t' r alloc k : built t ->
  step alloc (OErase _ _ k) t = Ret t' r ->
  forall i e, geti (t_slots _ _ t) i = Some (Some e) -> keq k (fst e) = false ->
  geti (t_slots _ _ t') i = Some (Some e).
Proof.
  intros B E i e Hi Hne. destruct (kind_laws kd HK) as [L R].
  pose proof (built_Inv0 hash keq kd L LW t R B) as I. unfold TableModel.step, find_and_erase in E.
  destruct (find_spec hash keq kd L LW t k I) as [(gi & p & kv & Ef & Ha & Hp & Hs & Hk)|[Ef _]];
    rewrite Ef in E.
  - destruct (erase_slot_spec hash keq kd L t gi p kv I Ha Hp Hs) as (t1 & Ee & _ & _ & Hsl & _).
    rewrite Ee in E. cbn [obind] in E. injection E as <- <-. rewrite Hsl.
    rewrite geti_seti_neq; auto. intros Eq. rewrite <- Eq, Hs in Hi. injection Hi as ->. congruence.
  - cbn [obind] in E. now injection E as <- <-.
Qed.

End Built.

End Props.
