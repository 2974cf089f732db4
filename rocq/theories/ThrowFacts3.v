(** Throwing insertions into the flat16 and robin16 maps, as in ThrowFacts2. *)
From Coq Require Import NArith ZArith List Bool Lia Permutation.
From Verif Require Import Base BaseFacts GroupModel TableModel TableInv MapSpec MapFacts RobinOps
  Flat16Model Flat16Spec Flat16Facts Flat16Calls Flat16Runs ThrowModel2 ThrowFacts2.
Import ListNotations.
Open Scope N_scope.

Section Flat16.

Context {K V : Type} (hash : K -> N) (keq : K -> K -> bool) (mix : N -> N) (LW : lawful hash keq).

Notation fmap := (fmap K V).
Notation C_ := (f_ctrls K V).
Notation S_ := (f_slots K V).

(** [t1] is [t2] with a hole; its size does not count it. *)
Definition f_holed (t1 t2 : fmap) (i : N) (kv : K * V) : Prop :=
  hole (S_ t1) (S_ t2) i kv
  /\ t2 = f_with K V t1 (C_ t1) (S_ t2) (wadd (f_size _ _ t1) 1) (f_left _ _ t1).

Lemma f_emplace_hole alloc (update : bool) k v t :
  match f_emplace K V hash keq mix alloc update k v t with
  | Ret t2 (i, true) => exists t1,
      f_emplace_t K V hash keq mix alloc update k v t = Throw t1 /\ f_holed t1 t2 i (k, v)
  | Ret t2 (i, false) => f_emplace_t K V hash keq mix alloc update k v t = Ret t2 (i, false)
  | Throw t2 => f_emplace_t K V hash keq mix alloc update k v t = Throw t2
  | Fail _ => True
  end.
Proof.
  unfold f_emplace, f_emplace_t.
  destruct (f_prepare K V hash keq mix 64 alloc k t) as [t1 [i [|]]|t1|]; cbn [obind]; [| |reflexivity|exact I].
  - destruct (geti (S_ t1) i) as [[e|]|]; try exact I. destruct update; reflexivity.
  - unfold f_construct. cbn [fst]. destruct (f_set_used _ _ _ _) as [cs|]; cbn [rbind]; [|exact I].
    unfold raw_slot. destruct (geti (S_ t1) i) as [[e|]|] eqn:E; try exact I.
    eexists. split; [reflexivity|]. split; [split; auto|]. reflexivity.
Qed.

Lemma f_match_hole t1 t2 i kv k : f_holed t1 t2 i kv -> forall ps start,
  sim (f_match K V keq t1 k start ps) (f_match K V keq t2 k start ps).
Proof.
  intros [H E]. induction ps as [|p ps IH]; intros start; cbn [f_match]; [now left|].
  assert (f_round K V t1 (wadd start p) = f_round K V t2 (wadd start p)) as -> by now rewrite E.
  destruct (hole_at _ _ _ _ (f_round K V t2 (wadd start p)) H) as [->| ->]; [|now right].
  destruct (geti (S_ t2) _) as [[e|]|]; [|now left|now left]. destruct (keq (fst e) k); [now left|apply IH].
Qed.

Lemma f_match_found t k : forall ps start j, f_match K V keq t k start ps = Ok (Some j) ->
  exists e, In e (elems (S_ t)) /\ keq (fst e) k = true.
Proof.
  induction ps as [|p ps IH]; intros start j; cbn [f_match]; [discriminate|].
  destruct (geti (S_ t) _) as [[e|]|] eqn:E; try discriminate. destruct (keq (fst e) k) eqn:Q; [|apply IH].
  intros _. exists e. split; [|exact Q]. apply In_elems. eauto.
Qed.

Lemma f_scan_hole t1 t2 i kv k start : f_holed t1 t2 i kv -> forall fuel j,
  sim (f_scan K V hash keq mix fuel t1 k start j) (f_scan K V hash keq mix fuel t2 k start j).
Proof.
  intros H. pose proof H as [_ E]. induction fuel as [|fuel IH]; intros j; cbn [f_scan]; [now left|].
  assert (C_ t1 = C_ t2) as -> by now rewrite E.
  destruct (f_group (C_ t2) j) as [g|]; cbn [rbind]; [|now left].
  apply sim_bind; [eapply f_match_hole; eauto|]. intros [n|]; [now left|]. cbv zeta.
  destruct (negb _); [now left|].
  assert (f_next K V t1 j = f_next K V t2 j) as -> by now rewrite E.
  destruct (_ =? start); [now left|apply IH].
Qed.

Lemma f_scan_found t k start : forall fuel j n, f_scan K V hash keq mix fuel t k start j = Ok (FHit n) ->
  exists e, In e (elems (S_ t)) /\ keq (fst e) k = true.
Proof.
  induction fuel as [|fuel IH]; intros j n; cbn [f_scan]; [discriminate|].
  destruct (f_group (C_ t) j) as [g|]; cbn [rbind]; [|discriminate].
  destruct (f_match _ _ _ _ _ _ _) as [[n'|]|] eqn:M; cbn [rbind]; [| |discriminate].
  - intros _. eapply f_match_found; eauto.
  - destruct (negb _); [discriminate|]. destruct (_ =? start); [discriminate|apply IH].
Qed.

Lemma f_walk_hole t1 t2 i kv : f_holed t1 t2 i kv -> forall fuel j,
  sim (f_walk K V fuel t1 j) (f_walk K V fuel t2 j).
Proof.
  intros [H E].
  assert (EE : f_end K V t1 = f_end K V t2) by now rewrite E.
  induction fuel as [|fuel IH]; intros j; cbn [f_walk]; rewrite EE; (destruct (j =? f_end K V t2); [now left|]); [now left|].
  apply sim_bind.
  - unfold f_deref. destruct (hole_at _ _ _ _ j H) as [->| ->]; [now left|now right].
  - intros e. apply sim_bind; [rewrite E; apply sim_refl|]. intros n.
    apply sim_bind; [apply IH|]. intros l. apply sim_refl.
Qed.

Lemma f_walk_in t : forall fuel j l, f_walk K V fuel t j = Ok l -> forall e, In e l -> In e (elems (S_ t)).
Proof.
  induction fuel as [|fuel IH]; intros j l; cbn [f_walk]; (destruct (j =? f_end K V t);
    [intros X; injection X as <-; intros e []|]); [discriminate|].
  unfold f_deref. destruct (geti (S_ t) j) as [[e|]|] eqn:E; cbn [rbind]; try discriminate.
  destruct (f_incr _ _ _) as [n|]; cbn [rbind]; [|discriminate].
  destruct (f_walk K V fuel t n) as [l'|] eqn:W; cbn [rbind]; [|discriminate].
  intros X e' He. injection X as <-. destruct He as [<-|He]; [apply In_elems; eauto|eapply IH; eauto].
Qed.

(** Either the hole is destroyed as an element, or the element is still there in the other map. *)
Lemma f_destroy_hole C i (kv : K * V) : forall is S1 S2 S2', hole S1 S2 i kv ->
  f_destroy_loop K V C is S2 = Ok S2' ->
  f_destroy_loop K V C is S1 = Err EUndef \/ geti S2' i = Some (Some kv).
Proof.
  induction is as [|j is IH]; intros S1 S2 S2' H; cbn [f_destroy_loop].
  - intros E. right. injection E as <-. destruct H as [H ->]. apply geti_seti_eq.
    apply geti_Some_lt in H. exact H.
  - destruct (geti C j) as [c|]; [|discriminate]. destruct (N.eq_dec j i) as [->|N].
    + destruct H as [H ->]. rewrite geti_seti_eq by (apply geti_Some_lt in H; exact H). rewrite H.
      destruct (is_used c); [now left|]. apply IH. now split.
    + rewrite (hole_same _ _ _ _ _ H N).
      destruct (geti S2 j) as [[e|]|]; [| |discriminate]; (destruct (is_used c); [try discriminate|now apply IH]).
      apply IH. destruct H as [H ->]. split; [now rewrite geti_seti_neq by congruence|].
      apply seti_comm. congruence.
Qed.

(** What the caller can still do with the map. *)
Definition f_broken (t : fmap) (k : K) : Prop :=
  f_find_index K V hash keq mix t k = Err EUndef /\ f_erase K V hash keq mix k t = Err EUndef
  /\ f_traverse K V t = Err EUndef /\ f_destroy K V t = Err EUndef
  /\ forall alloc update v, f_emplace K V hash keq mix alloc update k v t = Fail EUndef.

Lemma f_prepare_search fuel alloc k t : f_search K V hash keq mix t k = Err EUndef ->
  f_prepare K V hash keq mix (S fuel) alloc k t = Fail EUndef.
Proof. intros E. cbn [f_prepare]. now rewrite E. Qed.

Lemma f_search_broken t k : f_search K V hash keq mix t k = Err EUndef ->
  f_traverse K V t = Err EUndef -> f_destroy K V t = Err EUndef -> f_broken t k.
Proof.
  intros E T D. unfold f_broken, f_erase, f_find_index. rewrite E. cbn [rbind].
  repeat (split; [now auto|]). intros alloc update v. unfold f_emplace.
  change 64%nat with (S 63). now rewrite (f_prepare_search 63 alloc k t E).
Qed.

Lemma f_holed_broken t1 t2 m i k v : f_built K V hash keq mix t2 m -> has K V keq k m = true ->
  f_holed t1 t2 i (k, v) -> f_broken t1 k.
Proof.
  intros B HI H. pose proof H as [H1 H2].
  destruct (built_inv hash keq mix LW t2 m B) as ((b & X) & P & HD).
  pose proof (distinct_perm hash keq LW _ _ P HD) as D.
  pose proof (hole_fresh hash keq LW _ _ _ _ H1 D) as F. cbn [fst] in F.
  apply f_search_broken.
  - pose proof (built_agrees hash keq mix LW false t2 m [(fun _ _ => false, OContains K V k)] B) as G.
    specialize (G ltac:(constructor; [intros ? ? ?; discriminate|constructor])). cbn [f_agrees spec_step] in G.
    specialize (G Logic.I). rewrite step_contains in G. unfold f_find_index in G. rewrite HI in G.
    unfold f_search in *. 
    assert (f_fuel K V t1 = f_fuel K V t2) as -> by now rewrite H2.
    assert (f_home K V hash t1 k = f_home K V hash t2 k) as -> by now rewrite H2.
    destruct (f_scan_hole _ _ _ _ k (f_home K V hash t2 k) H (f_fuel K V t2) (f_home K V hash t2 k)) as [Y|Y]; [|exact Y].
    exfalso. rewrite <- Y in G. destruct (f_scan _ _ _ _ _ _ _ _ _ _) as [[n|n n'|]|] eqn:E; cbn in G.
    + apply f_scan_found in E. destruct E as (e & Y1 & Y2). rewrite (F _ Y1) in Y2. discriminate.
    + destruct G as [G _]. discriminate.
    + destruct G as [G _]. discriminate.
    + exact G.
  - destruct (built_traverse hash keq mix LW t2 m B) as (l & T & PL & _). unfold f_traverse in *.
    assert (f_begin K V t1 = f_begin K V t2) as -> by now rewrite H2.
    assert (f_fuel K V t1 = f_fuel K V t2) as -> by now rewrite H2.
    destruct (f_begin K V t2) as [j|]; cbn [rbind] in *; [|discriminate].
    destruct (f_walk_hole _ _ _ _ H (f_fuel K V t2) j) as [Y|Y]; [|exact Y].
    exfalso. rewrite T in Y. apply has_true in HI. destruct HI as (e & He & Hk).
    pose proof (f_walk_in _ _ _ _ Y e) as Z. apply F in Z; [|eapply Permutation_in; [symmetry; exact PL|exact He]].
    apply (lw_sym _ _ LW) in Hk. congruence.
  - pose proof (built_destroy hash keq mix LW t2 m B) as T. unfold f_destroy, f_destroy_slots in *.
    assert (C_ t1 = C_ t2) as -> by now rewrite H2.
    assert (f_cap K V t1 = f_cap K V t2) as -> by now rewrite H2.
    destruct (f_destroy_loop K V (C_ t2) (seqN (f_cap K V t2)) (S_ t2)) as [S2|] eqn:E; cbn [rbind] in T; [|discriminate].
    destruct (f_destroy_hole _ _ _ _ _ _ _ H1 E) as [Y|Y]; [now rewrite Y|].
    exfalso. destruct (forallb _ S2) eqn:A; [|discriminate]. rewrite forallb_forall in A.
    apply geti_In in Y. apply A in Y. discriminate.
Qed.

Theorem f_built_insert_t t m alloc update k v : f_built K V hash keq mix t m -> f_sane alloc ->
  f_tidy K V t \/ f_roomy K V t -> has K V keq k m = false ->
  match f_emplace K V hash keq mix alloc update k v t with
  | Ret _ _ => exists t1, f_emplace_t K V hash keq mix alloc update k v t = Throw t1
      /\ Permutation (elems (S_ t1)) m /\ f_broken t1 k
  | Throw t' => f_emplace_t K V hash keq mix alloc update k v t = Throw t'
  | Fail _ => False
  end.
Proof.
  intros B HA HC HN.
  set (o := if update then OAssign K V k v else OInsert K V k v).
  assert (EO : f_step K V hash keq mix false alloc o t = f_ins K V (f_emplace K V hash keq mix alloc update k v t))
    by (destruct update; reflexivity).
  assert (HC' : f_client K V hash o t) by (destruct update; exact HC).
  assert (HM : fst (spec_step K V keq o m) = (k, v) :: m).
  { destruct update; cbn [o spec_step fst]; unfold put, put_new; now rewrite HN. }
  pose proof (built_agrees hash keq mix LW false t m [(alloc, o)] B) as G.
  specialize (G ltac:(constructor; [exact HA|constructor])). cbn [f_agrees] in G.
  pose proof (f_built_step K V hash keq mix t m false alloc o) as ST. rewrite HM in ST.
  rewrite EO in ST, G. pose proof (f_emplace_hole alloc update k v t) as E.
  destruct (f_emplace K V hash keq mix alloc update k v t) as [t2 [i [|]]|t2|] eqn:EE.
  - destruct E as (t1 & E & H). exists t1. split; [exact E|]. pose proof H as [H1 H2].
    assert (GI : geti (S_ t2) i = Some (Some (k, v))).
    { destruct H1 as [H1 ->]. apply geti_seti_eq. now apply geti_Some_lt in H1. }
    specialize (ST t2 (RIns K V (k, v) true) B HA HC' (ins_ret _ _ _ _ GI)).
    split.
    + destruct (built_inv hash keq mix LW t2 _ ST) as (_ & P & _).
      apply Permutation_cons_inv with (a := (k, v)). rewrite P. symmetry. exact (hole_perm _ _ _ _ H1).
    + eapply f_holed_broken; [exact ST| |exact H]. apply has_true. exists (k, v). split; [now left|apply (lw_refl _ _ LW)].
  - exfalso.
    assert (G2 : match f_ins K V (Ret t2 (i, false)) with
                 | Ret _ r => r = snd (spec_step K V keq o m) | Throw _ => True | Fail _ => False end).
    { destruct (spec_step K V keq o m) as [m' r']. specialize (G HC').
      destruct (f_ins K V (Ret t2 (i, false))); auto. apply G. }
    assert (HR : exists e, snd (spec_step K V keq o m) = RIns K V e true).
    { destruct update; cbn [o spec_step snd]; rewrite HN; cbn [negb]; eauto. }
    destruct HR as [e HR]. rewrite HR in G2. cbn [f_ins obind] in G2.
    destruct (f_deref K V t2 i); cbn in G2; [congruence|exact G2].
  - exact E.
  - destruct (spec_step K V keq o m) as [m' r']. exact (G HC').
Qed.
End Flat16.
