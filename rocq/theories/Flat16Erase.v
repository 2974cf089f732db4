(** erase(const_iterator) of the flat16 map. *)
From Coq Require Import NArith ZArith List Bool Lia Permutation.
From Coq Require Import ZifyBool ZifyNat ZifyN.
From Verif Require Import Base BaseFacts BitsModel BitsFacts GroupModel GroupFacts TableModel TableInv
  MapSpec MapFacts WitnessModel WitnessFacts RobinFacts Flat16Model Flat16Spec
  Flat16Facts Flat16Ops Flat16Refine Flat16Calls Flat16Runs Flat16Witness.
Import ListNotations.
Open Scope N_scope.

Lemma elems_seti_split {A} (L : list (option A)) i kv : geti L i = Some (Some kv) ->
  exists before, elems L = before ++ kv :: elems (skipn (N.to_nat (i + 1)) L)
    /\ elems (seti L i None) = before ++ elems (skipn (N.to_nat (i + 1)) L)
    /\ skipn (N.to_nat (i + 1)) (seti L i None) = skipn (N.to_nat (i + 1)) L.
Proof.
  intros H. destruct (geti_split _ _ _ H) as (a & b & E1 & EL & E2).
  exists (elems a). rewrite (E2 None).
  assert (SK : forall x, skipn (N.to_nat (i + 1)) (a ++ x :: b) = b).
  { intros x. replace (N.to_nat (i + 1)) with (length a + 1)%nat by lia.
    rewrite skipn_app, skipn_all2 by lia. replace (length a + 1 - length a)%nat with 1%nat by lia. reflexivity. }
  rewrite E1, !SK, !elems_app. split; [reflexivity|]. split; reflexivity.
Qed.

Section Erase.

Context {K V : Type} (hash : K -> N) (keq : K -> K -> bool) (mix : N -> N) (LW : lawful hash keq).

Lemma erase_at_spec (t : fmap K V) m i kv : f_built K V hash keq mix t m -> f_near K V hash t ->
  f_deref K V t i = Ok kv ->
  exists t' j before after, f_erase_at K V t i = Ok (t', j)
    /\ f_traverse K V t = Ok (before ++ kv :: after)
    /\ f_walk K V (f_fuel K V t) t i = Ok (kv :: after)
    /\ f_traverse K V t' = Ok (before ++ after)
    /\ f_walk K V (f_fuel K V t') t' j = Ok after
    /\ f_size _ _ t' + 1 = f_size _ _ t
    /\ f_built K V hash keq mix t' (remove K V keq (fst kv) m).
Proof.
  intros B HN D. unfold f_deref in D.
  assert (Ei : geti (f_slots _ _ t) i = Some (Some kv)).
  { destruct (geti (f_slots _ _ t) i) as [[e|]|]; congruence. }
  destruct (built_inv hash keq mix LW t m B) as ((b & X) & P & HD).
  assert (DC : distinct_keys K V keq (content t)) by (eapply (distinct_perm hash keq LW); eauto).
  destruct (erase_slot_spec hash mix b t i kv X HN Ei) as (C' & tag' & left' & E & X' & W & HT).
  set (t' := f_with K V t C' (seti (f_slots K V t) i None) (f_size K V t - 1) left') in *.
  pose proof (geti_Some_lt _ _ _ Ei) as Hi. rewrite (fc_slen _ _ _ _ _ (co_fc _ _ _ _ X)) in Hi.
  pose proof (fc_len _ _ _ _ _ (co_fc _ _ _ _ X)) as HC. pose proof (fc_len _ _ _ _ _ (co_fc _ _ _ _ X')) as HC'.
  pose proof (clen_le b) as HCL.
  destruct (incr_spec hash mix b t' X' (f_fuel K V t') i Hi) as (j & EJ & HS & Hj & G); [unfold f_fuel; lia|].
  destruct (elems_seti_split _ _ _ Ei) as (before & P1 & P2 & P3).
  exists t', j, before, (elems (skipn (N.to_nat (i + 1)) (f_slots _ _ t))).
  split; [unfold f_erase_at; rewrite E; cbn [rbind]; rewrite EJ; reflexivity|].
  split; [rewrite (traverse_spec hash mix b t X); unfold content; now rewrite P1|].
  split; [rewrite (walk_spec hash mix b t X); [now rewrite (elems_at _ _ _ Ei)|right; eauto|unfold f_fuel; lia]|].
  split; [rewrite (traverse_spec hash mix b t' X'); unfold content, t'; fcbn; now rewrite P2|].
  split.
  { rewrite (walk_spec hash mix b t' X'); [|exact HS|unfold f_fuel; lia].
    rewrite <- (elems_skip (f_slots _ _ t') (i + 1) j); [|lia|intros x e Hx; apply G; lia].
    unfold t'. fcbn. now rewrite P3. }
  split.
  { unfold t'. fcbn. rewrite (co_size _ _ _ _ X). unfold content. rewrite P1, app_length. cbn [length]. lia. }
  assert (F : f_erase K V hash keq mix (fst kv) t = Ok (t', 1)).
  { unfold f_erase. destruct (find_spec hash keq mix LW b t (fst kv) X DC) as [(HF & _)|(i' & e & _ & HK & Ei' & ->)].
    - exfalso. rewrite has_false in HF. specialize (HF kv). rewrite (lw_refl _ _ LW) in HF.
      discriminate HF. unfold content. rewrite P1. apply in_or_app. right. now left.
    - cbn [rbind]. assert (i' = i) as ->; [|now rewrite E].
      destruct (N.eq_dec i' i) as [|NE]; auto. exfalso.
      assert (D1 : distinct_keys K V keq (kv :: elems (seti (f_slots _ _ t) i None))).
      { eapply (distinct_perm hash keq LW); [symmetry; exact (elems_seti_None _ _ _ Ei)|exact DC]. }
      destruct D1 as [D1 _]. rewrite has_false in D1. specialize (D1 e). rewrite HK in D1.
      discriminate D1. apply In_elems. exists i'. rewrite geti_seti by (rewrite (fc_slen _ _ _ _ _ (co_fc _ _ _ _ X)); auto).
      destruct (N.eqb_spec i' i); [lia|exact Ei']. }
  change (remove K V keq (fst kv) m) with (fst (spec_step K V keq (OErase K V (fst kv)) m)).
  eapply (f_built_step _ _ _ _ _ t m false (fun _ _ => false)); [exact B|discriminate|exact HN|].
  cbn [f_step]. rewrite F. reflexivity.
Qed.

End Erase.

Lemma erase_at_lost : exists t m i kv e t' j,
  fbuilt t m /\ f_deref N N t i = Ok kv /\ In e m /\ N.eqb (fst e) (fst kv) = false
  /\ f_erase_at N N t i = Ok (t', j)
  /\ fstep false f_some (OContains N N (fst e)) t' = Ret t' (RBool N N false).
Proof.
  pose (i := match f_find_index N N idhash N.eqb crc fx_lost 320 with Ok (Some i) => i | _ => 0 end).
  pose (r := match f_erase_at N N fx_lost i with Ok p => p | Err _ => (fx_lost, 0) end).
  exists fx_lost, fx_lost_map, i, (320, 321), (1024, 1025), (fst r), (snd r).
  split; [exact fx_lost_built|]. split; [vm_compute; reflexivity|].
  split; [vm_compute; tauto|]. split; [reflexivity|]. split; vm_compute; reflexivity.
Qed.

(** 15 entries in 32 slots; position 5 is free. *)
Lemma erase_at_example : fbuilt fx_crowd fx_crowd_map /\ f_near N N idhash fx_crowd
  /\ f_deref N N fx_crowd 4 = Ok (256, 257) /\ f_size _ _ fx_crowd = 15
  /\ match f_erase_at N N fx_crowd 4 with
     | Ok (t', j) => j = 6 /\ match f_walk N N (f_fuel N N t') t' j with
                             | Ok l => length l = 10%nat /\ firstn 3 l = [(384, 385); (448, 449); (512, 513)]
                             | Err _ => False
                             end
     | Err _ => False
     end.
Proof.
  split; [exact fx_crowd_built|].
  split; [apply (f_clientb_ok (OErase N N 256)); vm_compute; reflexivity|].
  split; [vm_compute; reflexivity|]. split; [vm_compute; reflexivity|]. vm_compute. repeat split.
Qed.
