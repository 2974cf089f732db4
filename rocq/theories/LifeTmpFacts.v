(** emplace through a temporary slot (LifeTmpModel.v). *)
From Coq Require Import NArith ZArith List Bool Lia Permutation.
From Verif Require Import Base BaseFacts GroupModel TableModel TableInv MapSpec MapFacts FallbackFacts ReachModel
  WitnessModel RobinModel RobinSpec RobinFacts RobinOps RobinRefine RobinWitness IndirectModel IndirectSpec IndirectFacts IndirectOps
  IndirectRefine IndirectWitness LifeTmpModel.
Import ListNotations.
Open Scope N_scope.

Section Facts.

Context {K V : Type} (hash : K -> N) (keq : K -> K -> bool).

Lemma tmp_same fuel alloc update k v (t : imap K V) :
  match i_emplace K V hash keq 1 alloc update k v t with
  | Ret t' (i, new) => i_emplace_tmp K V hash keq fuel alloc update k v t = Ret t' (i, new, true)
  | _ => True
  end.
Proof.
  cbn [i_emplace]. unfold i_emplace_tmp.
  destruct (i_search K V hash keq t true k) as [[i|i d]|]; [| |exact I].
  - destruct (geti _ i) as [c|]; [|exact I]. destruct (geti _ (c_idx c)) as [[kv|]|]; try exact I. reflexivity.
  - cbv zeta. set (g := i_need_grow K V t || (127 <? d)).
    destruct (if g then _ else _) as [t1 ?|t1|e]; cbn [obind]; try exact I.
    destruct (if g then _ else _) as [[?|j d1]|]; try exact I.
    destruct (i_insert_at K V hash false t1 j d1 (k, v)) as [[t2 [|]]|]; [reflexivity| |exact I].
    destruct (i_grow K V hash keq alloc t2); exact I.
Qed.

Theorem tmp_destroyed (LW : lawful hash keq) q t m fuel alloc update k v : q = 1 \/ q = 2 ->
  i_reach K V hash keq q t m -> sane alloc -> i_fine K V hash q (put_new K V keq k v m) ->
  match i_emplace_tmp K V hash keq fuel alloc update k v t with
  | Ret t' (i, new, destroyed) =>
      destroyed = true /\ i_emplace K V hash keq 64 alloc update k v t = Ret t' (i, new)
      /\ new = negb (has K V keq k m)
  | Throw t' => i_emplace K V hash keq 64 alloc update k v t = Throw t'
  | Fail _ => False
  end.
Proof.
  intros Hq R HA HF. destruct (ireach_inv hash keq LW q t m Hq R) as [I P].
  assert (EH : has K V keq k m = has K V keq k (icontent t)).
  { destruct (has K V keq k (icontent t)) eqn:E.
    - apply has_true in E. destruct E as (e & A & B). apply has_true. exists e. split; auto.
      eapply Permutation_in; [symmetry; exact P|]. auto.
    - rewrite has_false in *. intros e He. apply E. eapply Permutation_in; eauto. }
  unfold put_new in HF. rewrite EH in *.
  destruct (has K V keq k (icontent t)) eqn:E.
  - apply has_true in E. destruct E as (e & Hin & Hk).
    destruct (iemplace_old hash keq LW q alloc update t k v 0 e I Hin Hk) as (t1 & i1 & R1 & _).
    destruct (iemplace_old hash keq LW q alloc update t k v 63 e I Hin Hk) as (t2 & i2 & R2 & _).
    pose proof (tmp_same fuel alloc update k v t) as T. rewrite R1 in T. rewrite T.
    split; [reflexivity|]. split; [|reflexivity]. rewrite <- R1. change 64%nat with (S 63). cbn [i_emplace] in *.
    destruct (i_search K V hash keq t true k) as [[i|i d]|]; try discriminate.
    + reflexivity.
    + exfalso. cbv zeta in *. clear -R1. destruct (if _ || _ then _ else _) as [tt1 ?|?|]; cbn [obind] in R1; try discriminate.
      destruct (if _ || _ then _ else _) as [[?|j d1]|]; try discriminate.
      destruct (i_insert_at _ _ _ _ _ _ _ _) as [[t3 [|]]|]; try discriminate.
      destruct (i_grow _ _ _ _ _ _); discriminate.
  - assert (HFr : fresh_key keq (icontent t) k) by now apply (fresh_has hash keq LW).
    assert (HF' : i_fine K V hash q (icontent t ++ [(k, v)])).
    { destruct HF as [H1 H2]. cbn [length] in H2. split.
      - eapply (spread_all_perm hash q); [|exact H1]. rewrite <- Permutation_cons_append. now constructor.
      - rewrite app_length, <- (Permutation_length P). cbn [length]. lia. }
    destruct (iemplace_new hash keq LW q Hq alloc update t k v 0 HA I HFr HF') as [(t1 & R1 & _)|(t1 & i1 & R1 & _)];
    destruct (iemplace_new hash keq LW q Hq alloc update t k v 63 HA I HFr HF') as [(t2 & R2 & _)|(t2 & i2 & R2 & _)];
    change 64%nat with (S 63); revert R1 R2; unfold i_emplace_tmp; cbn [i_emplace];
      (destruct (i_search K V hash keq t true k) as [[i|i d]|]; [| |discriminate]);
      try (destruct (geti _ i) as [c|]; [|discriminate]; destruct (geti _ (c_idx c)) as [[kv|]|]; discriminate);
      cbv zeta; set (g := i_need_grow K V t || (127 <? d));
      (destruct (if g then _ else _) as [t3 ?|t3|?]; cbn [obind]; try discriminate);
      try (intros R1 R2; now rewrite R2);
      (destruct (if g then _ else _) as [[?|j d1]|]; try discriminate);
      (destruct (i_insert_at K V hash false t3 j d1 (k, v)) as [[t4 [|]]|]; try discriminate);
      try (intros R1 R2; split; [reflexivity|]; split; congruence).
    all: destruct (i_grow K V hash keq alloc t4) as [t5 u|t5|e5]; cbn [obind]; try discriminate.
    all: intros R1 R2; try discriminate; try reflexivity. all: auto.
Qed.

End Facts.

Lemma tmp_left_lemma :
  exists l k v, length l = 12%nat
    /\ match irun (map call (put_ops l)) (inew N N) with
       | Ok (_, t) =>
           match i_emplace_tmp N N idhash N.eqb 64 some_alloc false k v t with
           | Ret t' (_, new, destroyed) => new = true /\ destroyed = false
               /\ i_contains N N idhash N.eqb t' k = Ok true /\ i_size _ _ t' = 13
           | _ => False
           end
       | Err _ => False
       end.
Proof.
  exists (keys 11 32 31 ++ [30]), 62, 63. vm_compute. auto.
Qed.

Lemma tmp_example_lemma :
  i_reach N N idhash N.eqb 2 ix_crowd (snd (ichased 2 rx_crowd_ops)) /\ sane some_alloc
  /\ match i_emplace_tmp N N idhash N.eqb 64 some_alloc false 31 7 ix_crowd with
     | Ret t' r => r = (8, false, true) /\ i_size _ _ t' = 11
     | _ => False
     end
  /\ match i_emplace_tmp N N idhash N.eqb 64 some_alloc false 6 7 ix_seq with
     | Ret t' r => r = (6, false, true)
     | _ => False
     end.
Proof.
  split; [apply ichased_reach; lia|]. split; [exact some_sane|].
  vm_compute. auto.
Qed.
