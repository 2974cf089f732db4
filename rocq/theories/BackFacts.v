(** Iterating over a robin map backwards. *)
From Coq Require Import NArith ZArith List Bool Lia Permutation.
From Coq Require Import ZifyBool ZifyNat ZifyN.
From Verif Require Import Base BaseFacts TableModel TableInv MapSpec MapFacts ReachModel RobinModel RobinSpec
  RobinFacts RobinOps RobinRefine BackModel.
Import ListNotations.
Open Scope N_scope.

Section Back.

Context {K V : Type} (hash : K -> N) (keq : K -> K -> bool) (LW : lawful hash keq).
Notation rmap := (rmap K V).
Notation C_ t := (r_ctrls K V t).
Notation S_ t := (r_slots K V t).

(** The elements in front of a position. *)
Definition before (S : list (option (K * V))) (n : nat) : list (K * V) := elems (firstn n S).

Lemma before_S S n x : nth_error S n = Some x -> before S (Datatypes.S n) = before S n ++ elems [x].
Proof.
  unfold before. intros H. rewrite <- elems_app. f_equal.
  revert S H. induction n as [|n IH]; intros [|y S] H; try discriminate.
  - injection H as ->. reflexivity.
  - cbn [nth_error] in H. change (y :: firstn (Datatypes.S n) S = y :: (firstn n S ++ [x])). f_equal. now apply IH.
Qed.

Lemma before_all S n : (length S <= n)%nat -> before S n = elems S.
Proof. intros H. unfold before. now rewrite firstn_all2. Qed.

Lemma before_mono S a b : (a <= b)%nat -> (length (before S a) <= length (before S b))%nat.
Proof.
  intros H. induction H as [|b H IH]; [lia|]. destruct (nth_error S b) as [x|] eqn:E.
  - rewrite (before_S _ _ _ E), app_length. lia.
  - apply nth_error_None in E. rewrite (before_all S b) in IH by lia. rewrite (before_all S (Datatypes.S b)) by lia. exact IH.
Qed.

Lemma prev_spec b t : rb hash keq b t -> forall n, N.of_nat n <= mx b ->
  (before (S_ t) n = [] /\ r_prev (C_ t) n = Ok 0)
  \/ exists i kv, r_prev (C_ t) n = Ok i /\ (N.to_nat i < n)%nat /\ geti (S_ t) i = Some (Some kv)
       /\ before (S_ t) n = before (S_ t) (N.to_nat i) ++ [kv].
Proof.
  intros X. pose proof (rb_cs _ _ _ _ X) as XC. pose proof (cs_len _ _ _ _ _ XC) as HSL.
  pose proof (cs_clen _ _ _ _ _ XC) as HCL.
  induction n as [|n IH]; intros H; [left; auto|]. cbn [r_prev].
  destruct (geti_lt (C_ t) (N.of_nat n)) as [c Hc]; [lia|]. rewrite Hc.
  destruct (N.lt_ge_cases c 128) as [Hu|Hu].
  - destruct (cs_used _ _ _ _ _ XC _ _ Hc Hu) as (kv & E & _). replace (c =? cEmpty) with false by (unfold cEmpty; lia).
    right. exists (N.of_nat n), kv. rewrite Nat2N.id. split; auto. split; [lia|]. split; auto.
    apply before_S with (x := Some kv). unfold geti in E. now rewrite Nat2N.id in E.
  - destruct (cs_free _ _ _ _ _ XC _ _ Hc Hu) as (_ & [->|A] & F); [|lia]. specialize (F ltac:(lia)).
    rewrite N.eqb_refl. unfold geti in F. rewrite Nat2N.id in F.
    rewrite (before_S _ _ _ F). cbn [elems flat_map opt_list app]. rewrite ?app_nil_r.
    destruct (IH ltac:(lia)) as [A|(i & kv & A1 & A2 & A3 & A4)]; [left; exact A|].
    right. exists i, kv. split; [auto|]. split; [lia|]. auto.
Qed.

Lemma walk_back_spec b t first : rb hash keq b t -> before (S_ t) (N.to_nat first) = [] ->
  (first = mx b \/ exists kv, geti (S_ t) first = Some (Some kv)) ->
  forall fuel i, i <= mx b -> (i = mx b \/ exists kv, geti (S_ t) i = Some (Some kv)) -> i <= N.of_nat fuel ->
  r_walk_back K V fuel t first i = Ok (rev (before (S_ t) (N.to_nat i))).
Proof.
  intros X HB HF.
  pose proof (rb_cs _ _ _ _ X) as XC. pose proof (cs_len _ _ _ _ _ XC) as HSL.
  assert (G : forall i, i <= mx b -> (i = mx b \/ exists kv, geti (S_ t) i = Some (Some kv)) -> i <> first ->
    before (S_ t) (N.to_nat i) <> []).
  { intros i Hi Hu Hne.
    assert (Hlt : first < i).
    { destruct (N.lt_ge_cases first i) as [|Hge]; auto. exfalso. destruct Hu as [->|[kv E]].
      - destruct HF as [->|[kv E]]; [lia|]. apply geti_Some_lt in E. lia.
      - unfold geti in E. pose proof (before_mono (S_ t) (Datatypes.S (N.to_nat i)) (N.to_nat first) ltac:(lia)) as M.
        rewrite HB, (before_S _ _ _ E), app_length in M. cbn in M. lia. }
    destruct HF as [->|[kv E]]; [lia|].
    pose proof (before_mono (S_ t) (Datatypes.S (N.to_nat first)) (N.to_nat i) ltac:(lia)) as M.
    unfold geti in E. rewrite (before_S _ _ _ E), app_length in M. cbn in M.
    intros E0. rewrite E0 in M. cbn in M. lia. }
  induction fuel as [|fuel IH]; intros i Hi Hu Hfu; cbn [r_walk_back];
    (destruct (N.eqb_spec i first) as [->|Hne]; [now rewrite HB|]); pose proof (G i Hi Hu Hne) as HN.
  - assert (i = 0) as -> by lia. now cbn in HN.
  - destruct (prev_spec b t X (N.to_nat i) ltac:(lia)) as [[A _]|(j & kv & A1 & A2 & A3 & A4)]; [contradiction|].
    rewrite A1. cbn [rbind]. unfold r_deref. rewrite A3. cbn [rbind].
    rewrite (IH j) by (try lia; eauto). cbn [rbind]. rewrite A4, rev_app_distr. reflexivity.
Qed.

Theorem back_spec q t : q = 1 \/ q = 2 -> rinv hash keq q t -> r_back K V t = Ok (rev (content t)).
Proof.
  intros Hq [_ [E|[b F]]].
  - rewrite (content_emp _ E). destruct t as [a c s l n m lk th ml rv]. destruct E. cbn in *. subst. reflexivity.
  - pose proof (rf_rb _ _ _ _ _ F) as X. unfold r_back, r_begin.
    rewrite (rb_gc _ _ _ _ X). pose proof (rb_clen _ _ _ _ X) as HC.
    pose proof (rb_cs _ _ _ _ X) as XC. pose proof (cs_clen _ _ _ _ _ XC) as HCL. pose proof (cs_len _ _ _ _ _ XC) as HSL.
    unfold seqN, rGroupWidth.
    assert (BC : before (S_ t) (N.to_nat (mx b)) = content t) by (apply before_all; lia).
    assert (SP : forall j, elems (skipn 0 (S_ t)) = elems (skipn j (S_ t)) -> before (S_ t) j = []).
    { intros j E. cbn [skipn] in E. unfold before. rewrite <- (firstn_skipn j (S_ t)) in E at 1. rewrite elems_app in E.
      apply (f_equal (@length _)) in E. rewrite app_length in E. destruct (elems (firstn j (S_ t))); auto. cbn in E. lia. }
    destruct (first_used_spec hash keq q Hq b t X (N.to_nat (gcount b * 32)) 0) as [[R1 R2]|(j & R1 & R2 & kv & E)].
    + lia.
    + unfold gcount. lia.
    + rewrite R1. cbn [rbind]. unfold r_end. rewrite (rb_max _ _ _ _ X).
      rewrite (walk_back_spec b t (mx b) X); try lia; auto; [now rewrite BC|].
      rewrite BC. unfold content. cbn [skipn] in R2. exact R2.
    + rewrite R1. cbn [rbind]. unfold r_end. rewrite (rb_max _ _ _ _ X).
      rewrite (walk_back_spec b t (N.of_nat j) X); try lia; eauto; [now rewrite BC|].
      rewrite Nat2N.id. now apply SP.
Qed.

Theorem back_reverse q t m : q = 1 \/ q = 2 -> r_reach K V hash keq q t m ->
  exists l, r_traverse K V t = Ok l /\ r_back K V t = Ok (rev l) /\ Permutation l m.
Proof.
  intros Hq R. destruct (reach_inv hash keq LW q t m Hq R) as [I P]. exists (content t).
  split; [now apply (traverse_spec hash keq q)|]. split; [now apply (back_spec q)|]. now symmetry.
Qed.

(** -- undoes ++. *)
Theorem forth_back q t m i kv : q = 1 \/ q = 2 -> r_reach K V hash keq q t m ->
  geti (S_ t) i = Some (Some kv) ->
  exists j, r_forth K V t i = Ok j /\ i < j /\ j <= r_end K V t /\ r_back_one K V t j = Ok i.
Proof.
  intros Hq R E. destruct (reach_inv hash keq LW q t m Hq R) as [[_ [E0|[b F]]] P].
  { destruct t as [a c s l n k lk th ml rv]. destruct E0. cbn in *. subst. unfold geti in E. destruct (N.to_nat i); cbn in E; discriminate. }
  pose proof (rf_rb _ _ _ _ _ F) as X.
  pose proof (rb_cs _ _ _ _ X) as XC. pose proof (cs_clen _ _ _ _ _ XC) as HCL. pose proof (cs_len _ _ _ _ _ XC) as HSL.
  pose proof (geti_Some_lt _ _ _ E) as Hi. unfold r_forth, r_end, r_back_one. rewrite (rb_max _ _ _ _ X).
  destruct (next_spec hash keq q Hq b t X (S (length (C_ t))) i) as (j & R1 & R2 & R3 & R4); [lia|lia|].
  exists j. split; auto. split; auto.
  assert (Hj : j <= mx b) by (destruct R4 as [->|[kv' E']]; [lia|apply geti_Some_lt in E'; lia]).
  split; auto.
  assert (BI : before (S_ t) (N.to_nat j) = before (S_ t) (N.to_nat i) ++ [kv]).
  { assert (BB : forall n, elems (S_ t) = before (S_ t) n ++ elems (skipn n (S_ t))).
    { intros n. unfold before. rewrite <- elems_app. now rewrite firstn_skipn. }
    pose proof (BB (N.to_nat j)) as B1. rewrite (BB (N.to_nat (i + 1))), R3 in B1.
    apply app_inv_tail in B1. rewrite <- B1. replace (N.to_nat (i + 1)) with (Datatypes.S (N.to_nat i)) by lia.
    unfold geti in E. now rewrite (before_S _ _ _ E). }
  destruct (prev_spec b t X (N.to_nat j) ltac:(lia)) as [[A _]|(i' & kv' & A1 & A2 & A3 & A4)].
  - rewrite A in BI. destruct (before (S_ t) (N.to_nat i)); discriminate.
  - rewrite A1. f_equal. rewrite A4 in BI. apply app_inj_tail in BI. destruct BI as [B _].
    unfold geti in A3, E.
    destruct (N.lt_trichotomy i' i) as [Hlt|[|Hgt]]; auto; exfalso.
    + pose proof (before_mono (S_ t) (Datatypes.S (N.to_nat i')) (N.to_nat i) ltac:(lia)) as M.
      rewrite (before_S _ _ _ A3), app_length, B in M. cbn in M. lia.
    + pose proof (before_mono (S_ t) (Datatypes.S (N.to_nat i)) (N.to_nat i') ltac:(lia)) as M.
      rewrite (before_S _ _ _ E), app_length, B in M. cbn in M. lia.
Qed.

End Back.
