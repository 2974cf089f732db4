(** What swapped, assigned and moved robin maps can be used for. *)
From Coq Require Import NArith ZArith List Bool Lia Permutation.
From Coq Require Import ZifyBool ZifyNat ZifyN.
From Verif Require Import Base BaseFacts TableModel TableInv MapSpec MapFacts ReachModel RobinModel RobinSpec
  RobinFacts RobinOps RobinRefine FunctorModel FunctorFacts TakeModel TakeSpec.
Import ListNotations.
Open Scope N_scope.

Section Take.

Context {K V : Type}.
Notation rmap := (rmap K V).
Notation rheld := (held K rmap).

(** ** Maps that differ in last_slot_ and slot_threshold_ only *)

Definition alike (t s : rmap) : Prop :=
  r_alloc _ _ t = r_alloc _ _ s /\ r_ctrls _ _ t = r_ctrls _ _ s /\ r_slots _ _ t = r_slots _ _ s
  /\ r_size _ _ t = r_size _ _ s /\ r_mask _ _ t = r_mask _ _ s /\ r_lookups _ _ t = r_lookups _ _ s
  /\ r_mlf _ _ t = r_mlf _ _ s /\ r_rev _ _ t = r_rev _ _ s.

Lemma alike_take a b : alike (r_take K V a b) b.
Proof. destruct b. unfold alike. cbn. intuition. Qed.

Lemma rehash_alike hash keq sh always alloc t s n : alike t s ->
  match r_rehash_impl K V hash keq sh always alloc s n with
  | Ret s' _ => r_rehash_impl K V hash keq sh always alloc t n = Ret s' tt
      \/ (s' = s /\ r_rehash_impl K V hash keq sh always alloc t n = Ret t tt)
  | Throw _ => exists t', r_rehash_impl K V hash keq sh always alloc t n = Throw t'
  | Fail e => r_rehash_impl K V hash keq sh always alloc t n = Fail e
  end.
Proof.
  destruct t as [a1 c1 s1 l1 z1 m1 k1 h1 f1 v1], s as [a2 c2 s2 l2 z2 m2 k2 h2 f2 v2].
  unfold alike. cbn [r_alloc r_ctrls r_slots r_size r_mask r_lookups r_mlf r_rev].
  intros (-> & -> & -> & -> & -> & -> & -> & ->).
  unfold r_rehash_impl. destruct (r_calc_capacity n) as [cap|e]; [|reflexivity].
  unfold r_slot_capacity. cbn [r_mask]. destruct (_ || _); [|right; auto].
  unfold r_create. cbv zeta. cbn [r_alloc r_ctrls r_slots r_last r_size r_mask r_lookups r_thr r_mlf r_rev].
  destruct (alloc _); cbn [obind]; [|eauto].
  match goal with |- context [rbind ?E ?F] => remember (rbind E F) as R eqn:ER end.
  match goal with |- context [rbind ?E ?F] => change (rbind E F) with R || replace (rbind E F) with R end.
  destruct R; auto.
Qed.

(** ** Taking over *)

Lemma copy_held_reach q (y : rheld) m alloc : lawful (h_hash y) (h_eq y) -> q = 1 \/ q = 2 ->
  r_reach K V (h_hash y) (h_eq y) q (h_map y) m -> sane alloc -> spread_all K V (h_hash y) 2 m ->
  match r_copy_held K V alloc y with
  | Ret z _ => h_hash z = h_hash y /\ h_eq z = h_eq y /\ r_reach K V (h_hash y) (h_eq y) q (h_map z) m
  | Throw _ => True
  | Fail _ => False
  end.
Proof.
  destruct y as [hash keq t]. cbn [h_hash h_eq h_map]. intros LW Hq R HA HS.
  unfold r_copy_held. cbn [h_hash h_eq h_map].
  destruct (reach_inv hash keq LW q t m Hq R) as [I P].
  destruct (copy_spec hash keq LW q alloc t HA I Hq) as [(t1 & E1)|(t1 & E1 & I1 & P1)].
  - eapply (spread_all_perm hash 2); eauto.
  - rewrite E1. exact Logic.I.
  - rewrite E1. cbn [holding h_hash h_eq h_map]. split; auto. split; auto. eapply reach_copy; eauto.
Qed.

(** The move constructor with an allocator. *)
Lemma move_with_spec q same alloc (y : rheld) m : lawful (h_hash y) (h_eq y) -> q = 1 \/ q = 2 ->
  r_reach K V (h_hash y) (h_eq y) q (h_map y) m -> sane alloc -> spread_all K V (h_hash y) 2 m ->
  match r_move_with K V same alloc y with
  | Ret y' z => h_hash z = h_hash y /\ h_eq z = h_eq y
      /\ if same then h_map z = r_take K V (rnew K V) (h_map y) else
           y' = y /\ r_reach K V (h_hash y) (h_eq y) q (h_map z) m
  | Throw y' => y' = y
  | Fail _ => False
  end.
Proof.
  intros LW Hq R HA HS. unfold r_move_with. destruct same; [cbn; auto|].
  pose proof (copy_held_reach q y m alloc LW Hq R HA HS) as H.
  destruct (r_copy_held K V alloc y) as [z u|z|e]; auto. intuition.
Qed.

Lemma taken_cases q (z : rheld) m : q = 1 \/ q = 2 -> r_taken K V q z m -> lawful (h_hash z) (h_eq z) ->
  exists t, r_reach K V (h_hash z) (h_eq z) q t m /\ (h_map z = t \/ exists a, h_map z = r_take K V a t).
Proof.
  intros Hq T. destruct T as [x y m R|x y m R|x y m alloc z R HA HS E|x y m p s alloc z y' R HA HS E|y m s alloc z y' R HA HS E].
  - intros _. exists (h_map y). cbn. split; eauto.
  - intros _. exists (h_map x). cbn. split; eauto.
  - intros LW. unfold r_assign_held in E.
    destruct (r_copy_held K V alloc y) as [tmp u|tmp|e] eqn:EC; try discriminate. injection E as <-.
    pose proof (copy_held_reach q y m alloc) as H. rewrite EC in H.
    assert (Hh : h_hash tmp = h_hash y /\ h_eq tmp = h_eq y).
    { unfold r_copy_held, holding in EC. destruct (r_copy _ _ _ _ _ _); try discriminate. injection EC as <-. auto. }
    cbn in LW |- *. destruct Hh as [E1 E2]. rewrite E1, E2 in LW |- *.
    destruct (H LW Hq R HA HS) as (_ & _ & R'). exists (h_map tmp). eauto.
  - intros LW. unfold r_move_assign_held in E. destruct p.
    + unfold r_move_held in E. cbn in E. injection E as <- <-. cbn in LW |- *.
      exists (fst (r_move K V (h_map y))). split; [now apply reach_move|]. right. eexists. reflexivity.
    + destruct (r_move_with K V s alloc y) as [y1 tmp|y1|e] eqn:EM; try discriminate. injection E as <- <-.
      pose proof (move_with_spec q s alloc y m) as H. rewrite EM in H.
      assert (Hh : h_hash tmp = h_hash y /\ h_eq tmp = h_eq y).
      { unfold r_move_with in EM. destruct s; [injection EM as <- <-; auto|].
        unfold r_copy_held, holding in EM. destruct (r_copy _ _ _ _ _ _); try discriminate. injection EM as <- <-. auto. }
      cbn in LW |- *. destruct Hh as [E1 E2]. rewrite E1, E2 in LW |- *.
      destruct (H LW Hq R HA HS) as (_ & _ & R'). destruct s.
      * exists (h_map y). split; [exact R|]. right. exists (h_map x). rewrite R'. reflexivity.
      * destruct R' as [_ R']. exists (h_map tmp). eauto.
  - intros LW.
    pose proof (move_with_spec q s alloc y m) as H. rewrite E in H.
    assert (Hh : h_hash z = h_hash y /\ h_eq z = h_eq y).
    { unfold r_move_with in E. destruct s; [injection E as <- <-; auto|].
      unfold r_copy_held, holding in E. destruct (r_copy _ _ _ _ _ _); try discriminate. injection E as <- <-. auto. }
    destruct Hh as [E1 E2]. rewrite E1, E2 in LW |- *.
    destruct (H LW Hq R HA HS) as (_ & _ & R'). destruct s; [exists (h_map y)|exists (h_map z)]; intuition eauto.
Qed.

(** Calls that read neither last_slot_ nor slot_threshold_. *)
Lemma reach_shows hash keq q t m : lawful hash keq -> q = 1 \/ q = 2 -> r_reach K V hash keq q t m ->
  (exists l, r_traverse K V t = Ok l /\ Permutation l m)
  /\ r_size _ _ t = N.of_nat (length m)
  /\ forall k, r_contains K V hash keq t k = Ok (has K V keq k m).
Proof.
  intros LW Hq R. destruct (reach_traverse hash keq LW q t m Hq R) as (l & E & P & Z & _).
  split; [eauto|]. split; [now rewrite Z, (Permutation_length P)|].
  intros k. destruct (reach_inv hash keq LW q t m Hq R) as [I P'].
  rewrite (contains_spec hash keq LW q t k I). f_equal. symmetry. now apply has_perm.
Qed.

Theorem taken_shows q (z : rheld) m : lawful (h_hash z) (h_eq z) -> q = 1 \/ q = 2 -> r_taken K V q z m ->
  (exists l, r_traverse K V (h_map z) = Ok l /\ Permutation l m)
  /\ r_size _ _ (h_map z) = N.of_nat (length m)
  /\ forall k, r_contains K V (h_hash z) (h_eq z) (h_map z) k = Ok (has K V (h_eq z) k m).
Proof.
  intros LW Hq T. destruct (taken_cases q z m Hq T LW) as (t & R & [->|[a ->]]); [now apply (reach_shows _ _ q)|].
  rewrite traverse_take. exact (reach_shows _ _ q t m LW Hq R).
Qed.

Theorem take_functions (x y : rheld) :
  (let '(a, b) := r_swap_held K V x y in
   h_hash a = h_hash y /\ h_eq a = h_eq y /\ h_hash b = h_hash x /\ h_eq b = h_eq x)
  /\ (forall alloc z, r_assign_held K V alloc x y = Ret z tt -> h_hash z = h_hash y /\ h_eq z = h_eq y)
  /\ (forall same alloc z y', r_move_with K V same alloc y = Ret y' z ->
       h_hash z = h_hash y /\ h_eq z = h_eq y)
  /\ (forall propagate same alloc z y', r_move_assign_held K V propagate same alloc x y = Ret (z, y') tt ->
       h_hash z = h_hash y /\ h_eq z = h_eq y).
Proof.
  assert (C : forall alloc z u, r_copy_held K V alloc y = Ret z u -> h_hash z = h_hash y /\ h_eq z = h_eq y).
  { intros alloc z u E. unfold r_copy_held, holding in E. destruct (r_copy _ _ _ _ _ _); try discriminate.
    injection E as <- _. auto. }
  assert (M : forall same alloc z y', r_move_with K V same alloc y = Ret y' z ->
       h_hash z = h_hash y /\ h_eq z = h_eq y).
  { intros [] alloc z y' E; unfold r_move_with in E; [injection E as <- <-; auto|].
    destruct (r_copy_held K V alloc y) as [t u|t|e] eqn:EC; try discriminate. injection E as <- <-. eauto. }
  split; [cbn; auto|]. split; [|split; [exact M|]].
  - intros alloc z E. unfold r_assign_held in E.
    destruct (r_copy_held K V alloc y) as [t u|t|e] eqn:EC; try discriminate. injection E as <-. cbn. eauto.
  - intros p s alloc z y' E. unfold r_move_assign_held in E. destruct p; [cbn in E; injection E as <- <-; auto|].
    destruct (r_move_with K V s alloc y) as [y1 tmp|y1|e] eqn:EM; try discriminate. injection E as <- <-. cbn. eauto.
Qed.

(** Neither assignment is ever undefined; one that is refused memory changes nothing. *)
Theorem take_total q (x y : rheld) m : lawful (h_hash y) (h_eq y) -> q = 1 \/ q = 2 ->
  r_reach K V (h_hash y) (h_eq y) q (h_map y) m -> spread_all K V (h_hash y) 2 m ->
  forall alloc, sane alloc ->
  (match r_assign_held K V alloc x y with Ret _ _ => True | Throw x' => x' = x | Fail _ => False end)
  /\ (forall same, match r_move_with K V same alloc y with
       | Ret y' _ => same = false -> y' = y | Throw y' => y' = y | Fail _ => False end)
  /\ forall propagate same, match r_move_assign_held K V propagate same alloc x y with
       | Ret (_, y') _ => if propagate || same then r_emptied K V y' else y' = y
       | Throw z => z = (x, y) | Fail _ => False end.
Proof.
  intros LW Hq R HS alloc HA. pose proof (copy_held_reach q y m alloc LW Hq R HA HS) as C.
  pose proof (fun same => move_with_spec q same alloc y m LW Hq R HA HS) as M.
  split; [|split].
  - unfold r_assign_held. destruct (r_copy_held K V alloc y); auto.
  - intros same. specialize (M same). destruct (r_move_with K V same alloc y) as [y1 z|y1|e]; auto.
    intros ->. destruct M as (_ & _ & M & _). exact M.
  - intros p s. unfold r_move_assign_held. destruct p.
    + cbn [orb]. destruct (r_move_held K V y) as [tmp y'] eqn:E.
      replace y' with (snd (r_move_held K V y)) by (rewrite E; reflexivity). constructor.
    + cbn [orb]. specialize (M s). destruct (r_move_with K V s alloc y) as [y' z|y'|e] eqn:E; auto.
      * destruct s; [exact (emptied_with K V y z y' alloc E)|]. destruct M as (_ & _ & M & _). exact M.
      * now rewrite M.
Qed.

(** ** Repair *)

Notation resizes := (r_resizes K V).

Lemma resize_alike hash keq alloc o t s : resizes o = true -> alike t s ->
  match r_step K V hash keq alloc o s with
  | Ret s' r => r_step K V hash keq alloc o t = Ret s' r \/ (s' = s /\ r_step K V hash keq alloc o t = Ret t r)
  | Throw _ => exists t', r_step K V hash keq alloc o t = Throw t'
  | Fail e => r_step K V hash keq alloc o t = Fail e
  end.
Proof.
  intros HO A.
  assert (G : forall n, match r_unit K V (r_rehash_impl K V hash keq true false alloc s n) with
     | Ret s' r => r_unit K V (r_rehash_impl K V hash keq true false alloc t n) = Ret s' r
         \/ (s' = s /\ r_unit K V (r_rehash_impl K V hash keq true false alloc t n) = Ret t r)
     | Throw _ => exists t', r_unit K V (r_rehash_impl K V hash keq true false alloc t n) = Throw t'
     | Fail e => r_unit K V (r_rehash_impl K V hash keq true false alloc t n) = Fail e
     end).
  { intros n. pose proof (rehash_alike hash keq true false alloc t s n A) as H.
    destruct (r_rehash_impl K V hash keq true false alloc s n) as [s' u|s'|e]; unfold r_unit; cbn [obind].
    - destruct H as [->|[-> ->]]; cbn [obind]; auto.
    - destruct H as [t' ->]. cbn [obind]. eauto.
    - rewrite H. reflexivity. }
  destruct A as (_ & _ & _ & Z & _ & _ & F & RV).
  assert (Q : forall n, r_min_require K V t n = r_min_require K V s n).
  { intros n. unfold r_min_require. now rewrite RV. }
  destruct o; try discriminate; cbn [r_step]; unfold r_rehash, r_shrink.
  - rewrite Q, Z. apply G.
  - rewrite Q, Z. apply G.
  - rewrite Q, Z. apply G.
Qed.

Lemma spec_resizes keq o m : resizes o = true -> spec_step K V keq o m = (m, RUnit K V).
Proof. destruct o; try discriminate; reflexivity. Qed.

Lemma resize_repairs hash keq q t s m alloc o : lawful hash keq -> q = 1 \/ q = 2 -> r_reach K V hash keq q s m ->
  alike t s -> sane alloc -> resizes o = true -> r_client K V q o s -> spread_all K V hash q m ->
  match r_step K V hash keq alloc o t with
  | Ret t' _ => r_slot_capacity K V t' <> r_slot_capacity K V s -> r_reach K V hash keq q t' m
  | Throw _ => True
  | Fail _ => False
  end.
Proof.
  intros LW Hq R A HA HO HC HS. pose proof (resize_alike hash keq alloc o t s HO A) as H.
  pose proof (reach_agrees hash keq LW q s m [(alloc, o)] Hq R ltac:(repeat constructor; auto)) as G.
  cbn [r_agrees] in G. pose proof (spec_resizes keq o m HO) as ES. rewrite ES in G. specialize (G HC HS).
  destruct (r_step K V hash keq alloc o s) as [s' r|s'|e] eqn:E.
  - destruct H as [->|[-> ->]].
    + intros _. pose proof (reach_step K V hash keq q s m alloc o s' r R HA HC) as X. rewrite ES in X. cbn [fst] in X. auto.
    + intros HN. exfalso. apply HN. unfold r_slot_capacity. destruct A as (_ & _ & _ & _ & -> & _). reflexivity.
  - destruct H as [t' ->]. exact I.
  - contradiction.
Qed.

Theorem taken_resized q (z : rheld) m alloc o : lawful (h_hash z) (h_eq z) -> q = 1 \/ q = 2 -> r_taken K V q z m ->
  sane alloc -> resizes o = true -> r_client K V q o (h_map z) -> spread_all K V (h_hash z) q m ->
  match r_step K V (h_hash z) (h_eq z) alloc o (h_map z) with
  | Ret t _ => r_slot_capacity K V t <> r_slot_capacity K V (h_map z) ->
      forall calls, Forall (fun c => sane (fst c)) calls ->
      r_agrees K V (h_hash z) (h_eq z) (spread_all K V (h_hash z) q) q calls t m
  | Throw _ => True
  | Fail _ => False
  end.
Proof.
  intros LW Hq T HA HO HC HS. destruct (taken_cases q z m Hq T LW) as (t & R & HT).
  assert (A : alike (h_map z) t).
  { destruct HT as [->|[a ->]]; [unfold alike; intuition|apply alike_take]. }
  assert (EC : r_slot_capacity K V (h_map z) = r_slot_capacity K V t).
  { unfold r_slot_capacity. destruct A as (_ & _ & _ & _ & -> & _). reflexivity. }
  assert (HC' : r_client K V q o t).
  { destruct A as (_ & _ & _ & EZ & _). destruct o; try discriminate; cbn [r_client] in *; rewrite ?EZ in HC; auto. }
  pose proof (resize_repairs _ _ q _ t m alloc o LW Hq R A HA HO HC' HS) as H.
  destruct (r_step K V (h_hash z) (h_eq z) alloc o (h_map z)); auto.
  intros HN calls Hc. rewrite EC in HN. apply (reach_agrees _ _ LW q); auto.
Qed.

Theorem taken_cleared q (z : rheld) m : lawful (h_hash z) (h_eq z) -> q = 1 \/ q = 2 -> r_taken K V q z m ->
  r_alloc _ _ (h_map z) = true ->
  exists t, r_clear K V true (h_map z) = Ret t tt
    /\ forall calls, Forall (fun c => sane (fst c)) calls ->
        r_agrees K V (h_hash z) (h_eq z) (spread_all K V (h_hash z) q) q calls t [].
Proof.
  intros LW Hq T HA. destruct (taken_cases q z m Hq T LW) as (t & R & HT).
  assert (A : alike (h_map z) t).
  { destruct HT as [->|[a ->]]; [unfold alike; intuition|apply alike_take]. }
  assert (HT' : r_alloc _ _ t = true) by (destruct A as (E & _); congruence).
  destruct (reach_clear _ _ LW q t m true Hq R HT') as (t1 & E1 & _).
  assert (R1 : r_reach K V (h_hash z) (h_eq z) q t1 []).
  { apply (reach_step K V _ _ q t m (fun _ => false) (OClear K V true) t1 (RUnit K V)); auto.
    - now intros n E.
    - intros b _ _ a n Hn. unfold homes_in. cbn. lia.
    - cbn [r_step]. rewrite E1. reflexivity. }
  exists t1. split; [|intros calls HC; now apply (reach_agrees _ _ LW q)].
  assert (C : 0 < r_slot_capacity K V t).
  { destruct (reach_load _ _ LW q t m Hq R) as [_ HB]. destruct (HB HT') as [b ->]. 
    apply N.neq_0_lt_0. apply N.pow_nonzero. lia. }
  destruct A as (_ & _ & _ & _ & EM & _ & EF & ER).
  assert (EC : r_slot_capacity K V (h_map z) = r_slot_capacity K V t).
  { unfold r_slot_capacity. now rewrite EM. }
  unfold r_clear in *. rewrite EC. replace (0 <? r_slot_capacity K V t) with true in * by (symmetry; apply N.ltb_lt; exact C).
  cbn [andb] in *. rewrite <- E1. unfold r_destroyed. now rewrite EF, ER.
Qed.

Theorem emptied_reserved hash keq q (y : rheld) alloc n : lawful hash keq -> q = 1 \/ q = 2 -> r_emptied K V y ->
  sane alloc -> n <= 2 ^ 50 ->
  match r_step K V hash keq alloc (OReserve K V n) (h_map y) with
  | Ret t _ => forall calls, Forall (fun c => sane (fst c)) calls ->
      r_agrees K V hash keq (spread_all K V hash q) q calls t []
  | Throw _ => True
  | Fail _ => False
  end.
Proof.
  intros LW Hq E HA Hn.
  assert (A : alike (h_map y) (rnew K V)).
  { destruct E as [y|y z y' al E].
    - unfold alike. cbn. intuition.
    - unfold r_move_with in E. cbn in E. injection E as <- <-. cbn. unfold alike. cbn. intuition. }
  assert (HS : spread_all K V hash q []).
  { intros b _ _ a k Hk. unfold homes_in. cbn. lia. }
  pose proof (resize_repairs hash keq q (h_map y) (rnew K V) [] alloc (OReserve K V n) LW Hq (reach_new K V hash keq q)
    A HA eq_refl) as H.
  assert (HC : r_client K V q (OReserve K V n) (rnew K V)).
  { cbn. split; auto. right. lia. }
  specialize (H HC HS).
  destruct (r_step K V hash keq alloc (OReserve K V n) (h_map y)) as [t r|t|e] eqn:ES; auto.
  intros calls Hc. apply (reach_agrees _ _ LW q); auto. apply H.
  cbn [r_step] in ES. unfold r_rehash in ES. destruct A as (A1 & A2 & A3 & A4 & A5 & A6 & A7 & A8).
  assert (EM : r_min_require K V (h_map y) n = 2 * n).
  { unfold r_min_require. rewrite A8. cbn [r_rev rnew]. unfold rDefaultRev, wmul, w64, two64.
    rewrite N.mod_small by lia. replace (n * 512) with (2 * n * 256) by lia. apply N.div_mul. lia. }
  rewrite EM, A4 in ES. cbn [r_size rnew] in ES. rewrite N.max_0_r in ES.
  destruct (calc_capacity_spec (2 * n) ltac:(lia)) as (b & EB & Hb2 & _ & Hb63).
  assert (HP : 4 <= 2 ^ b <= 2 ^ 63).
  { split; [change 4 with (2 ^ 2)|]; apply N.pow_le_mono_r; lia. }
  unfold r_rehash_impl in ES. rewrite EB in ES.
  assert (E0 : r_slot_capacity K V (h_map y) = 0) by (unfold r_slot_capacity; rewrite A5; reflexivity).
  rewrite E0 in ES. replace (2 ^ b =? 0) with false in ES by lia. cbn [negb andb orb] in ES.
  unfold r_create in ES. cbv zeta in ES. destruct (alloc _); cbn [obind r_unit] in ES; [|discriminate].
  assert (EE : r_elements K V (h_map y) = Ok []).
  { unfold r_elements. rewrite E0, A1. reflexivity. }
  rewrite EE in ES. cbn [rbind r_insert_all obind r_unit] in ES. injection ES as <- <-.
  change (r_slot_capacity K V (rnew K V)) with 0. unfold r_slot_capacity. cbn [r_mask].
  set (p := 2 ^ b) in *. clearbody p. clear - HP.
  assert (EP : wsub p 1 = p - 1) by (apply wsub_small; unfold two64; lia).
  rewrite EP. replace (p - 1 =? 0) with false by lia.
  assert (EA : wadd (p - 1) 1 = p) by (unfold wadd, w64; rewrite N.mod_small; unfold two64; lia).
  rewrite EA. lia.
Qed.

End Take.
