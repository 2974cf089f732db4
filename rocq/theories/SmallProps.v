(** Statements about the prober, the groups and the endless search, in the form in
    which Properties*.v uses them. *)
From Coq Require Import NArith ZArith List Bool Lia Permutation.
From Coq Require Import ZifyBool ZifyNat ZifyN.
From Verif Require Import Base BaseFacts BitsModel BitsFacts ProberModel ProberFacts
  GroupModel GroupFacts TableModel TableInv TableInsert TableCap RunModel IterModel CopyModel ReachModel
  TraceModel CopyFacts ReachFacts MapProps MapProps2.
Import ListNotations.
Open Scope N_scope.
Ltac Zify.zify_post_hook ::= Z.div_mod_to_equations.

(** ** The prober *)

(** The first [n] rounds of a loop driven by the prober: the index examined, and
    whether next_bucket then says to go on. *)
Fixpoint rounds (n : nat) (mask : N) (p : prober) : list (N * bool) :=
  match n with
  | O => []
  | S n' => (pr_index p, snd (next_bucket mask p)) :: rounds n' mask (fst (next_bucket mask p))
  end.

Lemma rounds_spec k home : k <= 64 -> forall n j, N.of_nat n + j <= 2 ^ k ->
  map fst (rounds n (2 ^ k - 1) (prober_at k home j)) = map (fun i => probe k home (j + i)) (seqN (N.of_nat n)).
Proof.
  intros Hk. assert (Hle : 2 ^ k <= two64) by (apply pow2_le; lia).
  induction n as [|n IH]; intros j Hn; [reflexivity|].
  replace (N.of_nat (S n)) with (N.of_nat n + 1) by lia. rewrite seqN_succ. cbn [rounds map fst].
  rewrite N.add_0_r. f_equal. destruct n as [|n]; [reflexivity|].
  rewrite next_bucket_at by lia. cbn [fst]. rewrite IH by lia. rewrite map_map. apply map_ext.
  intros i. f_equal. lia.
Qed.

Lemma rounds_flags k home : k <= 63 -> forall n j, N.of_nat n + j + 1 = 2 ^ k ->
  map snd (rounds (S n) (2 ^ k - 1) (prober_at k home j)) = repeat true n ++ [false].
Proof.
  intros Hk. assert (Hle : 2 ^ k < two64) by (apply pow2_lt; lia).
  induction n as [|n IH]; intros j Hn.
  - cbn [rounds map snd repeat app]. rewrite next_bucket_at by lia. cbn [snd]. f_equal. lia.
  - cbn [repeat app]. rewrite <- (IH (j + 1)) by lia.
    change (rounds (S (S n)) (2 ^ k - 1) (prober_at k home j)) with
      ((pr_index (prober_at k home j), snd (next_bucket (2 ^ k - 1) (prober_at k home j)))
       :: rounds (S n) (2 ^ k - 1) (fst (next_bucket (2 ^ k - 1) (prober_at k home j)))).
    rewrite next_bucket_at by lia. cbn [map snd fst]. f_equal. lia.
Qed.

Lemma prober_visits_all k home : k <= 64 -> home < 2 ^ k ->
  Permutation (map fst (rounds (N.to_nat (2 ^ k)) (2 ^ k - 1) (prober_init home))) (seqN (2 ^ k)).
Proof.
  intros Hk Hh. rewrite (prober_init_at k) by auto.
  rewrite rounds_spec by lia. rewrite N2Nat.id.
  apply NoDup_Permutation_bis.
  - apply NoDup_map_in; [|apply seqN_NoDup]. intros a b Ha Hb. rewrite seqN_In in Ha, Hb.
    rewrite !N.add_0_l. apply probe_inj; auto.
  - now rewrite map_length.
  - intros x Hx. apply in_map_iff in Hx. destruct Hx as (i & <- & _). apply seqN_In. apply probe_lt.
Qed.

Lemma prober_stops k home : k <= 63 -> home < 2 ^ k ->
  map snd (rounds (N.to_nat (2 ^ k)) (2 ^ k - 1) (prober_init home))
  = repeat true (N.to_nat (2 ^ k) - 1) ++ [false].
Proof.
  intros Hk Hh. rewrite (prober_init_at k) by auto. pose proof (pow2_pos k).
  replace (N.to_nat (2 ^ k)) with (S (N.to_nat (2 ^ k) - 1)) at 1 by lia.
  apply rounds_flags; auto. lia.
Qed.

(** ** Groups *)

(** Sixteen bytes. *)
Definition sixteen_bytes (g : group) : Prop := length g = 16%nat /\ Forall (fun b => b < 256) g.

Lemma group15_exact g h : sixteen_bytes g ->
  (forall p, N.testbit (match_empty15 g) p = (p <? 15) && (byte g p =? 0))
  /\ (forall p, N.testbit (match_used15 g) p = (p <? 15) && negb (byte g p =? 0))
  /\ (forall p, N.testbit (match_hash15 g (reduced_hash15 h)) p = (p <? 15) && (byte g p =? reduced_hash15 h)).
Proof.
  intros Hg. split; [|split]; intros p;
    [now apply match_empty15_spec|now apply match_used15_spec|now apply match_hash15_spec].
Qed.

Lemma group15_updates g p h : sixteen_bytes g -> p < 15 ->
  (forall q, byte (set_used15 g p (reduced_hash15 h)) q = if q =? p then reduced_hash15 h else byte g q)
  /\ (forall q, byte (set_empty15 g p) q = if q =? p then 0 else byte g q)
  /\ (forall q, q < 15 -> byte (set_overflow15 g h) q = byte g q)
  /\ (forall x, is_overflow15 (set_overflow15 g h) x = (x mod 8 =? h mod 8) || is_overflow15 g x)
  /\ (forall x, is_overflow15 (set_used15 g p (reduced_hash15 h)) x = is_overflow15 g x)
  /\ (forall x, is_overflow15 (set_empty15 g p) x = is_overflow15 g x).
Proof.
  intros Hg Hp. pose proof Hg as [HL _]. pose proof (reduced_hash15_range h) as HR.
  assert (E : u8 (reduced_hash15 h) = reduced_hash15 h) by (unfold u8; apply N.mod_small; lia).
  split; [|split; [|split; [|split; [|split]]]].
  - intros q. unfold set_used15. rewrite E. destruct (N.eqb_spec q p) as [->|Hne].
    + apply byte_seti_eq. lia.
    + apply byte_seti_neq. auto.
  - intros q. unfold set_empty15. destruct (N.eqb_spec q p) as [->|Hne].
    + apply byte_seti_eq. lia.
    + apply byte_seti_neq. auto.
  - intros q Hq. now apply set_overflow15_byte.
  - intros x. now apply set_overflow15_ovf.
  - intros x. rewrite !is_overflow15_spec. unfold set_used15. rewrite byte_seti_neq by lia. reflexivity.
  - intros x. rewrite !is_overflow15_spec. unfold set_empty15. rewrite byte_seti_neq by lia. reflexivity.
Qed.

Lemma group16_exact g h : sixteen_bytes g ->
  (forall p, N.testbit (match_empty16 g) p = (p <? 16) && (byte g p mod 128 =? 0))
  /\ (forall p, N.testbit (match_used16 g) p = (p <? 16) && negb (byte g p mod 128 =? 0))
  /\ (forall p, N.testbit (match_hash16 g (reduced_hash16 h)) p = (p <? 16) && (byte g p mod 128 =? reduced_hash16 h)).
Proof.
  intros Hg. split; [|split]; intros p;
    [now apply match_empty16_spec|now apply match_used16_spec|now apply match_hash16_spec].
Qed.

(** The overflow flag of class [c] is the top bit of byte [c mod 16]. *)
Lemma group16_updates g p h : sixteen_bytes g -> p < 16 ->
  (forall q, byte (set_used16 g p (reduced_hash16 h)) q mod 128 = if q =? p then reduced_hash16 h else byte g q mod 128)
  /\ (forall q, byte (set_empty16 g p) q mod 128 = if q =? p then 0 else byte g q mod 128)
  /\ (forall q, byte (set_overflow16 g h) q mod 128 = byte g q mod 128)
  /\ (forall x, is_overflow16 (set_overflow16 g h) x = (x mod 16 =? h mod 16) || is_overflow16 g x)
  /\ (forall x, is_overflow16 (set_used16 g p (reduced_hash16 h)) x = is_overflow16 g x)
  /\ (forall x, is_overflow16 (set_empty16 g p) x = is_overflow16 g x).
Proof.
  intros Hg Hp. pose proof Hg as [HL _]. pose proof (reduced_hash16_range h) as HR.
  assert (E : u8 (reduced_hash16 h) = reduced_hash16 h) by (unfold u8; apply N.mod_small; lia).
  pose proof (valid_byte 16 g p Hg) as Hb.
  pose proof (set_used16_byte_facts (byte g p) (reduced_hash16 h) Hb ltac:(lia)) as (U1 & U2 & _).
  pose proof (set_used16_byte_facts (byte g p) 0 Hb ltac:(lia)) as (Z1 & Z2 & _).
  split; [|split; [|split; [|split; [|split]]]].
  - intros q. unfold set_used16. rewrite E. destruct (N.eqb_spec q p) as [->|Hne].
    + rewrite byte_seti_eq by lia. exact U1.
    + now rewrite byte_seti_neq by auto.
  - intros q. unfold set_empty16. destruct (N.eqb_spec q p) as [->|Hne].
    + rewrite byte_seti_eq by lia. exact Z1.
    + now rewrite byte_seti_neq by auto.
  - intros q. unfold set_overflow16. assert (h mod 16 < 16) by lia.
    destruct (N.eq_dec q (h mod 16)) as [->|Hne].
    + rewrite byte_seti_eq by lia. apply mod128_lor.
    + now rewrite byte_seti_neq by auto.
  - intros x. rewrite !is_overflow16_spec. unfold set_overflow16. assert (h mod 16 < 16) by lia.
    destruct (N.eqb_spec (x mod 16) (h mod 16)) as [->|Hne].
    + rewrite byte_seti_eq by lia. rewrite N.lor_spec. apply orb_true_r.
    + now rewrite byte_seti_neq by auto.
  - intros x. rewrite !is_overflow16_spec. unfold set_used16. rewrite E.
    destruct (N.eq_dec (x mod 16) p) as [->|Hne].
    + rewrite byte_seti_eq by lia. exact U2.
    + now rewrite byte_seti_neq by auto.
  - intros x. rewrite !is_overflow16_spec. unfold set_empty16.
    destruct (N.eq_dec (x mod 16) p) as [->|Hne].
    + rewrite byte_seti_eq by lia. exact Z2.
    + now rewrite byte_seti_neq by auto.
Qed.

(** ** The search that the model gives up *)

(** When the model's search for a free slot runs out of rounds (one per group), no
    number of rounds would have been enough. *)
Lemma search_forever kd k home h gs :
  group_kind kd -> k <= 51 -> home < 2 ^ k ->
  N.of_nat (length gs) = 2 ^ k -> Forall sixteen_bytes gs ->
  find_empty_loop kd (N.to_nat (2 ^ k)) gs (2 ^ k - 1) (ctrl_for_hash kd h) (prober_init home) = Err ELoop ->
  forall fuel, find_empty_loop kd fuel gs (2 ^ k - 1) (ctrl_for_hash kd h) (prober_init home) = Err ELoop.
Proof.
  intros HK Hk Hh Hl HF E fuel.
  assert (exists L : klaws kd, forall g, sixteen_bytes g -> kl_valid kd L g) as [L HV].
  { destruct HK as [-> | ->]; [exists k15_laws|exists k16_laws]; auto. }
  assert (HV' : forall gi g, geti gs gi = Some g -> kl_valid kd L g).
  { intros gi g Hg. apply HV. rewrite Forall_forall in HF. apply HF. now apply geti_In in Hg. }
  unfold ctrl_for_hash in *. rewrite (prober_init_at k) in * by auto.
  destruct (find_empty_loop_spec kd L k home h Hk Hh (N.to_nat (2 ^ k)) gs 0 Hl HV' ltac:(lia))
    as [[_ H]|(j & p & gs' & g & E' & _)]; [|rewrite E' in E; discriminate].
  pose proof (find_empty_loop_forever kd L k home h Hk fuel gs 0 Hl) as F.
  unfold prober_at.
  apply F. intros gi g Hg. split; [eauto|].
  assert (Hgi : gi < 2 ^ k) by (rewrite <- Hl; eapply geti_Some_lt; eauto).
  destruct (probe_surj k home gi Hgi) as (j & Hj & Ej). apply (H j); [lia|]. now rewrite Ej.
Qed.
