(** Robin hood hashing in a ring: each cell is free or has an element and its distance
    from home.  Facts about such rings, independent of how they are stored. *)
From Coq Require Import NArith ZArith List Bool Lia Permutation.
From Coq Require Import ZifyBool ZifyNat ZifyN.
From Verif Require Import Base BaseFacts TableInv MapFacts RobinFacts.
Import ListNotations.
Open Scope N_scope.

(** ** Arithmetic modulo the capacity *)

Lemma mod_shift c p q j : c <> 0 -> p mod c = q mod c -> (p + j) mod c = (q + j) mod c.
Proof. intros Hc H. rewrite (N.add_mod p), (N.add_mod q), H by auto. reflexivity. Qed.

Lemma mod_up c p : c <> 0 -> (p + c) mod c = p mod c.
Proof. intros Hc. replace (p + c) with (p + 1 * c) by lia. now apply N.mod_add. Qed.

Lemma mod_up2 c p n : c <> 0 -> (p + n * c) mod c = p mod c.
Proof. intros Hc. now apply N.mod_add. Qed.

Lemma mod_mod_shift c p j : c <> 0 -> (p mod c + j) mod c = (p + j) mod c.
Proof. intros Hc. apply mod_shift; auto. now apply N.mod_mod. Qed.

Lemma mod_cancel c p q j : c <> 0 -> (p + j) mod c = (q + j) mod c -> p mod c = q mod c.
Proof.
  intros Hc H.
  rewrite <- (mod_up2 c p j), <- (mod_up2 c q j) by auto.
  replace (p + j * c) with (p + j + j * (c - 1)) by nia.
  replace (q + j * c) with (q + j + j * (c - 1)) by nia.
  now apply mod_shift.
Qed.

Lemma mod_near c p j : c <> 0 -> 0 < j -> j < c -> (p + j) mod c <> p mod c.
Proof.
  intros Hc H1 H2 E. replace p with (0 + p) in E by lia. replace (0 + p + j) with (j + p) in E by lia.
  apply mod_cancel in E; auto. rewrite N.mod_small, N.mod_small in E by lia. lia.
Qed.

(** The offset of [s + y] from [s] in the ring. *)
Lemma mod_offset c s y h : c <> 0 -> y < c -> h mod c = (s + y) mod c ->
  (h mod c + c - s mod c) mod c = y.
Proof.
  intros Hc Hy H. rewrite H. pose proof (N.mod_lt s c Hc).
  rewrite <- (N.mod_small y c Hy) at 2.
  apply (mod_cancel c _ _ (s mod c) Hc).
  replace ((s + y) mod c + c - s mod c + s mod c) with ((s + y) mod c + c) by lia.
  rewrite mod_up, N.mod_mod by auto. rewrite (N.add_comm y), mod_mod_shift by auto. reflexivity.
Qed.

Section Ring.

Context {E : Type} (hm : E -> N) (cap : N).
Hypothesis Hcap : 4 <= cap.

Notation cells := (list (option (N * E))).

Definition at_ (A : cells) (p : N) : option (option (N * E)) := geti A (p mod cap).

(** The elements. *)
Definition ents (A : cells) : list E := map snd (elems A).

Record ring (A : cells) : Prop := {
  r_len : N.of_nat (length A) = cap;
  r_home : forall p d e, at_ A p = Some (Some (d, e)) -> (hm e + d) mod cap = p mod cap;
  r_order : forall p d e, at_ A (p + 1) = Some (Some (d, e)) -> 0 < d ->
      exists d0 e0, at_ A p = Some (Some (d0, e0)) /\ d <= d0 + 1
}.

Lemma at_cong A p q : p mod cap = q mod cap -> at_ A p = at_ A q.
Proof. unfold at_. now intros ->. Qed.

Lemma at_some A p : ring A -> exists o, at_ A p = Some o.
Proof.
  intros R. apply geti_lt. rewrite (r_len _ R). apply N.mod_lt. lia.
Qed.

Lemma at_small A i : i < cap -> at_ A i = geti A i.
Proof. intros H. unfold at_. now rewrite N.mod_small. Qed.

(** All cells between the home of an element and the element are used, and their
    distances are large enough. *)
Lemma ring_chain A : ring A -> forall j p d e, at_ A (p + j) = Some (Some (d, e)) -> j <= d ->
  exists d0 e0, at_ A p = Some (Some (d0, e0)) /\ d <= d0 + j.
Proof.
  intros R j. induction j as [|j IH] using N.peano_ind; intros p d e H Hj.
  - exists d, e. rewrite N.add_0_r in H. split; [auto|lia].
  - replace (p + N.succ j) with (p + j + 1) in H by lia.
    destruct (r_order _ R _ _ _ H ltac:(lia)) as (d1 & e1 & H1 & B1).
    destruct (IH p d1 e1 H1 ltac:(lia)) as (d0 & e0 & H0 & B0). exists d0, e0. split; auto. lia.
Qed.

(** ** Where a search stops *)

Definition stopat (A : cells) (h n : N) : Prop :=
  (forall j, j < n -> exists d e, at_ A (h + j) = Some (Some (d, e)) /\ j <= d)
  /\ (at_ A (h + n) = Some None \/ exists d e, at_ A (h + n) = Some (Some (d, e)) /\ d < n).

(** The search that stops at distance [n] has passed every element with this home. *)
Lemma stop_passed A h n p d e : ring A -> stopat A h n -> at_ A p = Some (Some (d, e)) ->
  hm e mod cap = h mod cap -> d < n /\ at_ A (h + d) = Some (Some (d, e)).
Proof.
  intros R [H1 H2] Hp Hh.
  assert (Q : p mod cap = (h + d) mod cap).
  { rewrite <- (r_home _ R _ _ _ Hp). apply mod_shift; [lia|auto]. }
  rewrite (at_cong _ _ _ Q) in Hp. split; auto.
  destruct (N.lt_ge_cases d n) as [|Hge]; auto. exfalso.
  replace (h + d) with (h + n + (d - n)) in Hp by lia.
  destruct (ring_chain _ R (d - n) _ _ _ Hp ltac:(lia)) as (d0 & e0 & H0 & B0).
  destruct H2 as [H2|(d' & e' & H2 & H3)]; rewrite H0 in H2; [discriminate|].
  injection H2 as -> ->. lia.
Qed.

(** With a free cell a search stops before it has seen the whole ring. *)
Lemma stop_lt A h n z : ring A -> stopat A h n -> z < cap -> at_ A z = Some None -> n < cap.
Proof.
  intros R [H1 H2] Hz Ez. destruct (N.lt_ge_cases n cap) as [|Hge]; auto. exfalso.
  set (j := (z + cap - h mod cap) mod cap).
  assert (Hj : j < cap) by (apply N.mod_lt; lia).
  assert (Q : (h + j) mod cap = z mod cap).
  { unfold j. rewrite (N.add_comm h), mod_mod_shift by lia.
    replace (z + cap - h mod cap + h) with (z + (1 + h / cap) * cap).
    - apply mod_up2. lia.
    - pose proof (N.div_mod h cap ltac:(lia)). pose proof (N.mod_lt h cap ltac:(lia)). nia. }
  destruct (H1 j ltac:(lia)) as (d & e & H & _). rewrite (at_cong _ _ _ Q), Ez in H. discriminate.
Qed.

(** ** Putting an element into a cell *)

Definition fits (A : cells) (p r : N) (e : E) : Prop :=
  (hm e + r) mod cap = p mod cap
  /\ (0 < r -> exists d0 e0, at_ A (p + (cap - 1)) = Some (Some (d0, e0)) /\ r <= d0 + 1).

Lemma at_seti A p q x : ring A ->
  at_ (seti A (p mod cap) x) q = if q mod cap =? p mod cap then Some x else at_ A q.
Proof.
  intros R. unfold at_. rewrite geti_seti; [reflexivity|]. rewrite (r_len _ R). apply N.mod_lt. lia.
Qed.

Lemma stop_fits A h n e : ring A -> stopat A h n -> hm e mod cap = h mod cap -> fits A (h + n) n e.
Proof.
  intros R [H1 H2] Hh. split.
  - apply mod_shift; [lia|auto].
  - intros Hn. destruct (H1 (n - 1) ltac:(lia)) as (d & e' & H & B). exists d, e'. split; [|lia].
    rewrite <- H. apply at_cong. replace (h + n + (cap - 1)) with (h + (n - 1) + cap) by lia.
    apply mod_up. lia.
Qed.

Lemma put_ring A p r e : ring A -> fits A p r e ->
  (at_ A p = Some None \/ exists d e', at_ A p = Some (Some (d, e')) /\ d < r) ->
  ring (seti A (p mod cap) (Some (r, e))).
Proof.
  intros R [F1 F2] Hp. assert (Hc : cap <> 0) by lia. split.
  - rewrite seti_len. apply (r_len _ R).
  - intros q d e'. rewrite at_seti by auto. destruct (N.eqb_spec (q mod cap) (p mod cap)) as [Q|Q].
    + intros H. injection H as <- <-. congruence.
    + apply (r_home _ R).
  - intros q d e'. rewrite !at_seti by auto.
    destruct (N.eqb_spec ((q + 1) mod cap) (p mod cap)) as [Q1|Q1].
    + destruct (N.eqb_spec (q mod cap) (p mod cap)) as [Q|Q].
      { rewrite <- Q in Q1. apply mod_near in Q1; [contradiction|lia|lia|lia]. }
      intros H Hd. injection H as <- <-. destruct (F2 Hd) as (d0 & e0 & H0 & B0).
      exists d0, e0. split; auto. rewrite <- H0. apply at_cong.
      apply (mod_cancel cap _ _ 1 Hc). rewrite Q1.
      replace (p + (cap - 1) + 1) with (p + cap) by lia. symmetry. now apply mod_up.
    + destruct (N.eqb_spec (q mod cap) (p mod cap)) as [Q|Q].
      * intros H Hd. exists r, e. split; auto.
        destruct (r_order _ R _ _ _ H Hd) as (d0 & e0 & H0 & B0).
        rewrite (at_cong _ _ _ Q) in H0.
        destruct Hp as [Hp|(d1 & e1 & Hp & Hlt)]; rewrite Hp in H0; [discriminate|].
        injection H0 as -> ->. lia.
      * apply (r_order _ R).
Qed.

(** ** Crowding *)

(** The row of used cells that ends at [p]. *)
Lemma ring_crowd A z : ring A -> at_ A z = Some None ->
  forall n d e, at_ A (z + n) = Some (Some (d, e)) ->
  exists s, z < s /\ s + d <= z + n /\ forall q, s <= q -> q <= z + n ->
    exists d' e', at_ A q = Some (Some (d', e')) /\ s + d' <= q /\ q + d <= z + n + d'.
Proof.
  intros R Hz n. induction n as [|n IH] using N.peano_ind; intros d e H.
  { rewrite N.add_0_r, Hz in H. discriminate. }
  replace (z + N.succ n) with (z + n + 1) in * by lia.
  destruct (N.eq_dec d 0) as [->|Hd].
  - exists (z + n + 1). split; [lia|]. split; [lia|]. intros q Q1 Q2.
    replace q with (z + n + 1) by lia. exists 0, e. split; auto. lia.
  - destruct (r_order _ R _ _ _ H ltac:(lia)) as (d0 & e0 & H0 & B0).
    destruct (IH d0 e0 H0) as (s & S1 & S2 & S3). exists s. split; [auto|]. split; [lia|].
    intros q Q1 Q2. destruct (N.eq_dec q (z + n + 1)) as [->|].
    + exists d, e. split; auto. lia.
    + destruct (S3 q ltac:(lia) ltac:(lia)) as (d' & e' & H' & B1 & B2).
      exists d', e'. split; auto. lia.
Qed.

Lemma ents_perm A A' : Permutation (elems A) (elems A') -> Permutation (ents A) (ents A').
Proof. apply Permutation_map. Qed.

Definition rot (s : N) (A : cells) : cells := skipn (N.to_nat s) A ++ firstn (N.to_nat s) A.

Lemma rot_ents s A : Permutation (ents A) (ents (rot s A)).
Proof.
  apply ents_perm. unfold rot. rewrite elems_app.
  rewrite <- (firstn_skipn (N.to_nat s) A) at 1. rewrite elems_app. apply Permutation_app_comm.
Qed.

Lemma geti_skipn_add {A} (l : list A) s j : geti (skipn (N.to_nat s) l) j = geti l (s + j).
Proof.
  unfold geti. rewrite <- (firstn_skipn (N.to_nat s) l) at 2.
  destruct (Nat.le_gt_cases (N.to_nat s) (length l)) as [H|H].
  - rewrite nth_error_app2 by (rewrite firstn_length; lia). f_equal. rewrite firstn_length. lia.
  - rewrite skipn_all2 by lia. rewrite app_nil_r. rewrite firstn_all2 by lia.
    rewrite (proj2 (nth_error_None l _)) by lia. now destruct (N.to_nat j).
Qed.

Lemma geti_firstn {A} (l : list A) n j : j < n -> geti (firstn (N.to_nat n) l) j = geti l j.
Proof.
  intros H. unfold geti. revert l. assert (HN : (N.to_nat j < N.to_nat n)%nat) by lia. clear H.
  revert HN. generalize (N.to_nat n) (N.to_nat j). intros n' j'. revert j'.
  induction n' as [|n' IH]; intros j' HN l; [lia|]. destruct l, j'; cbn; auto. apply IH. lia.
Qed.

Lemma rot_geti s A j : ring A -> s < cap -> j < cap -> geti (rot s A) j = at_ A (s + j).
Proof.
  intros R Hs Hj. pose proof (r_len _ R) as HL. unfold rot.
  destruct (N.lt_ge_cases (s + j) cap) as [H|H].
  - rewrite geti_app_l by (rewrite skipn_length; lia). rewrite geti_skipn_add. now rewrite at_small.
  - replace j with (N.of_nat (length (skipn (N.to_nat s) A)) + (s + j - cap))
      by (rewrite skipn_length; lia).
    rewrite geti_app_r, geti_firstn by lia.
    rewrite <- at_small by lia. apply at_cong.
    rewrite skipn_length.
    replace (s + (N.of_nat (length A - N.to_nat s) + (s + j - cap))) with (s + j - cap + cap) by lia.
    symmetry. apply mod_up. lia.
Qed.

(** [n] used cells in a row have [n] elements. *)
Lemma ring_count (f : E -> bool) A s n : ring A -> n <= cap ->
  (forall q, s <= q -> q < s + n -> exists d e, at_ A q = Some (Some (d, e)) /\ f e = true) ->
  n <= cnt f (ents A).
Proof.
  intros R Hn H. rewrite (cnt_perm f _ _ (rot_ents (s mod cap) A)).
  assert (Hs : s mod cap < cap) by (apply N.mod_lt; lia).
  assert (G : forall A', cnt f (ents A') = cnt (fun x => f (snd x)) (elems A')).
  { intros A'. unfold ents, cnt. f_equal. induction (elems A') as [|x l IH]; [reflexivity|].
    cbn [map filter]. destruct (f (snd x)); cbn [length]; lia. }
  rewrite G. apply (cnt_range 0 (fun x : N * E => f (snd x)) (rot (s mod cap) A) 0 n).
  - unfold rot. rewrite app_length, skipn_length, firstn_length. pose proof (r_len _ R). lia.
  - intros i _ Hi. rewrite rot_geti by (auto; lia).
    destruct (H (s + i) ltac:(lia) ltac:(lia)) as (d & e & Ha & Hf).
    exists (d, e). split; auto. rewrite <- Ha. apply at_cong. apply mod_mod_shift. lia.
Qed.

Definition inwin (a n : N) (e : E) : bool := (hm e mod cap + cap - a) mod cap <? n.

Definition roomy (B : N) (l : list E) : Prop :=
  forall a n, a < cap -> 1 <= n -> n <= cap -> cnt (inwin a n) l <= n + B.

(** An element that fits is not further from home than the entries are crowded. *)
Lemma fits_bound A p r e B l z : ring A -> fits A p r e -> z < cap -> at_ A z = Some None ->
  Permutation l (e :: ents A) -> roomy B l -> r <= B.
Proof.
  intros R [F1 F2] Hz Ez P HB. assert (Hc : cap <> 0) by lia.
  destruct (N.eq_dec r 0) as [->|Hr]; [lia|].
  destruct (F2 ltac:(lia)) as (d0 & e0 & H0 & B0).
  assert (EM : exists m, m < cap /\ (z + m) mod cap = (p + (cap - 1)) mod cap).
  { exists (((p + (cap - 1)) mod cap + cap - z) mod cap). split; [apply N.mod_lt; lia|].
    rewrite (N.add_comm z), mod_mod_shift by lia.
    replace ((p + (cap - 1)) mod cap + cap - z + z) with ((p + (cap - 1)) mod cap + cap) by lia.
    rewrite mod_up, N.mod_mod by lia. reflexivity. }
  destruct EM as (m & Hm & Qm).
  rewrite <- (at_cong _ _ _ Qm) in H0.
  destruct (ring_crowd A z R Ez m d0 e0 H0) as (s & S1 & S2 & S3).
  assert (EN : exists n, n + r + s = z + m + 2) by (exists (z + m + 2 - r - s); lia).
  destruct EN as (n & En).
  assert (Hn : 1 <= n /\ n <= cap) by lia.
  assert (Hs : s mod cap < cap) by (apply N.mod_lt; lia).
  pose proof (HB (s mod cap) n Hs (proj1 Hn) (proj2 Hn)) as HC.
  rewrite (cnt_perm _ _ _ P) in HC.
  assert (W : forall x y, y < n -> hm x mod cap = (s + y) mod cap -> inwin (s mod cap) n x = true).
  { intros x y Hy Hx. unfold inwin. rewrite (mod_offset cap s y (hm x)); [lia|lia|lia|auto]. }
  assert (HE : inwin (s mod cap) n e = true).
  { apply (W e (n - 1)); [lia|]. apply (mod_cancel cap _ _ r Hc). rewrite F1.
    replace (s + (n - 1) + r) with (z + m + 1) by (clear - En Hn; lia).
    rewrite (mod_shift cap (z + m) (p + (cap - 1)) 1 Hc Qm).
    replace (p + (cap - 1) + 1) with (p + cap) by lia. symmetry. now apply mod_up. }
  assert (HN : z + m + 1 - s <= cnt (inwin (s mod cap) n) (ents A)).
  { apply (ring_count _ A s); auto.
    - lia.
    - intros q Q1 Q2. destruct (S3 q Q1 ltac:(lia)) as (d' & e' & Ha & B1 & B2).
      exists d', e'. split; auto. apply (W e' (q - d' - s)); [clear - En B0 B1 B2 Q1 Q2; lia|].
      apply (mod_cancel cap _ _ d' Hc). rewrite (r_home _ R _ _ _ Ha). f_equal. clear - B1 Q1; lia. }
  unfold cnt in HC, HN. cbn [filter] in HC. rewrite HE in HC. cbn [length] in HC. clear - En HC HN Hn Hm S1 S2; lia.
Qed.

Lemma free_before z p : exists m, m < cap /\ (z + m) mod cap = p mod cap.
Proof.
  assert (Hc : cap <> 0) by lia. exists ((p mod cap + cap - z mod cap) mod cap).
  split; [now apply N.mod_lt|]. pose proof (N.mod_lt z cap Hc).
  rewrite (N.add_comm z), mod_mod_shift by auto. rewrite <- (N.mod_mod p) at 2 by auto.
  rewrite <- (mod_up cap (p mod cap)) by auto.
  replace (p mod cap + cap - z mod cap + z) with (p mod cap + cap - z mod cap + z mod cap + cap * (z / cap)).
  - replace (p mod cap + cap - z mod cap + z mod cap) with (p mod cap + cap) by lia.
    rewrite N.mul_comm. now apply N.mod_add.
  - pose proof (N.div_mod z cap Hc). lia.
Qed.

Lemma fits_lt A p r e z : ring A -> fits A p r e -> at_ A z = Some None -> r < cap.
Proof.
  intros R [_ F] Hz. destruct (N.eq_dec r 0) as [->|Hr]; [lia|].
  destruct (F ltac:(lia)) as (d0 & e0 & H0 & B0).
  destruct (free_before z (p + (cap - 1))) as (m & Hm & Qm).
  rewrite <- (at_cong _ _ _ Qm) in H0.
  destruct (ring_crowd A z R Hz m d0 e0 H0) as (s & S1 & S2 & _). clear - B0 S1 S2 Hm. lia.
Qed.

(** ** Removing an element *)

Record hole (A : cells) (i c0 : N) : Prop := {
  h_len : N.of_nat (length A) = cap;
  h_i : i < cap;
  h_raw : geti A i = Some None;
  h_home : forall p d e, at_ A p = Some (Some (d, e)) -> (hm e + d) mod cap = p mod cap;
  h_order : forall p d e, p mod cap <> i -> at_ A (p + 1) = Some (Some (d, e)) -> 0 < d ->
      exists d0 e0, at_ A p = Some (Some (d0, e0)) /\ d <= d0 + 1;
  h_prev : 0 < c0 -> exists d0 e0, at_ A (i + (cap - 1)) = Some (Some (d0, e0)) /\ c0 <= d0 + 1;
  h_next : forall d e, at_ A (i + 1) = Some (Some (d, e)) -> 0 < d -> d <= c0 + 1
}.

Lemma at_seti_small A i q x : N.of_nat (length A) = cap -> i < cap ->
  at_ (seti A i x) q = if q mod cap =? i then Some x else at_ A q.
Proof.
  intros HL Hi. unfold at_. rewrite geti_seti; [reflexivity|lia].
Qed.

Lemma ring_hole A i d e : ring A -> i < cap -> geti A i = Some (Some (d, e)) ->
  hole (seti A i None) i d.
Proof.
  intros R Hi H. pose proof (r_len _ R) as HL. assert (Hc : cap <> 0) by lia.
  assert (Ha : at_ A i = Some (Some (d, e))) by (now rewrite at_small).
  split.
  - now rewrite seti_len.
  - exact Hi.
  - apply geti_seti_eq. lia.
  - intros p d' e'. rewrite at_seti_small by auto. destruct (p mod cap =? i); [discriminate|].
    apply (r_home _ R).
  - intros p d' e' Hp. rewrite !at_seti_small by auto.
    destruct (N.eqb_spec (p mod cap) i); [contradiction|].
    destruct ((p + 1) mod cap =? i); [discriminate|]. apply (r_order _ R).
  - intros Hd. rewrite at_seti_small by auto.
    destruct (N.eqb_spec ((i + (cap - 1)) mod cap) i) as [Q|Q].
    { exfalso. rewrite <- (N.mod_small i cap Hi) in Q at 2. apply mod_near in Q; lia. }
    assert (H1 : at_ A (i + (cap - 1) + 1) = Some (Some (d, e))).
    { rewrite <- Ha. apply at_cong. replace (i + (cap - 1) + 1) with (i + cap) by lia. now apply mod_up. }
    apply (r_order _ R _ _ _ H1 Hd).
  - intros d' e'. rewrite at_seti_small by auto. destruct ((i + 1) mod cap =? i); [discriminate|].
    intros H1 Hd. destruct (r_order _ R _ _ _ H1 Hd) as (d0 & e0 & H0 & B0).
    rewrite Ha in H0. injection H0 as <- <-. exact B0.
Qed.

Lemma hole_close A i c0 : hole A i c0 ->
  (forall d e, at_ A (i + 1) = Some (Some (d, e)) -> d = 0) -> ring A.
Proof.
  intros X H. pose proof (h_i _ _ _ X) as Hi. split.
  - apply (h_len _ _ _ X).
  - apply (h_home _ _ _ X).
  - intros p d e Hp Hd. destruct (N.eq_dec (p mod cap) i) as [Q|Q].
    + assert (Q1 : (p + 1) mod cap = (i + 1) mod cap).
      { apply mod_shift; [lia|]. rewrite Q. symmetry. now apply N.mod_small. }
      rewrite (at_cong _ _ _ Q1) in Hp. apply H in Hp. lia.
    + apply (h_order _ _ _ X _ _ _ Q Hp Hd).
Qed.

(** The next element moves into the hole; the hole is in front of the last cell. *)
Lemma hole_move A i c0 d e : hole A i c0 -> i + 1 < cap ->
  geti A (i + 1) = Some (Some (d, e)) -> 0 < d ->
  hole (seti (seti A i (Some (d - 1, e))) (i + 1) None) (i + 1) d.
Proof.
  intros X Hi1 H Hd. pose proof (h_len _ _ _ X) as HL. pose proof (h_i _ _ _ X) as Hi.
  assert (Hc : cap <> 0) by lia.
  assert (Ha : at_ A (i + 1) = Some (Some (d, e))) by (rewrite at_small; auto).
  pose proof (h_next _ _ _ X _ _ Ha Hd) as Hn.
  assert (G : forall q, at_ (seti (seti A i (Some (d - 1, e))) (i + 1) None) q =
    if q mod cap =? i + 1 then Some None else if q mod cap =? i then Some (Some (d - 1, e)) else at_ A q).
  { intros q. rewrite at_seti_small by (rewrite ?seti_len; auto).
    destruct (q mod cap =? i + 1); auto. now rewrite at_seti_small by auto. }
  assert (M : forall p j, p mod cap = j -> (p + 1) mod cap = (j + 1) mod cap).
  { intros p j Q. apply mod_shift; [auto|]. subst j. symmetry. now apply N.mod_mod. }
  split.
  - now rewrite !seti_len.
  - exact Hi1.
  - apply geti_seti_eq. rewrite seti_len. lia.
  - intros p d' e'. rewrite G. destruct (N.eqb_spec (p mod cap) (i + 1)); [discriminate|].
    destruct (N.eqb_spec (p mod cap) i) as [Q|Q].
    + intros E1. injection E1 as <- <-. pose proof (h_home _ _ _ X _ _ _ Ha) as Hh.
      apply (mod_cancel cap _ _ 1 Hc). replace (hm e + (d - 1) + 1) with (hm e + d) by lia.
      rewrite Hh. symmetry. rewrite (M _ _ Q). reflexivity.
    + apply (h_home _ _ _ X).
  - intros p d' e' Hp. rewrite !G. destruct (N.eqb_spec (p mod cap) (i + 1)); [contradiction|].
    destruct (N.eqb_spec ((p + 1) mod cap) (i + 1)) as [Q1|Q1]; [discriminate|].
    destruct (N.eqb_spec (p mod cap) i) as [Q|Q].
    { rewrite (M _ _ Q), N.mod_small in Q1 by lia. contradiction. }
    destruct (N.eqb_spec ((p + 1) mod cap) i) as [Q2|Q2].
    + intros E1 Hd'. injection E1 as <- <-.
      destruct (h_prev _ _ _ X ltac:(lia)) as (d0 & e0 & H0 & B0). exists d0, e0. split; [|lia].
      rewrite <- H0. apply at_cong. apply (mod_cancel cap _ _ 1 Hc). rewrite Q2.
      replace (i + (cap - 1) + 1) with (i + cap) by lia. rewrite mod_up by auto.
      symmetry. now apply N.mod_small.
    + apply (h_order _ _ _ X). auto.
  - intros _. rewrite G. exists (d - 1), e.
    assert (Q : (i + 1 + (cap - 1)) mod cap = i).
    { replace (i + 1 + (cap - 1)) with (i + cap) by lia. rewrite mod_up by auto. now apply N.mod_small. }
    rewrite Q. destruct (N.eqb_spec i (i + 1)); [lia|]. rewrite N.eqb_refl. split; auto. lia.
  - intros d' e'. rewrite G. destruct (N.eqb_spec ((i + 1 + 1) mod cap) (i + 1)) as [Q|Q]; [discriminate|].
    destruct (N.eqb_spec ((i + 1 + 1) mod cap) i) as [Q2|Q2].
    + intros E1 Hd'. injection E1 as <- <-. lia.
    + intros E1 Hd'.
      destruct (h_order _ _ _ X (i + 1) d' e') as (d0 & e0 & H0 & B0); auto.
      * rewrite N.mod_small by lia. lia.
      * rewrite Ha in H0. injection H0 as <- <-. exact B0.
Qed.

End Ring.
