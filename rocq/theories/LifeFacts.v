(** The lifetimes of LifeModel.v: displacement. *)
From Coq Require Import NArith ZArith List Bool Lia Permutation.
From Coq Require Import ZifyBool ZifyNat ZifyN.
From Verif Require Import Base BaseFacts BitsModel BitsFacts GroupModel TableModel TableInv
  MapSpec MapFacts FallbackFacts ReachModel RobinModel RobinSpec RobinFacts LifeModel.
Import ListNotations.
Open Scope N_scope.

Lemma geti_map {A B} (f : A -> B) l i : geti (map f l) i = option_map f (geti l i).
Proof. unfold geti. apply nth_error_map. Qed.

Lemma map_seti {A B} (f : A -> B) l i x : map f (seti l i x) = seti (map f l) i (f x).
Proof.
  apply geti_ext. intros j. rewrite geti_map.
  destruct (N.lt_ge_cases i (N.of_nat (length l))) as [Hi|Hi].
  - rewrite !geti_seti by (rewrite ?map_length; auto). destruct (j =? i); [reflexivity|]. now rewrite geti_map.
  - destruct (N.eq_dec j i) as [->|Hne].
    + rewrite !geti_ge; rewrite ?seti_length, ?map_length; auto.
    + rewrite !geti_seti_neq by auto. now rewrite geti_map.
Qed.

Section Facts.

Context {K V : Type}.

Notation cell := (cell K V).
Notation mem := (mem K V).
Notation cellm := (map (cell_of K V)).

Lemma slots_of_cells S : slots_of K V (cellm S) = Ok S.
Proof.
  induction S as [|[kv|] S IH]; cbn [map cell_of slots_of]; [reflexivity| |]; rewrite IH; reflexivity.
Qed.

(** The two situations of the loop: the element to be placed is still in the slot
    [ins], or it is in the local variable and the slot is free. *)
Definition held (ins : N) (S : list (option (K * V))) (car : K * V) (m : mem) (insert empty : ptr)
  : Prop :=
  ins < N.of_nat (length S) /\
  ((insert = PSlot ins /\ empty = PBuf
    /\ m = mkM K V (seti (cellm S) ins (Obj K V (Some car))) (Raw K V))
   \/ (insert = PBuf /\ empty = PSlot ins
    /\ m = mkM K V (seti (cellm S) ins (Raw K V)) (Obj K V (Some car)))).

Definition in_place (tr : traits) : bool := tr_plain tr || tr_swap tr || tr_small tr.

Ltac setis :=
  f_equal; apply geti_ext; intros j;
  rewrite !geti_seti by (rewrite ?seti_len, ?map_length; auto);
  repeat match goal with |- context [j =? ?a] => destruct (N.eqb_spec j a) end; subst; congruence.

Lemma displace_ok tr ins i S car m insert empty kv :
  held ins S car m insert empty -> ins <> i -> geti S i = Some (Some kv) ->
  exists m' insert' empty', l_displace K V tr i insert empty m = Ok (m', insert', empty')
    /\ held ins (seti S i (Some car)) kv m' insert' empty'
    /\ (in_place tr = true -> insert' = insert).
Proof.
  intros [Hi H] Hne E. pose proof (geti_Some_lt _ _ _ E) as Hl.
  assert (EC : geti (cellm S) i = Some (Obj K V (Some kv))) by (rewrite geti_map, E; reflexivity).
  assert (NE1 : (i =? ins) = false) by lia. assert (NE2 : (ins =? i) = false) by lia.
  unfold held. rewrite seti_len, map_seti. cbn [cell_of].
  unfold in_place.
  destruct tr as [pl sw sm tv asg]. unfold l_displace, swap_spare, exchange, transfer, move_construct, destroy, swap_objects.
  cbn [tr_plain tr_swap tr_small tr_trivial tr_assign].
  destruct H as [(-> & -> & ->)|(-> & -> & ->)];
  (destruct pl; [|destruct (sw || sm) eqn:ESW]); destruct tv;
    repeat (cbn [rbind ptr_eq load store m_slots m_buf];
      rewrite ?geti_seti by (rewrite ?seti_len, ?map_length; auto);
      rewrite ?EC, ?NE1, ?NE2, ?N.eqb_refl);
    (do 3 eexists; split; [reflexivity|]; split; [split; [auto|]|]);
    try (left; repeat (split; [reflexivity|]); setis);
    try (right; repeat (split; [reflexivity|]); setis);
    intros; try reflexivity; try (cbn [orb] in *; congruence).
Qed.

Lemma transfer_out tr ins i S car m insert empty :
  held ins S car m insert empty -> ins <> i -> geti S i = Some None ->
  transfer K V tr (PSlot i) insert m = Ok (mkM K V (cellm (seti (seti S i (Some car)) ins None)) (Raw K V)).
Proof.
  intros [Hi H] Hne E. pose proof (geti_Some_lt _ _ _ E) as Hl.
  assert (EC : geti (cellm S) i = Some (Raw K V)) by (rewrite geti_map, E; reflexivity).
  assert (NE1 : (i =? ins) = false) by lia. assert (NE2 : (ins =? i) = false) by lia.
  rewrite !map_seti. cbn [cell_of]. unfold transfer, move_construct, destroy.
  destruct H as [(-> & -> & ->)|(-> & -> & ->)]; destruct (tr_trivial tr);
    repeat (cbn [rbind ptr_eq load store m_slots m_buf];
      rewrite ?geti_seti by (rewrite ?seti_len, ?map_length; auto);
      rewrite ?EC, ?NE1, ?NE2, ?N.eqb_refl);
    f_equal; setis.
Qed.

(** The transfer of the last element to the slot [ins], when no place was found. *)
Lemma transfer_back tr ins S car m insert empty :
  held ins S car m insert empty ->
  transfer K V tr (PSlot ins) insert m =
    if negb (tr_trivial tr) && (match insert with PSlot _ => true | PBuf => false end) then Err EUndef
    else Ok (mkM K V (cellm (seti S ins (Some car))) (Raw K V)).
Proof.
  intros [Hi H]. rewrite !map_seti. cbn [cell_of]. unfold transfer, move_construct, destroy.
  destruct H as [(-> & -> & ->)|(-> & -> & ->)]; destruct (tr_trivial tr);
    repeat (cbn [rbind ptr_eq load store m_slots m_buf negb andb];
      rewrite ?geti_seti by (rewrite ?seti_len, ?map_length; auto);
      rewrite ?N.eqb_refl);
    rewrite ?seti_seti; reflexivity.
Qed.

Lemma place_sim tr rehashing maxd last ins : owns_spare tr = false ->
  forall fuel ctrls S i rich car m insert empty C' S' ok,
  held ins S car m insert empty -> ins < i ->
  r_place K V fuel rehashing maxd last ins ctrls S i rich car = Ok (C', S', ok) ->
  let r := l_place K V fuel tr rehashing maxd last ins ctrls m i rich insert empty in
  (ok = true \/ tr_trivial tr = true -> r = Ok (C', mkM K V (cellm S') (Raw K V), ok))
  /\ (ok = false -> tr_trivial tr = false -> in_place tr = true -> insert = PSlot ins -> r = Err EUndef).
Proof.
  intros HO. induction fuel as [|fuel IH]; intros ctrls S i rich car m insert empty C' S' ok H Hi E;
    cbn [r_place l_place] in *; [discriminate|]. cbv zeta.
  assert (Hi1 : ins < i + 1) by lia.
  assert (BACK : forall C1 C2 S1 S2 car1 m1 insert1 empty1 ok2, held ins S1 car1 m1 insert1 empty1 ->
     Ok (C1, seti S1 ins (Some car1), false) = Ok (C2, S2, ok2) ->
     let r := rbind (transfer K V tr (PSlot ins) insert1 m1) (l_leave K V tr C1 false empty1) in
     (ok2 = true \/ tr_trivial tr = true -> r = Ok (C2, mkM K V (cellm S2) (Raw K V), ok2))
     /\ (ok2 = false -> tr_trivial tr = false -> in_place tr = true -> insert1 = PSlot ins -> r = Err EUndef)).
  { intros C1 C2 S1 S2 car1 m1 insert1 empty1 ok2 H1 E1. cbv zeta. injection E1 as <- <- <-.
    rewrite (transfer_back tr _ _ _ _ _ _ H1). split.
    - intros [?|ET]; [discriminate|]. rewrite ET. cbn [negb andb rbind]. unfold l_leave. rewrite HO. reflexivity.
    - intros _ -> _ ->. reflexivity. }
  destruct (i <? last).
  2:{ now apply (BACK _ _ S _ car m insert empty _ H). }
  destruct (geti ctrls i) as [c|]; [|discriminate].
  destruct (c =? cEmpty).
  { destruct (geti S i) as [[?|]|] eqn:ES; try discriminate. injection E as <- <- <-.
    rewrite (transfer_out tr ins i S car m insert empty H ltac:(lia) ES). cbn [rbind].
    unfold l_leave. rewrite HO. cbn [rbind]. split; [auto|discriminate]. }
  destruct (s8 c <? s8 rich)%Z.
  - destruct (geti S i) as [[kv|]|] eqn:ES; try discriminate.
    destruct (displace_ok tr ins i S car m insert empty kv H ltac:(lia) ES)
      as (m' & insert' & empty' & R1 & R2 & R3).
    rewrite R1. cbn [rbind].
    destruct (negb rehashing && (maxd <=? inc8 c)).
    + destruct (BACK _ _ _ _ _ _ _ _ _ R2 E) as [B1 B2]. split; auto.
      intros G1 G2 G3 G4. apply B2; auto. rewrite R3; auto.
    + destruct (IH _ _ _ _ _ _ _ _ _ _ _ R2 Hi1 E) as [B1 B2]. split; auto.
      intros G1 G2 G3 G4. apply B2; auto. rewrite R3; auto.
  - destruct (negb rehashing && (maxd <=? inc8 rich)).
    + exact (BACK _ _ _ _ _ _ _ _ _ H E).
    + exact (IH _ _ _ _ _ _ _ _ _ _ _ H Hi1 E).
Qed.

Lemma insert_to_place_sim tr rehashing t ins d C S ok : owns_spare tr = false ->
  r_insert_to_place K V rehashing t ins d = Ok (C, S, ok) ->
  (ok = true \/ tr_trivial tr = true -> l_insert_to_place K V tr rehashing t ins d = Ok (C, S, ok))
  /\ (ok = false -> tr_trivial tr = false -> in_place tr = true ->
      l_insert_to_place K V tr rehashing t ins d = Err EUndef).
Proof.
  intros HO. unfold r_insert_to_place, l_insert_to_place. rewrite HO.
  destruct (r_last K V t) as [|last|]; try discriminate.
  destruct (geti (r_ctrls K V t) ins) as [c|]; [|discriminate].
  destruct (geti (r_slots K V t) ins) as [[kv|]|] eqn:E; try discriminate. intros EP.
  assert (H0 : held ins (r_slots K V t) kv (mkM K V (cellm (r_slots K V t)) (Raw K V)) (PSlot ins) PBuf).
  { split; [eapply geti_Some_lt; eauto|]. left. split; [auto|]. split; [auto|]. f_equal. symmetry.
    apply seti_same. rewrite geti_map, E. reflexivity. }
  assert (Hi1 : ins < ins + 1) by lia.
  destruct (place_sim tr rehashing (r_max_distance K V t) last ins HO _ _ _ _ _ _ _ _ _ _ _ _ H0 Hi1 EP) as [A B].
  split; intros.
  - rewrite A by auto. cbn [rbind m_buf m_slots]. rewrite slots_of_cells. reflexivity.
  - rewrite B; auto.
Qed.

Lemma place_rehash fuel maxd last ins : forall ctrls S i rich car C' S',
  r_place K V fuel false maxd last ins ctrls S i rich car = Ok (C', S', true) ->
  r_place K V fuel true maxd last ins ctrls S i rich car = Ok (C', S', true).
Proof.
  induction fuel as [|fuel IH]; intros ctrls S i rich car C' S' E; cbn [r_place] in *; [discriminate|].
  destruct (i <? last); [|discriminate]. destruct (geti ctrls i) as [c|]; [|discriminate].
  destruct (c =? cEmpty); [exact E|]. cbn [negb andb] in *.
  destruct (s8 c <? s8 rich)%Z.
  - destruct (geti S i) as [[kv|]|]; try discriminate.
    destruct (maxd <=? inc8 c); [discriminate|]. now apply IH.
  - destruct (maxd <=? inc8 rich); [discriminate|]. now apply IH.
Qed.

Lemma insert_at_sim tr rehashing t i si d kv t' : owns_spare tr = false ->
  r_insert_at K V false t i si d kv = Ok (t', true) ->
  l_insert_at K V tr rehashing t i si d kv = Ok (t', true)
  /\ r_insert_at K V rehashing t i si d kv = Ok (t', true).
Proof.
  intros HO. unfold r_insert_at, l_insert_at.
  destruct (r_alloc K V t); [|discriminate].
  destruct (geti (r_ctrls K V t) i) as [c|] eqn:EC; [|discriminate].
  destruct (c =? cEmpty); [auto|]. destruct (i =? si); [|discriminate].
  destruct (r_insert_to_place K V false t i d) as [[[C S] ok]|] eqn:E; cbn [rbind]; [|discriminate].
  destruct ok; cbn [orb]; [|discriminate]. intros E1.
  assert (E' : r_insert_to_place K V rehashing t i d = Ok (C, S, true)).
  { destruct rehashing; auto. unfold r_insert_to_place in *.
    destruct (r_last K V t); try discriminate. destruct (geti (r_ctrls K V t) i); [|discriminate].
    destruct (geti (r_slots K V t) i) as [[?|]|]; try discriminate. now apply place_rehash. }
  destruct (insert_to_place_sim tr rehashing t i d C S true HO E') as [A _].
  rewrite A, E' by auto. cbn [rbind orb]. auto.
Qed.

(** Destruction of everything. *)
Lemma destroy_used_spec ctrls is : forall (m : mem), NoDup is ->
  (forall i, In i is -> exists c, geti ctrls i = Some c
     /\ (c < 128 -> exists e, geti (m_slots _ _ m) i = Some (Obj K V e))) ->
  exists m', l_destroy_used K V ctrls is m = Ok m' /\ m_buf _ _ m' = m_buf _ _ m
    /\ (forall j, geti (m_slots _ _ m') j = Some (Raw K V) \/ geti (m_slots _ _ m') j = geti (m_slots _ _ m) j)
    /\ (forall j c, In j is -> geti ctrls j = Some c -> c < 128 -> geti (m_slots _ _ m') j = Some (Raw K V)).
Proof.
  induction is as [|i is IH]; intros m ND H; cbn [l_destroy_used].
  { exists m. split; [reflexivity|]. split; [reflexivity|]. split; [auto|]. intros j c []. }
  inversion ND as [|? ? Hni ND']; subst.
  destruct (H i) as (c & Hc & HU); [now left|]. rewrite Hc.
  destruct (N.ltb_spec c 128) as [Hu|Hu].
  - destruct (HU Hu) as [e He]. unfold destroy. cbn [load]. rewrite He. cbn [rbind store].
    pose proof (geti_Some_lt _ _ _ He) as Hl.
    destruct (IH (mkM K V (seti (m_slots _ _ m) i (Raw K V)) (m_buf _ _ m)) ND') as (m' & A & B & D & F).
    { intros j Hj. destruct (H j) as (cj & Hcj & HUj); [now right|]. exists cj. split; auto. intros Hlt.
      destruct (HUj Hlt) as [ej Hej]. exists ej. cbn [m_slots]. rewrite geti_seti_neq; auto.
      intros ->. auto. }
    cbn [m_slots m_buf] in *. exists m'. split; [exact A|]. split; [exact B|]. split.
    + intros j. destruct (D j) as [G|G]; auto. rewrite geti_seti in G by auto.
      destruct (N.eqb_spec j i) as [E|E]; auto.
    + intros j cj [<-|Hj] Hcj Hlt; [|eauto]. destruct (D i) as [G|G]; auto.
      rewrite G. now apply geti_seti_eq.
  - destruct (IH m ND') as (m' & A & B & D & F).
    { intros j Hj. apply H. now right. }
    exists m'. split; [exact A|]. split; [exact B|]. split; [exact D|].
    intros j cj [<-|Hj] Hcj Hlt; [|eauto]. rewrite Hc in Hcj. injection Hcj as <-. lia.
Qed.

Lemma all_raw_spec (l : list cell) : (forall i c, geti l i = Some c -> c = Raw K V) -> all_raw K V l = true.
Proof.
  intros H. unfold all_raw. apply forallb_forall. intros c Hc. apply In_nth_error in Hc. destruct Hc as [n Hn].
  rewrite (H (N.of_nat n) c); auto. unfold geti. now rewrite Nat2N.id.
Qed.

End Facts.
