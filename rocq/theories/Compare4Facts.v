(** What a search of a robin16 map compares: the entries with the control byte of the key in
    a row of slots, in order. *)
From Coq Require Import NArith List Bool Lia Permutation ZifyBool ZifyNat ZifyN.
From Verif Require Import Base BaseFacts BitsModel GroupModel TableModel TableInv MapSpec MapFacts Flat16Spec
  Robin16Model Robin16Spec Robin16Ring Robin16Scan Robin16Facts Robin16Moves Robin16Ops Robin16Refine
  CompareModel CompareSpec Compare2Model Compare4Model.
Import ListNotations.
Open Scope N_scope.

Section Line.

Context {K V : Type} (cmp : comparison K) (k : K).

(** Comparing one entry after another. *)
Fixpoint line (l : list (N * (K * V))) (seen : list K) : list K * answer N :=
  match l with
  | [] => (seen, Absent)
  | (i, kv) :: l' =>
      match cmp seen k (fst kv) with
      | None => (fst kv :: seen, Thrown)
      | Some true => (fst kv :: seen, Found i)
      | Some false => line l' (fst kv :: seen)
      end
  end.

Lemma line_app l1 l2 : forall seen, line (l1 ++ l2) seen =
  match line l1 seen with
  | (seen', Absent) => line l2 seen'
  | r => r
  end.
Proof.
  induction l1 as [|[i kv] l1 IH]; intros seen; cbn [app line]; auto.
  destruct (cmp seen k (fst kv)) as [[|]|]; auto.
Qed.

(** The entries compared are the first ones of the line. *)
Lemma line_seen l : forall seen, exists l1 l2, l = l1 ++ l2
  /\ fst (line l seen) = rev (map (fun x => fst (snd x)) l1) ++ seen
  /\ match snd (line l seen) with
     | Absent => l2 = [] /\ Forall (fun x => said false cmp k (fst (snd x))) l
     | Found i => exists kv, In (i, kv) l1 /\ said true cmp k (fst kv)
     | Thrown => exists i kv s, In (i, kv) l1 /\ cmp s k (fst kv) = None
     end.
Proof.
  induction l as [|[i kv] l IH]; intros seen; cbn [line].
  { exists [], []. cbn. auto. }
  destruct (cmp seen k (fst kv)) as [[|]|] eqn:E.
  - exists [(i, kv)], l. split; [reflexivity|]. split; [reflexivity|]. cbn [snd].
    exists kv. split; [now left|]. now exists seen.
  - destruct (IH (fst kv :: seen)) as (l1 & l2 & E1 & E2 & E3). exists ((i, kv) :: l1), l2.
    split; [now rewrite E1|]. split.
    + rewrite E2. cbn [map rev fst snd]. now rewrite <- app_assoc.
    + destruct (snd (line l (fst kv :: seen))).
      * destruct E3 as (kv' & H1 & H2). exists kv'. split; auto. now right.
      * destruct E3 as [H1 H2]. split; auto. constructor; auto. now exists seen.
      * destruct E3 as (i' & kv' & s & H1 & H2). exists i', kv', s. split; auto. now right.
  - exists [(i, kv)], l. split; [reflexivity|]. split; [reflexivity|]. cbn [snd].
    exists i, kv, seen. split; [now left|auto].
Qed.

End Line.

Section Facts.

Context {K V : Type} (hash : K -> N) (wide trivial : bool) (H64 : forall k, hash k < two64).

Notation never := (fun _ _ : K => false).
Notation qmap := (qmap K V).
Notation cells := (list (option (N * (K * V)))).
Notation tag k := (q_tag K hash k).
Notation hq := (@hq K V hash).
Notation good := (good hash never trivial).

Lemma q_never_tame : tame hash never.
Proof. split; auto; discriminate. Qed.

Lemma q_distinct_never (l : list (K * V)) : distinct_keys K V never l.
Proof. induction l; cbn [distinct_keys]; auto. split; auto. now apply has_false. Qed.

(** ** The line of a search *)

Fixpoint singles_l (todo : nat) (t : qmap) (tag i d : N)
  : res (list (N * (K * V)) * (qscan + N * N)) :=
  match todo with
  | O => Ok ([], inr (i, d))
  | S todo' =>
      match geti (q_ctrls _ _ t) i with
      | None => Err EUndef
      | Some c =>
          if holds d c then
            if snd c =? tag then
              rbind (q_read K V (q_slots _ _ t) i) (fun kv =>
              rbind (singles_l todo' t tag (q_succ K V t i) (d + 1)) (fun '(l, r) => Ok ((i, kv) :: l, r)))
            else singles_l todo' t tag (q_succ K V t i) (d + 1)
          else Ok ([], inl (QStop i d))
      end
  end.

Fixpoint match_l (t : qmap) (start : N) (ps : list N) : res (list (N * (K * V))) :=
  match ps with
  | [] => Ok []
  | p :: ps' =>
      let i := q_round K V t (wadd start (bit_pos wide p)) in
      rbind (q_read K V (q_slots _ _ t) i) (fun kv =>
      rbind (match_l t start ps') (fun l => Ok ((i, kv) :: l)))
  end.

Fixpoint groups_l (fuel : nat) (t : qmap) (tag home i d : N) : res (list (N * (K * V)) * qscan) :=
  match fuel with
  | O => Err ELoop
  | S fuel' =>
      rbind (q_group (q_ctrls _ _ t) i) (fun g =>
      rbind (match_l t i (positions (word_mask wide (hash_lanes g tag d)))) (fun l =>
      let m := word_mask wide (stop_lanes g d) in
      if negb (m =? 0) then
        let j := wadd i (bit_pos wide (bsf m)) in
        Ok (l, QStop (q_round K V t j) (q_dist K V t j home))
      else
        let i' := q_next K V t i in
        if i' =? home then Ok (l, QFull)
        else rbind (groups_l fuel' t tag home i' (u8 (d + qGroupWidth))) (fun '(l', s) => Ok (l ++ l', s))))
  end.

Definition search_l (singles : nat) (t : qmap) (k : K) : res (list (N * (K * V)) * qscan) :=
  rbind (singles_l singles t (tag k) (q_home K V hash t k) 0) (fun '(l, r) =>
  match r with
  | inl s => Ok (l, s)
  | inr (i, d) =>
      rbind (groups_l (q_fuel K V t) t (tag k) (q_home K V hash t k) i d) (fun '(l', s) => Ok (l ++ l', s))
  end).

Definition ended (s : qscan) (r : list K * answer N) : list K * qscan_c :=
  (fst r, match snd r with Found i => QScanned (QHit i) | Thrown => QThrown | Absent => QScanned s end).

Lemma match_line cmp (t : qmap) k start ps : forall l seen, match_l t start ps = Ok l ->
  q_match_c K V cmp wide t k start ps seen = Ok (line cmp k l seen).
Proof.
  induction ps as [|p ps IH]; cbn [match_l q_match_c]; intros l seen H.
  { injection H as <-. reflexivity. }
  destruct (q_read K V (q_slots K V t) _) as [kv|]; cbn [rbind] in *; [|discriminate].
  destruct (match_l t start ps) as [l'|]; cbn [rbind] in *; [|discriminate].
  injection H as <-. cbn [line]. destruct (cmp seen k (fst kv)) as [[|]|]; auto.
Qed.

Lemma singles_line cmp (t : qmap) k tg todo : forall i d l r seen, singles_l todo t tg i d = Ok (l, r) ->
  q_singles_c K V cmp todo t k tg i d seen = Ok (fst (line cmp k l seen),
    match snd (line cmp k l seen) with
    | Found i => inl (QScanned (QHit i))
    | Thrown => inl QThrown
    | Absent => match r with inl s => inl (QScanned s) | inr x => inr x end
    end).
Proof.
  induction todo as [|todo IH]; cbn [singles_l q_singles_c]; intros i d l r seen H.
  { injection H as <- <-. reflexivity. }
  destruct (geti (q_ctrls K V t) i) as [c|]; [|discriminate].
  destruct (holds d c); [|injection H as <- <-; reflexivity].
  destruct (snd c =? tg); [|eauto].
  destruct (q_read K V (q_slots K V t) i) as [kv|]; cbn [rbind] in *; [|discriminate].
  destruct (singles_l todo t tg _ _) as [[l' r']|] eqn:E; cbn [rbind] in *; [|discriminate].
  injection H as <- <-. cbn [line]. destruct (cmp seen k (fst kv)) as [[|]|]; auto.
Qed.

Lemma groups_line cmp (t : qmap) k tg home fuel : forall i d l s seen, groups_l fuel t tg home i d = Ok (l, s) ->
  q_groups_c K V cmp wide fuel t k tg home i d seen = Ok (ended s (line cmp k l seen)).
Proof.
  induction fuel as [|fuel IH]; cbn [groups_l q_groups_c]; intros i d l s seen H; [discriminate|].
  destruct (q_group (q_ctrls K V t) i) as [g|]; cbn [rbind] in *; [|discriminate].
  destruct (match_l t i _) as [l1|] eqn:E1; cbn [rbind] in *; [|discriminate].
  rewrite (match_line cmp t k _ _ _ seen E1). cbn [rbind].
  destruct (line cmp k l1 seen) as [seen' r] eqn:EL.
  destruct (negb (word_mask wide (stop_lanes g d) =? 0)).
  { injection H as <- <-. rewrite EL. unfold ended. cbn [fst snd]. destruct r; reflexivity. }
  destruct (q_next K V t i =? home).
  { injection H as <- <-. rewrite EL. unfold ended. cbn [fst snd]. destruct r; reflexivity. }
  destruct (groups_l fuel t tg home _ _) as [[l2 s2]|] eqn:E2; cbn [rbind] in *; [|discriminate].
  injection H as <- <-. rewrite line_app, EL.
  destruct r; [reflexivity| |reflexivity]. now apply IH.
Qed.

(** A search compares the entries of its line until the answer is yes. *)
Lemma search_line cmp singles (t : qmap) k l s seen : search_l singles t k = Ok (l, s) ->
  q_search_c K V hash cmp wide singles t k seen = Ok (ended s (line cmp k l seen)).
Proof.
  unfold search_l, q_search_c.
  destruct (singles_l singles t (tag k) _ 0) as [[l1 r1]|] eqn:E1; cbn [rbind]; [|discriminate].
  rewrite (singles_line cmp t k _ _ _ _ _ _ seen E1). cbn [rbind].
  destruct r1 as [s1|[i d]].
  { intros H. injection H as <- <-. unfold ended. destruct (line cmp k l1 seen) as [seen' [| |]]; reflexivity. }
  destruct (groups_l _ t (tag k) _ i d) as [[l2 s2]|] eqn:E2; cbn [rbind]; [|discriminate].
  intros H. injection H as <- <-. rewrite line_app.
  destruct (line cmp k l1 seen) as [seen' [| |]] eqn:EL; cbn [fst snd]; [reflexivity| |reflexivity].
  now apply groups_line.
Qed.

(** ** The line is a row of cells *)

Lemma match_never (t : qmap) k start ps r : q_match K V never wide t k start ps = Ok r ->
  r = None /\ exists l, match_l t start ps = Ok l.
Proof.
  revert r. induction ps as [|p ps IH]; cbn [q_match match_l]; intros r H.
  { injection H as <-. eauto. }
  destruct (q_read K V (q_slots K V t) _) as [kv|]; cbn [rbind] in *; [|discriminate].
  destruct (IH _ H) as (-> & l & E). rewrite E. cbn [rbind]. eauto.
Qed.

Lemma match_value (t : qmap) start ps l : match_l t start ps = Ok l ->
  l = flat_map (fun p => match q_read K V (q_slots _ _ t) (q_round K V t (wadd start (bit_pos wide p))) with
                         | Ok kv => [(q_round K V t (wadd start (bit_pos wide p)), kv)]
                         | Err _ => []
                         end) ps.
Proof.
  revert l. induction ps as [|p ps IH]; cbn [flat_map match_l]; intros l H.
  { now injection H as <-. }
  destruct (q_read K V (q_slots K V t) _) as [kv|]; cbn [rbind] in *; [|discriminate].
  destruct (match_l t start ps) as [l'|]; cbn [rbind] in *; [|discriminate].
  injection H as <-. cbn [app]. f_equal. now apply IH.
Qed.

Lemma flat_map_map {X Y Z} (f : Y -> list Z) (g : X -> Y) l : flat_map f (map g l) = flat_map (fun x => f (g x)) l.
Proof. induction l; cbn [map flat_map]; congruence. Qed.

Lemma flat_map_filter {X Y} (p : X -> bool) (f : X -> list Y) l :
  flat_map f (filter p l) = flat_map (fun x => if p x then f x else []) l.
Proof. induction l as [|x l IH]; cbn [filter flat_map]; auto. destruct (p x); cbn [flat_map app]; congruence. Qed.

Lemma flat_map_ext_in {X Y} (f g : X -> list Y) l : (forall x, In x l -> f x = g x) -> flat_map f l = flat_map g l.
Proof. induction l as [|x l IH]; intros H; cbn [flat_map]; auto. rewrite (H x), IH; auto; [intros; apply H|]; cbn; auto. Qed.

Lemma seqN_split a c : a <= c -> seqN c = seqN a ++ map (fun i => a + i) (seqN (c - a)).
Proof.
  intros H. unfold seqN. rewrite map_map.
  replace (N.to_nat c) with (N.to_nat a + N.to_nat (c - a))%nat by lia.
  rewrite seq_app, map_app. f_equal. rewrite PeanoNat.Nat.add_0_l.
  rewrite <- (PeanoNat.Nat.add_0_r (N.to_nat a)) at 1. generalize 0%nat. generalize (N.to_nat (c - a)). intros n.
  induction n as [|n IH]; intros s; cbn [seq map]; auto. f_equal; [lia|].
  rewrite <- IH. f_equal. f_equal. lia.
Qed.

Section Row.

Variable b : N.
Hypothesis Hb2 : 2 <= b.
Hypothesis Hb50 : b <= 50.
Notation cap := (2 ^ b).

Variable t : qmap.
Variable A : cells.
Hypothesis HG : geo b t.
Hypothesis HW : words hash b (q_ctrls _ _ t) A.
Hypothesis HS : slots trivial b (q_slots _ _ t) A.
Hypothesis HR : ring hq cap A.
Hypothesis HL : low b A.
Variable k : K.
Hypothesis Hseen : 16 <= cap \/ tag k <> 0.
Notation h := (hash k mod cap).
Variable nf : N.
Hypothesis Hst : stopat cap A h nf.
Hypothesis Hnf : nf <= 129 /\ nf <= cap.

(** The entry in the cell at distance [j], if it has the control byte of [k]. *)
Definition cell (j : N) : list (N * (K * V)) :=
  match at_ cap A (h + j) with
  | Some (Some (_, e)) => if tag (fst e) =? tag k then [((h + j) mod cap, e)] else []
  | _ => []
  end.

Definition seg (a c : N) : list (N * (K * V)) := flat_map (fun i => cell (a + i)) (seqN (c - a)).

Lemma seg_nil a : seg a a = [].
Proof. unfold seg. now rewrite N.sub_diag. Qed.

Lemma seg_app a c d : a <= c -> c <= d -> seg a d = seg a c ++ seg c d.
Proof.
  intros H1 H2. unfold seg. rewrite (seqN_split (c - a) (d - a)) by lia.
  rewrite flat_map_app, flat_map_map. f_equal. replace (d - a - (c - a)) with (d - c) by lia.
  apply flat_map_ext_in. intros i _. f_equal. lia.
Qed.

Lemma seg_one a : seg a (a + 1) = cell a.
Proof.
  unfold seg. replace (a + 1 - a) with 1 by lia. change (seqN 1) with [0]. cbn [flat_map].
  now rewrite app_nil_r, N.add_0_r.
Qed.

Lemma beyond m d e : nf <= m -> at_ cap A (h + m) = Some (Some (d, e)) -> d < m.
Proof.
  intros Hm Ha. destruct (N.lt_ge_cases d m) as [|Hge]; auto. exfalso.
  replace (h + m) with (h + nf + (m - nf)) in Ha by lia.
  destruct (ring_chain hq cap (cap4 b Hb2 Hb50) A HR (m - nf) _ _ _ Ha ltac:(lia)) as (d0 & e0 & H0 & B0).
  destruct Hst as [_ [H2|(d' & e' & H2 & H3)]]; rewrite H0 in H2; [discriminate|].
  injection H2 as -> ->. lia.
Qed.

Lemma word_stops (o : option (N * (K * V))) c d : word_of hash o c ->
  match o with None => True | Some (d', _) => d' < d end -> stops d c = true.
Proof.
  unfold stops, word_of, qEmpty. destruct o as [[d' kv]|]; [intros [H ->]|intros ->]; cbn [fst]; lia.
Qed.

(** The lanes of a group that match: those before the stop that have the control byte. *)
Lemma lanes_seg n g l : n <= nf -> length g = 16%nat ->
  (forall j, j < 16 -> geti g j = geti (q_ctrls _ _ t) ((h + n) mod cap + j)) ->
  match_l t ((h + n) mod cap) (positions (word_mask wide (hash_lanes g (tag k) n))) = Ok l ->
  l = seg n (N.min (n + 16) nf)
  /\ (word_mask wide (stop_lanes g n) = 0 <-> n + 16 <= nf).
Proof.
  intros Hn Hg Hgj Hl. pose proof (cap4 b Hb2 Hb50) as H4. pose proof (cap_nz b Hb2 Hb50) as H0.
  assert (Hi : (h + n) mod cap < cap) by (apply N.mod_lt, H0).
  assert (EA : forall j, at_ cap A ((h + n) mod cap + j) = at_ cap A (h + (n + j))).
  { intros j. apply at_cong. rewrite mod_mod_shift by auto. f_equal. lia. }
  assert (LANE : forall j, j < 16 -> exists c, geti g j = Some c
     /\ ((exists o, at_ cap A (h + (n + j)) = Some o /\ word_of hash o c)
         \/ (cap < 16 /\ cap + cap <= (h + n) mod cap + j /\ snd c = 0))).
  { intros j Hj. destruct (words_lane hash b Hb2 Hb50 _ _ _ j HW Hi Hj) as (c & Hc & Hw).
    exists c. rewrite Hgj by auto. split; auto. rewrite EA in Hw. tauto. }
  assert (PASS : forall j, j < 16 -> n + j < nf -> exists d e, at_ cap A (h + (n + j)) = Some (Some (d, e))
     /\ geti g j = Some (d, tag (fst e)) /\ nth (N.to_nat j) (stop_lanes g n) false = false).
  { intros j Hj G. destruct Hst as [Hp _]. destruct (Hp (n + j) G) as (d & e & Ha & Hd).
    destruct (LANE j Hj) as (c & Hc & [(o & Ho & Hw)|(X1 & X2 & _)]); [|exfalso; lia].
    rewrite Ha in Ho. injection Ho as <-. cbn [word_of] in Hw. destruct Hw as [Hw ->].
    exists d, e. split; auto. split; auto. rewrite (stop_lanes_nth g n j (d, tag (fst e))) by auto.
    unfold stops, qEmpty. cbn [fst]. destruct (N.eqb_spec d 255); [lia|]. cbn [orb]. now apply N.ltb_ge. }
  assert (STOP : forall j, j < 16 -> nf <= n + j -> forall o c, geti g j = Some c ->
     at_ cap A (h + (n + j)) = Some o -> word_of hash o c -> nth (N.to_nat j) (stop_lanes g n) false = true).
  { intros j Hj G o c Hc Ho Hw. rewrite (stop_lanes_nth g n j c) by auto. apply (word_stops o); auto.
    destruct o as [[d e]|]; auto. now apply (beyond (n + j) d e). }
  split.
  - apply match_value in Hl. rewrite Hl. clear Hl l.
    rewrite <- (flat_map_map (fun j => match q_read K V (q_slots _ _ t) (q_round K V t (wadd ((h + n) mod cap) j)) with
                         | Ok kv => [(q_round K V t (wadd ((h + n) mod cap) j), kv)]
                         | Err _ => []
                         end) (bit_pos wide)).
    rewrite mask_positions by (now apply hash_lanes_len). rewrite flat_map_filter.
    rewrite (flat_map_ext_in _ (fun j => if n + j <? nf then cell (n + j) else [])).
    + unfold seg. rewrite (seqN_split (N.min (n + 16) nf - n) 16) by lia. rewrite flat_map_app, flat_map_map.
      rewrite (flat_map_ext_in (fun x => if n + (N.min (n + 16) nf - n + x) <? nf then _ else _) (fun _ => [])).
      * replace (flat_map (fun _ : N => @nil (N * (K * V))) (seqN (16 - (N.min (n + 16) nf - n)))) with (@nil (N * (K * V))).
        2: { generalize (seqN (16 - (N.min (n + 16) nf - n))). intros x. induction x; auto. }
        rewrite app_nil_r. apply flat_map_ext_in. intros j Hj. apply seqN_In in Hj.
        destruct (N.ltb_spec (n + j) nf); [auto|lia].
      * intros x Hx. apply seqN_In in Hx. destruct (N.ltb_spec (n + (N.min (n + 16) nf - n + x)) nf); [lia|auto].
    + intros j Hj. apply seqN_In in Hj. destruct (LANE j Hj) as (c & Hc & Hw).
      rewrite (hash_lanes_nth g (tag k) n j c) by auto.
      destruct (N.ltb_spec (n + j) nf) as [G|G].
      * destruct (PASS j Hj G) as (d & e & Ha & Hc' & Hs). rewrite Hc in Hc'. injection Hc' as ->.
        rewrite (stop_lanes_nth g n j _ Hg Hj Hc) in Hs. rewrite Hs. cbn [snd]. unfold cell. rewrite Ha.
        cbn [negb]. rewrite andb_true_r.
        assert (ER : q_round K V t (wadd ((h + n) mod cap) j) = (h + (n + j)) mod cap).
        { rewrite (geo_round b) by auto. rewrite wadd_small by (pose proof (cap_two64 b Hb2 Hb50); lia).
          rewrite mod_mod_shift by auto. f_equal. lia. }
        rewrite ER, (slots_read trivial b Hb2 Hb50 _ _ _ _ _ HS Ha). reflexivity.
      * destruct Hw as [(o & Ho & Hw)|(X1 & _ & X3)].
        -- pose proof (STOP j Hj G o c Hc Ho Hw) as Hs. rewrite (stop_lanes_nth g n j _ Hg Hj Hc) in Hs. rewrite Hs.
           cbn [negb]. now rewrite andb_false_r.
        -- rewrite X3. destruct (N.eqb_spec 0 (tag k)) as [E|]; [|reflexivity].
           exfalso. destruct Hseen as [X|X]; [lia|]. now apply X.
  - pose proof (word_mask_of wide (stop_lanes g n)) as HM. split.
    + intros M0. destruct (N.lt_ge_cases nf (n + 16)) as [G|]; auto. exfalso.
      assert (Hj : nf - n < 16) by lia.
      destruct (LANE (nf - n) Hj) as (c & Hc & [(o & Ho & Hw)|(X1 & X2 & _)]); [|lia].
      pose proof (STOP (nf - n) Hj ltac:(lia) o c Hc Ho Hw) as Hs.
      rewrite (mask_zero _ _ _ HM M0) in Hs. discriminate.
    + intros G. destruct (N.eq_dec (word_mask wide (stop_lanes g n)) 0) as [|M0]; auto. exfalso.
      destruct (mask_first _ _ _ HM M0) as [X1 _]. set (J := bit_pos wide (bsf _)) in *.
      destruct (N.lt_ge_cases J 16) as [HJ|HJ].
      * destruct (PASS J HJ ltac:(lia)) as (d & e & _ & _ & Hs). congruence.
      * rewrite nth_overflow in X1; [discriminate|]. rewrite stop_lanes_len by auto. lia.
Qed.

Lemma groups_seg fuel : forall n s, n <= nf ->
  q_groups K V never wide fuel t (Some k) (tag k) h ((h + n) mod cap) n = Ok s -> s <> QFull ->
  groups_l fuel t (tag k) h ((h + n) mod cap) n = Ok (seg n nf, s).
Proof.
  pose proof (cap_nz b Hb2 Hb50) as H0.
  induction fuel as [|fuel IH]; intros n s Hn H HF; [discriminate|]. cbn [q_groups groups_l] in *.
  assert (Hi : (h + n) mod cap < cap) by (apply N.mod_lt, H0).
  destruct (q_group_ok _ _ (words_room hash b Hb2 Hb50 _ _ _ HW Hi)) as (g & Eg & Hg & Hgj).
  rewrite Eg in *. cbn [rbind] in *.
  destruct (q_match K V never wide t k _ _) as [r|] eqn:Em; cbn [rbind] in *; [|discriminate].
  destruct (match_never _ _ _ _ _ Em) as (-> & l & El). rewrite El. cbn [rbind].
  destruct (lanes_seg n g l Hn Hg Hgj El) as [-> HZ].
  destruct (N.eqb_spec (word_mask wide (stop_lanes g n)) 0) as [M0|M0]; cbn [negb] in *.
  - apply HZ in M0. destruct (q_next K V t ((h + n) mod cap) =? h) eqn:EN; [congruence|].
    assert (EX : q_next K V t ((h + n) mod cap) = (h + (n + 16)) mod cap).
    { rewrite (geo_next b) by auto. rewrite mod_mod_shift by auto. f_equal. lia. }
    rewrite EX in *. rewrite u8_small in * by (unfold qGroupWidth; lia). unfold qGroupWidth in *.
    rewrite (IH (n + 16) s M0 H HF). cbn [rbind]. rewrite N.min_l by auto.
    now rewrite (seg_app n (n + 16) nf) by lia.
  - injection H as <-. rewrite N.min_r; [reflexivity|].
    destruct (N.lt_ge_cases nf (n + 16)); [lia|]. exfalso. now apply M0, HZ.
Qed.

Lemma singles_seg todo : forall n r, n <= nf -> n + N.of_nat todo <= 4 ->
  q_singles K V never todo t (Some k) (tag k) ((h + n) mod cap) n = Ok r ->
  match r with
  | inl s => singles_l todo t (tag k) ((h + n) mod cap) n = Ok (seg n nf, inl s)
  | inr (i, d) => d = n + N.of_nat todo /\ i = (h + d) mod cap /\ d <= nf
      /\ singles_l todo t (tag k) ((h + n) mod cap) n = Ok (seg n d, inr (i, d))
  end.
Proof.
  pose proof (cap_nz b Hb2 Hb50) as H0. pose proof (cap4 b Hb2 Hb50) as H4.
  induction todo as [|todo IH]; intros n r Hn H3 H; cbn [q_singles singles_l] in *.
  { injection H as <-. rewrite N.add_0_r, seg_nil. auto. }
  assert (Hi : (h + n) mod cap < cap) by (apply N.mod_lt, H0).
  destruct (words_at hash b Hb2 Hb50 _ _ (h + n) HW) as (o & c & Ho & Hc & Hw). rewrite Hc in *.
  assert (ES : q_succ K V t ((h + n) mod cap) = (h + (n + 1)) mod cap).
  { rewrite (geo_succ b) by auto. rewrite mod_mod_shift by auto. f_equal. lia. }
  rewrite ES in *.
  destruct (N.eq_dec n nf) as [->|NE].
  - assert (HH : holds nf c = false).
    { unfold holds. apply N.ltb_ge. destruct Hst as [_ [Hs|(d & e & Hs & Hd)]]; rewrite Hs in Ho; injection Ho as <-.
      - cbn [word_of] in Hw. rewrite Hw. change (u8 (255 + 1)) with 0. lia.
      - cbn [word_of] in Hw. destruct Hw as [Hw ->]. cbn [fst]. rewrite u8_small by lia. lia. }
    rewrite HH in *. injection H as <-. now rewrite seg_nil.
  - destruct Hst as [Hp _]. destruct (Hp n ltac:(lia)) as (d & e & Ha & Hd). rewrite Ha in Ho. injection Ho as <-.
    cbn [word_of] in Hw. destruct Hw as [Hw ->]. cbn [fst snd] in *.
    assert (HH : holds n (d, tag (fst e)) = true).
    { unfold holds. cbn [fst]. rewrite u8_small by lia. apply N.ltb_lt. lia. }
    rewrite HH in *. assert (EC : cell n = if tag (fst e) =? tag k then [((h + n) mod cap, e)] else []).
    { unfold cell. now rewrite Ha. }
    rewrite (slots_read trivial b Hb2 Hb50 _ _ _ _ _ HS Ha) in *. cbn [rbind] in *.
    assert (X : q_singles K V never todo t (Some k) (tag k) ((h + (n + 1)) mod cap) (n + 1) = Ok r).
    { destruct (tag (fst e) =? tag k); auto. }
    specialize (IH (n + 1) r ltac:(lia) ltac:(lia) X).
    destruct r as [s|[i d']].
    + rewrite IH. cbn [rbind]. rewrite (seg_app n (n + 1) nf), seg_one, EC by lia.
      destruct (tag (fst e) =? tag k); reflexivity.
    + destruct IH as (E1 & E2 & E3 & E4). rewrite E4. cbn [rbind]. split; [lia|]. split; auto. split; auto.
      rewrite (seg_app n (n + 1) d'), seg_one, EC by lia.
      destruct (tag (fst e) =? tag k); reflexivity.
Qed.

Lemma search_seg singles s : (singles = 2 \/ singles = 4)%nat ->
  q_search K V hash never wide singles t (Some k) k = Ok s -> s <> QFull ->
  search_l singles t k = Ok (seg 0 nf, s).
Proof.
  intros Hs H HF. unfold q_search, search_l in *. rewrite (geo_home hash b) in * by auto.
  pose proof (cap_nz b Hb2 Hb50) as H0.
  assert (E0 : h = (h + 0) mod cap) by (rewrite N.add_0_r, N.mod_mod; auto).
  rewrite E0 in H at 1. rewrite E0 at 1.
  destruct (q_singles K V never singles t (Some k) (tag k) ((h + 0) mod cap) 0) as [r|] eqn:E1; cbn [rbind] in *; [|discriminate].
  pose proof (singles_seg singles 0 r ltac:(lia) ltac:(lia) E1) as X. destruct r as [s1|[i d]].
  - rewrite X. cbn [rbind]. congruence.
  - destruct X as (Ed & Ei & Hd & X). rewrite X. cbn [rbind]. rewrite Ei in *.
    rewrite (groups_seg _ d s Hd H HF). cbn [rbind]. now rewrite <- seg_app by lia.
Qed.

End Row.

Lemma stop_bound b (A : cells) h n : low b A -> 2 <= b -> b <= 50 -> stopat (2 ^ b) A h n -> n <= 129 /\ n <= 2 ^ b.
Proof.
  intros HL Hb2 Hb50 [HS _]. destruct (N.eq_dec n 0) as [->|]; [pose proof (cap4 b Hb2 Hb50); lia|].
  destruct (HS (n - 1) ltac:(lia)) as (d & e & H & Hd). apply (low_at b _ _ _ _ HL) in H. lia.
Qed.

Lemma In_seg b A k n i kv : In (i, kv) (seg b A k 0 n) <->
  exists j d, j < n /\ at_ (2 ^ b) A (hash k mod 2 ^ b + j) = Some (Some (d, kv))
    /\ i = (hash k mod 2 ^ b + j) mod 2 ^ b /\ tag (fst kv) = tag k.
Proof.
  unfold seg. rewrite N.sub_0_r, in_flat_map. split.
  - intros (j & Hj & H). apply seqN_In in Hj. rewrite N.add_0_l in H. unfold cell in H.
    destruct (at_ (2 ^ b) A _) as [[[d e]|]|] eqn:E; try contradiction.
    destruct (N.eqb_spec (tag (fst e)) (tag k)); [|contradiction]. destruct H as [H|[]]. injection H as <- <-.
    exists j, d. auto.
  - intros (j & d & Hj & Ha & -> & HT). exists j. split; [now apply seqN_In|]. rewrite N.add_0_l. unfold cell.
    rewrite Ha, HT, N.eqb_refl. now left.
Qed.

(** A search with any answers. *)
Lemma look_c_spec cmp b t A k singles seen : good b t A -> 16 <= 2 ^ b \/ tag k <> 0 ->
  (singles = 2 \/ singles = 4)%nat ->
  exists n s l1 l2, seg b A k 0 n = l1 ++ l2 /\ n <= 129 /\ n <= 2 ^ b
  /\ q_search_c K V hash cmp wide singles t k seen = Ok (rev (map (fun x => fst (snd x)) l1) ++ seen, s)
  /\ match s with
     | QScanned (QHit i) => exists d kv, i < 2 ^ b /\ geti A i = Some (Some (d, kv))
         /\ geti (q_slots _ _ t) i = Some (Some kv) /\ In kv (ents A)
         /\ tag (fst kv) = tag k /\ said true cmp k (fst kv)
     | QScanned (QStop i d) => i = (hash k mod 2 ^ b + n) mod 2 ^ b /\ d = n mod 2 ^ b
         /\ stopat (2 ^ b) A (hash k mod 2 ^ b) n /\ all_denied hash cmp k (ents A)
         /\ q_search K V hash never wide singles t (Some k) k = Ok (QStop i d)
     | QScanned QFull => False
     | QThrown => exists kv s, In kv (ents A) /\ cmp s k (fst kv) = None
     end.
Proof.
  intros X Hs Hn. pose proof (g_b2 _ _ _ _ _ _ X) as Hb2. pose proof (b50 _ (g_b44 _ _ _ _ _ _ X)) as Hb50.
  pose proof (g_st _ _ _ _ _ _ X) as (G & W & SS & RG & LO). pose proof (cap4 b Hb2 Hb50) as C4.
  destruct (look_spec hash never q_never_tame wide trivial b t A k singles X Hs Hn)
    as [(i & d & kv & _ & _ & _ & _ & _ & E)|(n & E & St & _)]; [discriminate|].
  destruct (stop_bound b A _ n LO Hb2 Hb50 St) as [B1 B2].
  pose proof (search_seg b Hb2 Hb50 t A G W SS RG k Hs n St (conj B1 B2) singles _ Hn E ltac:(discriminate)) as EL.
  pose proof (search_line cmp singles t k _ _ seen EL) as EC. unfold ended in EC.
  destruct (line_seen cmp k (seg b A k 0 n) seen) as (l1 & l2 & L1 & L2 & L3).
  assert (IN : forall i kv, In (i, kv) l1 -> exists d, i < 2 ^ b /\ geti A i = Some (Some (d, kv))
         /\ geti (q_slots _ _ t) i = Some (Some kv) /\ In kv (ents A) /\ tag (fst kv) = tag k).
  { intros i kv H. assert (H' : In (i, kv) (seg b A k 0 n)) by (rewrite L1; apply in_or_app; auto).
    apply In_seg in H'. destruct H' as (j & d & Hj & Ha & -> & HT). exists d. unfold at_ in Ha.
    assert (Hi : (hash k mod 2 ^ b + j) mod 2 ^ b < 2 ^ b) by (apply N.mod_lt; lia).
    split; auto. split; auto. destruct (s_cell _ _ _ _ SS _ _ Hi Ha) as (s & E' & Hss). cbn in Hss. subst s.
    split; auto. split; auto. unfold ents. apply in_map_iff. exists (d, kv). split; auto. apply In_elems. eauto. }
  exists n. destruct (snd (line cmp k (seg b A k 0 n) seen)) as [i| |] eqn:ES.
  - exists (QScanned (QHit i)), l1, l2. split; auto. split; auto. split; auto. split; [now rewrite EC, L2|].
    destruct L3 as (kv & H1 & H2). destruct (IN _ _ H1) as (d & I1 & I2 & I3 & I4 & I5). exists d, kv. auto 10.
  - eexists (QScanned (QStop _ _)), l1, l2. split; auto. split; auto. split; auto. split; [now rewrite EC, L2|].
    split; auto. split; auto. split; auto. split; auto. destruct L3 as [_ L3].
    intros e He Hh. rewrite Forall_forall in L3. unfold ents in He. apply in_map_iff in He.
    destruct He as ([d e'] & Ee & He). cbn in Ee. subst e'. apply In_elems in He. destruct He as [i Hi].
    assert (Hi' : i < 2 ^ b) by (apply geti_Some_lt in Hi; rewrite (r_len _ _ _ RG) in Hi; auto).
    assert (Ha : at_ (2 ^ b) A i = Some (Some (d, e))) by (now rewrite at_small).
    destruct (stop_passed hq (2 ^ b) C4 A (hash k mod 2 ^ b) n i d e RG St Ha) as [Hd Ha2].
    { unfold Robin16Facts.hq. rewrite Hh. symmetry. apply N.mod_mod. lia. }
    apply (L3 ((hash k mod 2 ^ b + d) mod 2 ^ b, e)). apply In_seg. exists d, d. split; auto. split; auto. split; auto.
    unfold q_tag. now rewrite Hh.
  - exists QThrown, l1, l2. split; auto. split; auto. split; auto. split; [now rewrite EC, L2|].
    destruct L3 as (i & kv & s & H1 & H2). destruct (IN _ _ H1) as (d & _ & _ & _ & I4 & _). eauto.
Qed.

End Facts.
