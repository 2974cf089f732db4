(** Searches in a flat16 map of sixteen slots or more compare no element twice. *)
From Coq Require Import NArith ZArith List Bool Lia Permutation.
From Coq Require Import ZifyBool ZifyNat ZifyN.
From Verif Require Import Base BaseFacts BitsModel BitsFacts GroupModel GroupFacts TableModel TableInv
  MapSpec MapFacts FallbackFacts RobinFacts Flat16Model Flat16Spec Flat16Facts Flat16Ops Flat16Refine Flat16Calls
  Flat16Runs CompareModel CompareSpec CompareFacts Compare2Model Compare2Spec Compare2Facts.
Import ListNotations.
Open Scope N_scope.

Lemma Forall2_app' {A B} (R : A -> B -> Prop) l1 l2 m1 m2 :
  Forall2 R l1 m1 -> Forall2 R l2 m2 -> Forall2 R (l1 ++ l2) (m1 ++ m2).
Proof. induction 1; cbn [app]; auto. Qed.

Lemma NoDup_app_intro {A} (l m : list A) : NoDup l -> NoDup m -> (forall x, In x l -> In x m -> False) ->
  NoDup (l ++ m).
Proof.
  induction 1 as [|x l Hx Hl IH]; intros Hm HD; cbn [app]; auto. constructor.
  - intros H. apply in_app_or in H. destruct H as [H|H]; [auto|]. apply (HD x); [now left|auto].
  - apply IH; auto. intros y Hy. apply HD. now right.
Qed.

Section Once.

Context {K V : Type} (hash : K -> N) (mix : N -> N) (cmp : comparison K).

Notation slots := (list (option (K * V))).
Notation fmap := (fmap K V).
Notation C_ := (f_ctrls K V).
Notation S_ := (f_slots K V).
Notation core := (@core K V hash mix).
Notation home := (home hash).
Notation tag := (f_tag K hash mix).

Section Ring.
Variable b : N.
Hypothesis Hb2 : 2 <= b.
Hypothesis Hb : b <= 55.
Notation cap := (2 ^ b).
Hypothesis H16 : 16 <= cap.
Notation fc := (@fc K V hash mix b).
Notation nw := (nw b).
Notation win := (win b).
Notation wrap := (wrap b).

Definition held (t : fmap) (k : K) (i : N) (k' : K) : Prop :=
  exists v, geti (S_ t) i = Some (Some (k', v)) /\ tag k' = tag k.

Lemma match_c_once (t : fmap) k s ps : fc (C_ t) (S_ t) -> f_mask _ _ t = cap - 1 -> s < cap -> NoDup ps ->
  (forall p, In p ps -> p < 16 /\ geti (C_ t) (s + p) = Some (tag k)) -> forall seen,
  exists is new a, f_match_c K V cmp t k s ps seen = Ok (new ++ seen, a) /\ NoDup is
  /\ Forall2 (held t k) is new /\ Forall (fun i => exists p, In p ps /\ i = wrap (s + p)) is.
Proof.
  intros X HM Hs. pose proof (cap_bound b Hb2 Hb) as CB. induction ps as [|p ps IH]; intros ND HP seen.
  - exists [], [], Absent. repeat split; constructor.
  - destruct (HP p (or_introl eq_refl)) as [Hp Ep]. inversion ND as [|? ? Hn ND']; subst.
    destruct (fc_see hash mix b Hb2 Hb _ _ (s + p) X (in_clen b Hb2 Hb s p Hs Hp)) as (c & Ec & HH).
    rewrite Ep in Ec. injection Ec as <-. pose proof (tag_lt hash mix k).
    destruct HH as [(H2 & kv & Es & ET)|[(_ & _ & _ & [E|E] & _)|(E & _)]];
      [|rewrite E in *; unfold fEmpty, fDeleted, fEndOf in *; lia..].
    assert (HH : held t k (wrap (s + p)) (fst kv)) by (exists (snd kv); destruct kv; auto).
    assert (H1 : Forall (fun i => exists p', In p' (p :: ps) /\ i = wrap (s + p')) [wrap (s + p)]).
    { constructor; [|constructor]. exists p. split; [now left|reflexivity]. }
    cbn [f_match_c]. unfold f_round. rewrite HM, wadd_small by (unfold two64; lia).
    rewrite (land_wrap b Hb2 Hb), Es by auto.
    destruct (cmp seen k (fst kv)) as [[|]|] eqn:EK.
    + exists [wrap (s + p)], [fst kv], (Found (wrap (s + p))). split; [reflexivity|].
      split; [repeat constructor; intros []|]. split; [repeat constructor; auto|]. auto.
    + destruct (IH ND' (fun p' Hp' => HP p' (or_intror Hp')) (fst kv :: seen)) as (is & new & a & A & B & F & G).
      exists (is ++ [wrap (s + p)]), (new ++ [fst kv]), a. rewrite <- app_assoc. split; [exact A|].
      split.
      { apply (Permutation_NoDup (l := wrap (s + p) :: is)); [apply Permutation_cons_append|].
        constructor; auto. intros Hin. rewrite Forall_forall in G. destruct (G _ Hin) as (p' & Hp' & E').
        destruct (HP p' (or_intror Hp')) as [Hp'' _].
        assert (p = p'); [|subst; auto].
        unfold Flat16Facts.wrap in E'. destruct (N.ltb_spec (s + p) cap), (N.ltb_spec (s + p') cap); lia. }
      split; [apply Forall2_app'; auto|]. apply Forall_app. split; auto.
      eapply Forall_impl; [|exact G]. intros i (p' & Hp' & ->). exists p'. split; [now right|reflexivity].
    + exists [wrap (s + p)], [fst kv], Thrown. split; [reflexivity|].
      split; [repeat constructor; intros []|]. split; [repeat constructor; auto|]. auto.
Qed.

Lemma scan_c_once (t : fmap) k : fc (C_ t) (S_ t) -> f_mask _ _ t = cap - 1 ->
  forall fuel w seen, w < nw -> nw - w <= N.of_nat fuel ->
  exists is new r, f_scan_c K V hash mix cmp fuel t k (home b k) (win (home b k) w) seen = Ok (new ++ seen, r)
  /\ NoDup is /\ Forall2 (held t k) is new
  /\ Forall (fun i => exists w' p, w <= w' /\ w' < nw /\ p < 16 /\ i = wrap (win (home b k) w' + p)) is.
Proof.
  intros X HM. pose proof (home_lt' hash b Hb2 Hb k) as Hh.
  induction fuel as [|fuel IH]; intros w seen Hw HF; [lia|].
  cbn [f_scan_c]. pose proof (win_lt b Hb2 Hb _ _ Hh Hw) as HL.
  rewrite (f_group_ok hash mix b Hb2 Hb _ _ _ X HL). cbn [rbind].
  pose proof (window_length hash mix b Hb2 Hb _ _ _ X HL) as HWL.
  set (ps := positions (match_tag (window (C_ t) (win (home b k) w)) (tag k))).
  assert (HI : forall p, In p ps -> p < 16 /\ geti (C_ t) (win (home b k) w + p) = Some (tag k)).
  { intros p. unfold ps. rewrite match_tag_map, In_scan by auto.
    intros (c & E & Hc). destruct (N.lt_ge_cases p 16) as [G|G].
    - rewrite window_geti in E by auto. apply N.eqb_eq in Hc. subst. auto.
    - now rewrite window_geti_hi in E. }
  assert (ND : NoDup ps).
  { unfold ps. rewrite match_tag_map by auto. apply NoDup_positions. now apply movemask_map_lt. }
  destruct (match_c_once t k (win (home b k) w) ps X HM HL ND HI seen) as (is & new & a & A & B & F & G).
  assert (G' : Forall (fun i => exists w' p, w <= w' /\ w' < nw /\ p < 16 /\ i = wrap (win (home b k) w' + p)) is).
  { eapply Forall_impl; [|exact G]. intros i (p & Hp & ->). exists w, p. destruct (HI p Hp). repeat split; auto; lia. }
  rewrite A. cbn [rbind].
  assert (One : forall r : fscan_c, exists is new0 r0, Ok (new ++ seen, r) = Ok (new0 ++ seen, r0)
    /\ NoDup is /\ Forall2 (held t k) is new0
    /\ Forall (fun i => exists w' p, w <= w' /\ w' < nw /\ p < 16 /\ i = wrap (win (home b k) w' + p)) is).
  { intros r. exists is, new, r. split; [reflexivity|auto]. }
  destruct a as [i| |]; auto.
  destruct (negb (match_empty (window (C_ t) (win (home b k) w)) =? 0)); auto.
  unfold f_next, f_round, fGroupWidth. rewrite HM, (next_win b Hb2 Hb) by auto.
  destruct (N.eqb_spec (w + 1) nw) as [E1|E1]; [rewrite N.eqb_refl; auto|].
  destruct (win (home b k) (w + 1) =? home b k); auto.
  destruct (IH (w + 1) (new ++ seen) ltac:(lia) ltac:(lia)) as (is2 & new2 & r & A2 & B2 & F2 & G2).
  exists (is2 ++ is), (new2 ++ new), r. rewrite <- app_assoc. split; [exact A2|].
  split; [|split].
  - apply NoDup_app_intro; auto. intros i H2 H1. rewrite Forall_forall in G2, G.
    destruct (G2 _ H2) as (w' & p' & Hw' & Hw'' & Hp' & E'). destruct (G _ H1) as (p & Hp & E).
    destruct (HI p Hp) as [Hp16 _]. rewrite E in E'. clear - Hb2 Hb H16 E' Hw' Hw'' Hp' Hp16 Hh Hw HL.
    pose proof (cap_bound b Hb2 Hb). unfold Flat16Facts.win, Flat16Facts.wrap in *.
    destruct (nw_cases b Hb2 Hb) as [[? ?]|[? ?]]; [lia|].
    repeat match type of E' with context [?x <? ?y] => destruct (N.ltb_spec x y) end; lia.
  - apply Forall2_app'; auto.
  - apply Forall_app. split; auto. eapply Forall_impl; [|exact G2].
    intros i (w' & p' & ? & ? & ? & ->). exists w', p'. repeat split; auto; lia.
Qed.

End Ring.

Lemma search_c_once b t k : core b t -> 16 <= f_cap K V t ->
  exists compared r, f_search_c K V hash mix cmp t k [] = Ok (compared, r)
    /\ (exists rest, Permutation (compared ++ rest) (map fst (elems (S_ t))))
    /\ N.of_nat (length compared) <= f_size _ _ t
    /\ Forall (fun k' => f_tag K hash mix k' = f_tag K hash mix k) compared.
Proof.
  intros X HC. rewrite (core_cap hash mix _ _ X) in HC.
  pose proof (core_55 _ _ _ _ X) as Hb. pose proof (co_b2 _ _ _ _ X) as H2.
  pose proof (co_fc _ _ _ _ X) as XF. pose proof (co_mask _ _ _ _ X) as HM.
  unfold f_search_c. rewrite (f_home_eq hash b) by auto.
  pose proof (home_lt' hash b H2 Hb k) as Hh.
  destruct (scan_c_once b H2 Hb HC t k XF HM (f_fuel K V t) 0 []) as (is & seen & r & A & ND & F & _).
  { unfold nw. pose proof (cap_bound b H2 Hb). lia. }
  { rewrite N.sub_0_r. now apply (fuel_ok hash mix b H2 Hb). }
  rewrite win_0, app_nil_r in A by auto. exists seen, r. split; auto.
  assert (HP : exists rest, Permutation (seen ++ rest) (map fst (elems (S_ t)))).
  { apply (part_of is); auto. clear - F. induction F as [|i k' is seen (v & Hv & _) F IH]; constructor; eauto. }
  split; auto. split.
  - destruct HP as [rest HP]. apply Permutation_length in HP. rewrite app_length, map_length in HP.
    rewrite (co_size _ _ _ _ X). lia.
  - clear - F. induction F as [|i k' is seen (v & _ & Hr) F IH]; constructor; auto.
Qed.

End Once.
