(** The flat16 map: control bytes, windows of sixteen of them, lookup. *)
From Coq Require Import NArith ZArith List Bool Lia Permutation.
From Coq Require Import ZifyBool ZifyNat ZifyN.
From Verif Require Import Base BaseFacts BitsModel BitsFacts GroupModel GroupFacts TableModel TableInv
  MapSpec MapFacts FallbackFacts RobinFacts Flat16Model.
Import ListNotations.
Open Scope N_scope.
Ltac Zify.zify_post_hook ::= Z.div_mod_to_equations.

(** ** Scans of sixteen bytes *)

Lemma nth_geti {A} (g : list A) p d c : geti g p = Some c -> nth (N.to_nat p) g d = c.
Proof. unfold geti. intros H. now apply nth_error_nth. Qed.

Lemma map2_self {A B} (f : A -> A -> B) l : map2 f l l = map (fun a => f a a) l.
Proof. induction l; cbn; congruence. Qed.

Lemma movemask_map_spec (f : N -> bool) g p :
  N.testbit (movemask (map f g)) p = match geti g p with Some c => f c | None => false end.
Proof.
  rewrite movemask_testbit. unfold geti. revert g. induction (N.to_nat p) as [|n IH]; intros [|c g]; cbn; auto.
Qed.

Lemma movemask_map_lt (f : N -> bool) g : length g = 16%nat -> movemask (map f g) < two32.
Proof.
  intros H. etransitivity; [apply movemask_bound|]. rewrite map_length, H. reflexivity.
Qed.

Lemma cmpeq_repeat tag : forall g, cmpeq_epi8 g (repeat tag (length g)) = map (fun c => c =? tag) g.
Proof. unfold cmpeq_epi8. induction g; cbn [map map2 length repeat]; congruence. Qed.

Lemma match_tag_map g tag : length g = 16%nat -> match_tag g tag = movemask (map (fun c => c =? tag) g).
Proof. intros H. unfold match_tag. rewrite <- H, cmpeq_repeat. reflexivity. Qed.

Lemma match_tag_spec g tag p c : length g = 16%nat -> geti g p = Some c ->
  N.testbit (match_tag g tag) p = (c =? tag).
Proof. intros H Hc. rewrite match_tag_map, movemask_map_spec, Hc by auto. reflexivity. Qed.

Lemma match_tag_lt g tag : length g = 16%nat -> match_tag g tag < two32.
Proof. intros H. rewrite match_tag_map by auto. now apply movemask_map_lt. Qed.

Lemma match_empty_map g : (forall c, In c g -> c < 256) ->
  match_empty g = movemask (map (fun c => c =? fEmpty) g).
Proof.
  intros H. unfold match_empty, top_bits. rewrite map2_self, map_map. f_equal. apply map_ext_in.
  intros c Hc. specialize (H c Hc).
  apply (all_bytes (fun c => Bool.eqb (128 <=? sign_epi8 c c) (c =? fEmpty))) in H; [|vm_compute; reflexivity].
  now apply eqb_prop in H.
Qed.

Lemma top_bits_spec g p c : geti g p = Some c -> N.testbit (top_bits g) p = (128 <=? c).
Proof. intros H. unfold top_bits. rewrite movemask_map_spec, H. reflexivity. Qed.

Lemma match_used_map g : length g = 16%nat -> match_used g = movemask (map (fun c => c <? 128) g).
Proof.
  intros H. unfold match_used, match_unused, top_bits. apply N.bits_inj. intros p.
  rewrite N.lxor_spec, !movemask_map_spec.
  change 65535 with (N.ones 16).
  destruct (geti g p) as [c|] eqn:E.
  - apply geti_Some_lt in E. rewrite N.ones_spec_low by lia. lia.
  - unfold geti in E. apply nth_error_None in E. rewrite N.ones_spec_high by lia. reflexivity.
Qed.

(** The positions of the bits of a scan. *)
Lemma In_scan (f : N -> bool) g p : length g = 16%nat ->
  In p (positions (movemask (map f g))) <-> exists c, geti g p = Some c /\ f c = true.
Proof.
  intros H. rewrite In_positions by now apply movemask_map_lt. rewrite movemask_map_spec.
  destruct (geti g p) as [c|]; split.
  - intros E. eauto.
  - intros (c' & E & Hf). injection E as <-. auto.
  - discriminate.
  - intros (c' & E & _). discriminate.
Qed.

Lemma scan_0 (f : N -> bool) g : movemask (map f g) = 0 <-> forall p c, geti g p = Some c -> f c = false.
Proof.
  split.
  - intros E p c Hc. pose proof (movemask_map_spec f g p) as H. rewrite E, Hc, N.bits_0 in H. auto.
  - intros H. apply N.bits_inj. intros p. rewrite movemask_map_spec, N.bits_0.
    destruct (geti g p) as [c|] eqn:E; eauto.
Qed.

Lemma scan_bsf (f : N -> bool) g : movemask (map f g) <> 0 ->
  exists c, geti g (bsf (movemask (map f g))) = Some c /\ f c = true.
Proof.
  intros H. apply testbit_bsf in H. rewrite movemask_map_spec in H.
  destruct (geti g _) as [c|]; [eauto|discriminate].
Qed.

(** A window. *)
Definition window (C : list N) (s : N) : list N := firstn 16 (skipn (N.to_nat s) C).

Lemma nth_error_window {A} (l : list A) n m k : (k < m)%nat ->
  nth_error (firstn m (skipn n l)) k = nth_error l (n + k).
Proof.
  intros H. revert l. induction n; intros l; cbn [skipn Nat.add].
  - revert k l H. induction m; intros k l H; [lia|]. destruct k, l; cbn; auto. apply IHm. lia.
  - destruct l; cbn [nth_error]; auto. rewrite firstn_nil. destruct k; auto.
Qed.

Lemma window_geti C s p : p < 16 -> geti (window C s) p = geti C (s + p).
Proof.
  intros Hp. unfold window, geti. rewrite nth_error_window by lia. f_equal. lia.
Qed.

Lemma window_geti_hi C s p : 16 <= p -> geti (window C s) p = None.
Proof.
  intros Hp. apply geti_ge. unfold window. pose proof (firstn_le_length 16 (skipn (N.to_nat s) C)). lia.
Qed.

Section Ring.

Context {K V : Type} (hash : K -> N) (keq : K -> K -> bool) (mix : N -> N) (LW : tame hash keq).

Notation slots := (list (option (K * V))).
Notation tag := (f_tag K hash mix).

Lemma tag_lt k : tag k < 128.
Proof. unfold f_tag. change 127 with (2 ^ 7 - 1). rewrite land_mask_n. now apply N.mod_lt. Qed.

Lemma tag_keq k k' : keq k k' = true -> tag k = tag k'.
Proof. intros H. unfold f_tag. now rewrite (tm_compat _ _ LW _ _ H). Qed.

Variable b : N.
Hypothesis Hb2 : 2 <= b.
Hypothesis Hb : b <= 55.

Notation cap := (2 ^ b).

Lemma cap_cases : cap = 4 \/ cap = 8 \/ exists q, cap = 16 * q /\ 1 <= q.
Proof using Hb2 Hb. clear mix.
  destruct (N.eq_dec b 2) as [->|]; [now left|].
  destruct (N.eq_dec b 3) as [->|]; [right; now left|].
  right. right. exists (2 ^ (b - 4)). split.
  - change 16 with (2 ^ 4). rewrite <- N.pow_add_r. f_equal. lia.
  - pose proof (pow2_pos (b - 4)). lia.
Qed.

Lemma cap_bound : 4 <= cap <= 36028797018963968.
Proof using Hb2 Hb. clear mix. pose proof (pow2_le 2 b Hb2). pose proof (pow2_le b 55 Hb). lia. Qed.

(** The number of windows. *)
Definition nw : N := (cap + 15) / 16.

Lemma nw_cases : (cap = 4 \/ cap = 8) /\ nw = 1 \/ cap = 16 * nw /\ 1 <= nw.
Proof using Hb2 Hb. clear mix. unfold nw. destruct cap_cases as [E|[E|(q & E & Hq)]]; rewrite E; [left|left|right]; lia. Qed.

Definition wrap (x : N) : N := if x <? cap then x else x - cap.
Definition dist (h j : N) : N := if h <=? j then j - h else j + cap - h.
Definition win (h w : N) : N := wrap (h + 16 * w).
Definition home (k : K) : N := hash k mod cap.

Lemma home_lt' k : home k < cap.
Proof using Hb2 Hb. clear mix. apply N.mod_lt. pose proof cap_bound. lia. Qed.

Lemma wrap_lt x : x < 2 * cap -> wrap x < cap.
Proof using Hb2 Hb. clear mix. intros. unfold wrap. destruct (N.ltb_spec x cap); lia. Qed.

Lemma wrap_mod x : x < 2 * cap -> x mod cap = wrap x.
Proof using Hb2 Hb. clear mix.
  intros H. unfold wrap. pose proof cap_bound. destruct (N.ltb_spec x cap).
  - now apply N.mod_small.
  - symmetry. apply N.mod_unique with 1; lia.
Qed.

Lemma land_wrap x : x < 2 * cap -> N.land x (cap - 1) = wrap x.
Proof using Hb2 Hb. clear mix. intros. rewrite land_mask_n. now apply wrap_mod. Qed.

Lemma win_lt h w : h < cap -> w < nw -> win h w < cap.
Proof using Hb2 Hb. clear mix. intros. apply wrap_lt. pose proof cap_bound. destruct nw_cases as [[? ?]|[? ?]]; lia. Qed.

Lemma win_0 h : h < cap -> win h 0 = h.
Proof using Hb2 Hb. clear mix. intros. unfold win, wrap. destruct (N.ltb_spec (h + 16 * 0) cap); lia. Qed.

Lemma next_win h w : h < cap -> w < nw ->
  N.land (wadd (win h w) 16) (cap - 1) = if w + 1 =? nw then h else win h (w + 1).
Proof using Hb2 Hb. clear mix.
  intros Hh Hw. pose proof (win_lt h w Hh Hw) as HL. pose proof cap_bound as CB.
  rewrite wadd_small by (unfold two64; lia).
  destruct nw_cases as [[Hc E]|[E Hn]].
  - assert (w = 0) as -> by lia. rewrite E. cbn [N.eqb]. rewrite win_0 by auto.
    rewrite land_mask_n. replace (0 + 1 =? 1) with true by reflexivity.
    rewrite win_0 in HL by auto. destruct Hc as [Ec|Ec]; rewrite Ec in *; lia.
  - rewrite land_wrap by lia. unfold win, wrap in *.
    destruct (N.ltb_spec (h + 16 * w) cap), (N.eqb_spec (w + 1) nw);
      repeat match goal with |- context [?x <? ?y] => destruct (N.ltb_spec x y) end; lia.
Qed.

Lemma win_first h w : h < cap -> w < nw -> win h w = h -> w = 0.
Proof using Hb2 Hb. clear mix.
  intros Hh Hw. pose proof cap_bound. unfold win, wrap.
  destruct nw_cases as [[? ?]|[? ?]]; destruct (N.ltb_spec (h + 16 * w) cap); lia.
Qed.

Lemma win_inj h w w' : h < cap -> w < nw -> w' < nw -> win h w = win h w' -> w = w'.
Proof using Hb2 Hb. clear mix.
  intros Hh Hw Hw'. pose proof cap_bound. unfold win, wrap.
  destruct nw_cases as [[? ?]|[? ?]]; destruct (N.ltb_spec (h + 16 * w) cap), (N.ltb_spec (h + 16 * w') cap); lia.
Qed.

Lemma dist_lt h j : h < cap -> j < cap -> dist h j < cap.
Proof using Hb2 Hb. clear mix. intros. unfold dist. destruct (N.leb_spec h j); lia. Qed.

(** A position lies in one of the windows. *)
Lemma cover h j : h < cap -> j < cap ->
  let w := dist h j / 16 in let p := dist h j mod 16 in
  w < nw /\ p < 16 /\ win h w + p < 2 * cap /\ wrap (win h w + p) = j.
Proof using Hb2 Hb. clear mix.
  intros Hh Hj. cbv zeta. pose proof (dist_lt h j Hh Hj). pose proof cap_bound.
  unfold win, wrap, dist in *.
  destruct nw_cases as [[? ?]|[? ?]]; destruct (N.leb_spec h j);
    repeat match goal with |- context [?x <? ?y] => destruct (N.ltb_spec x y) end; lia.
Qed.

Lemma dist_win h w p : h < cap -> w < nw -> p < 16 -> 16 <= cap ->
  dist h (wrap (win h w + p)) = 16 * w + p.
Proof using Hb2 Hb. clear mix.
  intros Hh Hw Hp Hc. pose proof cap_bound. destruct nw_cases as [[? ?]|[? ?]]; [lia|].
  unfold dist, win, wrap.
  destruct (N.ltb_spec (h + 16 * w) cap);
    repeat match goal with |- context [?x <? ?y] => destruct (N.ltb_spec x y) end;
    repeat match goal with |- context [?x <=? ?y] => destruct (N.leb_spec x y) end; lia.
Qed.

(** ** The control bytes *)

Definition clen : N := if cap <? 16 then 32 else cap + 16.

Record fc (C : list N) (S : slots) : Prop := {
  fc_len : N.of_nat (length C) = clen;
  fc_slen : N.of_nat (length S) = cap;
  fc_used : forall i kv, geti S i = Some (Some kv) -> geti C i = Some (tag (fst kv));
  fc_free : forall i, geti S i = Some None -> geti C i = Some fEmpty \/ geti C i = Some fDeleted;
  fc_end : forall c, geti C 0 = Some c -> geti C cap = Some (if c <? 128 then c else fEndOf);
  fc_mirror : forall i, 0 < i < 16 -> i < cap -> geti C (cap + i) = geti C i;
  fc_tail : forall i, 2 * cap <= i < clen -> geti C i = Some fEndOf
}.

(** What a window shows at one of its sixteen places. *)
Lemma fc_slot C S i : fc C S -> i < cap -> exists s, geti S i = Some s.
Proof. intros X H. apply geti_lt. now rewrite (fc_slen _ _ X). Qed.

Lemma fc_see C S x : fc C S -> x < clen -> exists c, geti C x = Some c /\
  ((x < 2 * cap /\ exists kv, geti S (wrap x) = Some (Some kv) /\ c = tag (fst kv))
   \/ (x < 2 * cap /\ x <> cap /\ geti S (wrap x) = Some None /\ (c = fEmpty \/ c = fDeleted)
       /\ geti C (wrap x) = Some c)
   \/ (c = fEndOf /\ (2 * cap <= x \/ x = cap /\ geti S 0 = Some None))).
Proof.
  intros X Hx. pose proof cap_bound as CB.
  destruct (N.le_gt_cases (2 * cap) x) as [G|G].
  { exists fEndOf. split; [apply (fc_tail _ _ X); lia|]. right. right. auto. }
  assert (HW : wrap x < cap) by now apply wrap_lt.
  destruct (fc_slot _ _ (wrap x) X HW) as (s & Es).
  destruct (N.eq_dec x cap) as [->|Nx].
  - assert (E0 : wrap cap = 0) by (unfold wrap; destruct (N.ltb_spec cap cap); lia). rewrite E0 in *.
    destruct s as [kv|].
    + pose proof (fc_used _ _ X _ _ Es) as E. exists (tag (fst kv)).
      rewrite (fc_end _ _ X _ E). pose proof (tag_lt (fst kv)).
      destruct (N.ltb_spec (tag (fst kv)) 128); [|lia].
      split; [reflexivity|]. left. split; [lia|]. now exists kv.
    + exists fEndOf. split; [|right; right; split; auto].
      destruct (fc_free _ _ X _ Es) as [E|E]; rewrite (fc_end _ _ X _ E); reflexivity.
  - assert (EM : geti C x = geti C (wrap x)).
    { unfold wrap. destruct (N.ltb_spec x cap); auto. unfold clen in Hx.
      replace x with (cap + (x - cap)) at 1 by lia. apply (fc_mirror _ _ X); [|lia].
      destruct (N.ltb_spec cap 16); lia. }
    rewrite EM. destruct s as [kv|].
    + rewrite (fc_used _ _ X _ _ Es). exists (tag (fst kv)). split; [reflexivity|]. left. split; auto. now exists kv.
    + destruct (fc_free _ _ X _ Es) as [E|E]; rewrite E; eexists; (split; [reflexivity|]); right; left; auto 6.
Qed.

Lemma in_clen s p : s < cap -> p < 16 -> s + p < clen.
Proof using Hb2 Hb. clear mix. intros. unfold clen. destruct (N.ltb_spec cap 16); lia. Qed.

Lemma fc_byte C S x c : fc C S -> geti C x = Some c -> c < 256.
Proof.
  intros X E. pose proof (geti_Some_lt _ _ _ E) as H. rewrite (fc_len _ _ X) in H.
  destruct (fc_see _ _ _ X H) as (c' & E' & HH). rewrite E in E'. injection E' as <-.
  destruct HH as [(_ & kv & _ & ->)|[(_ & _ & _ & [->| ->] & _)|(-> & _)]]; try reflexivity.
  pose proof (tag_lt (fst kv)). lia.
Qed.

Lemma window_length C S s : fc C S -> s < cap -> length (window C s) = 16%nat.
Proof.
  intros X Hs. unfold window. rewrite firstn_length, skipn_length. pose proof (fc_len _ _ X) as HL.
  unfold clen in HL. destruct (N.ltb_spec cap 16); lia.
Qed.

Lemma window_byte C S s c : fc C S -> In c (window C s) -> c < 256.
Proof.
  intros X Hin. apply In_geti in Hin. destruct Hin as (p & E).
  destruct (N.lt_ge_cases p 16) as [G|G].
  - rewrite window_geti in E by auto. eapply fc_byte; eauto.
  - now rewrite window_geti_hi in E.
Qed.

Lemma f_group_ok C S s : fc C S -> s < cap -> f_group C s = Ok (window C s).
Proof.
  intros X Hs. unfold f_group, window. rewrite (fc_len _ _ X).
  pose proof (in_clen s 15 Hs ltac:(lia)). destruct (N.leb_spec (s + 16) clen); [reflexivity|lia].
Qed.

(** No empty slot is seen from [s]. *)
Definition shut (C : list N) (s : N) : Prop := forall p, p < 16 -> geti C (s + p) <> Some fEmpty.

Lemma match_empty_win C S s : fc C S -> match_empty (window C s) = movemask (map (fun c => c =? fEmpty) (window C s)).
Proof. intros X. apply match_empty_map. intros c. eapply window_byte; eauto. Qed.

Lemma match_empty_0 C S s : fc C S -> match_empty (window C s) = 0 <-> shut C s.
Proof.
  intros X. rewrite (match_empty_win _ _ _ X), scan_0. split.
  - intros H p Hp E. rewrite <- window_geti in E by auto. specialize (H _ _ E). discriminate.
  - intros H p c E. destruct (N.lt_ge_cases p 16) as [G|G].
    + rewrite window_geti in E by auto. destruct (N.eqb_spec c fEmpty) as [->|]; auto. now apply H in E.
    + now rewrite window_geti_hi in E.
Qed.

Lemma match_empty_bsf C S s : fc C S -> match_empty (window C s) <> 0 ->
  let p := bsf (match_empty (window C s)) in p < 16 /\ geti C (s + p) = Some fEmpty.
Proof.
  intros X H. cbv zeta. rewrite (match_empty_win _ _ _ X) in *. apply scan_bsf in H.
  destruct H as (c & E & Hc). destruct (N.lt_ge_cases (bsf (movemask (map (fun c => c =? fEmpty) (window C s)))) 16) as [G|G].
  - split; auto. rewrite window_geti in E by auto. apply N.eqb_eq in Hc. now subst.
  - now rewrite window_geti_hi in E.
Qed.

Lemma match_deleted_bsf C S s : fc C S -> s < cap -> match_deleted (window C s) <> 0 ->
  let p := bsf (match_deleted (window C s)) in p < 16 /\ geti C (s + p) = Some fDeleted.
Proof.
  intros X Hs H. cbv zeta. unfold match_deleted in *. rewrite match_tag_map in * by (eapply window_length; eauto).
  apply scan_bsf in H.
  destruct H as (c & E & Hc). destruct (N.lt_ge_cases (bsf (movemask (map (fun c => c =? fDeleted) (window C s)))) 16) as [G|G].
  - split; auto. rewrite window_geti in E by auto. apply N.eqb_eq in Hc. now subst.
  - now rewrite window_geti_hi in E.
Qed.

(** ** Lookup *)

Definition chain (C : list N) (S : slots) : Prop :=
  forall j kv w, geti S j = Some (Some kv) -> 16 * (w + 1) <= dist (home (fst kv)) j ->
    shut C (win (home (fst kv)) w).

Definition nokey (S : slots) (k : K) (s : N) : Prop :=
  forall p kv, p < 16 -> s + p < 2 * cap -> geti S (wrap (s + p)) = Some (Some kv) -> keq (fst kv) k = false.

Notation fmap := (fmap K V).
Notation C_ := (f_ctrls K V).
Notation S_ := (f_slots K V).

Lemma match_spec (t : fmap) k s ps : fc (C_ t) (S_ t) -> f_mask _ _ t = cap - 1 -> s < cap ->
  (forall p, In p ps -> p < 16 /\ geti (C_ t) (s + p) = Some (tag k)) ->
  (exists i kv, f_match K V keq t k s ps = Ok (Some i) /\ geti (S_ t) i = Some (Some kv) /\ keq (fst kv) k = true)
  \/ (f_match K V keq t k s ps = Ok None
      /\ forall p kv, In p ps -> geti (S_ t) (wrap (s + p)) = Some (Some kv) -> keq (fst kv) k = false).
Proof.
  intros X HM Hs. pose proof cap_bound as CB. induction ps as [|p ps IH]; intros HP.
  - right. split; [reflexivity|]. intros p kv [].
  - destruct (HP p (or_introl eq_refl)) as [Hp Ep].
    destruct (fc_see _ _ (s + p) X (in_clen s p Hs Hp)) as (c & Ec & HH).
    rewrite Ep in Ec. injection Ec as <-. pose proof (tag_lt k).
    destruct HH as [(H2 & kv & Es & _)|[(_ & _ & _ & [E|E] & _)|(E & _)]];
      [|rewrite E in *; unfold fEmpty, fDeleted, fEndOf in *; lia..].
    cbn [f_match]. unfold f_round. rewrite HM, wadd_small by (unfold two64; lia).
    rewrite land_wrap, Es by auto.
    destruct (keq (fst kv) k) eqn:EK.
    + left. eauto 6.
    + destruct IH as [(i & kv' & A & B & D)|(A & B)].
      { intros p' Hp'. apply HP. now right. }
      { left. eauto 6. }
      right. split; auto. intros p' kv' [<-|Hin] E'.
      * rewrite Es in E'. injection E' as <-. auto.
      * eauto.
Qed.

Lemma match_win (t : fmap) k s : fc (C_ t) (S_ t) -> f_mask _ _ t = cap - 1 -> s < cap ->
  (exists i kv, f_match K V keq t k s (positions (match_tag (window (C_ t) s) (tag k))) = Ok (Some i)
     /\ geti (S_ t) i = Some (Some kv) /\ keq (fst kv) k = true)
  \/ (f_match K V keq t k s (positions (match_tag (window (C_ t) s) (tag k))) = Ok None /\ nokey (S_ t) k s).
Proof.
  intros X HM Hs. pose proof (window_length _ _ s X Hs) as HL.
  assert (HI : forall p, In p (positions (match_tag (window (C_ t) s) (tag k)))
                 <-> p < 16 /\ geti (C_ t) (s + p) = Some (tag k)).
  { intros p. rewrite match_tag_map, In_scan by auto. split.
    - intros (c & E & Hc). destruct (N.lt_ge_cases p 16) as [G|G].
      + rewrite window_geti in E by auto. apply N.eqb_eq in Hc. subst. auto.
      + now rewrite window_geti_hi in E.
    - intros (Hp & E). exists (tag k). rewrite window_geti by auto. split; auto. apply N.eqb_refl. }
  destruct (match_spec t k s _ X HM Hs (fun p => proj1 (HI p))) as [H|(A & B)]; [now left|right].
  split; auto. intros p kv Hp H2 E.
  destruct (keq (fst kv) k) eqn:EK; auto. rewrite <- EK. apply (B p); auto. apply HI. split; auto.
  destruct (fc_see _ _ (s + p) X (in_clen s p Hs Hp)) as (c & Ec & HH). rewrite Ec. f_equal.
  destruct HH as [(_ & kv' & Es & ->)|[(_ & _ & Es & _)|(_ & [G|(G & Es)])]].
  - rewrite E in Es. injection Es as <-. now apply tag_keq.
  - rewrite E in Es. discriminate.
  - lia.
  - rewrite G in E. replace (wrap cap) with 0 in E; [rewrite E in Es; discriminate|].
    unfold wrap. destruct (N.ltb_spec cap cap); lia.
Qed.

Lemma scan_loop (t : fmap) k : fc (C_ t) (S_ t) -> f_mask _ _ t = cap - 1 ->
  forall fuel w, w < nw -> nw - w <= N.of_nat fuel ->
  (forall w', w' < w -> shut (C_ t) (win (home k) w') /\ nokey (S_ t) k (win (home k) w')) ->
  exists r, f_scan K V hash keq mix fuel t k (home k) (win (home k) w) = Ok r /\
  match r with
  | FHit i => exists kv, geti (S_ t) i = Some (Some kv) /\ keq (fst kv) k = true
  | FStop i m => exists w1, w1 < nw /\ i = win (home k) w1 /\ m = match_empty (window (C_ t) i) /\ m <> 0
      /\ (forall w', w' < w1 -> shut (C_ t) (win (home k) w'))
      /\ (forall w', w' <= w1 -> nokey (S_ t) k (win (home k) w'))
  | FFull => forall w', w' < nw -> shut (C_ t) (win (home k) w') /\ nokey (S_ t) k (win (home k) w')
  end.
Proof.
  intros X HM. pose proof (home_lt' k) as Hh. induction fuel as [|fuel IH]; intros w Hw HF HP; [lia|].
  cbn [f_scan]. pose proof (win_lt _ _ Hh Hw) as HL.
  rewrite (f_group_ok _ _ _ X HL). cbn [rbind].
  destruct (match_win t k (win (home k) w) X HM HL) as [(i & kv & A & B & D)|(A & B)]; rewrite A; cbn [rbind].
  - exists (FHit i). eauto.
  - destruct (N.eqb_spec (match_empty (window (C_ t) (win (home k) w))) 0) as [E|E]; cbn [negb].
    + assert (HP' : forall w', w' < w + 1 -> shut (C_ t) (win (home k) w') /\ nokey (S_ t) k (win (home k) w')).
      { intros w' Hw'. destruct (N.eq_dec w' w) as [->|]; [|apply HP; lia]. split; auto.
        now apply (match_empty_0 _ _ _ X). }
      unfold f_next, f_round, fGroupWidth. rewrite HM, next_win by auto.
      destruct (N.eqb_spec (w + 1) nw) as [E1|E1].
      * rewrite N.eqb_refl. exists FFull. split; auto. intros w' Hw'. apply HP'. lia.
      * destruct (N.eqb_spec (win (home k) (w + 1)) (home k)) as [E2|E2].
        { apply win_first in E2; auto; lia. }
        apply IH; auto; lia.
    + eexists. split; [reflexivity|]. exists w. do 4 (split; [auto|]). split.
      * intros w' Hw'. now apply HP.
      * intros w' Hw'. destruct (N.eq_dec w' w) as [->|]; auto. apply HP. lia.
Qed.


Definition absent (S : slots) (k : K) : Prop :=
  forall j kv, geti S j = Some (Some kv) -> keq (fst kv) k = false.

Lemma home_keq k k' : keq k k' = true -> home k = home k'.
Proof. intros H. unfold home. now rewrite (tm_compat _ _ LW _ _ H). Qed.

Lemma nokey_cover S k j kv : N.of_nat (length S) = cap -> geti S j = Some (Some kv) ->
  nokey S k (win (home k) (dist (home k) j / 16)) -> keq (fst kv) k = false.
Proof.
  intros HS E H. pose proof (geti_Some_lt _ _ _ E) as Hj. rewrite HS in Hj.
  destruct (cover (home k) j (home_lt' k) Hj) as (_ & Hp & H2 & HW).
  apply (H (dist (home k) j mod 16)); auto. now rewrite HW.
Qed.

Lemma fuel_ok (t : fmap) : fc (C_ t) (S_ t) -> nw <= N.of_nat (f_fuel K V t).
Proof.
  intros X. unfold f_fuel. pose proof (fc_len _ _ X) as HL. unfold clen in HL. unfold nw.
  pose proof cap_bound. destruct (N.ltb_spec cap 16); lia.
Qed.

Lemma f_home_eq (t : fmap) k : f_mask _ _ t = cap - 1 -> f_home K V hash t k = home k.
Proof. intros HM. unfold f_home, f_round. rewrite HM. apply land_mask_n. Qed.

Lemma search_spec (t : fmap) k : fc (C_ t) (S_ t) -> f_mask _ _ t = cap - 1 -> chain (C_ t) (S_ t) ->
  exists r, f_search K V hash keq mix t k = Ok r /\
  match r with
  | FHit i => exists kv, geti (S_ t) i = Some (Some kv) /\ keq (fst kv) k = true
  | FStop i m => exists w1, w1 < nw /\ i = win (home k) w1 /\ m = match_empty (window (C_ t) i) /\ m <> 0
      /\ (forall w', w' < w1 -> shut (C_ t) (win (home k) w')) /\ absent (S_ t) k
  | FFull => (forall w', w' < nw -> shut (C_ t) (win (home k) w')) /\ absent (S_ t) k
  end.
Proof.
  intros X HM HC. unfold f_search. rewrite f_home_eq by auto. pose proof (home_lt' k) as Hh.
  destruct (scan_loop t k X HM (f_fuel K V t) 0) as (r & A & B).
  { unfold nw. pose proof cap_bound. lia. }
  { rewrite N.sub_0_r. now apply fuel_ok. }
  { intros w' Hw'. lia. }
  rewrite win_0 in A by auto. exists r. split; auto. destruct r as [i|i m|]; auto.
  - destruct B as (w1 & Hw & Ei & Em & Nm & HS & HK). exists w1. do 5 (split; [auto|]).
    intros j kv Ej. destruct (N.le_gt_cases (dist (home k) j / 16) w1) as [G|G].
    + eapply nokey_cover; eauto. apply X.
    + destruct (keq (fst kv) k) eqn:EK; auto. exfalso.
      assert (Hkk : home (fst kv) = home k) by now apply home_keq.
      specialize (HC j kv w1 Ej). rewrite Hkk in HC. rewrite <- Ei in HC.
      apply Nm. rewrite Em. apply (match_empty_0 _ _ _ X). apply HC. lia.
  - split; [intros; now apply B|]. intros j kv Ej. eapply nokey_cover; eauto; [apply X|]. apply B.
    apply cover; auto. rewrite <- (fc_slen _ _ X). eapply geti_Some_lt; eauto.
Qed.

(** An empty slot other than slot 0 is seen by some window. *)
Lemma visible C S h j : fc C S -> h < cap -> j < cap -> 0 < j -> geti C j = Some fEmpty ->
  exists w, w < nw /\ ~ shut C (win h w).
Proof.
  intros X Hh Hj H0 E. destruct (cover h j Hh Hj) as (Hw & Hp & H2 & HW). cbv zeta in *.
  exists (dist h j / 16). split; auto. intros HS. apply (HS (dist h j mod 16) Hp).
  set (x := win h (dist h j / 16) + dist h j mod 16) in *.
  assert (Hx : x < clen) by (apply in_clen; auto; now apply win_lt).
  destruct (fc_see _ _ x X Hx) as (c & Ec & HH). rewrite HW in HH.
  destruct HH as [(_ & kv & Es & ->)|[(_ & _ & Es & _ & E')|(_ & [G|(G & _)])]].
  - rewrite (fc_used _ _ X _ _ Es) in E. injection E as E. pose proof (tag_lt (fst kv)).
    unfold fEmpty in E. lia.
  - congruence.
  - lia.
  - rewrite G in HW. unfold wrap in HW. destruct (N.ltb_spec cap cap); lia.
Qed.

(** Where a new element may go. *)
Definition spot (C : list N) (S : slots) (h i : N) : Prop :=
  i < cap /\ geti S i = Some None /\ (forall w, 16 * (w + 1) <= dist h i -> shut C (win h w)).

Lemma spot_spec C S h w p c : fc C S -> h < cap -> w < nw -> p < 16 ->
  geti C (win h w + p) = Some c -> c = fEmpty \/ c = fDeleted ->
  (forall w', w' < w -> shut C (win h w')) ->
  win h w + p < 2 * cap /\ spot C S h (wrap (win h w + p)) /\ geti C (wrap (win h w + p)) = Some c.
Proof.
  intros X Hh Hw Hp E Hc HS. pose proof (win_lt h w Hh Hw) as HL.
  destruct (fc_see _ _ (win h w + p) X (in_clen _ _ HL Hp)) as (c' & E' & HH).
  rewrite E in E'. injection E' as <-.
  destruct HH as [(_ & kv & Es & ->)|[(H2 & _ & Es & _ & Eq)|(-> & _)]].
  - exfalso. pose proof (tag_lt (fst kv)). unfold fEmpty, fDeleted in Hc. lia.
  - split; auto. split; auto. split; [now apply wrap_lt|]. split; auto. intros w' Hw'.
    destruct (N.lt_ge_cases cap 16) as [G|G].
    + pose proof (dist_lt h (wrap (win h w + p)) Hh (wrap_lt _ H2)). lia.
    + rewrite dist_win in Hw' by auto. apply HS. lia.
  - exfalso. unfold fEmpty, fDeleted, fEndOf in Hc. lia.
Qed.

Lemma round_spot (t : fmap) x : f_mask _ _ t = cap - 1 -> x < 2 * cap -> f_round K V t x = wrap x.
Proof. intros HM H. unfold f_round. rewrite HM. now apply land_wrap. Qed.

Lemma next_eq (t : fmap) h w : f_mask _ _ t = cap - 1 -> h < cap -> w < nw ->
  f_next K V t (win h w) = if w + 1 =? nw then h else win h (w + 1).
Proof. intros HM Hh Hw. unfold f_next, f_round, fGroupWidth. rewrite HM. now apply next_win. Qed.

Lemma spot_round (t : fmap) h w p c : fc (C_ t) (S_ t) -> f_mask _ _ t = cap - 1 -> h < cap -> w < nw -> p < 16 ->
  geti (C_ t) (win h w + p) = Some c -> c = fEmpty \/ c = fDeleted ->
  (forall w', w' < w -> shut (C_ t) (win h w')) ->
  let i := f_round K V t (wadd (win h w) p) in spot (C_ t) (S_ t) h i /\ geti (C_ t) i = Some c.
Proof.
  intros X HM Hh Hw Hp E Hc HS. destruct (spot_spec _ _ h w p c X Hh Hw Hp E Hc HS) as (H2 & A & B).
  cbv zeta. pose proof cap_bound. rewrite wadd_small by (unfold two64; lia). rewrite round_spot; auto.
Qed.

Lemma free_loop_spec (t : fmap) h w0 : fc (C_ t) (S_ t) -> f_mask _ _ t = cap - 1 -> h < cap ->
  w0 < nw -> ~ shut (C_ t) (win h w0) ->
  forall fuel w, w <= w0 -> w0 - w < N.of_nat fuel -> (forall w', w' < w -> shut (C_ t) (win h w')) ->
  exists i, f_free_loop K V fuel match_empty t (win h w) = Ok i
    /\ spot (C_ t) (S_ t) h i /\ geti (C_ t) i = Some fEmpty.
Proof.
  intros X HM Hh H0 N0. induction fuel as [|fuel IH]; intros w Hw HF HP; [lia|].
  cbn [f_free_loop]. assert (HL : win h w < cap) by (apply win_lt; auto; lia).
  rewrite (f_group_ok _ _ _ X HL). cbn [rbind].
  destruct (N.eqb_spec (match_empty (window (C_ t) (win h w))) 0) as [E|E]; cbn [negb].
  - apply (match_empty_0 _ _ _ X) in E. assert (w <> w0) by (intros ->; auto).
    rewrite next_eq by (auto; lia). destruct (N.eqb_spec (w + 1) nw); [lia|].
    apply IH; try lia. intros w' Hw'. destruct (N.eq_dec w' w) as [->|]; auto. apply HP. lia.
  - destruct (match_empty_bsf _ _ _ X E) as (Hp & Ep). cbv zeta in *.
    eexists. split; [reflexivity|]. apply spot_round; auto. lia.
Qed.

Lemma first_empty_spec (t : fmap) k : fc (C_ t) (S_ t) -> f_mask _ _ t = cap - 1 ->
  (exists w, w < nw /\ ~ shut (C_ t) (win (home k) w)) ->
  exists i, f_first_empty K V hash t k = Ok i
    /\ spot (C_ t) (S_ t) (home k) i /\ geti (C_ t) i = Some fEmpty.
Proof.
  intros X HM (w0 & H0 & N0). pose proof (home_lt' k) as Hh.
  destruct (free_loop_spec t (home k) w0 X HM Hh H0 N0 (f_fuel K V t) 0) as (i & A & B).
  - lia.
  - pose proof (fuel_ok t X). lia.
  - intros w' Hw'. lia.
  - rewrite win_0 in A by auto. exists i. split; auto. unfold f_first_empty. now rewrite f_home_eq.
Qed.

Lemma deleted_loop_spec (t : fmap) h w1 : fc (C_ t) (S_ t) -> f_mask _ _ t = cap - 1 -> h < cap ->
  w1 < nw -> (forall w', w' < w1 -> shut (C_ t) (win h w')) ->
  forall fuel w, w <= w1 -> w1 - w < N.of_nat fuel ->
  exists r, f_deleted_loop K V fuel t h (win h w1) (win h w) = Ok r /\
    match r with None => True | Some i => spot (C_ t) (S_ t) h i /\ geti (C_ t) i = Some fDeleted end.
Proof.
  intros X HM Hh H1 HS. induction fuel as [|fuel IH]; intros w Hw HF; [lia|].
  cbn [f_deleted_loop]. assert (HL : win h w < cap) by (apply win_lt; auto; lia).
  rewrite (f_group_ok _ _ _ X HL). cbn [rbind].
  destruct (N.eqb_spec (match_deleted (window (C_ t) (win h w))) 0) as [E|E]; cbn [negb].
  - destruct (N.eqb_spec (win h w) (win h w1)) as [E1|E1]; [exists None; auto|].
    assert (w <> w1) by congruence.
    rewrite next_eq by (auto; lia). destruct (N.eqb_spec (w + 1) nw); [lia|].
    destruct (N.eqb_spec (win h (w + 1)) h) as [E2|E2]; [exists None; auto|].
    apply IH; lia.
  - destruct (match_deleted_bsf _ _ _ X HL E) as (Hp & Ep). cbv zeta in *.
    eexists. split; [reflexivity|]. cbv beta iota. apply spot_round; auto; try lia.
    intros w' Hw'. apply HS. lia.
Qed.

(** ** Writing control bytes *)

(** [C'] differs from [C] at slot [i] and its copy only. *)
Definition wrote (C C' : list N) (i c c' : N) : Prop :=
  length C' = length C /\
  forall x, geti C' x = if x =? i then Some c else if (i <? 16) && (x =? i + cap) then Some c' else geti C x.

Lemma put_ok C i c : i < N.of_nat (length C) -> f_put C i c = Ok (seti C i c).
Proof. intros H. unfold f_put. destruct (N.ltb_spec i (N.of_nat (length C))); [reflexivity|lia]. Qed.

Lemma wrote_spec C S i c c' : fc C S -> i < cap ->
  exists C', rbind (f_put C i c) (fun cs => if i <? fGroupWidth then f_put cs (wadd i cap) c' else Ok cs) = Ok C'
    /\ wrote C C' i c c'.
Proof.
  intros X Hi. pose proof (fc_len _ _ X) as HL. pose proof cap_bound.
  assert (HC : i < N.of_nat (length C)) by (unfold clen in HL; destruct (N.ltb_spec cap 16); lia).
  rewrite put_ok by auto. cbn [rbind]. unfold fGroupWidth.
  destruct (N.ltb_spec i 16) as [G|G].
  - assert (HC' : i + cap < N.of_nat (length C)) by (unfold clen in HL; destruct (N.ltb_spec cap 16); lia).
    rewrite wadd_small by (unfold two64; lia). rewrite put_ok by now rewrite seti_length.
    eexists. split; [reflexivity|]. split; [now rewrite !seti_length|]. intros x.
    destruct (N.ltb_spec i 16); [|lia]. cbn [andb].
    destruct (N.eqb_spec x i) as [->|N1].
    + rewrite geti_seti_neq by lia. now apply geti_seti_eq.
    + destruct (N.eqb_spec x (i + cap)) as [->|N2].
      * apply geti_seti_eq. now rewrite seti_length.
      * rewrite !geti_seti_neq; auto.
  - eexists. split; [reflexivity|]. split; [now rewrite seti_length|]. intros x.
    destruct (N.ltb_spec i 16); [lia|]. cbn [andb].
    destruct (N.eqb_spec x i) as [->|N1]; [now apply geti_seti_eq|now apply geti_seti_neq; auto].
Qed.

Lemma fc_wrote C S C' i c c' s : fc C S -> i < cap -> wrote C C' i c c' ->
  match s with Some kv => c = tag (fst kv) | None => c = fEmpty \/ c = fDeleted end ->
  c' = (if (i =? 0) && (128 <=? c) then fEndOf else c) ->
  fc C' (seti S i s).
Proof.
  intros X Hi W Hs Hc'. pose proof cap_bound as CB. pose proof (fc_slen _ _ X) as HS.
  split.
  - rewrite (proj1 W). apply X.
  - now rewrite seti_length.
  - intros j kv E. rewrite geti_seti in E by lia. rewrite (proj2 W).
    destruct (N.eqb_spec j i) as [->|Nj].
    + injection E as ->. now subst c.
    + pose proof (geti_Some_lt _ _ _ E). destruct (N.eqb_spec j (i + cap)); [lia|].
      rewrite andb_false_r. now apply (fc_used _ _ X).
  - intros j E. rewrite geti_seti in E by lia. rewrite (proj2 W).
    destruct (N.eqb_spec j i) as [Ej|Nj].
    + injection E as ->. destruct Hs as [->| ->]; auto.
    + pose proof (geti_Some_lt _ _ _ E). destruct (N.eqb_spec j (i + cap)); [lia|].
      rewrite andb_false_r. now apply (fc_free _ _ X).
  - intros c0 E. rewrite (proj2 W) in E |- *. destruct (N.eqb_spec cap i); [lia|].
    destruct (N.eqb_spec 0 i) as [<-|N0].
    + injection E as <-. destruct (N.eqb_spec cap (0 + cap)); [|lia]. cbn [andb N.ltb].
      replace (0 <? 16) with true by reflexivity. subst c'. rewrite N.eqb_refl. cbn [andb].
      destruct (N.ltb_spec c 128), (N.leb_spec 128 c); auto; lia.
    + destruct (N.eqb_spec 0 (i + cap)); [lia|]. destruct (N.eqb_spec cap (i + cap)); [lia|].
      rewrite !andb_false_r in *. now apply (fc_end _ _ X).
  - intros j H1 H2. rewrite !(proj2 W). destruct (N.eqb_spec (cap + j) i); [lia|].
    destruct (N.eqb_spec j (i + cap)); [lia|]. rewrite andb_false_r.
    destruct (N.eqb_spec j i) as [->|Nj].
    + destruct (N.ltb_spec i 16); [|lia]. destruct (N.eqb_spec (cap + i) (i + cap)); [|lia].
      cbn [andb]. subst c'. destruct (N.eqb_spec i 0); [lia|]. reflexivity.
    + destruct (N.eqb_spec (cap + j) (i + cap)); [lia|]. rewrite andb_false_r. now apply (fc_mirror _ _ X).
  - intros j Hj. rewrite (proj2 W). destruct (N.eqb_spec j i); [lia|].
    destruct (N.eqb_spec j (i + cap)); [lia|]. rewrite andb_false_r. now apply (fc_tail _ _ X).
Qed.

Lemma shut_wrote C C' i c c' s : wrote C C' i c c' -> c <> fEmpty -> c' <> fEmpty -> shut C s -> shut C' s.
Proof.
  intros W Hc Hc' H p Hp. rewrite (proj2 W). specialize (H p Hp).
  destruct (s + p =? i); [congruence|]. destruct (_ && _); [congruence|auto].
Qed.

(** setUsed and construction. *)
Lemma construct_spec (t : fmap) i kv : fc (C_ t) (S_ t) -> f_cap K V t = cap -> chain (C_ t) (S_ t) ->
  spot (C_ t) (S_ t) (home (fst kv)) i ->
  exists C', f_construct K V hash mix t i kv
      = Ok (f_with K V t C' (seti (S_ t) i (Some kv)) (wadd (f_size _ _ t) 1) (f_left _ _ t))
    /\ wrote (C_ t) C' i (tag (fst kv)) (tag (fst kv))
    /\ fc C' (seti (S_ t) i (Some kv)) /\ chain C' (seti (S_ t) i (Some kv)).
Proof.
  intros X HM HC (Hi & Ei & HS). unfold f_construct, f_set_used. rewrite HM.
  destruct (wrote_spec _ _ i (tag (fst kv)) (tag (fst kv)) X Hi) as (C' & A & W).
  rewrite A. cbn [rbind]. rewrite Ei. exists C'. split; [reflexivity|]. split; auto.
  pose proof (tag_lt (fst kv)) as HT. split.
  - eapply fc_wrote; eauto. cbn beta iota.
    destruct (N.leb_spec 128 (tag (fst kv))); [lia|]. now rewrite andb_false_r.
  - intros j kv' w Ej Hd. assert (TE : tag (fst kv) <> fEmpty) by (unfold fEmpty; lia).
    rewrite geti_seti in Ej by (rewrite (fc_slen _ _ X); auto).
    destruct (N.eqb_spec j i) as [->|Nj].
    + injection Ej as <-. eapply shut_wrote; eauto.
    + eapply shut_wrote; eauto.
Qed.

End Ring.
