(** The calls to the allocators written down in Ledger2Model.v: every block is returned
    once and with its size as long as no request for slots is refused. *)
From Coq Require Import NArith List Bool Lia ZifyBool ZifyNat ZifyN.
From Verif Require Import Base BaseFacts BitsModel BitsFacts GroupModel TableModel LedgerModel LedgerSpec LedgerFacts
  RobinModel Flat16Model Robin16Model Ledger2Model Ledger2Spec.
Import ListNotations.
Open Scope N_scope.

(** ** The book-keeper *)

Section Follows.

Context {St : Type} (led : St -> book -> Prop) (ok : Prop).

(** The run [rl] with the book goes as [r], and the book stays right. *)
Definition follows {A} (r : out St A) (rl : out (St * book) A) : Prop :=
  match r with
  | Ret t' x => exists b', rl = Ret (t', b') x /\ led t' b'
  | Throw t' => ok -> exists b', rl = Throw (t', b') /\ led t' b'
  | Fail _ => True
  end.

Lemma follows_ret {A} t b (x : A) : led t b -> follows (Ret t x) (Ret (t, b) x).
Proof. intros H. exists b. auto. Qed.

Lemma follows_bind {A B} (r : out St A) rl (f : St -> A -> out St B) (fl : St * book -> A -> out (St * book) B) :
  follows r rl -> (forall t b x, led t b -> follows (f t x) (fl (t, b) x)) ->
  follows (obind r f) (obind rl fl).
Proof.
  intros H G. destruct r as [t x|t|e]; cbn [obind]; [| |exact I].
  - destruct H as (b & -> & L). cbn [obind]. auto.
  - intros O. destruct (H O) as (b & -> & L). cbn [obind]. eauto.
Qed.

(** The result is forgotten on both sides, and [r'] may fail where [r] does not. *)
Lemma follows_drop {A B} (r : out St A) rl (g : St -> A -> out St B) :
  follows r rl -> (forall t x, match g t x with Ret t' _ => t' = t | Throw _ => False | Fail _ => True end) ->
  match obind r g with
  | Ret t' _ => exists b', obind rl (fun s _ => Ret s tt) = Ret (t', b') tt /\ led t' b'
  | Throw t' => ok -> exists b', obind rl (fun s _ => Ret s tt) = Throw (t', b') /\ led t' b'
  | Fail _ => True
  end.
Proof.
  intros H G. destruct r as [t x|t|e]; cbn [obind]; [| |exact I].
  - destruct H as (b & -> & L). specialize (G t x). destruct (g t x) as [t' y|t'|e]; [|destruct G|exact I].
    subst t'. cbn [obind]. eauto.
  - intros O. destruct (H O) as (b & -> & L). cbn [obind]. eauto.
Qed.

End Follows.

Lemma strike_here b l : strike b (b :: l) = Some l.
Proof. cbn [strike]. now rewrite (proj2 (block_eqb_eq b b) eq_refl). Qed.

Lemma strike_past b c l : b <> c -> strike b (c :: l) =
  match strike b l with Some l => Some (c :: l) | None => None end.
Proof.
  intros H. cbn [strike]. destruct (block_eqb b c) eqn:E; [|reflexivity].
  apply block_eqb_eq in E. contradiction.
Qed.

Lemma note_alloc_play p n b l : play [] (bk_events b) = Some l ->
  Forall (fun c => b_addr c < bk_next b) l ->
  play [] (bk_events (note_alloc p n b)) = Some (mkBlock p (bk_next b) n :: l).
Proof.
  intros E H. unfold note_alloc. cbn [bk_events]. rewrite play_app, E. cbn [play].
  now rewrite existsb_clash.
Qed.

Lemma note_free_play p addr n b l : play [] (bk_events b) = Some l ->
  play [] (bk_events (note_free p addr n b)) = strike (mkBlock p addr n) l.
Proof.
  intros E. unfold note_free, note. cbn [bk_events]. rewrite play_app, E. cbn [play].
  now destruct (strike _ l).
Qed.

(** ** Numbers *)

Lemma round_up_range mn n cap : 1 < n -> round_up mn n = Ok cap -> 2 <= cap < two64.
Proof.
  intros H. unfold round_up, shl1. replace (1 <? n) with true by lia. cbn [orb].
  destruct (N.ltb_spec (bsr (wsub n 1) + 1) 64); [|discriminate]. intros E. injection E as <-.
  pose proof (N.pow_le_mono_r 2 1 (bsr (wsub n 1) + 1)).
  pose proof (N.pow_le_mono_r 2 (bsr (wsub n 1) + 1) 63). unfold two64. lia.
Qed.

Lemma calc_range min n cap : 2 <= min -> min < two64 -> n < two64 ->
  (let n := N.max n min in if is_pow2 n then Ok n else round_up min n) = Ok cap -> 2 <= cap < two64.
Proof.
  intros Hm Hm' Hn. cbv zeta. destruct (is_pow2 _).
  - intros E. injection E as <-. lia.
  - apply round_up_range. lia.
Qed.

Lemma cap_back cap : 2 <= cap < two64 -> wadd (wsub cap 1) 1 = cap.
Proof.
  intros H. rewrite wsub_small by lia. unfold wadd, w64. rewrite N.mod_small by lia. lia.
Qed.

Section RobinLedger.

Variables K V : Type.
Variable hash : K -> N.
Variable keq : K -> K -> bool.

Notation rmap := (rmap K V).

(** The blocks that a map owns. *)
Definition r_owned (t : rmap) (b : book) : list block :=
  if r_alloc _ _ t
  then [mkBlock PSlot (bk_s b) (r_max_slot_capacity K V t);
        mkBlock PGroup (bk_g b) (ctrl_words (r_group_count K V t))]
  else [].

Definition r_led (t : rmap) (b : book) : Prop :=
  play [] (bk_events b) = Some (r_owned t b) /\ bk_g b < bk_next b /\ bk_s b < bk_next b
  /\ r_size _ _ t < two64.

(** The members that say which blocks are owned. *)
Definition r_same (t t' : rmap) : Prop :=
  r_alloc _ _ t' = r_alloc _ _ t /\ r_mask _ _ t' = r_mask _ _ t /\ r_lookups _ _ t' = r_lookups _ _ t
  /\ (r_size _ _ t < two64 -> r_size _ _ t' < two64).

Lemma r_same_trans t1 t2 t3 : r_same t1 t2 -> r_same t2 t3 -> r_same t1 t3.
Proof. unfold r_same. intuition congruence. Qed.

Lemma r_same_refl t : r_same t t.
Proof. unfold r_same. auto. Qed.

Lemma r_led_same t t' b : r_same t t' -> r_led t b -> r_led t' b.
Proof.
  intros (E1 & E2 & E3 & E4) (L1 & L2 & L3 & L4). unfold r_led. split; auto.
  rewrite L1. unfold r_owned, r_group_count, r_max_slot_capacity, r_slot_capacity. now rewrite E1, E2, E3.
Qed.

Lemma r_with_same t cs sl n : n < two64 -> r_same t (r_with K V t cs sl n).
Proof. unfold r_same. cbn. auto. Qed.

Lemma wadd_lt x y : wadd x y < two64.
Proof. unfold wadd, w64. apply N.mod_lt. discriminate. Qed.
Lemma wsub_lt x y : wsub x y < two64.
Proof. unfold wsub, w64. apply N.mod_lt. discriminate. Qed.
Lemma wmul_lt x y : wmul x y < two64.
Proof. unfold wmul, w64. apply N.mod_lt. discriminate. Qed.

Lemma r_construct_same t cs sl i kv t' : r_construct K V t cs sl i kv = Ok t' -> r_same t t'.
Proof.
  unfold r_construct. destruct (geti sl i) as [[?|]|]; try discriminate.
  intros E. injection E as <-. apply r_with_same, wadd_lt.
Qed.

Lemma r_insert_at_same re t i si d kv t' f : r_insert_at K V re t i si d kv = Ok (t', f) -> r_same t t'.
Proof.
  unfold r_insert_at. destruct (r_alloc _ _ t); [|discriminate].
  destruct (geti _ i) as [c|]; [|discriminate]. destruct (c =? cEmpty).
  - destruct (r_construct _ _ _ _ _ _ _) eqn:E; cbn [rbind]; [|discriminate].
    intros Y. injection Y as <- _. eapply r_construct_same; eauto.
  - destruct (i =? si); [|discriminate].
    destruct (r_insert_to_place _ _ _ _ _ _) as [[[C S] o]|]; cbn [rbind]; [|discriminate].
    destruct (o || re).
    + destruct (r_construct _ _ _ _ _ _ _) eqn:E; cbn [rbind]; [|discriminate].
      intros Y. injection Y as <- _. eapply r_construct_same; eauto.
    + intros Y. injection Y as <- _. unfold r_same. cbn. auto.
Qed.

Lemma r_insert_all_same : forall l t t', r_insert_all K V hash keq l t = Ok t' -> r_same t t'.
Proof.
  induction l as [|kv l IH]; intros t t'; cbn [r_insert_all].
  - intros E. injection E as <-. apply r_same_refl.
  - unfold r_insert_no_grow. destruct (r_search _ _ _ _ _ _ _) as [[?|i d]|]; cbn [rbind]; try discriminate.
    destruct (slot_plus _ _) as [si|]; cbn [rbind]; [|discriminate].
    destruct (r_insert_at K V true t i si d kv) as [[t1 f]|] eqn:E; cbn [rbind]; [|discriminate].
    intros H. eapply r_same_trans; [eapply r_insert_at_same; eauto|auto].
Qed.

Lemma r_erase_same k t t' n : r_erase K V hash keq k t = Ret t' n -> r_same t t'.
Proof.
  unfold r_erase. destruct (r_search _ _ _ _ _ _ _) as [[i|? ?]|]; [| |discriminate].
  - destruct (i =? _); [intros E; injection E as <- _; apply r_same_refl|].
    unfold r_erase_slot. destruct (geti _ i) as [[?|]|]; try discriminate.
    destruct (r_shift _ _ _ _ _ _) as [[C S]|]; cbn [rbind]; [|discriminate].
    intros E. injection E as <- _. apply r_with_same, wsub_lt.
  - intros E. injection E as <- _. apply r_same_refl.
Qed.

Notation follow := (follows r_led False).

(** A fresh pair of blocks is added to the book. *)
Lemma rl_create_spec a cap b l : play [] (bk_events b) = Some l ->
  Forall (fun c => b_addr c < bk_next b) l ->
  rl_granted a (wadd cap (r_calc_lookups cap)) = true ->
  let total := wadd cap (r_calc_lookups cap) in
  let b' := rl_create_book a cap b in
  bk_g b' = bk_next b /\ bk_s b' = bk_next b + 1 /\ bk_next b' = bk_next b + 2
  /\ play [] (bk_events b') =
     Some (mkBlock PSlot (bk_next b + 1) total
           :: mkBlock PGroup (bk_next b) (ctrl_words (wadd total (rGroupWidth - 1) / rGroupWidth)) :: l).
Proof.
  intros E HL G. cbv zeta. unfold rl_create_book. unfold rl_granted in G. apply andb_true_iff in G.
  destruct G as [-> ->]. set (gc := _ / _). set (total := wadd cap _).
  cbn [point_s point_g note_alloc bk_g bk_s bk_next]. split; [reflexivity|]. split; [reflexivity|].
  split; [lia|].
  apply (note_alloc_play PSlot total (note_alloc PGroup (ctrl_words gc) b)); [now apply note_alloc_play|].
  cbn [note_alloc bk_next]. constructor; [cbn; lia|]. eapply Forall_impl; [|exact HL]. cbn. lia.
Qed.

Lemma r_fresh_owned (t : rmap) cap : 2 <= cap < two64 -> r_mask _ _ t = wsub cap 1 ->
  r_lookups _ _ t = r_calc_lookups cap -> r_max_slot_capacity K V t = wadd cap (r_calc_lookups cap).
Proof.
  intros H E1 E2. unfold r_max_slot_capacity, r_slot_capacity. rewrite E1, E2, cap_back by auto.
  replace (wsub cap 1 =? 0) with false; [reflexivity|]. rewrite wsub_small by lia. lia.
Qed.

Lemma rl_rehash_impl_spec a sh al t b n : r_led t b -> n < two64 ->
  follow (r_rehash_impl K V hash keq sh al (rl_granted a) t n) (rl_rehash_impl K V hash keq a sh al t b n).
Proof.
  intros L Hn. unfold follows, rl_rehash_impl, r_rehash_impl.
  destruct (r_calc_capacity n) as [cap|] eqn:EC; [|exact I].
  assert (HC : 2 <= cap < two64).
  { eapply (calc_range rMinCapacity n cap); [unfold rMinCapacity; lia|reflexivity|exact Hn|exact EC]. }
  cbv zeta. destruct (_ || _ || _); [|exists b; auto].
  unfold r_create. destruct (rl_granted a _) eqn:G; cbn [obind]; [|intros []].
  destruct (r_elements K V t) as [l|]; cbn [rbind]; [|exact I].
  destruct (r_insert_all _ _ _ _ _ _) as [t'|] eqn:EI; [|exact I].
  apply r_insert_all_same in EI. destruct L as (L1 & L2 & L3 & L4).
  assert (HF : Forall (fun c => b_addr c < bk_next b) (r_owned t b)).
  { unfold r_owned. destruct (r_alloc _ _ t); repeat constructor; cbn; lia. }
  pose proof (rl_create_spec a cap b _ L1 HF G) as (B1 & B2 & B3 & B4). cbv zeta in *.
  set (b1 := rl_create_book a cap b) in *.
  set (b2 := if true && r_alloc _ _ t then _ else b1).
  exists b2. split; [reflexivity|]. eapply r_led_same; [exact EI|].
  assert (BB : bk_g b2 = bk_g b1 /\ bk_s b2 = bk_s b1 /\ bk_next b2 = bk_next b1).
  { unfold b2. destruct (_ && _); cbn; auto. }
  destruct BB as (X1 & X2 & X3).
  unfold r_led. rewrite X1, X2, X3, B1, B2, B3. split; [|cbn; unfold two64; lia].
  unfold r_owned at 1. cbn [r_alloc]. rewrite X1, X2, B1, B2. unfold r_group_count.
  rewrite (r_fresh_owned _ cap HC) by reflexivity.
  unfold b2, r_owned in *. cbn [andb]. destruct (r_alloc _ _ t); [|exact B4].
  erewrite note_free_play.
  2: { erewrite note_free_play by exact B4.
       rewrite strike_past by congruence. rewrite strike_past.
       2: { intros X. injection X as X _. lia. }
       rewrite strike_past by congruence. rewrite strike_here. reflexivity. }
  rewrite strike_past by (intros X; injection X as X _; lia).
  rewrite strike_past by congruence. rewrite strike_here. reflexivity.
Qed.

Lemma rl_grow_spec a t b : r_led t b -> follow (r_grow K V hash keq (rl_granted a) t) (rl_grow K V hash keq a t b).
Proof. intros L. apply rl_rehash_impl_spec; auto. apply wmul_lt. Qed.

Lemma rl_emplace_spec a u k v : forall fuel t b, r_led t b ->
  follow (r_emplace K V hash keq fuel (rl_granted a) u k v t) (rl_emplace K V hash keq fuel a u k v t b).
Proof.
  induction fuel as [|fuel IH]; intros t b L; cbn [r_emplace rl_emplace]; [exact I|].
  destruct (r_search K V hash keq t true k) as [[i|i d]|]; [| |exact I].
  - destruct (geti _ i) as [[kv|]|]; try exact I. apply follows_ret. destruct u; auto.
  - cbv zeta. apply follows_bind.
    { destruct (_ || _); [now apply rl_grow_spec|now apply follows_ret]. }
    intros t1 b1 _ L1. destruct (if _ || _ then _ else Ok (Stop i d)) as [[?|i1 d1]|]; try exact I.
    destruct (r_insert_at K V false t1 i1 i1 d1 (k, v)) as [[t2 [|]]|] eqn:E; [| |exact I].
    + apply follows_ret. eapply r_led_same; [|exact L1]. eapply r_insert_at_same; eauto.
    + apply follows_bind; [apply rl_grow_spec; eapply r_led_same; [eapply r_insert_at_same; eauto|exact L1]|].
      intros t3 b3 _ L3. auto.
Qed.

Lemma rl_destroy_play t b : r_led t b -> play [] (bk_events (rl_destroy_book K V t b)) = Some [].
Proof.
  intros (L1 & _). unfold rl_destroy_book. unfold r_owned in L1. destruct (r_alloc _ _ t); [|exact L1].
  erewrite note_free_play; [apply strike_here|]. erewrite note_free_play by exact L1. apply strike_here.
Qed.

Lemma rl_destroy_next t b : bk_g (rl_destroy_book K V t b) = bk_g b /\ bk_s (rl_destroy_book K V t b) = bk_s b
  /\ bk_next (rl_destroy_book K V t b) = bk_next b.
Proof. unfold rl_destroy_book. destruct (r_alloc _ _ t); cbn; auto. Qed.

Lemma rl_clear_spec d t b : r_led t b -> follow (r_clear K V d t) (rl_clear K V d t b).
Proof.
  intros L. unfold rl_clear, r_clear. destruct (_ && _).
  - apply follows_ret. pose proof (rl_destroy_next t b) as (E1 & E2 & E3). unfold r_led.
    rewrite E1, E2, E3, rl_destroy_play by auto. split; [reflexivity|].
    destruct L as (_ & L2 & L3 & _). cbn. unfold two64. lia.
  - unfold r_clear_data. destruct (_ && _); [|exact I]. apply follows_ret.
    eapply r_led_same; [|exact L]. apply r_with_same. reflexivity.
Qed.

Lemma r_min_lt t n : r_min_require K V t n < two64.
Proof.
  unfold r_min_require. pose proof (wmul_lt n (r_rev _ _ t)).
  pose proof (N.div_le_upper_bound (wmul n (r_rev _ _ t)) 256 (wmul n (r_rev _ _ t))). lia.
Qed.

Lemma rl_rehash_spec a n t b : r_led t b ->
  follow (r_rehash K V hash keq (rl_granted a) n t) (rl_rehash K V hash keq a n t b).
Proof.
  intros L. apply rl_rehash_impl_spec; auto. pose proof (r_min_lt t n). destruct L as (_ & _ & _ & L). lia.
Qed.

Lemma rl_shrink_spec a ro t b : r_led t b ->
  follow (r_shrink K V hash keq (rl_granted a) ro t) (rl_shrink K V hash keq a ro t b).
Proof.
  intros L. apply rl_rehash_impl_spec; auto. destruct ro; [apply L|apply r_min_lt].
Qed.

Lemma rl_set_mlf_spec a m t b : r_led t b ->
  follow (r_set_mlf K V hash keq (rl_granted a) m t) (rl_set_mlf K V hash keq a m t b).
Proof.
  intros L. unfold r_set_mlf, rl_set_mlf. destruct (r_clamp m) as [x y]. cbv zeta.
  assert (L' : r_led (mkR K V (r_alloc _ _ t) (r_ctrls _ _ t) (r_slots _ _ t) (r_last _ _ t) (r_size _ _ t)
                          (r_mask _ _ t) (r_lookups _ _ t) (r_thr _ _ t) x y) b).
  { eapply r_led_same; [|exact L]. unfold r_same. cbn. auto. }
  destruct (_ && _); [now apply rl_rehash_spec|now apply follows_ret].
Qed.

Lemma follow_unit r rl : follow r rl ->
  match r_unit K V r with
  | Ret t' _ => exists b', rl = Ret (t', b') tt /\ r_led t' b'
  | _ => True
  end.
Proof.
  unfold r_unit. destruct r as [t []|t|e]; cbn [obind]; auto.
Qed.

Lemma rl_step_spec a o t b t' r : r_led t b -> r_step K V hash keq (rl_granted a) o t = Ret t' r ->
  exists b', rl_step K V hash keq a o t b = Ret (t', b') tt /\ r_led t' b'.
Proof.
  intros L.
  assert (HU : forall (x : out rmap unit) xl, follow x xl -> r_unit K V x = Ret t' r ->
             exists b', xl = Ret (t', b') tt /\ r_led t' b').
  { intros x xl H E. pose proof (follow_unit _ _ H) as X. now rewrite E in X. }
  assert (HI : forall u k v, r_ins K V (r_emplace K V hash keq 64 (rl_granted a) u k v t) = Ret t' r ->
             exists b', obind (rl_emplace K V hash keq 64 a u k v t b) (fun s _ => Ret s tt) = Ret (t', b') tt
                        /\ r_led t' b').
  { intros u k v E. pose proof (rl_emplace_spec a u k v 64 t b L) as H. revert E H. unfold r_ins.
    destruct (r_emplace _ _ _ _ _ _ _ _ _ _) as [t1 [i f]|t1|]; cbn [obind follows]; try discriminate.
    unfold r_lift. destruct (r_deref _ _ _ _); [|discriminate]. intros E (b' & -> & L').
    injection E as <- _. cbn [obind]. eauto. }
  unfold rl_step. destruct o; cbn [r_step]; cbv zeta.
  - apply HI.
  - apply HI.
  - destruct (r_erase K V hash keq k t) as [t1 m|t1|] eqn:E; cbn [obind]; try discriminate.
    intros X. injection X as <- _. exists b. split; auto. eapply r_led_same; [|exact L].
    eapply r_erase_same; eauto.
  - unfold r_lift. destruct (r_find_obs _ _ _ _ _ _); [|discriminate]. intros X. injection X as <- _. eauto.
  - unfold r_lift. destruct (r_contains _ _ _ _ _ _); [|discriminate]. intros X. injection X as <- _. eauto.
  - intros X. injection X as <- _. eauto.
  - apply HU. now apply rl_clear_spec.
  - apply HU. now apply rl_rehash_spec.
  - apply HU. now apply rl_rehash_spec.
  - apply HU. now apply rl_shrink_spec.
  - apply HU. now apply rl_set_mlf_spec.
Qed.

Lemma rl_run_spec : forall calls t b rs t', r_led t b ->
  r_run K V hash keq (map (fun c => (rl_granted (fst c), snd c)) calls) t = Ok (rs, t') -> ~ In None rs ->
  play [] (rl_run K V hash keq calls t b) = Some [].
Proof.
  induction calls as [|[a o] calls IH]; intros t b rs t' L; cbn [map r_run rl_run fst snd].
  - intros _ _. now apply rl_destroy_play.
  - destruct (r_step K V hash keq (rl_granted a) o t) as [t1 r|t1|e] eqn:E; [| |discriminate].
    + destruct (rl_step_spec a o t b t1 r L E) as (b1 & -> & L1).
      destruct (r_run _ _ _ _ _ t1) as [[rs1 t2]|] eqn:ER; cbn [rbind]; [|discriminate].
      intros X H. injection X as <- <-. eapply IH; eauto. intros Y. apply H. now right.
    + destruct (r_run _ _ _ _ _ t1) as [[rs1 t2]|] eqn:ER; cbn [rbind]; [|discriminate].
      intros X H. injection X as <- <-. destruct H. now left.
Qed.

Lemma robin_ledger calls rs t :
  r_run K V hash keq (map (fun c => (rl_granted (fst c), snd c)) calls) (rnew K V) = Ok (rs, t) -> ~ In None rs ->
  play [] (rl_events K V hash keq calls) = Some [].
Proof.
  apply rl_run_spec. unfold r_led, new_book. cbn. unfold two64. split; [reflexivity|]. lia.
Qed.

End RobinLedger.

(** ** flat16 and robin16 *)

(** The blocks of a map with [cap] slots. *)
Definition g_owned (cap : N) (b : book) : list block :=
  [mkBlock PSlot (bk_s b) cap; mkBlock PGroup (bk_g b) 0].

Definition g_led (cap size : N) (b : book) : Prop :=
  play [] (bk_events b) = Some (g_owned cap b) /\ 0 < bk_g b < bk_next b /\ 0 < bk_s b < bk_next b
  /\ size < two64.

Lemma g_create_spec a gc cap b l : play [] (bk_events b) = Some l ->
  Forall (fun c => b_addr c < bk_next b) l ->
  a_group a (gc + 1) = true -> a_slot a cap = true ->
  let b' := g_create_book a gc cap b in
  bk_g b' = bk_next b /\ bk_s b' = bk_next b + 1 /\ bk_next b' = bk_next b + 2
  /\ play [] (bk_events b') =
     Some (mkBlock PSlot (bk_next b + 1) cap :: mkBlock PGroup (bk_next b) 0 :: l).
Proof.
  intros E HL G1 G2. cbv zeta. unfold g_create_book. rewrite G1, G2.
  cbn [point_s point_g note_alloc bk_g bk_s bk_next]. split; [reflexivity|]. split; [reflexivity|].
  split; [lia|].
  apply (note_alloc_play PSlot cap (note_alloc PGroup 0 b)); [now apply note_alloc_play|].
  cbn [note_alloc bk_next]. constructor; [cbn; lia|]. eapply Forall_impl; [|exact HL]. cbn. lia.
Qed.

Lemma g_new_led a gc cap : a_group a (gc + 1) = true -> a_slot a cap = true ->
  g_led cap 0 (g_create_book a gc cap new_book).
Proof.
  intros G1 G2. pose proof (g_create_spec a gc cap new_book [] eq_refl (Forall_nil _) G1 G2) as (B1 & B2 & B3 & B4).
  unfold g_led, g_owned. rewrite B1, B2, B3, B4. cbn [new_book bk_next]. unfold two64. split; [reflexivity|]. lia.
Qed.

Lemma g_destroy_play cap size b : g_led cap size b ->
  let b' := g_destroy_book cap b in
  play [] (bk_events b') = Some [] /\ bk_next b' = bk_next b.
Proof.
  intros (L1 & L2 & L3 & _). cbv zeta. unfold g_destroy_book, free_if.
  replace (bk_s b =? 0) with false by lia. replace (bk_g b =? 0) with false by lia.
  split; [|reflexivity]. cbn [point_s point_g bk_events].
  erewrite note_free_play; [apply strike_here|]. erewrite note_free_play by exact L1. apply strike_here.
Qed.

(** The storage is replaced: two new blocks, then the old ones go. *)
Lemma g_replace a gc cap old size b : g_led old size b ->
  a_group a (gc + 1) = true -> a_slot a cap = true ->
  g_led cap 0 (free_if PGroup (bk_g b) 0 (note_free PSlot (bk_s b) old (g_create_book a gc cap b))).
Proof.
  intros (L1 & L2 & L3 & _) G1 G2.
  assert (HF : Forall (fun c => b_addr c < bk_next b) (g_owned old b)) by (repeat constructor; cbn; lia).
  pose proof (g_create_spec a gc cap b _ L1 HF G1 G2) as (B1 & B2 & B3 & B4).
  unfold free_if. replace (bk_g b =? 0) with false by lia.
  unfold g_led, g_owned. cbn [note_free note bk_g bk_s bk_next]. rewrite B1, B2, B3.
  split; [|unfold two64; lia].
  erewrite note_free_play.
  2: { erewrite note_free_play by exact B4.
       rewrite strike_past by (intros X; injection X as X _; lia).
       rewrite strike_past by congruence. unfold g_owned. rewrite strike_here. reflexivity. }
  rewrite strike_past by congruence. rewrite strike_past by (intros X; injection X as X; lia).
  rewrite strike_here. reflexivity.
Qed.

(** clear(true) on a large map: the old blocks go, then two new ones. *)
Lemma g_renew a gc cap old size b : g_led old size b ->
  a_group a (gc + 1) = true -> a_slot a cap = true ->
  g_led cap 0 (g_create_book a gc cap (g_destroy_book old b)).
Proof.
  intros L G1 G2. pose proof (g_destroy_play _ _ _ L) as (E & EN). cbv zeta in *.
  pose proof (g_create_spec a gc cap _ [] E (Forall_nil _) G1 G2) as (B1 & B2 & B3 & B4).
  unfold g_led, g_owned. rewrite B1, B2, B3, B4. destruct L as (_ & L2 & _). unfold two64.
  split; [reflexivity|]. lia.
Qed.

Definition is_clear {K V} (o : op K V) : bool := match o with OClear _ _ _ => true | _ => false end.

Lemma is_clear_false {K V} (o : op K V) : (forall d, o <> OClear K V d) -> is_clear o = false.
Proof. destruct o; auto. intros H. destruct (H need_destroy). reflexivity. Qed.

Section Flat16Ledger.

Variables K V : Type.
Variable hash : K -> N.
Variable keq : K -> K -> bool.
Variable mix : N -> N.
Variable trivial : bool.

Notation fmap := (fmap K V).

Definition f_led (t : fmap) (b : book) : Prop := g_led (f_cap K V t) (f_size _ _ t) b.

Definition f_same (t t' : fmap) : Prop :=
  f_mask _ _ t' = f_mask _ _ t /\ (f_size _ _ t < two64 -> f_size _ _ t' < two64).

Lemma f_led_same t t' b : f_same t t' -> f_led t b -> f_led t' b.
Proof.
  intros (E1 & E2) (L1 & L2 & L3 & L4). unfold f_led, g_led, f_cap in *. rewrite E1. auto.
Qed.

Lemma f_same_trans t1 t2 t3 : f_same t1 t2 -> f_same t2 t3 -> f_same t1 t3.
Proof. unfold f_same. intuition congruence. Qed.

Lemma f_construct_same t i kv t' : f_construct K V hash mix t i kv = Ok t' -> f_same t t'.
Proof.
  unfold f_construct. destruct (f_set_used _ _ _ _); cbn [rbind]; [|discriminate].
  destruct (geti _ i) as [[?|]|]; try discriminate. intros E. injection E as <-.
  split; [reflexivity|]. intros _. apply wadd_lt.
Qed.

Lemma f_transfer_same : forall is old t old' t',
  f_transfer K V hash mix old is t = Ok (old', t') -> f_same t t'.
Proof.
  induction is as [|i is IH]; intros old t old' t'; cbn [f_transfer].
  - intros E. injection E as _ <-. unfold f_same. auto.
  - destruct (geti old i) as [[kv|]|]; try discriminate. unfold f_insert_unique.
    destruct (f_first_empty _ _ _ _ _) as [j|]; cbn [rbind]; [|discriminate].
    destruct (f_construct _ _ _ _ t j kv) as [t1|] eqn:E; cbn [rbind]; [|discriminate].
    intros H. eapply f_same_trans; [eapply f_construct_same; eauto|eauto].
Qed.

Lemma f_drop_loop_same : forall fuel t i t', f_drop_loop K V hash mix fuel t i = Ok t' -> f_same t t'.
Proof.
  induction fuel as [|fuel IH]; intros t i t'; cbn [f_drop_loop]; [discriminate|].
  destruct (_ <=? i); [intros E; injection E as <-; unfold f_same; auto|].
  destruct (geti _ i) as [c|]; [|discriminate]. destruct (c =? fDeleted); [apply IH|].
  destruct (geti (f_slots _ _ t) i) as [[kv|]|]; try discriminate.
  destruct (f_first_non_used _ _ _ _ _) as [tg|]; cbn [rbind]; [|discriminate].
  destruct (_ && _).
  - destruct (f_set_used _ _ i _) as [cs|]; cbn [rbind]; [|discriminate]. intros H. exact (IH _ _ _ H).
  - destruct (geti (f_ctrls _ _ t) tg) as [c'|]; [|discriminate].
    destruct (geti (f_slots _ _ t) tg) as [s'|]; [|discriminate].
    destruct (f_set_used _ _ tg _) as [cs|]; cbn [rbind]; [|discriminate].
    destruct (c' =? fEmpty).
    + destruct (f_set_unused _ _ _ _) as [cs'|]; cbn [rbind]; [|discriminate].
      destruct s'; [discriminate|]. intros H. exact (IH _ _ _ H).
    + destruct s'; [|discriminate]. intros H. exact (IH _ _ _ H).
Qed.

Lemma f_drop_deleted_same t t' : f_drop_deleted K V hash mix t = Ok t' -> f_same t t'.
Proof.
  unfold f_drop_deleted. destruct (f_drop_loop _ _ _ _ _ _ _) as [t1|] eqn:E; cbn [rbind]; [|discriminate].
  intros X. injection X as <-. apply f_drop_loop_same in E. exact E.
Qed.

Lemma f_erase_same k t t' n : f_erase K V hash keq mix k t = Ok (t', n) -> f_same t t'.
Proof.
  unfold f_erase. destruct (f_find_index _ _ _ _ _ _ _) as [[i|]|]; cbn [rbind]; [| |discriminate].
  - unfold f_erase_slot. destruct (f_group _ i) as [g|]; cbn [rbind]; [|discriminate].
    destruct (if negb (match_empty g =? 0) then _ else _) as [[tag lf]|]; cbn [rbind]; [|discriminate].
    destruct (f_set_unused _ _ _ _); cbn [rbind]; [|discriminate].
    destruct (geti _ i) as [[?|]|]; cbn [rbind]; try discriminate. intros E. injection E as <- _.
    split; [reflexivity|]. intros _. apply wsub_lt.
  - intros E. injection E as <- _. unfold f_same. auto.
Qed.

Section Call.

Variable a : answers.
Notation slots_granted := (forall n, a_slot a n = true).
Notation follow := (follows f_led slots_granted).

Lemma fl_rehash_impl_spec sh al t b n : f_led t b -> n < two64 ->
  follow (f_rehash_impl K V hash mix sh al (pair_oracle a) t n) (fl_rehash_impl K V hash mix a sh al t b n).
Proof.
  intros L Hn. unfold follows, fl_rehash_impl, f_rehash_impl.
  destruct (f_calc_capacity n) as [cap|] eqn:EC; [|exact I].
  assert (HC : 2 <= cap < two64).
  { eapply (calc_range fMinCapacity n cap); [unfold fMinCapacity; lia|reflexivity|exact Hn|exact EC]. }
  cbv zeta. destruct (_ || _ || _); [|exists b; auto].
  unfold f_create. cbn [pair_oracle].
  set (gc := wadd cap _ / _) in *.
  destruct (a_group a (gc + 1)) eqn:G1.
  2: { intros _. exists b. split; [|exact L]. unfold g_create_book. rewrite G1. reflexivity. }
  destruct (a_slot a cap) eqn:G2; cbn [andb].
  2: { intros O. rewrite O in G2. discriminate. }
  destruct (f_used_positions K V t) as [is|]; cbn [rbind]; [|exact I].
  destruct (f_transfer _ _ _ _ _ _ _) as [[old t']|] eqn:ET; [|exact I].
  destruct (forallb is_none old); [|exact I]. eexists. split; [reflexivity|].
  apply f_transfer_same in ET.
  match type of ET with f_same ?x _ => assert (L' : f_led x (free_if PGroup (bk_g b) 0
     (note_free PSlot (bk_s b) (f_cap K V t) (g_create_book a gc cap b)))) end.
  { unfold f_led. cbn [f_cap f_size f_mask]. unfold f_cap at 1. cbn [f_mask]. rewrite cap_back by auto.
    now apply g_replace with (size := f_size _ _ t). }
  eapply f_led_same in L'; [|exact ET]. exact L'.
Qed.

Lemma fl_grow_spec t b : f_led t b -> follow (f_grow K V hash mix (pair_oracle a) t) (fl_grow K V hash mix a t b).
Proof.
  intros L. unfold f_grow, fl_grow. destruct (_ && _); [|apply fl_rehash_impl_spec; auto; apply wmul_lt].
  destruct (f_drop_deleted K V hash mix t) as [t'|] eqn:E; cbn [f_lift_unit]; [|exact I].
  apply follows_ret. eapply f_led_same; [eapply f_drop_deleted_same; eauto|exact L].
Qed.

Lemma fl_prepare_spec k : forall fuel t b, f_led t b ->
  follow (f_prepare K V hash keq mix fuel (pair_oracle a) k t) (fl_prepare K V hash keq mix fuel a k t b).
Proof.
  induction fuel as [|fuel IH]; intros t b L; [exact I|].
  assert (HG : follow (obind (f_grow K V hash mix (pair_oracle a) t) (fun t' _ => f_prepare K V hash keq mix fuel (pair_oracle a) k t'))
                 (obind (fl_grow K V hash mix a t b) (fun '(t', b') _ => fl_prepare K V hash keq mix fuel a k t' b'))).
  { apply follows_bind; [now apply fl_grow_spec|]. intros t1 b1 _ L1. auto. }
  cbn [fl_prepare]. cbv zeta.
  destruct (f_search K V hash keq mix t k) as [[i|last m|]|] eqn:ES.
  - cbn [f_prepare]. rewrite ES. now apply follows_ret.
  - destruct (f_need_grow K V t) eqn:EN.
    + cbn [f_prepare]. rewrite ES, EN. exact HG.
    + assert (X : match f_prepare K V hash keq mix (S fuel) (pair_oracle a) k t with
                  | Ret t' _ => f_same t t' | Throw _ => False | Fail _ => True end).
      { cbn [f_prepare]. rewrite ES, EN. unfold f_same. destruct (negb _).
        - destruct (f_deleted_loop _ _ _ _ _ _ _) as [[?|]|]; cbn; auto.
        - destruct (f_group _ _) as [g|]; [|exact I]. destruct (negb _); cbn; auto. }
      destruct (f_prepare K V hash keq mix (S fuel) (pair_oracle a) k t) as [t' r|t'|e];
        [|destruct X|exact I].
      apply follows_ret. eapply f_led_same; eauto.
  - cbn [f_prepare]. rewrite ES. exact HG.
  - cbn [f_prepare]. rewrite ES. exact I.
Qed.

Lemma fl_emplace_spec u k v t b : f_led t b ->
  match f_emplace K V hash keq mix (pair_oracle a) u k v t with
  | Ret t' _ => exists b', fl_emplace K V hash keq mix a u k v t b = Ret (t', b') tt /\ f_led t' b'
  | Throw t' => slots_granted ->
      exists b', fl_emplace K V hash keq mix a u k v t b = Throw (t', b') /\ f_led t' b'
  | Fail _ => True
  end.
Proof.
  intros L. unfold f_emplace, fl_emplace. pose proof (fl_prepare_spec k 64 t b L) as H.
  destruct (f_prepare _ _ _ _ _ _ _ _ _) as [t1 [i e]|t1|]; cbn [obind follows] in *; [| |exact I].
  - destruct H as (b1 & -> & L1). cbn [obind]. destruct e.
    + destruct (geti _ i) as [[kv|]|]; try exact I. destruct u; (eexists; split; [reflexivity|]); exact L1.
    + destruct (f_construct _ _ _ _ t1 i (k, v)) as [t2|] eqn:E; [|exact I].
      eexists. split; [reflexivity|]. eapply f_led_same; [eapply f_construct_same; eauto|exact L1].
  - intros O. destruct (H O) as (b1 & -> & L1). cbn [obind]. eauto.
Qed.

Lemma fl_clear_ret d t b t' r : f_led t b -> f_clear K V trivial (pair_oracle a) d t = Ret t' r ->
  exists b', fl_clear K V trivial a d t b = Ret (t', b') r /\ f_led t' b'.
Proof.
  intros L E. unfold fl_clear. rewrite E. eexists. split; [reflexivity|]. revert E. unfold f_clear.
  destruct (_ && _).
  - destruct (f_destroy K V t); [|discriminate]. unfold f_create. cbn [pair_oracle].
    set (gc := wadd fDefaultCapacity _ / _).
    destruct (a_group a (gc + 1)) eqn:G1; [|discriminate]. destruct (a_slot a fDefaultCapacity) eqn:G2; [|discriminate].
    intros E. injection E as <- _. unfold f_led. cbn [f_cap f_size f_mask]. unfold f_cap at 1. cbn [f_mask].
    change (wadd (wsub fDefaultCapacity 1) 1) with fDefaultCapacity.
    now apply g_renew with (size := f_size _ _ t).
  - destruct (if trivial then _ else _) as [sl|]; [|discriminate].
    destruct (f_clear_groups _ _) as [cs|]; [|discriminate]. intros E. injection E as <- _.
    eapply f_led_same; [|exact L]. split; [reflexivity|]. intros _. reflexivity.
Qed.

Lemma fl_min_lt rev n : f_min_require rev n < two64.
Proof.
  unfold f_min_require, fAmplify. pose proof (wmul_lt n rev).
  pose proof (N.div_le_upper_bound (wmul n rev) 65536 (wmul n rev)). lia.
Qed.

Lemma fl_rehash_spec n t b : f_led t b ->
  follow (f_rehash K V hash mix (pair_oracle a) false n t) (fl_rehash K V hash mix a n t b).
Proof.
  intros L. apply fl_rehash_impl_spec; auto. pose proof (fl_min_lt (f_rev _ _ t) n).
  destruct L as (_ & _ & _ & L). lia.
Qed.

Lemma fl_shrink_spec ro t b : f_led t b ->
  follow (f_shrink K V hash mix (pair_oracle a) ro t) (fl_shrink K V hash mix a ro t b).
Proof. intros L. apply fl_rehash_impl_spec; auto. destruct ro; [apply L|apply fl_min_lt]. Qed.

Lemma fl_set_mlf_spec x t b : f_led t b ->
  follow (f_set_mlf K V hash mix (pair_oracle a) x t) (fl_set_mlf K V hash mix a x t b).
Proof.
  intros L. unfold f_set_mlf, fl_set_mlf. cbv zeta.
  set (t1 := mkF K V _ _ _ _ _ _ _ _). assert (L1 : f_led t1 b) by exact L.
  destruct (_ <? _); [|now apply follows_ret]. destruct (_ || _ || _); [now apply fl_rehash_spec|].
  destruct (f_drop_deleted K V hash mix t1) as [t2|] eqn:E; cbn [f_lift_unit]; [|exact I].
  apply follows_ret. eapply f_led_same; [eapply f_drop_deleted_same; eauto|exact L1].
Qed.

Lemma fl_step_spec o t b : f_led t b ->
  match f_step K V hash keq mix trivial (pair_oracle a) o t with
  | Ret t' _ => exists b', fl_step K V hash keq mix trivial a o t b = Ret (t', b') tt /\ f_led t' b'
  | Throw t' => slots_granted -> is_clear o = false ->
      exists b', fl_step K V hash keq mix trivial a o t b = Throw (t', b') /\ f_led t' b'
  | Fail _ => True
  end.
Proof.
  intros L.
  assert (HU : forall (x : out fmap unit) xl, follow x xl ->
             match f_unit K V x with
             | Ret t' _ => exists b', xl = Ret (t', b') tt /\ f_led t' b'
             | Throw t' => slots_granted -> is_clear o = false -> exists b', xl = Throw (t', b') /\ f_led t' b'
             | Fail _ => True
             end).
  { intros x xl H. unfold f_unit. destruct x as [t1 []|t1|]; cbn [obind]; auto. }
  assert (HI : forall u k v, match f_ins K V (f_emplace K V hash keq mix (pair_oracle a) u k v t) with
             | Ret t' _ => exists b', fl_emplace K V hash keq mix a u k v t b = Ret (t', b') tt /\ f_led t' b'
             | Throw t' => slots_granted -> is_clear o = false ->
                 exists b', fl_emplace K V hash keq mix a u k v t b = Throw (t', b') /\ f_led t' b'
             | Fail _ => True
             end).
  { intros u k v. pose proof (fl_emplace_spec u k v t b L) as H. unfold f_ins.
    destruct (f_emplace _ _ _ _ _ _ _ _ _ _) as [t1 [i f]|t1|]; cbn [obind]; auto.
    unfold f_lift. destruct (f_deref _ _ _ _); auto. }
  unfold fl_step. destruct o; cbn [f_step].
  - apply HI.
  - apply HI.
  - destruct (f_erase K V hash keq mix k t) as [[t1 m]|] eqn:E; [|exact I].
    exists b. split; auto. eapply f_led_same; [|exact L]. eapply f_erase_same; eauto.
  - unfold f_lift. destruct (f_find_obs _ _ _ _ _ _ _); [|exact I]. eauto.
  - unfold f_lift. destruct (f_find_index _ _ _ _ _ _ _); [|exact I]. eauto.
  - eauto.
  - destruct (f_clear K V trivial (pair_oracle a) need_destroy t) as [t1 r|t1|] eqn:E; cbn [f_unit obind is_clear];
      [|discriminate|exact I].
    destruct r. eapply fl_clear_ret; eauto.
  - apply HU. now apply fl_rehash_spec.
  - apply HU. now apply fl_rehash_spec.
  - apply HU. now apply fl_shrink_spec.
  - apply HU. now apply fl_set_mlf_spec.
Qed.

End Call.

Lemma fl_run_spec : forall calls t b rs t', f_led t b ->
  f_run K V hash keq mix trivial (map (fun c => (pair_oracle (fst c), snd c)) calls) t = Ok (rs, t') ->
  Forall2 fair calls rs -> play [] (fl_run K V hash keq mix trivial calls t b) = Some [].
Proof.
  induction calls as [|[a o] calls IH]; intros t b rs t' L; cbn [map f_run fl_run fst snd].
  - intros _ _. now apply (g_destroy_play _ _ _ L).
  - pose proof (fl_step_spec a o t b L) as H.
    destruct (f_step K V hash keq mix trivial (pair_oracle a) o t) as [t1 r|t1|e] eqn:E; [| |discriminate].
    + destruct H as (b1 & -> & L1).
      destruct (f_run _ _ _ _ _ _ _ t1) as [[rs1 t2]|] eqn:ER; cbn [rbind]; [|discriminate].
      intros X F. injection X as <- <-. inversion F; subst. eapply IH; eauto.
    + destruct (f_run _ _ _ _ _ _ _ t1) as [[rs1 t2]|] eqn:ER; cbn [rbind]; [|discriminate].
      intros X F. injection X as <- <-. inversion F as [|? ? ? ? FH FT]; subst.
      destruct (FH eq_refl) as [F1 F2]. destruct (H F1 (is_clear_false _ F2)) as (b1 & -> & L1). eapply IH; eauto.
Qed.

Lemma flat16_ledger a n t0 calls rs t : n < two64 -> f_new K V (pair_oracle a) n = Ret t0 tt ->
  f_run K V hash keq mix trivial (map (fun c => (pair_oracle (fst c), snd c)) calls) t0 = Ok (rs, t) ->
  Forall2 fair calls rs -> play [] (fl_events K V hash keq mix trivial a n calls) = Some [].
Proof.
  intros Hn E ER F. unfold fl_events, fl_new. rewrite E.
  unfold f_new, f_create_init in E. destruct (f_calc_capacity n) as [cap|] eqn:EC; [|discriminate].
  assert (HC : 2 <= cap < two64).
  { eapply (calc_range fMinCapacity n cap); [unfold fMinCapacity; lia|reflexivity|exact Hn|exact EC]. }
  cbv zeta. eapply fl_run_spec; eauto. revert E. unfold f_create. cbn [pair_oracle].
  set (gc := wadd cap _ / _).
  destruct (a_group a (gc + 1)) eqn:G1; [|discriminate]. destruct (a_slot a cap) eqn:G2; [|discriminate].
  intros E. injection E as <-. unfold f_led. cbn [f_cap f_size f_mask]. unfold f_cap. cbn [f_mask].
  rewrite cap_back by auto. now apply g_new_led.
Qed.

(** A constructor that is refused the groups leaves nothing behind. *)
Lemma flat16_refused a n t0 calls : (forall m, a_slot a m = true) -> f_new K V (pair_oracle a) n = Throw t0 ->
  play [] (fl_events K V hash keq mix trivial a n calls) = Some [].
Proof.
  intros O E. unfold fl_events, fl_new. rewrite E. unfold f_new, f_create_init in E.
  destruct (f_calc_capacity n) as [cap|]; [|discriminate]. revert E. unfold f_create. cbv zeta. cbn [pair_oracle].
  rewrite O. unfold g_create_book. destruct (a_group a _); [discriminate|]. reflexivity.
Qed.

End Flat16Ledger.

Section Robin16Ledger.

Variables K V : Type.
Variable hash : K -> N.
Variable keq : K -> K -> bool.
Variable wide : bool.
Variable trivial : bool.

Notation qmap := (qmap K V).

Definition q_led (t : qmap) (b : book) : Prop := g_led (q_cap K V t) (q_size _ _ t) b.

Definition q_same (t t' : qmap) : Prop :=
  q_mask _ _ t' = q_mask _ _ t /\ (q_size _ _ t < two64 -> q_size _ _ t' < two64).

Lemma q_led_same t t' b : q_same t t' -> q_led t b -> q_led t' b.
Proof.
  intros (E1 & E2) (L1 & L2 & L3 & L4). unfold q_led, g_led, q_cap in *. rewrite E1. auto.
Qed.

Lemma q_same_trans t1 t2 t3 : q_same t1 t2 -> q_same t2 t3 -> q_same t1 t3.
Proof. unfold q_same. intuition congruence. Qed.

Lemma q_insert_at_same re t i d kv t' f : q_insert_at K V hash trivial re t i d kv = Ok (t', f) -> q_same t t'.
Proof.
  unfold q_insert_at. destruct (geti _ i) as [c|]; [|discriminate].
  destruct (if is_empty16 c then _ else _) as [[[cs sl] g]|]; cbn [rbind]; [|discriminate].
  destruct (g && negb re); [intros E; injection E as <- _; unfold q_same; auto|].
  destruct (q_build _ _ _ _ _ _) as [sl'|]; cbn [rbind]; [|discriminate].
  intros E. injection E as <- _. split; [reflexivity|]. intros _. apply wadd_lt.
Qed.

Lemma q_transfer_same : forall is old t old' t',
  q_transfer K V hash keq wide trivial old is t = Ok (old', t') -> q_same t t'.
Proof.
  induction is as [|i is IH]; intros old t old' t'; cbn [q_transfer].
  - intros E. injection E as _ <-. unfold q_same. auto.
  - destruct (q_read K V old i) as [kv|]; cbn [rbind]; [|discriminate]. unfold q_move_insert.
    destruct (q_search _ _ _ _ _ _ _ _ _) as [[?|j d|]|]; cbn [rbind]; try discriminate.
    destruct (q_insert_at _ _ _ _ _ t j d kv) as [[t1 f]|] eqn:E; cbn [rbind]; [|discriminate].
    destruct (q_drop _ _ _ _ _) as [old1|]; cbn [rbind]; [|discriminate].
    intros H. eapply q_same_trans; [eapply q_insert_at_same; eauto|eauto].
Qed.

Lemma q_erase_same k t t' n : q_erase K V hash keq wide trivial k t = Ok (t', n) -> q_same t t'.
Proof.
  unfold q_erase. destruct (q_find_index _ _ _ _ _ _ _) as [[i|]|]; cbn [rbind]; [| |discriminate].
  - unfold q_erase_slot. destruct (q_drop _ _ _ _ i) as [sl|]; cbn [rbind]; [|discriminate].
    destruct (q_shift _ _ _ _ _ _ _ _) as [[cs sl']|]; cbn [rbind]; [|discriminate].
    intros E. injection E as <- _. split; [reflexivity|]. intros _. apply wsub_lt.
  - intros E. injection E as <- _. unfold q_same. auto.
Qed.

Section Call.

Variable a : answers.
Notation slots_granted := (forall n, a_slot a n = true).
Notation follow := (follows q_led slots_granted).

Lemma ql_rehash_impl_spec sh al t b n : q_led t b -> n < two64 ->
  follow (q_rehash_impl K V hash keq wide trivial sh al (pair_oracle a) t n)
         (ql_rehash_impl K V hash keq wide trivial a sh al t b n).
Proof.
  intros L Hn. unfold follows, ql_rehash_impl, q_rehash_impl.
  destruct (q_calc_capacity n) as [cap|] eqn:EC; [|exact I].
  assert (HC : 2 <= cap < two64).
  { eapply (calc_range qMinCapacity n cap); [unfold qMinCapacity; lia|reflexivity|exact Hn|exact EC]. }
  cbv zeta. destruct (_ || _ || _); [|exists b; auto].
  unfold q_create. cbn [pair_oracle].
  set (gc := wadd cap _ / _) in *.
  destruct (a_group a (gc + 1)) eqn:G1.
  2: { intros _. exists b. split; [|exact L]. unfold g_create_book. rewrite G1. reflexivity. }
  destruct (a_slot a cap) eqn:G2; cbn [andb].
  2: { intros O. rewrite O in G2. discriminate. }
  destruct (q_used_positions K V wide t) as [is|]; cbn [rbind]; [|exact I].
  destruct (q_transfer _ _ _ _ _ _ _ _ _) as [[old t']|] eqn:ET; [|exact I].
  destruct (q_no_leak _ _ trivial old); [|exact I]. eexists. split; [reflexivity|].
  apply q_transfer_same in ET.
  match type of ET with q_same ?x _ => assert (L' : q_led x (free_if PGroup (bk_g b) 0
     (note_free PSlot (bk_s b) (q_cap K V t) (g_create_book a gc cap b)))) end.
  { unfold q_led. cbn [q_size q_mask]. unfold q_cap at 1. cbn [q_mask]. rewrite cap_back by auto.
    now apply g_replace with (size := q_size _ _ t). }
  eapply q_led_same in L'; [|exact ET]. exact L'.
Qed.

Lemma ql_grow_spec t b : q_led t b ->
  follow (q_grow K V hash keq wide trivial (pair_oracle a) t) (ql_grow K V hash keq wide trivial a t b).
Proof. intros L. apply ql_rehash_impl_spec; auto; apply wmul_lt. Qed.

Lemma ql_prepare_spec k : forall fuel t b, q_led t b ->
  follow (q_prepare K V hash keq wide trivial fuel (pair_oracle a) k t)
         (ql_prepare K V hash keq wide trivial fuel a k t b).
Proof.
  induction fuel as [|fuel IH]; intros t b L; [exact I|]. cbn [q_prepare ql_prepare]. cbv zeta.
  assert (HG : follow (obind (q_grow K V hash keq wide trivial (pair_oracle a) t)
                         (fun t' _ => q_prepare K V hash keq wide trivial fuel (pair_oracle a) k t'))
                 (obind (ql_grow K V hash keq wide trivial a t b)
                         (fun '(t', b') _ => ql_prepare K V hash keq wide trivial fuel a k t' b'))).
  { apply follows_bind; [now apply ql_grow_spec|]. intros t1 b1 _ L1. auto. }
  destruct (q_search K V hash keq wide 4 t (Some k) k) as [[i|i d|]|]; [| |exact HG|exact I].
  - now apply follows_ret.
  - destruct (q_need_grow K V t); [exact HG|now apply follows_ret].
Qed.

Lemma ql_emplace_spec u k v : forall fuel t b, q_led t b ->
  follow (q_emplace K V hash keq wide trivial fuel (pair_oracle a) u k v t)
         (ql_emplace K V hash keq wide trivial fuel a u k v t b).
Proof.
  induction fuel as [|fuel IH]; intros t b L; [exact I|]. cbn [q_emplace ql_emplace].
  apply follows_bind; [now apply ql_prepare_spec|]. intros t1 b1 [[i d] e] L1. destruct e.
  - destruct (q_read K V _ i) as [kv|].
    + destruct u; now apply follows_ret.
    + destruct u; [exact I|now apply follows_ret].
  - destruct (q_insert_at K V hash trivial false t1 i d (k, v)) as [[t2 [|]]|] eqn:E; [| |exact I].
    + apply follows_bind; [apply ql_grow_spec; eapply q_led_same; [eapply q_insert_at_same; eauto|exact L1]|].
      intros t3 b3 _ L3. auto.
    + apply follows_ret. eapply q_led_same; [|exact L1]. eapply q_insert_at_same; eauto.
Qed.

Lemma ql_clear_ret d t b t' r : q_led t b -> q_clear K V trivial (pair_oracle a) d t = Ret t' r ->
  exists b', ql_clear K V trivial a d t b = Ret (t', b') r /\ q_led t' b'.
Proof.
  intros L E. unfold ql_clear. rewrite E. eexists. split; [reflexivity|]. revert E. unfold q_clear.
  destruct (_ && _).
  - destruct (q_destroy K V trivial t); [|discriminate]. unfold q_create. cbn [pair_oracle].
    set (gc := wadd qDefaultCapacity _ / _).
    destruct (a_group a (gc + 1)) eqn:G1; [|discriminate]. destruct (a_slot a qDefaultCapacity) eqn:G2; [|discriminate].
    intros E. injection E as <- _. unfold q_led. cbn [q_size q_mask]. unfold q_cap at 1. cbn [q_mask].
    change (wadd (wsub qDefaultCapacity 1) 1) with qDefaultCapacity.
    now apply g_renew with (size := q_size _ _ t).
  - destruct (q_destroy_slots K V trivial t) as [sl|]; [|discriminate]. intros E. injection E as <- _.
    eapply q_led_same; [|exact L]. split; [reflexivity|]. intros _. reflexivity.
Qed.

Lemma ql_min_lt rev n : q_min_require rev n < two64.
Proof.
  unfold q_min_require, qAmplify. pose proof (wmul_lt n rev).
  pose proof (N.div_le_upper_bound (wmul n rev) 65536 (wmul n rev)). lia.
Qed.

Lemma ql_rehash_spec n t b : q_led t b ->
  follow (q_rehash K V hash keq wide trivial (pair_oracle a) false n t) (ql_rehash K V hash keq wide trivial a n t b).
Proof.
  intros L. apply ql_rehash_impl_spec; auto. pose proof (ql_min_lt (q_rev _ _ t) n).
  destruct L as (_ & _ & _ & L). lia.
Qed.

Lemma ql_shrink_spec ro t b : q_led t b ->
  follow (q_shrink K V hash keq wide trivial (pair_oracle a) ro t) (ql_shrink K V hash keq wide trivial a ro t b).
Proof. intros L. apply ql_rehash_impl_spec; auto. destruct ro; [apply L|apply ql_min_lt]. Qed.

Lemma ql_set_mlf_spec x t b : q_led t b ->
  follow (q_set_mlf K V hash keq wide trivial (pair_oracle a) x t) (ql_set_mlf K V hash keq wide trivial a x t b).
Proof.
  intros L. unfold q_set_mlf, ql_set_mlf. cbv zeta.
  set (t1 := mkQ K V _ _ _ _ _ _ _ _). assert (L1 : q_led t1 b) by exact L.
  destruct (_ && _); [now apply ql_rehash_spec|now apply follows_ret].
Qed.

Lemma ql_step_spec o t b : q_led t b ->
  match q_step K V hash keq wide trivial (pair_oracle a) o t with
  | Ret t' _ => exists b', ql_step K V hash keq wide trivial a o t b = Ret (t', b') tt /\ q_led t' b'
  | Throw t' => slots_granted -> is_clear o = false ->
      exists b', ql_step K V hash keq wide trivial a o t b = Throw (t', b') /\ q_led t' b'
  | Fail _ => True
  end.
Proof.
  intros L.
  assert (HU : forall (x : out qmap unit) xl, follow x xl ->
             match q_unit K V x with
             | Ret t' _ => exists b', xl = Ret (t', b') tt /\ q_led t' b'
             | Throw t' => slots_granted -> is_clear o = false -> exists b', xl = Throw (t', b') /\ q_led t' b'
             | Fail _ => True
             end).
  { intros x xl H. unfold q_unit. destruct x as [t1 []|t1|]; cbn [obind]; auto. }
  assert (HI : forall u k v, match q_ins K V (q_emplace K V hash keq wide trivial 64 (pair_oracle a) u k v t) with
             | Ret t' _ => exists b', obind (ql_emplace K V hash keq wide trivial 64 a u k v t b) (fun s _ => Ret s tt)
                                      = Ret (t', b') tt /\ q_led t' b'
             | Throw t' => slots_granted -> is_clear o = false ->
                 exists b', obind (ql_emplace K V hash keq wide trivial 64 a u k v t b) (fun s _ => Ret s tt)
                            = Throw (t', b') /\ q_led t' b'
             | Fail _ => True
             end).
  { intros u k v. pose proof (ql_emplace_spec u k v 64 t b L) as H. unfold q_ins.
    destruct (q_emplace _ _ _ _ _ _ _ _ _ _ _) as [t1 [i f]|t1|]; cbn [obind follows] in *; auto.
    - destruct H as (b1 & -> & L1). unfold q_lift. destruct (q_deref _ _ _ _); [|exact I]. cbn [obind]. eauto.
    - intros O _. destruct (H O) as (b1 & -> & L1). cbn [obind]. eauto. }
  unfold ql_step. destruct o; cbn [q_step]; cbv zeta.
  - apply HI.
  - apply HI.
  - destruct (q_erase K V hash keq wide trivial k t) as [[t1 m]|] eqn:E; [|exact I].
    exists b. split; auto. eapply q_led_same; [|exact L]. eapply q_erase_same; eauto.
  - unfold q_lift. destruct (q_find_obs _ _ _ _ _ _ _); [|exact I]. eauto.
  - unfold q_lift. destruct (q_find_index _ _ _ _ _ _ _); [|exact I]. eauto.
  - eauto.
  - destruct (q_clear K V trivial (pair_oracle a) need_destroy t) as [t1 r|t1|] eqn:E; cbn [q_unit obind is_clear];
      [|discriminate|exact I].
    destruct r. eapply ql_clear_ret; eauto.
  - apply HU. now apply ql_rehash_spec.
  - apply HU. now apply ql_rehash_spec.
  - apply HU. now apply ql_shrink_spec.
  - apply HU. now apply ql_set_mlf_spec.
Qed.

End Call.

Lemma ql_run_spec : forall calls t b rs t', q_led t b ->
  q_run K V hash keq wide trivial (map (fun c => (pair_oracle (fst c), snd c)) calls) t = Ok (rs, t') ->
  Forall2 fair calls rs -> play [] (ql_run K V hash keq wide trivial calls t b) = Some [].
Proof.
  induction calls as [|[a o] calls IH]; intros t b rs t' L; cbn [map q_run ql_run fst snd].
  - intros _ _. now apply (g_destroy_play _ _ _ L).
  - pose proof (ql_step_spec a o t b L) as H.
    destruct (q_step K V hash keq wide trivial (pair_oracle a) o t) as [t1 r|t1|e] eqn:E; [| |discriminate].
    + destruct H as (b1 & -> & L1).
      destruct (q_run _ _ _ _ _ _ _ t1) as [[rs1 t2]|] eqn:ER; cbn [rbind]; [|discriminate].
      intros X F. injection X as <- <-. inversion F; subst. eapply IH; eauto.
    + destruct (q_run _ _ _ _ _ _ _ t1) as [[rs1 t2]|] eqn:ER; cbn [rbind]; [|discriminate].
      intros X F. injection X as <- <-. inversion F as [|? ? ? ? FH FT]; subst.
      destruct (FH eq_refl) as [F1 F2]. destruct (H F1 (is_clear_false _ F2)) as (b1 & -> & L1). eapply IH; eauto.
Qed.

Lemma robin16_ledger a n t0 calls rs t : n < two64 -> q_new K V (pair_oracle a) n = Ret t0 tt ->
  q_run K V hash keq wide trivial (map (fun c => (pair_oracle (fst c), snd c)) calls) t0 = Ok (rs, t) ->
  Forall2 fair calls rs -> play [] (ql_events K V hash keq wide trivial a n calls) = Some [].
Proof.
  intros Hn E ER F. unfold ql_events, ql_new. rewrite E.
  unfold q_new, q_create_init in E. destruct (q_calc_capacity n) as [cap|] eqn:EC; [|discriminate].
  assert (HC : 2 <= cap < two64).
  { eapply (calc_range qMinCapacity n cap); [unfold qMinCapacity; lia|reflexivity|exact Hn|exact EC]. }
  cbv zeta. eapply ql_run_spec; eauto. revert E. unfold q_create. cbn [pair_oracle].
  set (gc := wadd cap _ / _).
  destruct (a_group a (gc + 1)) eqn:G1; [|discriminate]. destruct (a_slot a cap) eqn:G2; [|discriminate].
  intros E. injection E as <-. unfold q_led. cbn [q_cap q_size q_mask]. unfold q_cap. cbn [q_mask].
  rewrite cap_back by auto. now apply g_new_led.
Qed.

(** A constructor that is refused the groups leaves nothing behind. *)
Lemma robin16_refused a n t0 calls : (forall m, a_slot a m = true) -> q_new K V (pair_oracle a) n = Throw t0 ->
  play [] (ql_events K V hash keq wide trivial a n calls) = Some [].
Proof.
  intros O E. unfold ql_events, ql_new. rewrite E. unfold q_new, q_create_init in E.
  destruct (q_calc_capacity n) as [cap|]; [|discriminate]. revert E. unfold q_create. cbv zeta. cbn [pair_oracle].
  rewrite O. unfold g_create_book. destruct (a_group a _); [discriminate|]. reflexivity.
Qed.

End Robin16Ledger.
