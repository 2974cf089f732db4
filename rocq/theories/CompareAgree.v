(** The models with a key equality that may throw, and the models without: with an
    equality that answers the same at all times, every call of every map does the same in
    every state. *)
From Coq Require Import NArith ZArith List Bool.
From Verif Require Import Base BitsModel ProberModel GroupModel TableModel RobinModel Flat16Model Robin16Model
  CompareModel Compare2Model Compare3Model Compare4Model.
Import ListNotations.
Open Scope N_scope.

Section Agree.

Context {K V : Type} (hash : K -> N) (keq : K -> K -> bool).

Notation never := (fun _ _ : K => false).
Notation cmp := (fun (_ : list K) (k k' : K) => Some (keq k' k)).
Notation cmp' := (fun (_ : list K) (k k' : K) => Some (keq k k')).

(** ** The robin hood map *)

Lemma r_scan_agree C S k fuel : forall i d seen, exists seen',
  r_scan_c K V cmp fuel C S k i d seen =
  match r_scan K V keq fuel C S (Some k) i d with
  | Err e => Err e
  | Ok (RobinModel.Found j) => Ok (seen', RHit j)
  | Ok (Stop j n) => Ok (seen', RStop j n)
  end.
Proof.
  induction fuel as [|fuel IH]; intros i d seen; cbn [r_scan_c r_scan]; [now exists seen|].
  destruct (geti C i) as [c|]; [|now exists seen].
  destruct (s8 d <=? s8 c)%Z; [|now exists seen].
  destruct (geti S i) as [[kv|]|]; try now exists seen.
  destruct (keq (fst kv) k); [now exists (fst kv :: seen)|]. apply IH.
Qed.

Lemma r_scan_hit C S k fuel : forall i d j, r_scan K V keq fuel C S (Some k) i d = Ok (RobinModel.Found j) ->
  exists kv, geti S j = Some (Some kv).
Proof.
  induction fuel as [|fuel IH]; intros i d j; cbn [r_scan]; [discriminate|].
  destruct (geti C i) as [c|]; [|discriminate]. destruct (s8 d <=? s8 c)%Z; [|discriminate].
  destruct (geti S i) as [[kv|]|] eqn:E; try discriminate.
  destruct (keq (fst kv) k); [|apply IH]. intros H. injection H as <-. eauto.
Qed.

Lemma r_scan_any keq' C S fuel : forall i d,
  r_scan K V keq fuel C S None i d = r_scan K V keq' fuel C S None i d.
Proof.
  induction fuel as [|fuel IH]; intros i d; cbn [r_scan]; [reflexivity|].
  destruct (geti C i) as [c|]; [|reflexivity]. destruct (s8 d <=? s8 c)%Z; [apply IH|reflexivity].
Qed.

Lemma r_search_any t k : r_search K V hash keq t false k = r_search K V hash never t false k.
Proof. apply r_scan_any. Qed.

Lemma r_insert_all_any l : forall t, r_insert_all K V hash keq l t = r_insert_all K V hash never l t.
Proof.
  induction l as [|kv l IH]; intros t; cbn [r_insert_all]; [reflexivity|].
  unfold r_insert_no_grow. rewrite r_search_any.
  destruct (rbind (r_search K V hash never t false (fst kv)) _); cbn [rbind]; auto.
Qed.

Lemma r_rehash_any (s a : bool) alloc t n :
  r_rehash_impl K V hash keq s a alloc t n = r_rehash_impl K V hash never s a alloc t n.
Proof.
  unfold r_rehash_impl. destruct (r_calc_capacity n); [|reflexivity].
  destruct (_ || _); [|reflexivity]. destruct (r_create K V alloc t _) as [t0 u|t0|e]; cbn [obind]; try reflexivity.
  destruct (r_elements K V t) as [l|]; cbn [rbind]; [|reflexivity]. now rewrite r_insert_all_any.
Qed.

Lemma r_search_agree t k seen : exists seen',
  r_search_c K V hash cmp t k seen =
  match r_search K V hash keq t true k with
  | Err e => Err e
  | Ok (RobinModel.Found j) => Ok (seen', RHit j)
  | Ok (Stop j n) => Ok (seen', RStop j n)
  end.
Proof. apply r_scan_agree. Qed.

Lemma r_emplace_agree alloc (update : bool) k v fuel : forall t seen,
  r_emplace_c K V hash cmp fuel alloc update k v seen t =
  obind (r_emplace K V hash keq fuel alloc update k v t) (fun t' r => Ret t' (Done r)).
Proof.
  induction fuel as [|fuel IH]; intros t seen; cbn [r_emplace_c r_emplace obind]; [reflexivity|].
  destruct (r_search_agree t k seen) as [seen' ->].
  destruct (r_search K V hash keq t true k) as [[i|i d]|e]; cbn [obind]; [| |reflexivity].
  { destruct (geti (r_slots K V t) i) as [[kv|]|]; cbn [obind]; reflexivity. }
  set (grow := r_need_grow K V t || (r_max_distance K V t <=? d)).
  replace (r_grow K V hash keq alloc t) with (r_grow K V hash never alloc t) by (symmetry; apply r_rehash_any).
  destruct (if grow then r_grow K V hash never alloc t else Ret t tt) as [t1 u|t1|e]; cbn [obind]; try reflexivity.
  rewrite r_search_any.
  destruct (if grow then r_search K V hash never t1 false k else Ok (Stop i d)) as [[i'|i' d']|e];
    cbn [obind]; try reflexivity.
  destruct (r_insert_at K V false t1 i' i' d' (k, v)) as [[t2 [|]]|e]; cbn [obind]; try reflexivity.
  replace (r_grow K V hash keq alloc t2) with (r_grow K V hash never alloc t2) by (symmetry; apply r_rehash_any).
  destruct (r_grow K V hash never alloc t2) as [t3 u3|t3|e]; cbn [obind]; auto.
Qed.

Lemma robin_agrees alloc o t :
  r_step_c K V hash cmp alloc o t =
  obind (r_step K V hash keq alloc o t) (fun t' x => Ret t' (Some x)).
Proof.
  destruct o; cbn [r_step_c r_step].
  1, 2: unfold r_ins_c, r_obs_c, r_ins; rewrite r_emplace_agree;
    destruct (r_emplace K V hash keq 64 alloc _ _ _ t) as [t1 [i b]|t1|e]; cbn [obind]; try reflexivity;
    unfold r_lift; destruct (r_deref K V t1 i); reflexivity.
  - unfold r_obs_c, r_erase_c, r_erase. destruct (r_search_agree t k []) as [seen' ->].
    destruct (r_search K V hash keq t true k) as [[i|i d]|e]; cbn [obind]; try reflexivity.
    destruct (i =? _); [reflexivity|]. destruct (r_erase_slot K V t i); reflexivity.
  - unfold r_obs_c, r_lookup_c, r_lift, r_find_obs, r_find. destruct (r_search_agree t k []) as [seen' ->].
    destruct (r_search K V hash keq t true k) as [[i|i d]|e]; cbn [obind rbind]; try reflexivity.
    + destruct (i =? _); [reflexivity|]. destruct (r_deref K V t i); reflexivity.
    + destruct (r_last K V t) as [|n|]; cbn [obind rbind]; [destruct (r_alloc K V t); cbn [obind rbind]|..]; try reflexivity.
      * destruct (0 =? _); [reflexivity|]. destruct (r_deref K V t 0); reflexivity.
      * destruct (n =? _); [reflexivity|]. destruct (r_deref K V t n); reflexivity.
  - unfold r_obs_c, r_contains_c, r_lift, r_contains. destruct (r_search_agree t k []) as [seen' ->].
    destruct (r_search K V hash keq t true k) as [[i|i d]|e]; reflexivity.
  - reflexivity.
  - reflexivity.
  - unfold r_rehash. now rewrite r_rehash_any.
  - unfold r_rehash. now rewrite r_rehash_any.
  - unfold r_shrink. now rewrite r_rehash_any.
  - unfold r_set_mlf. destruct (r_clamp m). cbv zeta. destruct (_ && _); [|reflexivity].
    unfold r_rehash. now rewrite r_rehash_any.
Qed.

(** ** The group15 and group16 maps *)

Lemma scan_agree kd S k gi ps : forall seen, exists seen',
  scan_c K V kd cmp' S k gi ps seen =
  match scan_keys K V keq kd S k gi ps with
  | Err e => Err e
  | Ok (Some p) => Ok (seen', Found p)
  | Ok None => Ok (seen', Absent)
  end.
Proof.
  induction ps as [|p ps IH]; intros seen; cbn [scan_c scan_keys]; [now exists seen|].
  destruct (geti S (slot_index kd gi p)) as [[[k' v']|]|]; try now exists seen.
  destruct (keq k k'); [now exists (k' :: seen)|]. apply IH.
Qed.

Lemma find_loop_agree kd t k ch fuel : forall pr seen, exists seen',
  find_loop_c K V kd cmp' fuel t k ch pr seen =
  match find_loop K V keq kd fuel t k ch pr with
  | Err e => Err e
  | Ok (Some p) => Ok (seen', Found p)
  | Ok None => Ok (seen', Absent)
  end.
Proof.
  induction fuel as [|fuel IH]; intros pr seen; cbn [find_loop_c find_loop]; [now exists seen|].
  destruct (geti (t_groups K V t) (pr_index pr)) as [g|]; [|now exists seen].
  destruct (scan_agree kd (t_slots K V t) k (pr_index pr) (positions (kd_match_hash kd g ch)) seen) as [s1 ->].
  destruct (scan_keys K V keq kd _ _ _ _) as [[p|]|e]; try now exists s1.
  destruct (negb _); [now exists s1|].
  destruct (next_bucket (t_gmask K V t) pr) as [pr' [|]]; [apply IH|now exists s1].
Qed.

Lemma find_agree kd t k : exists seen',
  find_c K V hash kd cmp' t k =
  match find K V hash keq kd t k with
  | Err e => Err e
  | Ok (Some p) => Ok (seen', Found p)
  | Ok None => Ok (seen', Absent)
  end.
Proof. apply find_loop_agree. Qed.

Lemma group_agrees kd alloc o t :
  step_c K V hash kd cmp' alloc o t = step K V hash keq kd alloc o t.
Proof.
  destruct o; cbn [step_c step]; try reflexivity.
  1, 2: unfold emplace_c, emplace_impl, find_or_insert_c, find_or_insert;
    destruct (find_agree kd t k) as [s ->];
    destruct (find K V hash keq kd t k) as [[p|]|e]; reflexivity.
  - unfold find_and_erase_c, find_and_erase. destruct (find_agree kd t k) as [s ->].
    destruct (find K V hash keq kd t k) as [[p|]|e]; reflexivity.
  - unfold lookup_c, lookup. destruct (find_agree kd t k) as [s ->].
    destruct (find K V hash keq kd t k) as [[[gi p]|]|e]; try reflexivity.
    destruct (geti (t_slots K V t) (slot_index kd gi p)) as [[kv|]|]; reflexivity.
  - unfold lookup_c, lookup. destruct (find_agree kd t k) as [s ->].
    destruct (find K V hash keq kd t k) as [[[gi p]|]|e]; try reflexivity.
    destruct (geti (t_slots K V t) (slot_index kd gi p)) as [[kv|]|]; reflexivity.
Qed.

(** ** The flat16 map *)

Section Flat16.

Variable mix : N -> N.

Lemma f_match_agree t k start ps : forall seen, exists seen',
  f_match_c K V cmp t k start ps seen =
  match f_match K V keq t k start ps with
  | Err e => Err e
  | Ok (Some p) => Ok (seen', Found p)
  | Ok None => Ok (seen', Absent)
  end.
Proof.
  induction ps as [|p ps IH]; intros seen; cbn [f_match_c f_match]; [now exists seen|]. cbv zeta.
  destruct (geti (f_slots K V t) _) as [[kv|]|]; try now exists seen.
  destruct (keq (fst kv) k); [now exists (fst kv :: seen)|]. apply IH.
Qed.

Lemma f_match_hit t k start ps j : f_match K V keq t k start ps = Ok (Some j) ->
  exists kv, geti (f_slots K V t) j = Some (Some kv).
Proof.
  induction ps as [|p ps IH]; cbn [f_match]; [discriminate|]. cbv zeta.
  destruct (geti (f_slots K V t) (f_round K V t (wadd start p))) as [[kv|]|] eqn:E; try discriminate.
  destruct (keq (fst kv) k); [|exact IH]. intros H. injection H as <-. eauto.
Qed.

Lemma f_scan_agree t k start fuel : forall i seen, exists seen',
  f_scan_c K V hash mix cmp fuel t k start i seen =
  match f_scan K V hash keq mix fuel t k start i with
  | Err e => Err e
  | Ok s => Ok (seen', Scanned s)
  end.
Proof.
  induction fuel as [|fuel IH]; intros i seen; cbn [f_scan_c f_scan]; [now exists seen|].
  destruct (f_group (f_ctrls K V t) i) as [g|e]; cbn [rbind]; [|now exists seen].
  destruct (f_match_agree t k i (positions (match_tag g (f_tag K hash mix k))) seen) as [s1 ->].
  destruct (f_match K V keq t k i _) as [[p|]|e]; cbn [rbind]; try now exists s1.
  cbv zeta. destruct (negb _); [now exists s1|]. destruct (_ =? start); [now exists s1|apply IH].
Qed.

Lemma f_scan_hit t k start fuel : forall i j, f_scan K V hash keq mix fuel t k start i = Ok (FHit j) ->
  exists kv, geti (f_slots K V t) j = Some (Some kv).
Proof.
  induction fuel as [|fuel IH]; intros i j; cbn [f_scan]; [discriminate|].
  destruct (f_group (f_ctrls K V t) i) as [g|e]; cbn [rbind]; [|discriminate].
  destruct (f_match K V keq t k i _) as [[p|]|e] eqn:E; cbn [rbind]; try discriminate.
  - intros H. injection H as <-. now apply f_match_hit in E.
  - cbv zeta. destruct (negb _); [discriminate|]. destruct (_ =? start); [discriminate|apply IH].
Qed.

Lemma f_prepare_agree alloc k fuel : forall t seen,
  f_prepare_c K V hash mix cmp fuel alloc k seen t =
  obind (f_prepare K V hash keq mix fuel alloc k t) (fun t' r => Ret t' (Done r)).
Proof.
  induction fuel as [|fuel IH]; intros t seen; cbn [f_prepare_c f_prepare obind]; [reflexivity|].
  unfold f_search_c, f_search.
  destruct (f_scan_agree t k (f_home K V hash t k) (f_fuel K V t) (f_home K V hash t k) seen) as [s1 ->].
  destruct (f_scan K V hash keq mix _ t k _ _) as [[i|i m|]|e]; cbn [obind]; try reflexivity.
  - destruct (f_need_grow K V t).
    { destruct (f_grow K V hash mix alloc t) as [t' u|t'|e]; cbn [obind]; auto. }
    cbv zeta. destruct (negb _).
    + destruct (f_deleted_loop K V _ t _ _ _) as [[j|]|e]; reflexivity.
    + destruct (f_group (f_ctrls K V t) i) as [g|e]; [|reflexivity]. destruct (negb _); reflexivity.
  - destruct (f_grow K V hash mix alloc t) as [t' u|t'|e]; cbn [obind]; auto.
Qed.

Lemma f_emplace_agree alloc (update : bool) k v t :
  f_emplace_c K V hash mix cmp alloc update k v t =
  obind (f_emplace K V hash keq mix alloc update k v t) (fun t' r => Ret t' (Done r)).
Proof.
  unfold f_emplace_c, f_emplace. rewrite f_prepare_agree.
  destruct (f_prepare K V hash keq mix 64 alloc k t) as [t1 [i [|]]|t1|e]; cbn [obind]; try reflexivity.
  - destruct (geti (f_slots K V t1) i) as [[kv|]|]; try reflexivity. destruct update; reflexivity.
  - destruct (f_construct K V hash mix t1 i (k, v)); reflexivity.
Qed.

Lemma f_deref_some t i kv : geti (f_slots K V t) i = Some (Some kv) -> f_deref K V t i = Ok kv.
Proof. unfold f_deref. now intros ->. Qed.

Lemma flat16_agrees trivial alloc o t :
  f_step_c K V hash mix cmp trivial alloc o t =
  obind (f_step K V hash keq mix trivial alloc o t) (fun t' x => Ret t' (Some x)).
Proof.
  destruct o; cbn [f_step_c f_step]; try reflexivity.
  1, 2: unfold f_ins_c, f_obs_c, f_ins; rewrite f_emplace_agree;
    destruct (f_emplace K V hash keq mix alloc _ _ _ t) as [t1 [i b]|t1|e]; cbn [obind]; try reflexivity;
    unfold f_lift; destruct (f_deref K V t1 i); reflexivity.
  1: unfold f_obs_c, f_erase_c, f_erase, f_find_index, f_search_c, f_search.
  2, 3: unfold f_obs_c, f_lookup_c, f_lift, f_find_obs, f_find_index, f_search_c, f_search.
  all: destruct (f_scan_agree t k (f_home K V hash t k) (f_fuel K V t) (f_home K V hash t k) []) as [s1 ->];
    destruct (f_scan K V hash keq mix _ t k _ _) as [[i|i m|]|e] eqn:E; cbn [obind rbind]; try reflexivity.
  - destruct (f_erase_slot K V t i); reflexivity.
  - destruct (f_deref K V t i); reflexivity.
  - apply f_scan_hit in E. destruct E as [kv E]. rewrite (f_deref_some _ _ _ E). reflexivity.
Qed.

End Flat16.

(** ** The robin16 map *)

Section Robin16.

Variable wide trivial : bool.

Lemma q_singles_agree t k tag todo : forall i d seen, exists seen',
  q_singles_c K V cmp todo t k tag i d seen =
  match q_singles K V keq todo t (Some k) tag i d with
  | Err e => Err e
  | Ok (inl s) => Ok (seen', inl (QScanned s))
  | Ok (inr p) => Ok (seen', inr p)
  end.
Proof.
  induction todo as [|todo IH]; intros i d seen; cbn [q_singles_c q_singles]; [now exists seen|].
  destruct (geti (q_ctrls K V t) i) as [c|]; [|now exists seen].
  destruct (holds d c); [|now exists seen]. destruct (snd c =? tag); [|apply IH].
  destruct (q_read K V (q_slots K V t) i) as [kv|e]; cbn [rbind]; [|now exists seen].
  destruct (keq (fst kv) k); [now exists (fst kv :: seen)|]. apply IH.
Qed.

Lemma q_singles_any t tag todo : forall i d,
  q_singles K V keq todo t None tag i d = q_singles K V never todo t None tag i d.
Proof.
  induction todo as [|todo IH]; intros i d; cbn [q_singles]; [reflexivity|].
  destruct (geti (q_ctrls K V t) i) as [c|]; [|reflexivity]. destruct (holds d c); [apply IH|reflexivity].
Qed.

Lemma q_singles_hit t k tag todo : forall i d j, q_singles K V keq todo t (Some k) tag i d = Ok (inl (QHit j)) ->
  exists kv, q_read K V (q_slots K V t) j = Ok kv.
Proof.
  induction todo as [|todo IH]; intros i d j; cbn [q_singles]; [discriminate|].
  destruct (geti (q_ctrls K V t) i) as [c|]; [|discriminate].
  destruct (holds d c); [|discriminate]. destruct (snd c =? tag); [|apply IH].
  destruct (q_read K V (q_slots K V t) i) as [kv|e] eqn:E; cbn [rbind]; [|discriminate].
  destruct (keq (fst kv) k); [|apply IH]. intros H. injection H as <-. eauto.
Qed.

Lemma q_match_agree t k start ps : forall seen, exists seen',
  q_match_c K V cmp wide t k start ps seen =
  match q_match K V keq wide t k start ps with
  | Err e => Err e
  | Ok (Some p) => Ok (seen', Found p)
  | Ok None => Ok (seen', Absent)
  end.
Proof.
  induction ps as [|p ps IH]; intros seen; cbn [q_match_c q_match]; [now exists seen|]. cbv zeta.
  destruct (q_read K V (q_slots K V t) _) as [kv|e]; cbn [rbind]; [|now exists seen].
  destruct (keq (fst kv) k); [now exists (fst kv :: seen)|]. apply IH.
Qed.

Lemma q_match_hit t k start ps j : q_match K V keq wide t k start ps = Ok (Some j) ->
  exists kv, q_read K V (q_slots K V t) j = Ok kv.
Proof.
  induction ps as [|p ps IH]; cbn [q_match]; [discriminate|]. cbv zeta.
  destruct (q_read K V (q_slots K V t) (q_round K V t (wadd start (bit_pos wide p)))) as [kv|e] eqn:E; cbn [rbind]; [|discriminate].
  destruct (keq (fst kv) k); [|exact IH]. intros H. injection H as <-. eauto.
Qed.

Lemma q_groups_agree t k tag home fuel : forall i d seen, exists seen',
  q_groups_c K V cmp wide fuel t k tag home i d seen =
  match q_groups K V keq wide fuel t (Some k) tag home i d with
  | Err e => Err e
  | Ok s => Ok (seen', QScanned s)
  end.
Proof.
  induction fuel as [|fuel IH]; intros i d seen; cbn [q_groups_c q_groups]; [now exists seen|].
  destruct (q_group (q_ctrls K V t) i) as [g|e]; cbn [rbind]; [|now exists seen].
  destruct (q_match_agree t k i (positions (word_mask wide (hash_lanes g tag d))) seen) as [s1 ->].
  destruct (q_match K V keq wide t k i _) as [[p|]|e]; cbn [rbind]; try now exists s1.
  cbv zeta. destruct (negb _); [now exists s1|]. destruct (_ =? home); [now exists s1|apply IH].
Qed.

Lemma q_groups_any t tag home fuel : forall i d,
  q_groups K V keq wide fuel t None tag home i d = q_groups K V never wide fuel t None tag home i d.
Proof.
  induction fuel as [|fuel IH]; intros i d; cbn [q_groups]; [reflexivity|].
  destruct (q_group (q_ctrls K V t) i) as [g|e]; cbn [rbind]; [|reflexivity].
  cbv zeta. destruct (negb _); [reflexivity|apply IH].
Qed.

Lemma q_groups_hit t k tag home fuel : forall i d j,
  q_groups K V keq wide fuel t (Some k) tag home i d = Ok (QHit j) ->
  exists kv, q_read K V (q_slots K V t) j = Ok kv.
Proof.
  induction fuel as [|fuel IH]; intros i d j; cbn [q_groups]; [discriminate|].
  destruct (q_group (q_ctrls K V t) i) as [g|e]; cbn [rbind]; [|discriminate].
  destruct (q_match K V keq wide t k i _) as [[p|]|e] eqn:E; cbn [rbind]; try discriminate.
  - intros H. injection H as <-. now apply q_match_hit in E.
  - cbv zeta. destruct (negb _); [discriminate|]. destruct (_ =? home); [discriminate|apply IH].
Qed.

Lemma q_search_agree singles t k seen : exists seen',
  q_search_c K V hash cmp wide singles t k seen =
  match q_search K V hash keq wide singles t (Some k) k with
  | Err e => Err e
  | Ok s => Ok (seen', QScanned s)
  end.
Proof.
  unfold q_search_c, q_search.
  destruct (q_singles_agree t k (q_tag K hash k) singles (q_home K V hash t k) 0 seen) as [s1 ->].
  destruct (q_singles K V keq singles t (Some k) _ _ 0) as [[s|[i d]]|e]; cbn [rbind]; try now exists s1.
  apply q_groups_agree.
Qed.

Lemma q_search_hit singles t k j : q_search K V hash keq wide singles t (Some k) k = Ok (QHit j) ->
  exists kv, q_read K V (q_slots K V t) j = Ok kv.
Proof.
  unfold q_search. destruct (q_singles K V keq singles t (Some k) _ _ 0) as [[s|[i d]]|e] eqn:E; cbn [rbind];
    try discriminate.
  - intros H. injection H as ->. now apply q_singles_hit in E.
  - apply q_groups_hit.
Qed.

Lemma q_search_any singles t k :
  q_search K V hash keq wide singles t None k = q_search K V hash never wide singles t None k.
Proof.
  unfold q_search. rewrite q_singles_any. destruct (q_singles K V never singles t None _ _ 0) as [[s|[i d]]|e];
    cbn [rbind]; [reflexivity|apply q_groups_any|reflexivity].
Qed.

Lemma q_transfer_any is : forall old t,
  q_transfer K V hash keq wide trivial old is t = q_transfer K V hash never wide trivial old is t.
Proof.
  induction is as [|i is IH]; intros old t; cbn [q_transfer]; [reflexivity|].
  destruct (q_read K V old i) as [kv|e]; cbn [rbind]; [|reflexivity].
  unfold q_move_insert. rewrite q_search_any.
  destruct (rbind (q_search K V hash never wide 4 t None (fst kv)) _) as [t'|e]; cbn [rbind]; [|reflexivity].
  destruct (q_drop K V trivial old i) as [o|e]; cbn [rbind]; [apply IH|reflexivity].
Qed.

Lemma q_rehash_any (s a : bool) alloc t n :
  q_rehash_impl K V hash keq wide trivial s a alloc t n = q_rehash_impl K V hash never wide trivial s a alloc t n.
Proof.
  unfold q_rehash_impl. destruct (q_calc_capacity n) as [cap|e]; [|reflexivity].
  destruct (_ || _); [|reflexivity].
  destruct (q_create K V alloc t _) as [t0 u|t0|e]; [|reflexivity|reflexivity].
  destruct (q_used_positions K V wide t) as [l|]; cbn [rbind]; [|reflexivity]. now rewrite q_transfer_any.
Qed.

Lemma q_grow_any alloc t : q_grow K V hash keq wide trivial alloc t = q_grow_c K V hash wide trivial alloc t.
Proof. apply q_rehash_any. Qed.

Lemma q_prepare_agree alloc k fuel : forall t seen,
  match q_prepare_c K V hash cmp wide trivial fuel alloc k seen t,
        q_prepare K V hash keq wide trivial fuel alloc k t with
  | Ret t1 (_, Done r), Ret t2 r' => t1 = t2 /\ r = r'
      /\ (snd r' = true -> exists kv, q_read K V (q_slots K V t2) (fst (fst r')) = Ok kv)
  | Throw t1, Throw t2 => t1 = t2
  | Fail e1, Fail e2 => e1 = e2
  | _, _ => False
  end.
Proof.
  induction fuel as [|fuel IH]; intros t seen; cbn [q_prepare_c q_prepare]; [reflexivity|].
  destruct (q_search_agree 4 t k seen) as [s1 ->]. rewrite q_grow_any.
  destruct (q_search K V hash keq wide 4 t (Some k) k) as [[i|i m|]|e] eqn:E; [| | |reflexivity].
  - split; [reflexivity|]. split; [reflexivity|]. intros _. now apply q_search_hit in E.
  - destruct (q_need_grow K V t).
    { destruct (q_grow_c K V hash wide trivial alloc t) as [t' u|t'|e]; cbn [obind]; [apply IH|reflexivity|reflexivity]. }
    split; [reflexivity|]. split; [reflexivity|]. discriminate.
  - destruct (q_grow_c K V hash wide trivial alloc t) as [t' u|t'|e]; cbn [obind]; [apply IH|reflexivity|reflexivity].
Qed.

Lemma q_emplace_agree alloc (update : bool) k v fuel : forall t seen,
  q_emplace_c K V hash cmp wide trivial fuel alloc update k v seen t =
  obind (q_emplace K V hash keq wide trivial fuel alloc update k v t) (fun t' r => Ret t' (Done r)).
Proof.
  induction fuel as [|fuel IH]; intros t seen; cbn [q_emplace_c q_emplace]; [reflexivity|].
  pose proof (q_prepare_agree alloc k 64 t seen) as P. revert P.
  generalize (q_prepare_c K V hash cmp wide trivial 64 alloc k seen t).
  generalize (q_prepare K V hash keq wide trivial 64 alloc k t).
  intros a b. destruct b as [t1 [s1 [[[i d] x]|]]|t1|e1], a as [t2 [[i' d'] x']|t2|e2]; try tauto; cbn [obind].
  - cbn [fst snd]. intros (-> & E & H). injection E as <- <- <-. destruct x.
    + destruct (H eq_refl) as [kv ->]. destruct update; reflexivity.
    + destruct (q_insert_at K V hash trivial false t2 i d (k, v)) as [[t3 [|]]|e]; cbn [obind]; [|reflexivity|reflexivity].
      rewrite q_grow_any. destruct (q_grow_c K V hash wide trivial alloc t3) as [t4 u|t4|e]; cbn [obind]; [|reflexivity|reflexivity].
      apply IH.
  - now intros ->.
  - now intros ->.
Qed.

Lemma robin16_agrees alloc o t :
  q_step_c K V hash cmp wide trivial alloc o t =
  obind (q_step K V hash keq wide trivial alloc o t) (fun t' x => Ret t' (Some x)).
Proof.
  destruct o; cbn [q_step_c q_step].
  6, 7: reflexivity.
  1, 2: unfold q_ins_c, q_obs_c, q_ins; rewrite q_emplace_agree;
    generalize (q_emplace K V hash keq wide trivial 64 alloc);
    intros f; destruct (f _ _ _ t) as [t1 [i b]|t1|e]; cbn [obind]; [|reflexivity|reflexivity];
    unfold q_lift; destruct (q_deref K V t1 i); reflexivity.
  - unfold q_obs_c, q_erase_c, q_erase, q_find_index. destruct (q_search_agree 2 t k []) as [s1 ->].
    destruct (q_search K V hash keq wide 2 t (Some k) k) as [[i|i m|]|e]; cbn [obind rbind]; try reflexivity.
    destruct (q_erase_slot K V trivial t i); reflexivity.
  - unfold q_obs_c, q_lookup_c, q_lift, q_find_obs, q_find_index. destruct (q_search_agree 2 t k []) as [s1 ->].
    destruct (q_search K V hash keq wide 2 t (Some k) k) as [[i|i m|]|e]; cbn [obind rbind]; try reflexivity.
    destruct (q_deref K V t i); reflexivity.
  - unfold q_obs_c, q_lookup_c, q_lift, q_find_index. destruct (q_search_agree 2 t k []) as [s1 ->].
    destruct (q_search K V hash keq wide 2 t (Some k) k) as [[i|i m|]|e] eqn:E; cbn [obind rbind]; try reflexivity.
    apply q_search_hit in E. destruct E as [kv E]. unfold q_deref. rewrite E. reflexivity.
  - unfold q_rehash. now rewrite q_rehash_any.
  - unfold q_rehash. now rewrite q_rehash_any.
  - unfold q_shrink. now rewrite q_rehash_any.
  - unfold q_set_mlf. cbv zeta. destruct (_ && _); [|reflexivity].
    unfold q_rehash. now rewrite q_rehash_any.
Qed.

End Robin16.

End Agree.
