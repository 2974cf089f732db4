(** flat16_hash_map with a hasher that throws. *)
From Coq Require Import NArith ZArith List Bool Lia Permutation.
From Coq Require Import ZifyBool ZifyNat ZifyN.
From Verif Require Import Base BaseFacts BitsModel GroupModel TableModel TableInv MapSpec MapFacts
  FallbackFacts ReachModel RobinFacts Flat16Model Flat16Spec Flat16Facts Flat16Ops Flat16Refine Flat16Calls
  Flat16Runs Hasher2Model Hasher2Spec.
Import ListNotations.
Open Scope N_scope.

(** The counting: [s] elements and the key for each round. *)
Lemma round_le g s n : s <= n -> (1 + (g + 1) * (s + 1) <=? n + 1) = (1 + g * (s + 1) <=? n - s).
Proof.
  intros H. rewrite (N.mul_add_distr_r g 1 (s + 1)), N.mul_1_l. generalize (g * (s + 1)). intros x.
  destruct (N.leb_spec (1 + (x + (s + 1))) (n + 1)); destruct (N.leb_spec (1 + x) (n - s)); auto; lia.
Qed.

Lemma round_lt g s n : n <= s -> 1 + (g + 1) * (s + 1) <=? n = false.
Proof. intros H. apply N.leb_gt. rewrite (N.mul_add_distr_r g 1 (s + 1)), N.mul_1_l. generalize (g * (s + 1)). lia. Qed.

Section Flat16.

Context {K V : Type} (hash : K -> N) (keq : K -> K -> bool) (mix : N -> N) (LW : lawful hash keq).

Notation slots := (list (option (K * V))).
Notation fmap := (fmap K V).
Notation C_ := (f_ctrls K V).
Notation S_ := (f_slots K V).
Notation oracle := (bool -> N -> bool).
Notation core := (core hash mix).
Notation content := (@content K V).
Notation nodel := (@nodel).

Lemma transfer_h_spec : forall is (old : slots) t m old' t',
  f_transfer K V hash mix old is t = Ok (old', t') ->
  f_transfer_h K V hash mix m old is t
  = if (length is <=? m)%nat then Some (Ok (old', t', (m - length is)%nat)) else None.
Proof.
  induction is as [|i is IH]; intros old t m old' t' H; cbn [length].
  - cbn [f_transfer] in H. injection H as <- <-. cbn [f_transfer_h].
    replace (0 <=? m)%nat with true by (symmetry; apply Nat.leb_le; lia). now rewrite Nat.sub_0_r.
  - cbn [f_transfer f_transfer_h] in *. destruct (geti old i) as [[kv|]|]; try discriminate.
    destruct m as [|m]; [reflexivity|].
    destruct (f_insert_unique K V hash mix t kv) as [t1|e]; [|discriminate]. cbn [rbind] in H.
    now rewrite (IH _ _ m _ _ H).
Qed.

Lemma nones_elems (l : slots) : forallb is_none l = true -> elems l = [].
Proof.
  induction l as [|[x|] l IH]; intros H; [reflexivity|discriminate|]. cbn in *. auto.
Qed.

Lemma rehash_h (shrink always : bool) (alloc : oracle) b t n m : core b t ->
  n <= 2 ^ 62 -> (forall e, 2 <= e -> n <= 2 ^ e -> f_size _ _ t + 1 <= 2 ^ e) -> f_sane alloc ->
  match f_rehash_impl K V hash mix shrink always alloc t n with
  | Ret t' _ =>
      (always = false /\ f_cap K V t' = f_cap K V t
       /\ f_rehash_impl_h K V hash mix m shrink always alloc t n = Some (Ret t' m))
      \/ ((always = true \/ f_cap K V t' <> f_cap K V t) /\
         f_rehash_impl_h K V hash mix m shrink always alloc t n
         = if f_size _ _ t <=? N.of_nat m then Some (Ret t' (m - N.to_nat (f_size _ _ t))%nat) else None)
  | Throw t' => f_cap K V t' = f_cap K V t
      /\ f_rehash_impl_h K V hash mix m shrink always alloc t n = Some (Throw t')
  | Fail _ => False
  end.
Proof.
  intros X Hn Hz HA.
  pose proof (rehash_spec hash mix shrink always alloc b t n X Hn Hz HA) as RS.
  unfold f_rehash_impl, f_rehash_impl_h in *.
  destruct (calc_spec n Hn) as (b' & E & H2 & Hn' & H63 & HMIN). rewrite E in *.
  destruct (always || _ || _) eqn:EC.
  2:{ left. apply orb_false_iff in EC. destruct EC as [EC _]. apply orb_false_iff in EC. destruct EC as [-> _]. auto. }
  assert (HT : forall t', f_create K V alloc t (2 ^ b') = Throw t' -> f_cap K V t' = f_cap K V t).
  { intros t' ET. unfold f_create in ET. destruct (alloc true _); [destruct (alloc false _); [discriminate|]|];
      injection ET as <-; reflexivity. }
  destruct (N.le_gt_cases b' 44) as [G|G].
  2:{ unfold f_create. destruct (alloc true _); [|split; reflexivity].
      destruct (alloc false (2 ^ b')) eqn:EA; [|split; reflexivity].
      apply HA in EA. pose proof (pow2_lt 44 b' G). lia. }
  destruct (create_ok hash mix alloc t b' H2 G (co_mlf _ _ _ _ X) (co_rev _ _ _ _ X))
    as [(t' & E1)|(nt & E1 & X1 & D1 & EE & M1 & R1 & L1)]; rewrite E1 in *.
  { auto. }
  rewrite (used_positions_spec hash mix _ _ X) in *. cbn [rbind] in *.
  pose proof (fc_slen _ _ _ _ _ (co_fc _ _ _ _ X)) as HSL.
  set (is := filter (usedb (C_ t)) (seqN (2 ^ b))) in *.
  assert (ND : NoDup is) by (apply NoDup_filter; apply seqN_NoDup).
  assert (HI : forall i, In i is -> exists kv, geti (S_ t) i = Some (Some kv)).
  { intros i Hi. apply filter_In in Hi. destruct Hi as [Hi HU]. apply seqN_In in Hi.
    apply (usedb_slot hash mix b (C_ t)); auto. apply X. }
  assert (HI' : forall i kv, geti (S_ t) i = Some (Some kv) -> In i is).
  { intros i kv Ei. apply filter_In. pose proof (geti_Some_lt _ _ _ Ei). rewrite seqN_In. split; [lia|].
    apply (usedb_slot hash mix b _ (S_ t)); eauto; [apply X|lia]. }
  assert (HLen : N.of_nat (length is) = f_size _ _ t).
  { rewrite (co_size _ _ _ _ X). f_equal.
    clear -ND HI HI'. revert ND HI HI'. generalize (S_ t). clear. intros L ND HI HI'.
    revert L HI HI'. induction is as [|i is IH]; intros L HI HI'.
    - replace (elems L) with (@nil (K * V)); [reflexivity|]. symmetry. apply nones_elems.
      apply forallb_forall. intros [kv|] Hin; auto. apply In_geti in Hin. destruct Hin as (j & E).
      destruct (HI' j kv E).
    - inversion ND as [|? ? N1 N2]; subst. destruct (HI i (or_introl eq_refl)) as (kv & Ei).
      pose proof (geti_Some_lt _ _ _ Ei) as Hi.
      pose proof (elems_seti_None _ _ _ Ei) as PE. apply Permutation_length in PE. cbn [length] in *.
      rewrite <- PE. f_equal. apply IH; auto.
      + intros j Hj. rewrite geti_seti by auto. destruct (N.eqb_spec j i) as [->|Nj]; [contradiction|].
        apply HI. now right.
      + intros j kv' E. rewrite geti_seti in E by auto. destruct (N.eqb_spec j i) as [->|Nj]; [discriminate|].
        destruct (HI' _ _ E) as [G|G]; [congruence|auto]. }
  destruct (transfer_spec hash mix b' is (S_ t) nt ND HI' HI X1 D1) as (old & t' & A & F & X' & _).
  { rewrite <- (co_size _ _ _ _ X). specialize (Hz b' H2 Hn').
    assert (Z0 : f_size _ _ nt = 0) by (rewrite (co_size _ _ _ _ X1), EE; reflexivity). lia. }
  rewrite (transfer_h_spec _ _ _ m _ _ A). rewrite A, F in *. right. split.
  { destruct always; [auto|]. right. cbn [orb] in EC. rewrite (core_cap _ _ _ _ X) in *.
    replace (f_cap K V _) with (2 ^ b').
    - apply orb_true_iff in EC. lia.
    - symmetry. pose proof (core_cap _ _ _ _ X') as EX. exact EX. }
  destruct (Nat.leb_spec (length is) m) as [L|L].
  - replace (f_size K V t <=? N.of_nat m) with true by (symmetry; apply N.leb_le; lia).
    rewrite F. do 2 f_equal. lia.
  - replace (f_size K V t <=? N.of_nat m) with false by (symmetry; apply N.leb_gt; lia). reflexivity.
Qed.

Lemma grow_h alloc b t m : f_sane alloc -> core b t -> f_tidy K V t ->
  match f_grow K V hash mix alloc t with
  | Ret t' _ => f_cap K V t' = 2 * f_cap K V t
      /\ f_grow_h K V hash mix m alloc t
         = if f_size _ _ t <=? N.of_nat m then Some (Ret t' (m - N.to_nat (f_size _ _ t))%nat) else None
  | Throw t' => f_cap K V t' = f_cap K V t /\ f_grow_h K V hash mix m alloc t = Some (Throw t')
  | Fail _ => False
  end.
Proof.
  intros HA X HT. pose proof (core_bound _ _ _ _ X) as HB. pose proof (core_size_le _ _ _ _ X) as HZ.
  pose proof (grow_spec hash mix alloc b t HA X HT) as GS.
  unfold f_grow, f_grow_h in *. unfold f_tidy in HT. rewrite (core_cap _ _ _ _ X) in *.
  replace ((32 <? 2 ^ b) && (2 ^ b / 8 <=? f_slot_deleted K V t)) with false in * by lia.
  rewrite wmul_small in * by (unfold two64; lia).
  assert (HH := fun H1 H2 => rehash_h false true alloc b t (2 ^ b * 2) m X H1 H2 HA).
  specialize (HH ltac:(lia) ltac:(intros; lia)).
  destruct (f_rehash_impl K V hash mix false true alloc t (2 ^ b * 2)) as [t' u|t'|e]; auto.
  - destruct HH as [(HF & _)|(_ & HH)]; [discriminate|].
    assert (EC : f_cap K V t' = 2 * 2 ^ b).
    { destruct GS as [(t2 & GS)|(b2 & t2 & GS & X2 & _ & HB2 & _)]; [discriminate|]. injection GS as <-.
      now rewrite (core_cap _ _ _ _ X2). }
    rewrite EC. auto.
  - rewrite (core_cap _ _ _ _ X) in HH. auto.
Qed.

(** [hashed_until] without the failures. *)
Definition counted {A} (t : fmap) (n : N) (r : out fmap A) (h : option (out fmap A)) : Prop :=
  match r with
  | Ret t' _ | Throw t' => exists g, f_cap K V t' = 2 ^ g * f_cap K V t
      /\ h = if 1 + g * (f_size _ _ t + 1) <=? n then Some r else None
  | Fail _ => True
  end.

Lemma counted_same {A} t t' (x : A) n : f_cap K V t' = f_cap K V t -> 1 <= n ->
  counted t n (Ret t' x) (Some (Ret t' x)).
Proof.
  intros E Hn. exists 0. split; [now rewrite N.pow_0_r, N.mul_1_l|].
  now replace (1 + 0 * (f_size K V t + 1) <=? n) with true by (symmetry; apply N.leb_le; lia).
Qed.

Lemma counted_0 {A} t (r : out fmap A) :
  match r with Ret t' _ | Throw t' => exists g, f_cap K V t' = 2 ^ g * f_cap K V t | Fail _ => True end ->
  counted t 0 r None.
Proof.
  intros H. unfold counted. destruct r as [t' x|t'|]; auto; destruct H as (g & Hg); exists g; (split; [exact Hg|]);
    replace (1 + g * (f_size K V t + 1) <=? 0) with false by (symmetry; apply N.leb_gt; lia); reflexivity.
Qed.

Lemma prepare_0 alloc k : f_sane alloc -> forall fuel b t, core b t -> f_tidy K V t ->
  match f_prepare K V hash keq mix fuel alloc k t with
  | Ret t' _ | Throw t' => exists g, f_cap K V t' = 2 ^ g * f_cap K V t
  | Fail _ => True
  end.
Proof.
  intros HA. induction fuel as [|fuel IH]; intros b t X HT; cbn [f_prepare]; [exact I|].
  assert (SAME : exists g, f_cap K V t = 2 ^ g * f_cap K V t) by (exists 0; now rewrite N.pow_0_r, N.mul_1_l).
  assert (GROW : match obind (f_grow K V hash mix alloc t) (fun t' _ => f_prepare K V hash keq mix fuel alloc k t') with
    | Ret t' _ | Throw t' => exists g, f_cap K V t' = 2 ^ g * f_cap K V t
    | Fail _ => True
    end).
  { pose proof (grow_h alloc b t 0 HA X HT) as GH.
    pose proof (grow_spec hash mix alloc b t HA X HT) as GS.
    destruct (f_grow K V hash mix alloc t) as [t1 u|t1|]; cbn [obind]; auto.
    - destruct GS as [(? & GS)|(b1 & t2 & GS & X1 & T1 & _)]; [discriminate|]. injection GS as <-.
      destruct GH as [GC _].
      specialize (IH b1 t1 X1 (exact_tidy hash mix b1 t1 X1 (conj (proj1 T1) (or_intror T1)))).
      destruct (f_prepare K V hash keq mix fuel alloc k t1) as [t' x|t'|]; auto;
        destruct IH as (g & IH); exists (g + 1); rewrite IH, GC, N.pow_add_r; change (2 ^ 1) with 2; lia.
    - destruct GH as [GC _]. exists 0. now rewrite GC, N.pow_0_r, N.mul_1_l. }
  destruct (f_search K V hash keq mix t k) as [[i|last m|]|]; auto.
  destruct (f_need_grow K V t); auto.
  destruct (negb _).
  - destruct (f_deleted_loop _ _ _ _ _ _ _) as [[i|]|]; auto.
  - destruct (f_group _ _) as [g|]; auto. destruct (negb _); auto.
Qed.

Lemma prepare_h alloc k : f_sane alloc -> forall fuel b t n, core b t -> f_tidy K V t ->
  counted t (N.of_nat n) (f_prepare K V hash keq mix fuel alloc k t)
                         (f_prepare_h K V hash keq mix fuel n alloc k t).
Proof.
  intros HA. induction fuel as [|fuel IH]; intros b t n X HT; [exact I|].
  destruct n as [|n].
  { apply counted_0. eapply prepare_0; eauto. }
  cbn [f_prepare f_prepare_h]. cbv zeta.
  assert (H1 : 1 <= N.of_nat (S n)) by lia.
  set (s := f_size _ _ t).
  assert (GROW : counted t (N.of_nat (S n))
    (obind (f_grow K V hash mix alloc t) (fun t' _ => f_prepare K V hash keq mix fuel alloc k t'))
    (match f_grow_h K V hash mix n alloc t with
     | None => None
     | Some (Ret t' more1) => f_prepare_h K V hash keq mix fuel more1 alloc k t'
     | Some (Throw t') => Some (Throw t')
     | Some (Fail e) => Some (Fail e)
     end)).
  { pose proof (grow_h alloc b t n HA X HT) as GH.
    pose proof (grow_spec hash mix alloc b t HA X HT) as GS.
    destruct (f_grow K V hash mix alloc t) as [t1 u|t1|]; cbn [obind]; [| |contradiction].
    - destruct GS as [(? & GS)|(b1 & t2 & GS & X1 & T1 & _ & P1 & _)]; [discriminate|]. injection GS as <-.
      destruct GH as [GC GH]. pose proof (size_perm hash mix _ _ _ _ X X1 P1) as EZ.
      pose proof (exact_tidy hash mix b1 t1 X1 (conj (proj1 T1) (or_intror T1))) as HT1.
      fold s in GH, EZ. rewrite GH. destruct (N.leb_spec s (N.of_nat n)) as [L|L].
      + specialize (IH b1 t1 (n - N.to_nat s)%nat X1 HT1).
        unfold counted in *. fold s. rewrite EZ, GC in IH.
        assert (EL : forall g, (1 + (g + 1) * (s + 1) <=? N.of_nat (S n))
          = (1 + g * (s + 1) <=? N.of_nat (n - N.to_nat s))).
        { intros g. replace (N.of_nat (S n)) with (N.of_nat n + 1) by (clear; lia).
          replace (N.of_nat (n - N.to_nat s)) with (N.of_nat n - s) by (clear; lia). now apply round_le. }
        destruct (f_prepare K V hash keq mix fuel alloc k t1) as [t' x|t'|]; auto;
          destruct IH as (g & IG & IH); exists (g + 1); rewrite EL;
          (split; [rewrite IG, N.pow_add_r; change (2 ^ 1) with 2; lia|exact IH]).
      + pose proof (prepare_0 alloc k HA fuel b1 t1 X1 HT1) as P0. unfold counted. fold s.
        destruct (f_prepare K V hash keq mix fuel alloc k t1) as [t' x|t'|]; auto;
          destruct P0 as (g & P0); exists (g + 1);
          (split; [rewrite P0, GC, N.pow_add_r; change (2 ^ 1) with 2; lia|]);
          rewrite (round_lt g s (N.of_nat (S n))) by (clear -L; lia); reflexivity.
    - destruct GH as [GC ->]. exists 0. split; [now rewrite GC, N.pow_0_r, N.mul_1_l|].
      fold s. now replace (1 + 0 * (s + 1) <=? N.of_nat (S n)) with true by (symmetry; apply N.leb_le; lia). }
  destruct (f_search K V hash keq mix t k) as [[i|last m|]|]; auto.
  - now apply counted_same.
  - destruct (f_need_grow K V t); auto. destruct (negb _).
    + destruct (f_deleted_loop _ _ _ _ _ _ _) as [[i|]|]; [now apply counted_same|now apply counted_same|exact I].
    + destruct (f_group _ _) as [g|]; [|exact I]. destruct (negb _); now apply counted_same.
  - exact I.
Qed.

(** With a free slot in sight the map does not grow. *)
Lemma prepare_roomy alloc k fuel b t n : core b t -> f_roomy K V t ->
  counted t (N.of_nat n) (f_prepare K V hash keq mix (S fuel) alloc k t)
                         (f_prepare_h K V hash keq mix (S fuel) n alloc k t).
Proof.
  intros X [HL (j & Hj & Ej)]. pose proof (co_b2 _ _ _ _ X) as H2.
  assert (Hb : b <= 55) by (pose proof (co_b _ _ _ _ X); lia).
  destruct (search_spec hash keq mix LW b H2 Hb t k (co_fc _ _ _ _ X) (co_mask _ _ _ _ X) (co_chain _ _ _ _ X))
    as (r & ES & HR).
  assert (NF : r <> FFull).
  { intros ->. destruct HR as [HR _]. rewrite (core_cap _ _ _ _ X) in Hj.
    destruct (visible hash mix b H2 Hb _ _ (home hash b k) j (co_fc _ _ _ _ X)) as (w & Hw & NS); try lia; auto.
    apply home_lt'; auto. }
  assert (SAME : match f_prepare K V hash keq mix (S fuel) alloc k t with
    | Ret t' x => f_cap K V t' = f_cap K V t /\ (1 <= N.of_nat n -> f_prepare_h K V hash keq mix (S fuel) n alloc k t = Some (Ret t' x))
    | Throw _ => False
    | Fail _ => True
    end).
  { cbn [f_prepare]. rewrite ES. destruct n as [|n].
    - destruct r as [i|last m|]; [split; [reflexivity|lia]| |congruence].
      unfold f_need_grow. destruct (N.leb_spec (f_left K V t) 0); [lia|].
      destruct (negb _); [destruct (f_deleted_loop _ _ _ _ _ _ _) as [[i|]|]|destruct (f_group _ _) as [g|]; [destruct (negb _)|]];
        auto; (split; [reflexivity|lia]).
    - cbn [f_prepare_h]. rewrite ES. destruct r as [i|last m|]; [split; reflexivity| |congruence].
      unfold f_need_grow. destruct (N.leb_spec (f_left K V t) 0); [lia|].
      destruct (negb _); [destruct (f_deleted_loop _ _ _ _ _ _ _) as [[i|]|]|destruct (f_group _ _) as [g|]; [destruct (negb _)|]];
        auto; (split; reflexivity). }
  destruct n as [|n].
  - apply counted_0. destruct (f_prepare K V hash keq mix (S fuel) alloc k t); auto; [|contradiction].
    destruct SAME as [SC _]. exists 0. now rewrite SC, N.pow_0_r, N.mul_1_l.
  - destruct (f_prepare K V hash keq mix (S fuel) alloc k t); [|contradiction|exact I].
    destruct SAME as [SC SH]. rewrite SH by lia. apply counted_same; auto. lia.
Qed.

Lemma construct_cap t i kv t' : f_construct K V hash mix t i kv = Ok t' -> f_cap K V t' = f_cap K V t.
Proof.
  unfold f_construct. destruct (f_set_used _ _ _ _); [|discriminate]. cbn [rbind].
  destruct (geti _ _) as [[|]|]; try discriminate. intros E. injection E as <-. reflexivity.
Qed.

Lemma place_h_cap update k v t1 x :
  match f_place_h K V hash mix update k v t1 x with Ret t2 _ => f_cap K V t2 = f_cap K V t1 | Throw _ => False | Fail _ => True end.
Proof.
  destruct x as [i ex]. unfold f_place_h. destruct ex.
  - destruct (geti _ _) as [[kv|]|]; auto. now destruct update.
  - destruct (f_construct K V hash mix t1 i (k, v)) as [t2|] eqn:E2; auto. now rewrite (construct_cap _ _ _ _ E2).
Qed.

Lemma emplace_counted update k v t n (r : out fmap (N * bool)) (h : option (out fmap (N * bool))) :
  counted t n r h ->
  counted t n (obind r (f_place_h K V hash mix update k v))
    (match h with None => None | Some r => Some (obind r (f_place_h K V hash mix update k v)) end).
Proof.
  unfold counted. generalize (f_size _ _ t) as s. intros s HP.
  destruct r as [t1 x|t1|]; cbn [obind]; auto.
  - destruct HP as (g & HG & ->). pose proof (place_h_cap update k v t1 x) as PC.
    destruct (f_place_h K V hash mix update k v t1 x) as [t2 y|t2|] eqn:EP; [|contradiction|exact I].
    exists g. split; [congruence|]. destruct (_ <=? _); [|reflexivity]. cbn [obind]. now rewrite EP.
  - destruct HP as (g & HG & ->). exists g. split; auto. destruct (_ <=? _); reflexivity.
Qed.

Lemma emplace_is_prepare alloc update k v t :
  f_emplace K V hash keq mix alloc update k v t
  = obind (f_prepare K V hash keq mix 64 alloc k t) (f_place_h K V hash mix update k v).
Proof. reflexivity. Qed.

Lemma emplace_h alloc update k v b t n : f_sane alloc -> core b t -> f_tidy K V t \/ f_roomy K V t ->
  counted t (N.of_nat n) (f_emplace K V hash keq mix alloc update k v t)
                         (f_emplace_h K V hash keq mix n alloc update k v t).
Proof.
  intros HA X HC. rewrite emplace_is_prepare. unfold f_emplace_h. apply emplace_counted.
  destruct HC as [HT|HR]; [exact (prepare_h alloc k HA 64 b t n X HT)|exact (prepare_roomy alloc k 63 b t n X HR)].
Qed.

Lemma counted_out {A} t n (r : out fmap A) h : counted t n r h -> (forall e, r <> Fail e) ->
  hashed_until (f_cap K V) (f_cap K V t) (f_size _ _ t) n r h.
Proof. intros H NF. unfold hashed_until, counted in *. destruct r as [t' x|t'|e]; auto. now apply (NF e). Qed.

Lemma emplace_not_fail alloc update k v b t e : f_sane alloc -> core b t -> distinct_keys K V keq (content t) ->
  f_tidy K V t \/ f_roomy K V t -> f_emplace K V hash keq mix alloc update k v t <> Fail e.
Proof.
  intros HA X HDC HC. destruct (has K V keq k (content t)) eqn:EH.
  - apply has_true in EH. destruct EH as (kv & Hin & HK).
    destruct (emplace_old hash keq mix LW alloc update b t k v kv X Hin HDC HK) as (t' & i & E' & _).
    rewrite E'. discriminate.
  - destruct (emplace_new hash keq mix LW alloc update b t k v HA X HDC EH HC) as [(t' & E')|(b' & t' & i & E' & _)];
      rewrite E'; discriminate.
Qed.

Theorem flat16_emplace_h t m alloc update k v n : f_built K V hash keq mix t m -> f_sane alloc ->
  f_client K V hash (OInsert K V k v) t ->
  hashed_until (f_cap K V) (f_cap K V t) (N.of_nat (length m)) (N.of_nat n)
    (f_emplace K V hash keq mix alloc update k v t) (f_emplace_h K V hash keq mix n alloc update k v t).
Proof.
  intros HB HA HC. destruct (built_inv hash keq mix LW t m HB) as ((b & X) & P & HD).
  rewrite (Permutation_length P). replace (N.of_nat (length (content t))) with (f_size K V t) by apply X.
  apply counted_out; [now apply (emplace_h alloc update k v b)|].
  intros e. apply (emplace_not_fail alloc update k v b); auto. exact (distinct_perm hash keq LW _ _ P HD).
Qed.

Theorem flat16_rehash_h t m alloc n more : f_built K V hash keq mix t m -> f_sane alloc ->
  f_client K V hash (ORehash K V n) t ->
  rehashed_until (f_cap K V) (f_cap K V t) (N.of_nat (length m)) more
    (f_rehash K V hash mix alloc false n t) (f_rehash_h K V hash mix more alloc n t).
Proof.
  intros HB HA [Hn HC]. destruct (built_inv hash keq mix LW t m HB) as ((b & X) & P & HD).
  rewrite (Permutation_length P). replace (N.of_nat (length (content t))) with (f_size K V t) by apply X.
  unfold f_rehash, f_rehash_h. pose proof (core_bound _ _ _ _ X) as HBd. pose proof (core_size_le _ _ _ _ X) as HZ.
  pose proof (require_bound (f_rev _ _ t) n (co_rev _ _ _ _ X) Hn) as RB.
  set (c := N.max (f_min_require (f_rev K V t) n) (f_size K V t)) in *.
  assert (H1 : c <= 2 ^ 62) by lia.
  assert (H2 : forall e, 2 <= e -> c <= 2 ^ e -> f_size _ _ t + 1 <= 2 ^ e).
  { intros e He HM. destruct HC as [HC|HC]; [|eapply spare_room; eauto]. eapply (more_room); eauto. subst c. lia. }
  pose proof (rehash_h true false alloc b t c more X H1 H2 HA) as H. unfold rehashed_until.
  destruct (f_rehash_impl K V hash mix true false alloc t c) as [t' u|t'|]; [|apply H|exact H].
  destruct H as [(_ & E1 & E2)|([H|H] & H3)]; [|discriminate|].
  - rewrite E1, N.eqb_refl. exact E2.
  - apply N.eqb_neq in H. rewrite H. exact H3.
Qed.

End Flat16.
