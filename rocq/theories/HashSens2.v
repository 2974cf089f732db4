(** Hashes that take several bytes at a time: primaryHash, msvc_fnv_1a, OpenSSL_Hash and
    the rocksdb hash. *)
From Coq Require Import Arith NArith ZArith List Bool Lia.
From Coq Require Import ZifyBool ZifyNat ZifyN.
From Verif Require Import Base BitsModel Crc32Model HashModel HashSpec HashFacts HashData
  HashData2 HashCrc HashPrimary HashSens.
Import ListNotations.
Open Scope N_scope.

Definition all_len (n : nat) (cs : list (list N)) : Prop := Forall (fun c => length c = n) cs.

(** Two data that differ in one byte differ in one chunk, or in the last bytes. *)
Lemma diff_chunks : forall n pre (c c' : N) post, (0 < n)%nat -> c <> c' ->
  (exists a w w' b t,
     pre ++ c :: post = concat (a ++ w :: b) ++ t /\
     pre ++ c' :: post = concat (a ++ w' :: b) ++ t /\
     all_len n (a ++ w :: b) /\ all_len n (a ++ w' :: b) /\ (length t < n)%nat /\ w <> w') \/
  (exists a t t',
     pre ++ c :: post = concat a ++ t /\ pre ++ c' :: post = concat a ++ t' /\
     all_len n a /\ (length t < n)%nat /\ length t' = length t /\ t <> t').
Proof.
  intros n pre c c' post Hn Ne.
  destruct (chunks_exist n pre Hn) as (a & tp & E & F & T).
  destruct (Nat.le_gt_cases n (length tp + S (length post))) as [H|H].
  - left.
    set (k := (n - length tp - 1)%nat).
    destruct (chunks_exist n (skipn k post) Hn) as (b & t & E2 & F2 & T2).
    exists a, (tp ++ c :: firstn k post), (tp ++ c' :: firstn k post), b, t.
    assert (Lw : forall x, length (tp ++ x :: firstn k post) = n).
    { intros x. rewrite app_length. cbn [length]. rewrite firstn_length. unfold k. lia. }
    assert (Eq : forall x, pre ++ x :: post = concat (a ++ (tp ++ x :: firstn k post) :: b) ++ t).
    { intros x. rewrite E, concat_app. cbn [concat].
      rewrite <- !app_assoc. f_equal. f_equal. cbn [app]. f_equal.
      rewrite <- E2. symmetry. apply firstn_skipn. }
    split; [apply Eq|]. split; [apply Eq|].
    split; [apply Forall_app; split; [exact F|constructor; [apply Lw|exact F2]]|].
    split; [apply Forall_app; split; [exact F|constructor; [apply Lw|exact F2]]|].
    split; [exact T2|]. intros Eqw. apply app_inv_head in Eqw. congruence.
  - right. exists a, (tp ++ c :: post), (tp ++ c' :: post).
    split; [rewrite E, <- app_assoc; reflexivity|].
    split; [rewrite E, <- app_assoc; reflexivity|].
    split; [exact F|]. rewrite !app_length. cbn [length].
    split; [lia|]. split; [reflexivity|].
    intros Eqw. apply app_inv_head in Eqw. congruence.
Qed.

Lemma bytes_swap : forall pre c c' post, is_bytes (pre ++ c :: post) -> is_byte c' ->
  is_bytes (pre ++ c' :: post).
Proof.
  intros pre c c' post H Hc. apply bytes_app in H. destruct H as [H1 H2].
  inversion H2; subst. apply bytes_app. split; [exact H1|]. constructor; assumption.
Qed.

Lemma chunks_bytes : forall n cs, all_len n cs -> is_bytes (concat cs) ->
  Forall (fun w => length w = n /\ is_bytes w) cs.
Proof.
  intros n cs F. induction F as [|w cs Hw F IH]; intros B; [constructor|].
  cbn [concat] in B. apply bytes_app in B. destruct B as [B1 B2].
  constructor; auto.
Qed.

(** ** primaryHash *)
Lemma pm_inv : forall n, n = 4%nat \/ n = 8%nat ->
  exists m', (pm n * m') mod 2 ^ (8 * N.of_nat n) = 1 mod 2 ^ (8 * N.of_nat n).
Proof.
  intros n [-> | ->].
  - exists 3625553563. vm_compute. reflexivity.
  - exists 3847610189043306139. vm_compute. reflexivity.
Qed.

Lemma pmix_lt : forall n h v, pmix n h v < 2 ^ (8 * N.of_nat n).
Proof.
  intros n h v. unfold pmix.
  assert (Z : 2 ^ (8 * N.of_nat n) <> 0) by (apply N.pow_nonzero; lia).
  apply lxor_lt; [|apply shiftr_lt]; apply N.mod_lt; exact Z.
Qed.

Lemma pmix_inj : forall n h v h' v', n = 4%nat \/ n = 8%nat ->
  pmix n h v = pmix n h' v' ->
  (h + v) mod 2 ^ (8 * N.of_nat n) = (h' + v') mod 2 ^ (8 * N.of_nat n).
Proof.
  intros n h v h' v' Hn E. unfold pmix in E.
  assert (Z : 2 ^ (8 * N.of_nat n) <> 0) by (apply N.pow_nonzero; lia).
  apply (xorshift_inj (8 * N.of_nat n)) in E.
  - destruct (pm_inv n Hn) as [m' Hm'].
    apply (mul_inj _ (pm n) m') in E; auto; apply N.mod_lt; exact Z.
  - destruct Hn as [-> | ->]; vm_compute; reflexivity.
  - apply N.mod_lt; exact Z.
  - apply N.mod_lt; exact Z.
Qed.

Lemma pstart_lt : forall n len seed, pstart n len seed < 2 ^ (8 * N.of_nat n).
Proof.
  intros n len seed. assert (Z : 2 ^ (8 * N.of_nat n) <> 0) by (apply N.pow_nonzero; lia).
  apply lxor_lt; apply N.mod_lt; exact Z.
Qed.

Lemma le_lt_n : forall n w, (length w <= n)%nat -> is_bytes w -> le w < 2 ^ (8 * N.of_nat n).
Proof.
  intros n w Hl Hw. eapply N.lt_le_trans; [apply le_lt, Hw|].
  apply N.pow_le_mono_r; lia.
Qed.

Lemma pfold_sens : forall n a w w' b h, n = 4%nat \/ n = 8%nat -> h < 2 ^ (8 * N.of_nat n) ->
  Forall is_bytes (a ++ w :: b) -> is_bytes w' ->
  (length w <= n)%nat -> length w' = length w -> w <> w' ->
  Forall (fun x => (length x <= n)%nat) (a ++ b) ->
  fold_left (fun h w => pmix n h (le w)) (a ++ w :: b) h <>
  fold_left (fun h w => pmix n h (le w)) (a ++ w' :: b) h.
Proof.
  intros n a w w' b h Hn Hh FB Bw' Lw Lw' Ne FL.
  apply Forall_app in FB. destruct FB as [Fa FB]. inversion FB as [|? ? Bw Fb]; subst.
  apply Forall_app in FL. destruct FL as [La Lb].
  set (g := fun (h : N) (w : list N) => pmix n h (le w)).
  rewrite !fold_left_app. cbn [fold_left].
  assert (Pa : fold_left g a h < 2 ^ (8 * N.of_nat n)).
  { apply (fold_pres N (list N) (fun h => h < 2 ^ (8 * N.of_nat n)) (fun _ => True)).
    - intros. apply pmix_lt.
    - apply Forall_forall; auto.
    - exact Hh. }
  intros E.
  apply (fold_inj N (list N) (fun h => h < 2 ^ (8 * N.of_nat n)) (fun _ => True)) in E.
  - apply pmix_inj in E; [|exact Hn].
    rewrite (N.add_comm _ (le w)), (N.add_comm _ (le w')) in E.
    apply add_inj in E; try (apply le_lt_n; auto; lia).
    apply le_inj in E; auto.
  - intros. apply pmix_lt.
  - intros x y v Hx Hy _ Eq. unfold g in Eq. apply pmix_inj in Eq; [|exact Hn].
    apply add_inj in Eq; auto.
  - apply Forall_forall; auto.
  - apply pmix_lt.
  - apply pmix_lt.
Qed.

Lemma forall_le_len : forall n cs, all_len n cs -> Forall (fun x => (length x <= n)%nat) cs.
Proof. intros n cs F. induction F as [|x cs H F IH]; constructor; auto. lia. Qed.

Lemma forall_bytes : forall cs, is_bytes (concat cs) -> Forall is_bytes cs.
Proof.
  induction cs as [|w cs IH]; intros H; constructor; cbn [concat] in H; apply bytes_app in H;
    [apply H|apply IH, H].
Qed.

Lemma primary_sens : forall n pre c c' post extra extra' seed, n = 4%nat \/ n = 8%nat ->
  is_bytes (pre ++ c :: post) -> is_byte c' -> c <> c' ->
  lenN (pre ++ c :: post) < 2 ^ 64 -> (n <= length extra)%nat -> (n <= length extra')%nat ->
  exists h h',
    primaryHash_aligned n ((pre ++ c :: post) ++ extra) 0 (lenN (pre ++ c :: post)) seed = Ok h /\
    primaryHash_aligned n ((pre ++ c' :: post) ++ extra') 0 (lenN (pre ++ c' :: post)) seed = Ok h' /\
    h <> h'.
Proof.
  intros n pre c c' post extra extra' seed Hn HB Hc Ne HL Hx Hx'.
  assert (Hk : exists k, k < 64 /\ N.of_nat n = 2 ^ k)
    by (destruct Hn as [-> | ->]; [exists 2 | exists 3]; split; (lia || reflexivity)).
  destruct Hk as (k & Hk & Hnk).
  assert (Hp : (0 < n)%nat) by lia.
  pose proof (bytes_swap _ _ _ _ HB Hc) as HB'.
  assert (HL' : lenN (pre ++ c' :: post) = lenN (pre ++ c :: post))
    by (rewrite !app_length; reflexivity).
  assert (Pad : forall (d x : list N), (n <= length x)%nat ->
            ((n - length d mod n) mod n <=? length x)%nat = true).
  { intros d x Hd. apply Nat.leb_le.
    assert ((n - length d mod n) mod n < n)%nat by (apply Nat.mod_upper_bound; lia). lia. }
  destruct (diff_chunks n pre c c' post Hp Ne)
    as [(a & w & w' & b & t & E & E' & F & F' & T & Nw) | (a & t & t' & E & E' & F & T & T' & Nt)].
  - rewrite (primary_form n k _ extra (a ++ w :: b) t) by auto.
    rewrite (primary_form n k _ extra' (a ++ w' :: b) t) by (auto; rewrite HL'; exact HL).
    rewrite !Pad by assumption.
    eexists. eexists. split; [reflexivity|]. split; [reflexivity|].
    rewrite HL', <- !app_assoc. cbn [app].
    assert (B1 : Forall is_bytes (a ++ w :: b)).
    { apply forall_bytes. rewrite E in HB. apply bytes_app in HB. apply HB. }
    assert (B2 : Forall is_bytes (a ++ w' :: b)).
    { apply forall_bytes. rewrite E' in HB'. apply bytes_app in HB'. apply HB'. }
    assert (Lw : length w = n) by (apply Forall_app in F; destruct F as [_ F]; inversion F; auto).
    assert (Lw' : length w' = n) by (apply Forall_app in F'; destruct F' as [_ F']; inversion F'; auto).
    assert (Bt : Forall is_bytes (opt_tail t)).
    { rewrite E in HB. apply bytes_app in HB. destruct HB as [_ HB].
      destruct t; [constructor|]. constructor; [exact HB|constructor]. }
    apply pfold_sens.
    + exact Hn.
    + apply pstart_lt.
    + apply Forall_app in B1. destruct B1 as [Ba B1]. inversion B1; subst.
      apply Forall_app. split; [exact Ba|]. constructor; [assumption|].
      apply Forall_app. split; assumption.
    + apply Forall_app in B2. destruct B2 as [_ B2]. inversion B2; subst. assumption.
    + lia.
    + lia.
    + exact Nw.
    + apply Forall_app in F. destruct F as [Fa F]. inversion F; subst.
      apply Forall_app. split; [apply forall_le_len; exact Fa|].
      apply Forall_app. split; [apply forall_le_len; assumption|].
      destruct t; [constructor|]. constructor; [lia|constructor].
  - rewrite (primary_form n k _ extra a t) by auto.
    rewrite (primary_form n k _ extra' a t') by (auto; try (rewrite HL'; exact HL); lia).
    rewrite !Pad by assumption.
    eexists. eexists. split; [reflexivity|]. split; [reflexivity|].
    rewrite HL'.
    destruct t as [|x0 t0]; [destruct t'; [congruence|discriminate]|].
    destruct t' as [|y0 t0']; [discriminate|].
    cbn [opt_tail].
    rewrite E in HB. apply bytes_app in HB. destruct HB as [Ha Ht].
    rewrite E' in HB'. apply bytes_app in HB'. destruct HB' as [_ Ht'].
    apply pfold_sens.
    + exact Hn.
    + apply pstart_lt.
    + apply Forall_app. split; [apply forall_bytes; exact Ha|].
      constructor; [exact Ht|constructor].
    + exact Ht'.
    + lia.
    + exact T'.
    + exact Nt.
    + rewrite app_nil_r. apply forall_le_len. exact F.
Qed.

(** ** msvc_fnv_1a *)
Definition fnvstep (h x : N) : N := wmul (N.lxor h x) 1099511628211.

Lemma fnv_loop_form : forall n cs pre post v, all_len n cs ->
  fnv_loop n (pre ++ concat cs ++ post) (lenN pre) (length cs) v =
  Ok (fold_left (fun h w => fnvstep h (le w)) cs v).
Proof.
  intros n cs pre post v F. revert pre v.
  induction F as [|w cs Hw F IH]; intros pre v; cbn [length fnv_loop fold_left concat];
    [reflexivity|].
  rewrite <- app_assoc. rewrite ld0 by exact Hw. cbn [rbind].
  replace (lenN pre + N.of_nat n) with (lenN (pre ++ w)) by (rewrite app_length; lia).
  rewrite (app_assoc pre). apply IH.
Qed.

Definition fnv_width (len : nat) : nat :=
  if (len =? 8)%nat then 4 else if (len =? 4)%nat then 2 else 1.

Lemma fnv_form : forall data, exists cs,
  data = concat cs /\ all_len (fnv_width (length data)) cs /\
  msvc_fnv_1a data 0 (lenN data) =
    Ok (fold_left (fun h w => fnvstep h (le w)) cs 14695981039346656037).
Proof.
  intros data. unfold msvc_fnv_1a, fnv_width.
  destruct (Nat.eqb_spec (length data) 8) as [H8|H8];
  [|destruct (Nat.eqb_spec (length data) 4) as [H4|H4]].
  - replace (lenN data =? 8) with true by lia.
    destruct data as [|b0 [|b1 [|b2 [|b3 [|b4 [|b5 [|b6 [|b7 [|? ?]]]]]]]]]; try discriminate.
    exists [[b0; b1; b2; b3]; [b4; b5; b6; b7]]. split; [reflexivity|].
    split; [repeat constructor|].
    exact (fnv_loop_form 4 [[b0; b1; b2; b3]; [b4; b5; b6; b7]] [] []
             14695981039346656037 ltac:(repeat constructor)).
  - replace (lenN data =? 8) with false by lia. replace (lenN data =? 4) with true by lia.
    destruct data as [|b0 [|b1 [|b2 [|b3 [|? ?]]]]]; try discriminate.
    exists [[b0; b1]; [b2; b3]]. split; [reflexivity|]. split; [repeat constructor|].
    exact (fnv_loop_form 2 [[b0; b1]; [b2; b3]] [] []
             14695981039346656037 ltac:(repeat constructor)).
  - replace (lenN data =? 8) with false by lia. replace (lenN data =? 4) with false by lia.
    exists (map (fun x => [x]) data). split; [symmetry; apply concat_singles|].
    split; [apply singles_len|].
    pose proof (fnv_loop_form 1 (map (fun x => [x]) data) [] [] 14695981039346656037
                  (singles_len data)) as E.
    rewrite concat_singles, map_length, app_nil_r in E. cbn [app length] in E.
    rewrite <- E. f_equal. lia.
Qed.

(** The word read for lengths 4 and 8 is one step, so only other lengths agree with FNV-1a. *)
Lemma fnv_correct : forall data, (length data <> 4)%nat -> (length data <> 8)%nat ->
  msvc_fnv_1a data 0 (lenN data) = Ok (fnv_1a data).
Proof.
  intros data H4 H8. unfold msvc_fnv_1a.
  replace (lenN data =? 8) with false by lia. replace (lenN data =? 4) with false by lia.
  pose proof (fnv_loop_form 1 (map (fun x => [x]) data) [] [] 14695981039346656037
                (singles_len data)) as E.
  rewrite concat_singles, map_length, app_nil_r in E. cbn [app length] in E.
  change (N.of_nat 0) with 0 in E.
  replace (N.to_nat (lenN data)) with (length data) by lia.
  rewrite E. f_equal. unfold fnv_1a. clear.
  generalize 14695981039346656037. induction data as [|b data IH]; intros v;
    cbn [map fold_left]; [reflexivity|]. rewrite IH, le_one. reflexivity.
Qed.

Lemma fnvstep_lt : forall h x, fnvstep h x < 2 ^ 64.
Proof. intros. apply N.mod_lt. vm_compute; discriminate. Qed.

Lemma fnvstep_inj : forall h x h' x', h < 2 ^ 64 -> h' < 2 ^ 64 -> x < 2 ^ 64 -> x' < 2 ^ 64 ->
  fnvstep h x = fnvstep h' x' -> N.lxor h x = N.lxor h' x'.
Proof.
  intros h x h' x' Hh Hh' Hx Hx' E.
  apply (mul_inj (2 ^ 64) 1099511628211 14886173955864302971) in E; auto using lxor_lt.
  - vm_compute; discriminate.
Qed.

Lemma fnv_sens : forall pre c c' post,
  is_bytes (pre ++ c :: post) -> is_byte c' -> c <> c' ->
  exists h h',
    msvc_fnv_1a (pre ++ c :: post) 0 (lenN (pre ++ c :: post)) = Ok h /\
    msvc_fnv_1a (pre ++ c' :: post) 0 (lenN (pre ++ c' :: post)) = Ok h' /\ h <> h'.
Proof.
  intros pre c c' post HB Hc Ne.
  pose proof (bytes_swap _ _ _ _ HB Hc) as HB'.
  destruct (fnv_form (pre ++ c :: post)) as (cs & E & F & ->).
  destruct (fnv_form (pre ++ c' :: post)) as (cs' & E' & F' & ->).
  eexists. eexists. split; [reflexivity|]. split; [reflexivity|].
  replace (length (pre ++ c' :: post)) with (length (pre ++ c :: post)) in F'
    by (rewrite !app_length; reflexivity).
  set (n := fnv_width (length (pre ++ c :: post))) in *.
  assert (Hn : (0 < n <= 4)%nat).
  { unfold n, fnv_width. destruct (_ =? 8)%nat; [lia|]. destruct (_ =? 4)%nat; lia. }
  assert (Uniq : forall cs ds t, all_len n cs -> all_len n ds -> (length t < n)%nat ->
            concat cs = concat ds ++ t -> t = [] /\ cs = ds).
  { clear - Hn. induction cs as [|w cs IH]; intros ds t Fc Fd Ht Eq.
    - destruct ds as [|v ds].
      + cbn in Eq. split; [symmetry; exact Eq|reflexivity].
      + inversion Fd; subst. cbn [concat app] in Eq.
        assert (length (@nil N) = length ((v ++ concat ds) ++ t)) by (rewrite <- Eq; reflexivity).
        rewrite !app_length in H. cbn in H. lia.
    - inversion Fc as [|? ? Hw Fc']; subst.
      destruct ds as [|v ds].
      + cbn [concat app] in Eq.
        assert (length (w ++ concat cs) = length t) by (rewrite Eq; reflexivity).
        rewrite app_length in H. lia.
      + inversion Fd as [|? ? Hv Fd']; subst. cbn [concat] in Eq. rewrite <- app_assoc in Eq.
        assert (Ew : w = v).
        { apply (f_equal (firstn (length w))) in Eq.
          rewrite !firstn_app, Nat.sub_diag, firstn_all in Eq.
          replace (length w) with (length v) in Eq by congruence.
          rewrite Nat.sub_diag, firstn_all in Eq.
          cbn [firstn] in Eq. rewrite !app_nil_r in Eq. exact Eq. }
        subst v. apply app_inv_head in Eq.
        destruct (IH ds t Fc' Fd' Ht Eq) as [Et ->]. auto. }
  destruct (diff_chunks n pre c c' post ltac:(lia) Ne)
    as [(a & w & w' & b & t & D & D' & G & G' & T & Nw) | (a & t & t' & D & D' & G & T & T' & Nt)].
  - destruct (Uniq cs (a ++ w :: b) t F G T) as [_ ->]; [congruence|].
    destruct (Uniq cs' (a ++ w' :: b) t F' G' T) as [_ ->]; [congruence|].
    assert (B1 := chunks_bytes n (a ++ w :: b) F ltac:(rewrite <- E; exact HB)).
    assert (B2 := chunks_bytes n (a ++ w' :: b) F' ltac:(rewrite <- E'; exact HB')).
    assert (Lt : forall v, length v = n /\ is_bytes v -> le v < 2 ^ 64).
    { intros v [Lv Bv]. eapply N.lt_le_trans; [apply le_lt; exact Bv|].
      apply N.pow_le_mono_r; lia. }
    apply (fold_sens N (list N) (fun h => h < 2 ^ 64) (fun w => length w = n /\ is_bytes w)).
    + intros. apply fnvstep_lt.
    + intros h h' v Hh Hh' Hv Eq. apply fnvstep_inj in Eq; auto.
      apply lxor_inj_r in Eq. exact Eq.
    + intros h v v' Hh Hv Hv' Eq. apply fnvstep_inj in Eq; auto.
      apply lxor_inj_l in Eq. destruct Hv, Hv'. apply le_inj in Eq; auto. congruence.
    + exact B1.
    + apply Forall_app in B2. destruct B2 as [_ B2]. inversion B2; assumption.
    + vm_compute; reflexivity.
    + exact Nw.
  - destruct (Uniq cs a t F G T) as [Et _]; [congruence|].
    subst t. destruct t'; [congruence|discriminate].
Qed.

(** ** OpenSSL_Hash *)
Definition ossl_step (s : N * N) (w : list N) : N * N :=
  let '(h, i) := s in (N.lxor h (shl32 (le w) (N.land i 15)), a32 i 1).

Definition ossl_end (s : N * N) (t : list N) : N :=
  match t with [] => fst s | _ => N.lxor (fst s) (shl32 (le t) (N.land (snd s) 15)) end.

Lemma ossl_form : forall data cs tail, lenN data < 2 ^ 64 ->
  data = concat cs ++ tail -> all_len 2 cs -> (length tail < 2)%nat ->
  OpenSSL_Hash data 0 (lenN data) = Ok (ossl_end (fold_left ossl_step cs (0, 0)) tail).
Proof.
  intros data cs tail L E F T. unfold OpenSSL_Hash.
  replace (wsub (two64 - 1) 1) with (wsub (two64 - 1) (2 ^ 1 - 1)) by reflexivity.
  rewrite (align_limit 1 2 data cs tail) by (auto; lia).
  change (@pair N (N * N) 0 (0, 0)) with (lenN (@nil N), (0, 0)).
  rewrite (while_chunks (N * N) ossl_step _ _ 2 (lenN (concat cs)) data)
    with (cs := cs) (post := tail); [|lia| | | |exact E|exact F|cbn [length]; lia| ].
  - cbn [rbind]. destruct (fold_left ossl_step cs (0, 0)) as [h i].
    destruct tail as [|t0 [|? ?]]; cbn [length] in T; try lia.
    + rewrite app_nil_r in E. rewrite <- E. replace (lenN data =? lenN data) with true by lia.
      reflexivity.
    + replace (lenN (concat cs) =? lenN data) with false
        by (rewrite E, app_length; cbn [length]; lia).
      rewrite (ld0' data _ (concat cs) [t0] [] 1) by (auto; lia).
      reflexivity.
  - intros pre w post [h i] E' Hw.
    rewrite (ld0' data _ pre w post 2) by (auto; lia). reflexivity.
  - intros. cbn [fst]. lia.
  - intros. cbn [fst]. lia.
  - rewrite E, app_length, (concat_length 2) by exact F. lia.
Qed.

Lemma shl_small : forall v i, v < 2 ^ 16 -> shl32 v (N.land i 15) = v * 2 ^ N.land i 15.
Proof.
  intros v i Hv. unfold shl32. rewrite N.shiftl_mul_pow2.
  apply w32_small.
  assert (Hi : N.land i 15 < 2 ^ 4).
  { change 15 with (N.ones 4). rewrite N.land_ones. apply N.mod_lt. lia. }
  assert (P : 2 ^ N.land i 15 <= 2 ^ 15)
    by (apply N.pow_le_mono_r; [lia|]; change (2 ^ 4) with 16 in Hi; lia).
  change (2 ^ 32) with (2 ^ 16 * (2 * 2 ^ 15)).
  assert (0 < 2 ^ 15) by (vm_compute; reflexivity). nia.
Qed.

Lemma shl_inj : forall v v' i, v < 2 ^ 16 -> v' < 2 ^ 16 ->
  shl32 v (N.land i 15) = shl32 v' (N.land i 15) -> v = v'.
Proof.
  intros v v' i Hv Hv' E. rewrite !shl_small in E by assumption.
  apply N.mul_cancel_r in E; [exact E|]. apply N.pow_nonzero. lia.
Qed.

Lemma ossl_snd : forall cs cs' h h' i, length cs = length cs' ->
  snd (fold_left ossl_step cs (h, i)) = snd (fold_left ossl_step cs' (h', i)).
Proof.
  induction cs as [|w cs IH]; intros [|w' cs'] h h' i L; try discriminate; [reflexivity|].
  cbn [fold_left]. unfold ossl_step at 2 4. apply IH. cbn in L. congruence.
Qed.

Lemma ossl_sens : forall pre c c' post,
  is_bytes (pre ++ c :: post) -> is_byte c' -> c <> c' -> lenN (pre ++ c :: post) < 2 ^ 64 ->
  exists h h',
    OpenSSL_Hash (pre ++ c :: post) 0 (lenN (pre ++ c :: post)) = Ok h /\
    OpenSSL_Hash (pre ++ c' :: post) 0 (lenN (pre ++ c' :: post)) = Ok h' /\ h <> h'.
Proof.
  intros pre c c' post HB Hc Ne L.
  pose proof (bytes_swap _ _ _ _ HB Hc) as HB'.
  assert (L' : lenN (pre ++ c' :: post) < 2 ^ 64)
    by (rewrite app_length in *; cbn [length] in *; exact L).
  destruct (diff_chunks 2 pre c c' post ltac:(lia) Ne)
    as [(a & w & w' & b & t & D & D' & G & G' & T & Nw) | (a & t & t' & D & D' & G & T & T' & Nt)].
  - rewrite (ossl_form _ (a ++ w :: b) t) by auto.
    rewrite (ossl_form _ (a ++ w' :: b) t) by auto.
    eexists. eexists. split; [reflexivity|]. split; [reflexivity|].
    assert (B1 := chunks_bytes 2 (a ++ w :: b) G
                    ltac:(rewrite D in HB; apply bytes_app in HB; apply HB)).
    assert (B2 := chunks_bytes 2 (a ++ w' :: b) G'
                    ltac:(rewrite D' in HB'; apply bytes_app in HB'; apply HB')).
    assert (Lt : forall v, length v = 2%nat /\ is_bytes v -> le v < 2 ^ 16).
    { intros v [Lv Bv]. eapply N.lt_le_trans; [apply le_lt; exact Bv|].
      rewrite Lv. apply N.le_refl. }
    assert (S : fold_left ossl_step (a ++ w :: b) (0, 0) <>
                fold_left ossl_step (a ++ w' :: b) (0, 0)).
    { apply (fold_sens (N * N) (list N) (fun s => snd s < 2 ^ 32)
               (fun w => length w = 2%nat /\ is_bytes w)).
      - intros [h i] v _ _. apply w32_lt.
      - intros [h i] [h' i'] v Hi Hi' Hv Eq. cbn [snd] in *.
        assert (E2 : a32 i 1 = a32 i' 1) by (unfold ossl_step in Eq; congruence).
        unfold a32 in E2. apply add_inj in E2; auto. subst i'. f_equal.
        assert (E1 : N.lxor h (shl32 (le v) (N.land i 15)) =
                     N.lxor h' (shl32 (le v) (N.land i 15)))
          by (unfold ossl_step in Eq; congruence).
        apply lxor_inj_r in E1. exact E1.
      - intros [h i] v v' Hi Hv Hv' Eq.
        assert (E1 : N.lxor h (shl32 (le v) (N.land i 15)) =
                     N.lxor h (shl32 (le v') (N.land i 15)))
          by (unfold ossl_step in Eq; congruence).
        apply lxor_inj_l in E1. apply shl_inj in E1; auto.
        destruct Hv, Hv'. apply le_inj in E1; auto. congruence.
      - exact B1.
      - apply Forall_app in B2. destruct B2 as [_ B2]. inversion B2; assumption.
      - vm_compute; reflexivity.
      - exact Nw. }
    assert (E2 := ossl_snd (a ++ w :: b) (a ++ w' :: b) 0 0 0
                    ltac:(rewrite !app_length; reflexivity)).
    destruct (fold_left ossl_step (a ++ w :: b) (0, 0)) as [h i].
    destruct (fold_left ossl_step (a ++ w' :: b) (0, 0)) as [h' i'].
    cbn [snd] in E2. subst i'.
    intros Eq. apply S. f_equal.
    unfold ossl_end in Eq. destruct t as [|t0 tl]; cbn [fst snd] in Eq; [exact Eq|].
    apply lxor_inj_r in Eq. exact Eq.
  - rewrite (ossl_form _ a t) by auto.
    rewrite (ossl_form _ a t') by (auto; lia).
    eexists. eexists. split; [reflexivity|]. split; [reflexivity|].
    destruct t as [|x [|? ?]]; cbn [length] in T, T'; try lia.
    + destruct t'; [congruence|discriminate].
    + destruct t' as [|y [|? ?]]; try discriminate.
      rewrite D in HB. apply bytes_app in HB. destruct HB as [_ HB].
      rewrite D' in HB'. apply bytes_app in HB'. destruct HB' as [_ HB'].
      inversion HB; inversion HB'; subst.
      destruct (fold_left ossl_step a (0, 0)) as [h i]. unfold ossl_end. cbn [fst snd].
      intros Eq. apply lxor_inj_l in Eq.
      assert (B16 : forall z, is_byte z -> le [z] < 2 ^ 16).
      { intros z Hz. rewrite le_one. unfold is_byte in Hz. eapply N.lt_trans; [exact Hz|].
        vm_compute; reflexivity. }
      apply shl_inj in Eq; auto. rewrite !le_one in Eq. congruence.
Qed.
