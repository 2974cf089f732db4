(** rocksdb hash, wide strings, one-byte sensitivity of every hash, and counterexamples. *)
From Coq Require Import Arith NArith ZArith List Bool Lia.
From Coq Require Import ZifyBool ZifyNat ZifyN.
From Verif Require Import Base BitsModel Crc32Model HashModel HashSpec HashFacts HashData
  HashData2 HashCrc HashPrimary HashSens HashSens2 HashArith.
Import ListNotations.
Open Scope N_scope.

(** ** rocksdb *)
Definition rstep (h : N) (w : list N) : N :=
  let x := m32 (a32 h (le w)) 3332679571 in N.lxor x (N.shiftr x 16).

Lemma schar_shl_iff : forall c n, n <> 0 -> ((exists v, schar_shl c n = Ok v) <-> c < 128).
Proof.
  intros c n Hn. unfold schar_shl. destruct (N.ltb_spec c 128) as [H|H].
  - split; [intros _; exact H|]. eexists; reflexivity.
  - destruct (N.eqb_spec n 0) as [H0|H0]; [contradiction|].
    split; [intros [v E]; discriminate|lia].
Qed.

Lemma schar_shl_0 : forall c, exists v, schar_shl c 0 = Ok v.
Proof. intros c. unfold schar_shl. destruct (c <? 128); eexists; reflexivity. Qed.

Lemma rocksdb_chunks : forall cs tail seed,
  all_len 4 cs -> (length tail < 4)%nat ->
  (exists h, rocksdb_Hash (concat cs ++ tail) 0 (lenN (concat cs ++ tail)) seed = Ok h) <->
  Forall (fun c => c < 128) (tl tail).
Proof.
  intros cs tail seed F T. unfold rocksdb_Hash.
  set (data := concat cs ++ tail).
  set (h0 := w32 (N.lxor seed (wmul (lenN data) 3332679571))). clearbody h0.
  assert (L : lenN data = lenN (concat cs) + lenN tail)
    by (unfold data; rewrite app_length; lia).
  change (0, h0) with (lenN (@nil N), h0).
  rewrite (while_chunks N rstep _ _ 4 (lenN (concat cs)) data)
    with (cs := cs) (post := tail);
    [|lia| | | |reflexivity|exact F|cbn [length]; lia| ].
  - cbn [rbind]. set (h := fold_left rstep cs h0). clearbody h.
    replace (lenN data - lenN (concat cs)) with (lenN tail) by lia.
    rewrite !N.add_0_l.
    destruct tail as [|b0 [|b1 [|b2 [|? ?]]]]; cbn [length] in T; try lia; cbn [tl].
    + change (lenN [] =? 3) with false. change (lenN [] =? 2) with false.
      change (lenN [] =? 1) with false. cbn [orb rbind].
      split; [constructor|]. eexists; reflexivity.
    + change (lenN [b0] =? 3) with false. change (lenN [b0] =? 2) with false.
      change (lenN [b0] =? 1) with true. cbn [orb rbind].
      rewrite (ld0' data _ (concat cs) [b0] [] 1) by (auto; lia). cbn [rbind].
      destruct (schar_shl_0 (le [b0])) as [v ->]. cbn [rbind].
      split; [constructor|]. eexists; reflexivity.
    + change (lenN [b0; b1] =? 3) with false. change (lenN [b0; b1] =? 2) with true.
      cbn [orb rbind].
      rewrite (ld0' data _ (concat cs ++ [b0]) [b1] [] 1)
        by (try reflexivity; try (unfold data; rewrite <- app_assoc; reflexivity);
            rewrite app_length; cbn [length]; lia).
      cbn [rbind]. rewrite le_one.
      rewrite (ld0' data _ (concat cs) [b0] [b1] 1) by (auto; lia).
      cbn [rbind]. destruct (schar_shl_0 (le [b0])) as [v0 ->].
      pose proof (schar_shl_iff b1 8 ltac:(lia)) as S1.
      destruct (schar_shl b1 8) as [v1|e]; cbn [rbind].
      * split; [|eexists; reflexivity].
        intros _. constructor; [apply S1; eexists; reflexivity|constructor].
      * split; [intros [x E]; discriminate|]. intros FF. inversion FF as [|? ? F1 _]; subst.
        apply S1 in F1. destruct F1; discriminate.
    + change (lenN [b0; b1; b2] =? 3) with true. cbn [orb rbind].
      rewrite (ld0' data _ (concat cs ++ [b0; b1]) [b2] [] 1)
        by (try reflexivity; try (unfold data; rewrite <- app_assoc; reflexivity);
            rewrite app_length; cbn [length]; lia).
      cbn [rbind].
      rewrite (ld0' data _ (concat cs ++ [b0]) [b1] [b2] 1)
        by (try reflexivity; try (unfold data; rewrite <- app_assoc; reflexivity);
            rewrite app_length; cbn [length]; lia).
      cbn [rbind].
      rewrite (ld0' data _ (concat cs) [b0] [b1; b2] 1) by (auto; lia).
      cbn [rbind]. rewrite !le_one. destruct (schar_shl_0 b0) as [v0 ->].
      pose proof (schar_shl_iff b1 8 ltac:(lia)) as S1.
      pose proof (schar_shl_iff b2 16 ltac:(lia)) as S2.
      destruct (schar_shl b2 16) as [v2|e]; cbn [rbind];
        [destruct (schar_shl b1 8) as [v1|e]; cbn [rbind]|].
      * split; [|eexists; reflexivity].
        intros _. constructor; [apply S1; eexists; reflexivity|].
        constructor; [apply S2; eexists; reflexivity|constructor].
      * split; [intros [x E]; discriminate|]. intros FF. inversion FF as [|? ? F1 _]; subst.
        apply S1 in F1. destruct F1; discriminate.
      * split; [intros [x E]; discriminate|]. intros FF. inversion FF as [|? ? _ F1]; subst.
        inversion F1 as [|? ? F2 _]; subst. apply S2 in F2. destruct F2; discriminate.
  - intros pre w post h E' Hw. cbn [fst snd].
    rewrite (ld0' data _ pre w post 4) by (auto; lia). reflexivity.
  - intros i h Hi. cbn [fst]. lia.
  - intros h. cbn [fst]. lia.
  - unfold data. rewrite app_length, (concat_length 4) by exact F. lia.
Qed.

Lemma rocksdb_defined : forall data seed,
  (exists h, rocksdb_Hash data 0 (lenN data) seed = Ok h) <->
  (forall i, (length data / 4 * 4 < i < length data)%nat -> nth i data 0 < 128).
Proof.
  intros data seed.
  destruct (chunks_exist 4 data ltac:(lia)) as (cs & tail & E & F & T).
  rewrite E, rocksdb_chunks by assumption.
  assert (Lc : length (concat cs) = (4 * length cs)%nat) by (apply concat_length; exact F).
  replace (length (concat cs ++ tail) / 4 * 4)%nat with (length (concat cs)).
  2:{ rewrite app_length, Lc. clear - T.
      replace (4 * length cs + length tail)%nat with (length cs * 4 + length tail)%nat by lia.
      rewrite Nat.div_add_l, (Nat.div_small (length tail)) by lia. lia. }
  rewrite app_length. split.
  - intros H i Hi. rewrite app_nth2 by lia.
    destruct tail as [|b0 tail]; [cbn [length] in Hi; lia|]. cbn [tl] in H.
    replace (i - length (concat cs))%nat with (S (i - length (concat cs) - 1)) by lia.
    cbn [nth]. rewrite Forall_forall in H. apply H. apply nth_In. cbn [length] in Hi. lia.
  - intros H. destruct tail as [|b0 tail]; cbn [tl]; [constructor|].
    apply Forall_forall. intros c Hc. apply (In_nth _ _ 0) in Hc. destruct Hc as (j & Hj & <-).
    specialize (H (length (concat cs) + S j)%nat ltac:(cbn [length]; lia)).
    rewrite app_nth2 in H by lia.
    replace (length (concat cs) + S j - length (concat cs))%nat with (S j) in H by lia.
    exact H.
Qed.

(** ** Wide strings *)
Lemma while_inv : forall (X : Type) (P : X -> Prop) cond body,
  (forall s s', P s -> cond s = true -> body s = Ok s' -> P s') ->
  forall fuel s s', P s -> while fuel cond body s = Ok s' -> P s' /\ cond s' = false.
Proof.
  intros X P cond body HP. induction fuel as [|f IH]; intros s s' Hs E; cbn [while] in E;
    destruct (cond s) eqn:C.
  - discriminate.
  - injection E as <-. auto.
  - destruct (body s) as [s1|e] eqn:B; cbn [rbind] in E; [|discriminate].
    apply (IH s1 s'); [eapply HP; eauto|exact E].
  - injection E as <-. auto.
Qed.

Lemma ld_ok : forall n mem i v, ld n mem i = Ok v -> i + N.of_nat n <= lenN mem.
Proof.
  intros n mem i v E. unfold ld in E.
  destruct (N.leb_spec (i + N.of_nat n) (lenN mem)) as [H|H]; [exact H|discriminate].
Qed.

Lemma BKDR_reads : forall seed w mem len h, (0 < w)%nat -> len * N.of_nat w < 2 ^ 64 ->
  BKDRHash seed w mem 0 len = Ok h -> len * N.of_nat w * N.of_nat w <= lenN mem.
Proof.
  intros seed w mem len h Hw HL E. unfold BKDRHash in E.
  replace (wmul len (N.of_nat w)) with (len * N.of_nat w) in E
    by (symmetry; apply N.mod_small; exact HL).
  set (L := len * N.of_nat w) in *. set (W := N.of_nat w) in *.
  match type of E with rbind (while ?f ?c ?b ?s) _ = _ =>
    destruct (while f c b s) as [s1|e] eqn:E1; cbn [rbind] in E; [|discriminate] end.
  assert (P1 : fst s1 * W <= lenN mem).
  { eapply (while_inv _ (fun s => fst s * W <= lenN mem)) in E1; [apply E1| |cbn [fst]; lia].
    intros s s' Hs _ B.
    repeat match type of B with rbind (ld ?n ?m ?i) _ = _ =>
      let v := fresh "v" in let D := fresh "D" in
      destruct (ld n m i) as [v|?] eqn:D; cbn [rbind] in B; [apply ld_ok in D|discriminate] end.
    injection B as <-. cbn [fst]. lia. }
  match type of E with rbind (while ?f ?c ?b ?s) _ = _ =>
    destruct (while f c b s) as [s2|e] eqn:E2; cbn [rbind] in E; [|discriminate] end.
  eapply (while_inv _ (fun s => fst s * W <= lenN mem)) in E2; [| |exact P1].
  - destruct E2 as [P2 C2]. apply negb_false_iff, N.eqb_eq in C2. rewrite <- C2. exact P2.
  - intros s s' Hs _ B.
    repeat match type of B with rbind (ld ?n ?m ?i) _ = _ =>
      let v := fresh "v" in let D := fresh "D" in
      destruct (ld n m i) as [v|?] eqn:D; cbn [rbind] in B; [apply ld_ok in D|discriminate] end.
    injection B as <-. cbn [fst]. lia.
Qed.

Lemma BKDR_std_reads : forall w mem len h, (0 < w)%nat -> len * N.of_nat w < 2 ^ 64 ->
  BKDRHash_31_std w mem 0 len = Ok h -> len * N.of_nat w * N.of_nat w <= lenN mem.
Proof.
  intros w mem len h Hw HL E. unfold BKDRHash_31_std in E.
  replace (wmul len (N.of_nat w)) with (len * N.of_nat w) in E
    by (symmetry; apply N.mod_small; exact HL).
  set (L := len * N.of_nat w) in *. set (W := N.of_nat w) in *.
  match type of E with rbind (while ?f ?c ?b ?s) _ = _ =>
    destruct (while f c b s) as [s2|e] eqn:E2; cbn [rbind] in E; [|discriminate] end.
  eapply (while_inv _ (fun s => fst s * W <= lenN mem)) in E2; [| |cbn [fst]; lia].
  - destruct E2 as [P2 C2]. apply negb_false_iff, N.eqb_eq in C2. rewrite <- C2. exact P2.
  - intros s s' Hs _ B.
    repeat match type of B with rbind (ld ?n ?m ?i) _ = _ =>
      let v := fresh "v" in let D := fresh "D" in
      destruct (ld n m i) as [v|?] eqn:D; cbn [rbind] in B; [apply ld_ok in D|discriminate] end.
    injection B as <-. cbn [fst]. lia.
Qed.

Lemma wide_string_over_read : forall w mem size, (w = 2 \/ w = 4)%nat -> 0 < size ->
  lenN mem = size * N.of_nat w -> lenN mem < 2 ^ 64 ->
  defined (string_getHashCode HashFunc_Time31 w mem 0 size) = None /\
  defined (string_getHashCode HashFunc_Time31Std w mem 0 size) = None.
Proof.
  intros w mem size Hw Hs HL HB. cbn [string_getHashCode]. unfold Times31, Times31Std.
  split.
  - destruct (BKDRHash 31 w mem 0 size) as [h|e] eqn:E; [|reflexivity].
    apply BKDR_reads in E; [|lia|lia]. exfalso. nia.
  - destruct (BKDRHash_31_std w mem 0 size) as [h|e] eqn:E; [|reflexivity].
    apply BKDR_std_reads in E; [|lia|lia]. exfalso. nia.
Qed.

(** ** Reads behind the key *)
Lemma crc_over_read : forall n data, n = 4%nat \/ n = 8%nat -> is_bytes data ->
  (length data mod n <> 0)%nat -> intel_crc32 n data 0 (lenN data) = Err EUndef.
Proof.
  intros n data Hn H M. pose proof (crc_correct n data (@nil N) Hn H) as E.
  rewrite app_nil_r in E. rewrite E. cbn [length].
  assert (length data mod n < n)%nat by (apply Nat.mod_upper_bound; lia).
  rewrite Nat.mod_small by lia.
  destruct (Nat.leb_spec (n - length data mod n) 0) as [K|K]; [lia|reflexivity].
Qed.

Lemma primary_over_read : forall n data seed, n = 4%nat \/ n = 8%nat -> is_bytes data ->
  lenN data < 2 ^ 64 -> (length data mod n <> 0)%nat ->
  primaryHash_x86 n data 0 (lenN data) seed = Err EUndef.
Proof.
  intros n data seed Hn H L M. pose proof (primary_correct n data (@nil N) seed Hn H L) as E.
  rewrite app_nil_r in E. unfold primaryHash_x86. rewrite E. cbn [length].
  assert (length data mod n < n)%nat by (apply Nat.mod_upper_bound; lia).
  rewrite Nat.mod_small by lia.
  destruct (Nat.leb_spec (n - length data mod n) 0) as [K|K]; [lia|reflexivity].
Qed.

Lemma pad_enough : forall n (data extra : list N), (0 < n)%nat -> (n <= S (length extra))%nat ->
  ((n - length data mod n) mod n <=? length extra)%nat = true.
Proof.
  intros n data extra Hn Hx. apply Nat.leb_le.
  assert ((n - length data mod n) mod n < n)%nat by (apply Nat.mod_upper_bound; lia). lia.
Qed.

Lemma crc_padded : forall n data extra, n = 4%nat \/ n = 8%nat -> is_bytes data ->
  (n <= S (length extra))%nat ->
  intel_crc32 n (data ++ extra) 0 (lenN data) = Ok (crc32c_reg (zero_pad n data)).
Proof.
  intros n data extra Hn H Hx. rewrite crc_correct by assumption.
  rewrite pad_enough by (auto; lia). reflexivity.
Qed.

Lemma primary_padded : forall n data seed, n = 4%nat \/ n = 8%nat -> is_bytes data ->
  lenN data < 2 ^ 64 ->
  exists h, forall extra : list N, (n <= S (length extra))%nat ->
    primaryHash_x86 n (data ++ extra) 0 (lenN data) seed = Ok h.
Proof.
  intros n data seed Hn H L. destruct (primary_ok n data seed Hn H L) as [h Eh].
  exists h. intros extra Hx. unfold primaryHash_x86. rewrite primary_correct by assumption.
  rewrite pad_enough by (auto; lia). exact Eh.
Qed.

(** Zeros at the end of a key. *)
Lemma zero_pad_zeros : forall n data k, (0 < n)%nat ->
  (length data mod n <> 0)%nat -> (length data mod n + k <= n)%nat ->
  zero_pad n (data ++ repeat 0 k) = zero_pad n data.
Proof.
  intros n data k Hn M K. unfold zero_pad. rewrite <- app_assoc. f_equal.
  rewrite <- repeat_app. f_equal. rewrite app_length, repeat_length.
  pose proof (Nat.div_mod (length data) n ltac:(lia)) as D.
  assert (length data mod n < n)%nat by (apply Nat.mod_upper_bound; lia).
  set (q := (length data / n)%nat) in *. set (r := (length data mod n)%nat) in *.
  rewrite (Nat.mod_small (n - r)) by lia.
  destruct (Nat.eq_dec (r + k) n) as [Z|Z].
  - assert (E0 : ((length data + k) mod n = 0)%nat).
    { rewrite D. replace (n * q + r + k)%nat with (0 + (q + 1) * n)%nat by lia.
      rewrite Nat.mod_add by lia. apply Nat.mod_0_l. lia. }
    rewrite E0, Nat.sub_0_r, Nat.mod_same by lia. lia.
  - assert (E0 : ((length data + k) mod n = r + k)%nat).
    { rewrite D. replace (n * q + r + k)%nat with ((r + k) + q * n)%nat by lia.
      rewrite Nat.mod_add by lia. apply Nat.mod_small. lia. }
    rewrite E0, Nat.mod_small by lia. lia.
Qed.

Lemma crc_zeros : forall data k extra extra',
  is_bytes data -> (length data mod 8 <> 0)%nat -> (length data mod 8 + k <= 8)%nat ->
  (7 <= length extra)%nat -> (7 <= length extra')%nat ->
  exists h, hash_crc32 (data ++ extra) 0 (lenN data) = Ok h /\
            hash_crc32 ((data ++ repeat 0 k) ++ extra') 0 (lenN (data ++ repeat 0 k)) = Ok h.
Proof.
  intros data k extra extra' H M K X X'. unfold hash_crc32.
  assert (Z : is_bytes (data ++ repeat 0 k)).
  { apply bytes_app; split; [exact H|]. apply Forall_forall. intros x Hx.
    apply repeat_spec in Hx. subst x. unfold is_byte. lia. }
  rewrite (crc_padded 8 data), (crc_padded 8 (data ++ repeat 0 k)) by (auto; lia).
  eexists. split; [reflexivity|]. rewrite zero_pad_zeros by (auto; lia). reflexivity.
Qed.

(** ** Sensitivity *)
Lemma sens_wrap : forall (H : list N -> N -> res N) (F : list N -> N) (P : list N -> Prop),
  (forall data, is_bytes data -> lenN data < 2 ^ 64 -> H data (lenN data) = Ok (F data)) ->
  (forall pre c c' post, is_bytes (pre ++ c :: post) -> is_byte c' -> c <> c' ->
     F (pre ++ c :: post) <> F (pre ++ c' :: post)) ->
  byte_sensitive (fun data len => defined (H data len)).
Proof.
  intros H F _ HF S pre c c' post HB Hc Ne HL.
  pose proof (bytes_swap _ _ _ _ HB Hc) as HB'.
  assert (HL' : lenN (pre ++ c' :: post) < 2 ^ 64)
    by (rewrite app_length in *; cbn [length] in *; exact HL).
  exists (F (pre ++ c :: post)), (F (pre ++ c' :: post)).
  rewrite !HF by assumption. split; [reflexivity|]. split; [reflexivity|].
  apply S; assumption.
Qed.

Lemma BKDR_sens : forall seed seed', (seed * seed') mod 2 ^ 32 = 1 ->
  byte_sensitive (fun data len => defined (BKDRHash seed 1 data 0 len)).
Proof.
  intros seed seed' Hs. apply (sens_wrap _ (horner seed 0) (fun _ => True)).
  - intros. apply BKDR_correct; assumption.
  - intros. apply (horner_sens seed seed'); auto. vm_compute; reflexivity.
Qed.

Lemma BKDR131_sens : byte_sensitive (fun data len => defined (BKDRHash 131 1 data 0 len)).
Proof. apply (BKDR_sens 131 3376959019). vm_compute. reflexivity. Qed.

Lemma Times31_sens : byte_sensitive (fun data len => defined (Times31 1 data 0 len)).
Proof. apply (BKDR_sens 31 3186588639). vm_compute. reflexivity. Qed.

Lemma Times31Std_sens : byte_sensitive (fun data len => defined (Times31Std 1 data 0 len)).
Proof.
  apply (sens_wrap _ (horner 31 0) (fun _ => True)).
  - intros. apply BKDR_std_correct; assumption.
  - intros. apply (horner_sens 31 3186588639); auto; vm_compute; reflexivity.
Qed.

Lemma DJB_sens : byte_sensitive (fun data len => defined (DJBHash data 0 len)).
Proof.
  apply (sens_wrap _ (horner 33 5381) (fun _ => True)).
  - intros. apply DJB_correct; assumption.
  - intros. apply (horner_sens 33 1041204193); auto; vm_compute; reflexivity.
Qed.

Lemma AP_sens : byte_sensitive (fun data len => defined (APHash data 0 len)).
Proof.
  apply (sens_wrap _ (ap_hash true 0) (fun _ => True)).
  - intros. apply AP_correct; assumption.
  - intros. apply ap_sens; auto.
Qed.

Lemma crc_simple_sens : forall n, n = 4%nat \/ n = 8%nat ->
  byte_sensitive (fun data len => defined (intel_crc32_simple n data 0 len)).
Proof.
  intros n Hn. apply (sens_wrap _ crc32c (fun _ => True)).
  - intros. apply crc_simple_correct; assumption.
  - intros pre c c' post HB Hc Ne E. unfold crc32c, crc32c_reg in E.
    apply lxor_inj_r in E. revert E. apply crc_sens; auto. vm_compute; reflexivity.
Qed.

Lemma crc_pad_sens : forall n extra, n = 4%nat \/ n = 8%nat -> (n <= S (length extra))%nat ->
  byte_sensitive (fun data len => defined (intel_crc32 n (data ++ extra) 0 len)).
Proof.
  intros n extra Hn Hx.
  apply (sens_wrap (fun data len => intel_crc32 n (data ++ extra) 0 len)
           (fun data => crc32c_reg (zero_pad n data)) (fun _ => True)).
  - intros. apply crc_padded; assumption.
  - intros pre c c' post HB Hc Ne. unfold zero_pad, crc32c_reg.
    replace (length (pre ++ c' :: post)) with (length (pre ++ c :: post))
      by (rewrite !app_length; reflexivity).
    rewrite <- !app_assoc. cbn [app]. apply crc_sens; auto; [vm_compute; reflexivity|].
    rewrite app_comm_cons, app_assoc. apply bytes_app. split; [exact HB|].
    apply Forall_forall. intros x Hin. apply repeat_spec in Hin. subst x. unfold is_byte. lia.
Qed.

Lemma primary_sens' : forall n extra seed, n = 4%nat \/ n = 8%nat -> (n <= length extra)%nat ->
  byte_sensitive (fun data len => defined (primaryHash_x86 n (data ++ extra) 0 len seed)).
Proof.
  intros n extra seed Hn Hx pre c c' post HB Hc Ne HL.
  destruct (primary_sens n pre c c' post extra extra seed Hn HB Hc Ne HL Hx Hx)
    as (h & h' & E & E' & D).
  exists h, h'. unfold primaryHash_x86. rewrite E, E'. auto.
Qed.

Lemma fnv_sens' : byte_sensitive (fun data len => defined (msvc_fnv_1a data 0 len)).
Proof.
  intros pre c c' post HB Hc Ne HL.
  destruct (fnv_sens pre c c' post HB Hc Ne) as (h & h' & E & E' & D).
  exists h, h'. rewrite E, E'. auto.
Qed.

Lemma ossl_sens' : byte_sensitive (fun data len => defined (OpenSSL_Hash data 0 len)).
Proof.
  intros pre c c' post HB Hc Ne HL.
  destruct (ossl_sens pre c c' post HB Hc Ne HL) as (h & h' & E & E' & D).
  exists h, h'. rewrite E, E'. auto.
Qed.

(** primaryHash of keys that differ only in zeros at the end. *)
Lemma primary_zeros : forall data k extra extra' seed,
  is_bytes data -> lenN data + N.of_nat k < 2 ^ 64 -> (0 < k)%nat ->
  (length data mod 8 <> 0)%nat -> (length data mod 8 + k <= 8)%nat ->
  (7 <= length extra)%nat -> (7 <= length extra')%nat ->
  exists h h', primaryHash_x86 8 (data ++ extra) 0 (lenN data) seed = Ok h /\
    primaryHash_x86 8 ((data ++ repeat 0 k) ++ extra') 0 (lenN (data ++ repeat 0 k)) seed = Ok h' /\
    h <> h'.
Proof.
  intros data k extra extra' seed H L K0 M K X X'.
  destruct (chunks_exist 8 data ltac:(lia)) as (cs & tail & E & F & T).
  assert (Z : is_bytes (repeat 0 k)).
  { apply Forall_forall; intros x Hx; apply repeat_spec in Hx; subst x; unfold is_byte; lia. }
  assert (H' : is_bytes (data ++ repeat 0 k)) by (apply bytes_app; split; assumption).
  pose proof (tail_mod 8 data cs tail E F T) as Hm.
  assert (L' : lenN (data ++ repeat 0 k) = lenN data + N.of_nat k)
    by (rewrite app_length, repeat_length; lia).
  assert (Ez : le (tail ++ repeat 0 k) = le tail) by apply le_zeros.
  unfold primaryHash_x86.
  rewrite (primary_form 8 3 data extra cs tail seed) by (auto; lia).
  rewrite pad_enough by lia.
  set (P := 2 ^ (8 * N.of_nat 8)).
  assert (Hinj : forall l s s', s < P -> s' < P ->
    fold_left (fun h w => pmix 8 h (le w)) l s = fold_left (fun h w => pmix 8 h (le w)) l s' ->
    s = s').
  { intros l s s' Hs Hs' Eq.
    apply (fold_inj N (list N) (fun h => h < P) (fun _ => True)) in Eq; auto.
    - intros. apply pmix_lt.
    - intros x y v Hx Hy _ Eq'. apply pmix_inj in Eq'; [|auto]. apply add_inj in Eq'; auto.
    - apply Forall_forall; auto. }
  assert (Hst : pstart 8 (lenN data) seed <> pstart 8 (lenN (data ++ repeat 0 k)) seed).
  { unfold pstart. intros Eq. apply lxor_inj_l in Eq. fold P in Eq.
    rewrite !(N.mul_comm (pm 8)) in Eq.
    apply (mul_inj P (pm 8) 3847610189043306139) in Eq.
    - rewrite L' in Eq. change P with (2 ^ 64) in Eq. rewrite !N.mod_small in Eq by lia. lia.
    - vm_compute; discriminate.
    - vm_compute; reflexivity.
    - apply N.mod_lt. vm_compute; discriminate.
    - apply N.mod_lt. vm_compute; discriminate. }
  destruct (Nat.eq_dec (length tail + k) 8) as [K8|K8].
  - rewrite (primary_form 8 3 (data ++ repeat 0 k) extra' (cs ++ [tail ++ repeat 0 k]) [] seed);
      auto; try lia.
    + rewrite pad_enough by lia. eexists. eexists. split; [reflexivity|]. split; [reflexivity|].
      destruct tail as [|t0 tail]; [cbn [length] in Hm; lia|]. cbn [opt_tail].
      rewrite app_nil_r, !fold_left_app. cbn [fold_left]. rewrite Ez. intros Eq.
      rewrite <- (fold_left_app (fun h w => pmix 8 h (le w)) cs [t0 :: tail]) in Eq || idtac.
      apply Hst.
      apply (Hinj (cs ++ [t0 :: tail])).
      * apply pstart_lt.
      * apply pstart_lt.
      * rewrite !fold_left_app. exact Eq.
    + rewrite concat_app, E, app_nil_r. cbn [concat]. rewrite app_nil_r, app_assoc. reflexivity.
    + apply Forall_app. split; [exact F|]. constructor; [|constructor].
      rewrite app_length, repeat_length. exact K8.
    + cbn [length]. lia.
  - rewrite (primary_form 8 3 (data ++ repeat 0 k) extra' cs (tail ++ repeat 0 k) seed);
      auto; try lia.
    + rewrite pad_enough by lia. eexists. eexists. split; [reflexivity|]. split; [reflexivity|].
      destruct tail as [|t0 tail]; [cbn [length] in Hm; lia|]. cbn [opt_tail app].
      rewrite !fold_left_app. cbn [fold_left].
      change (t0 :: tail ++ repeat 0 k) with ((t0 :: tail) ++ repeat 0 k). rewrite Ez. intros Eq.
      apply Hst. apply (Hinj (cs ++ [t0 :: tail])).
      * apply pstart_lt.
      * apply pstart_lt.
      * rewrite !fold_left_app. exact Eq.
    + rewrite E, app_assoc. reflexivity.
    + rewrite app_length, repeat_length. lia.
Qed.

(** ** Counterexamples *)
Lemma primary_other_alignment : exists data mem mem',
  is_bytes mem /\ is_bytes mem' /\
  firstn 8 (skipn 8 mem) = data /\ firstn 8 (skipn 9 mem') = data /\
  exists h h', primaryHash_other 8 mem 8 8 0 = Ok h /\ primaryHash_other 8 mem' 9 8 0 = Ok h' /\
    h <> h'.
Proof.
  exists [1; 2; 3; 4; 5; 6; 7; 8], [0; 0; 0; 0; 0; 0; 0; 0; 1; 2; 3; 4; 5; 6; 7; 8],
    [0; 0; 0; 0; 0; 0; 0; 0; 0; 1; 2; 3; 4; 5; 6; 7; 8; 0; 0; 0; 0; 0; 0; 0].
  split; [repeat constructor|]. split; [repeat constructor|].
  split; [reflexivity|]. split; [reflexivity|].
  eexists. eexists. split; [vm_compute; reflexivity|]. split; [vm_compute; reflexivity|].
  discriminate.
Qed.

Lemma primary_other_before : exists b b' data rest h h',
  is_byte b /\ is_byte b' /\ is_bytes data /\
  primaryHash_other 4 ([0; 0; 0; 0] ++ b :: data ++ rest) 5 (lenN data) 0 = Ok h /\
  primaryHash_other 4 ([0; 0; 0; 0] ++ b' :: data ++ rest) 5 (lenN data) 0 = Ok h' /\ h <> h'.
Proof.
  exists 0, 1, [97; 98; 99; 100], [0; 0; 0]. eexists. eexists.
  split; [reflexivity|]. split; [reflexivity|]. split; [repeat constructor|].
  split; [vm_compute; reflexivity|]. split; [vm_compute; reflexivity|]. discriminate.
Qed.

Lemma uint128_generic_wrong : exists x y, x < 2 ^ 64 /\ y < 2 ^ 64 /\
  uint128_mul_generic x y <> ((x * y) mod 2 ^ 64, x * y / 2 ^ 64).
Proof.
  exists (2 ^ 64 - 1), (2 ^ 64 - 1). split; [reflexivity|]. split; [reflexivity|].
  vm_compute. discriminate.
Qed.

Lemma fnv_4_8_wrong : exists d4 d8, length d4 = 4%nat /\ length d8 = 8%nat /\
  is_bytes d4 /\ is_bytes d8 /\
  msvc_fnv_1a d4 0 4 <> Ok (fnv_1a d4) /\ msvc_fnv_1a d8 0 8 <> Ok (fnv_1a d8).
Proof.
  exists [1; 2; 3; 4], [1; 2; 3; 4; 5; 6; 7; 8].
  split; [reflexivity|]. split; [reflexivity|].
  split; [repeat constructor|]. split; [repeat constructor|].
  split; vm_compute; discriminate.
Qed.

(** +0.0 and -0.0, as float and as double. *)
Definition float_pos0 : list N := [0; 0; 0; 0].
Definition float_neg0 : list N := [0; 0; 0; 128].
Definition double_pos0 : list N := [0; 0; 0; 0; 0; 0; 0; 0].
Definition double_neg0 : list N := [0; 0; 0; 0; 0; 0; 0; 128].

Lemma zero_hashes : forall f,
  defined (object_getHashCode f double_pos0) <> defined (object_getHashCode f double_neg0).
Proof. intros []; vm_compute; discriminate. Qed.

Lemma zero_hashes_float : forall f, f <> HashFunc_CRC32C ->
  defined (object_getHashCode f float_pos0) <> defined (object_getHashCode f float_neg0).
Proof. intros [] H; [contradiction H; reflexivity|vm_compute; discriminate|vm_compute; discriminate]. Qed.

Lemma float_over_read : forall object, length object = 4%nat -> is_bytes object ->
  object_getHashCode HashFunc_CRC32C object = Err EUndef.
Proof.
  intros object L H. unfold object_getHashCode, hash_crc32. apply crc_over_read; auto.
  rewrite L. vm_compute. discriminate.
Qed.

(** Pointers as keys: the bytes pointed at are hashed. *)
Lemma pointer_content : forall f, exists mem mem' key h h',
  length mem = length mem' /\ is_bytes mem /\ is_bytes mem' /\
  pointer_getHashCode f mem key = Ok h /\ pointer_getHashCode f mem' key = Ok h' /\ h <> h'.
Proof.
  intros f. exists [0; 0; 0; 0; 0; 0; 0; 0; 1; 2; 3; 4; 5; 6; 7; 8],
    [0; 0; 0; 0; 0; 0; 0; 0; 1; 2; 3; 4; 5; 6; 7; 9], 8.
  destruct f; eexists; eexists; (split; [reflexivity|]);
    (split; [repeat constructor|]); (split; [repeat constructor|]);
    (split; [vm_compute; reflexivity|]); (split; [vm_compute; reflexivity|]); discriminate.
Qed.

Lemma pointer_same : forall f, exists mem key key' h, key <> key' /\ is_bytes mem /\
  pointer_getHashCode f mem key = Ok h /\ pointer_getHashCode f mem key' = Ok h.
Proof.
  intros f. exists (repeat 7 16), 0, 8.
  destruct f; eexists; (split; [discriminate|]); (split; [repeat constructor|]);
    (split; vm_compute; reflexivity).
Qed.

Lemma pointer_over_read : forall f object, length object = 4%nat ->
  defined (pointer_getHashCode f object 0) = None.
Proof.
  intros f object L.
  destruct object as [|b0 [|b1 [|b2 [|b3 [|? ?]]]]]; try discriminate.
  destruct f; cbn [pointer_getHashCode]; reflexivity.
Qed.

Lemma fibonacci_spread_example :
  fibonacci_index false (policy_shift (2 ^ 20)) 12345 = 0 /\
  mum_index false (policy_shift (2 ^ 20)) 12345 <> 0.
Proof. split; vm_compute; [reflexivity|discriminate]. Qed.

(** The CRC hash of a string covers the bytes of all its characters. *)
Lemma wide_string_crc : forall w data extra size,
  is_bytes data -> N.of_nat (length data) = size * N.of_nat w -> N.of_nat (length data) < 2 ^ 64 ->
  string_getHashCode HashFunc_CRC32C w (data ++ extra) 0 size =
  if ((8 - length data mod 8) mod 8 <=? length extra)%nat
  then Ok (crc32c_reg (zero_pad 8 data))
  else Err EUndef.
Proof.
  intros w data extra size H E M. cbn [string_getHashCode]. unfold hash_crc32.
  assert (W : wmul size (N.of_nat w) = N.of_nat (length data)).
  { rewrite E. unfold wmul, w64, two64. apply N.mod_small. rewrite <- E. exact M. }
  rewrite W. apply crc_correct; auto.
Qed.
