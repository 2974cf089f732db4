(** fnv1a.h: no read outside the key, which bytes are noticed, counterexamples. *)
From Coq Require Import Arith NArith ZArith List Bool Lia.
From Coq Require Import ZifyBool ZifyNat ZifyN.
From Verif Require Import Base HashModel HashSpec HashFacts HashData HashData2 HashCrc HashSens
  HashSens2 HashArith FnvModel.
Import ListNotations.
Open Scope N_scope.

(** ** Reads *)
Ltac load := match goal with |- context [ld ?n ?m ?i] =>
  let v := fresh "v" in let E := fresh "E" in
  destruct (ld_in n m i) as [v E]; [lia|rewrite E; clear E; cbn [rbind]] end.

Lemma loops_spec : forall len half, 0 < half -> 2 * half <= len ->
  len <= 2 * half * fnv_loops len (2 * half) /\ fnv_loops len (2 * half) * half <= len.
Proof.
  intros len half Hh Hl. unfold fnv_loops.
  pose proof (N.div_mod len (2 * half) ltac:(lia)) as D.
  pose proof (N.mod_lt len (2 * half) ltac:(lia)) as M.
  assert (Q : 1 <= len / (2 * half)).
  { apply (N.div_le_mono (2 * half) len (2 * half)) in Hl; [|lia].
    rewrite N.div_same in Hl by lia. exact Hl. }
  set (q := len / (2 * half)) in *. set (r := len mod (2 * half)) in *.
  destruct (N.eqb_spec r 0) as [Z|Z]; cbn [negb]; split; nia.
Qed.

Lemma offset_spec : forall len half, len < 2 ^ 64 -> 0 < half -> 2 * half <= len ->
  fnv_offset len (2 * half) half + fnv_loops len (2 * half) * half = len.
Proof.
  intros len half L Hh Hl. destruct (loops_spec len half Hh Hl) as [_ H2].
  unfold fnv_offset, wmul, wsub.
  set (x := fnv_loops len (2 * half) * half) in *. clearbody x.
  unfold w64. change two64 with (2 ^ 64).
  rewrite (N.mod_small x) by lia. rewrite (N.mod_small x) by lia.
  replace (len + (2 ^ 64 - x)) with (len - x + 1 * 2 ^ 64) by lia.
  rewrite N.mod_add by lia. rewrite N.mod_small by lia. lia.
Qed.

Lemma yoshimura_loop_in : forall cnt mem q off A B,
  q + off + 8 * N.of_nat cnt <= lenN mem -> exists r, yoshimura_loop cnt mem q off A B = Ok r.
Proof.
  induction cnt as [|c IH]; intros mem q off A B H; cbn [yoshimura_loop]; [eexists; reflexivity|].
  do 4 load. apply IH. lia.
Qed.

Lemma triad_loop_in : forall cnt mem q off A B C,
  q + off + 12 * N.of_nat cnt <= lenN mem -> exists r, triad_loop cnt mem q off A B C = Ok r.
Proof.
  induction cnt as [|c IH]; intros mem q off A B C H; cbn [triad_loop]; [eexists; reflexivity|].
  do 6 load. apply IH. lia.
Qed.

Lemma xmm_group_in : forall a mem q off s,
  q + off + 48 <= lenN mem -> exists r, xmm_group a mem q off s = Ok r.
Proof.
  intros a mem q off [[A B] C] H. unfold xmm_group. do 6 load. eexists; reflexivity.
Qed.

Lemma xmm_groups_in : forall a mem off g q s,
  q + off + 48 * N.of_nat g <= lenN mem -> exists r,
  (fix go g q s := match g with
                   | O => Ok s
                   | S g' => do s' <- xmm_group a mem q off s; go g' (q + 48) s'
                   end) g q s = Ok r.
Proof.
  induction g as [|g IH]; intros q s H; [eexists; reflexivity|].
  destruct (xmm_group_in a mem q off s) as [s' E]; [lia|]. rewrite E. cbn [rbind].
  apply IH. lia.
Qed.

Lemma xmm_loop_in : forall cnt g a mem q off s,
  q + off + 48 * N.of_nat g * N.of_nat cnt <= lenN mem ->
  exists r, xmm_loop cnt g a mem q off s = Ok r.
Proof.
  induction cnt as [|c IH]; intros g a mem q off s H; cbn [xmm_loop]; [eexists; reflexivity|].
  destruct (xmm_groups_in a mem off g q s) as [s' E]; [nia|]. rewrite E. cbn [rbind].
  apply IH. nia.
Qed.

(** The last bytes, whose number is in the low bits of the length. *)
Lemma bit_le : forall len, len < 32 ->
  N.land len 16 + N.land len 8 + N.land len 4 + N.land len 2 + N.land len 1 = len /\
  (N.land len 16 = 0 \/ N.land len 16 = 16) /\ (N.land len 8 = 0 \/ N.land len 8 = 8) /\
  (N.land len 4 = 0 \/ N.land len 4 = 4) /\ (N.land len 2 = 0 \/ N.land len 2 = 2) /\
  (N.land len 1 = 0 \/ N.land len 1 = 1).
Proof.
  intros len H.
  assert (C : forallb (fun n => let len := N.of_nat n in
     (N.land len 16 + N.land len 8 + N.land len 4 + N.land len 2 + N.land len 1 =? len) &&
     ((N.land len 16 =? 0) || (N.land len 16 =? 16)) && ((N.land len 8 =? 0) || (N.land len 8 =? 8)) &&
     ((N.land len 4 =? 0) || (N.land len 4 =? 4)) && ((N.land len 2 =? 0) || (N.land len 2 =? 2)) &&
     ((N.land len 1 =? 0) || (N.land len 1 =? 1))) (seq 0 32) = true) by (vm_compute; reflexivity).
  rewrite forallb_forall in C. specialize (C (N.to_nat len)).
  rewrite N2Nat.id in C. specialize (C ltac:(apply in_seq; lia)). cbv zeta in C.
  rewrite !andb_true_iff, !orb_true_iff, !N.eqb_eq in C. tauto.
Qed.

Lemma fnv_bits_in : forall mem q len A B, len < 32 ->
  q + (len - N.land len 16) <= lenN mem -> exists r, fnv_bits mem q len A B = Ok r.
Proof.
  intros mem q len A B L H. destruct (bit_le len L) as (S & C16 & C8 & C4 & C2 & C1).
  unfold fnv_bits.
  destruct C8 as [C8|C8]; rewrite C8 in *; [cbn [N.eqb negb rbind]|cbn [N.eqb negb]; do 2 load];
  (destruct C4 as [C4|C4]; rewrite C4 in *; [cbn [N.eqb negb rbind]|cbn [N.eqb negb]; do 2 load]);
  (destruct C2 as [C2|C2]; rewrite C2 in *; [cbn [N.eqb negb rbind]|cbn [N.eqb negb]; do 1 load]);
  (destruct C1 as [C1|C1]; rewrite C1 in *; [cbn [N.eqb negb]|cbn [N.eqb negb]; do 1 load]);
  eexists; reflexivity.
Qed.

Lemma yoshimura_defined : forall data : list N, lenN data < 2 ^ 64 ->
  exists h, FNV1A_Yoshimura data 0 (lenN data) = Ok h.
Proof.
  intros data L. unfold FNV1A_Yoshimura.
  destruct (N.leb_spec 16 (lenN data)) as [H|H].
  - change 16 with (2 * 8) in *.
    pose proof (offset_spec (lenN data) 8 L ltac:(lia) H) as O.
    destruct (yoshimura_loop_in (N.to_nat (fnv_loops (lenN data) (2 * 8))) data 0
                (fnv_offset (lenN data) (2 * 8) 8) fnv_start fnv_start) as [r E]; [lia|].
    rewrite E. eexists; reflexivity.
  - destruct (fnv_bits_in data 0 (lenN data) fnv_start fnv_start) as [r E]; [lia|lia|].
    rewrite E. eexists; reflexivity.
Qed.

Lemma fnv_xmm_defined : forall g a (data : list N), (0 < g)%nat -> lenN data < 2 ^ 64 ->
  exists h, fnv_xmm g a data 0 (lenN data) = Ok h.
Proof.
  intros g a data Hg L. unfold fnv_xmm.
  destruct (match a with ArchNone => false | _ => true end && (96 * N.of_nat g <=? lenN data))
    eqn:C.
  - apply andb_true_iff in C. destruct C as [_ C]. apply N.leb_le in C.
    replace (96 * N.of_nat g) with (2 * (48 * N.of_nat g)) in * by lia.
    pose proof (offset_spec (lenN data) (48 * N.of_nat g) L ltac:(lia) C) as O.
    match goal with |- context [xmm_loop ?c ?g ?a ?m ?q ?o ?s] =>
      destruct (xmm_loop_in c g a m q o s) as [r E] end.
    + rewrite N2Nat.id. lia.
    + rewrite E. eexists; reflexivity.
  - clear C. destruct (N.leb_spec 24 (lenN data)) as [H|H].
    + change 24 with (2 * 12) in *.
      pose proof (offset_spec (lenN data) 12 L ltac:(lia) H) as O.
      match goal with |- context [triad_loop ?c ?m ?q ?o ?x ?y ?z] =>
        destruct (triad_loop_in c m q o x y z) as [[[A B] C] E] end; [lia|].
      rewrite E. eexists; reflexivity.
    + destruct (bit_le (lenN data) ltac:(lia)) as (S & C16 & _).
      destruct C16 as [C16|C16]; rewrite C16 in S; rewrite C16; cbn [N.eqb negb rbind].
      * destruct (fnv_bits_in data 0 (lenN data) fnv_start fnv_start) as [r E]; [lia|lia|].
        rewrite E. eexists; reflexivity.
      * do 4 load.
        match goal with |- context [fnv_bits ?m ?q ?l ?A ?B] =>
          destruct (fnv_bits_in m q l A B) as [r E] end; [lia|rewrite C16; lia|].
        rewrite E. eexists; reflexivity.
Qed.

(** ** Bytes that are ignored *)
Lemma ld_skip : forall n (a b : list N) i, lenN a <= i -> ld n (a ++ b) i = ld n b (i - lenN a).
Proof.
  intros n a b i H. unfold ld. rewrite app_length.
  replace (i + N.of_nat n <=? N.of_nat (length a + length b))
    with (i - lenN a + N.of_nat n <=? lenN b) by lia.
  destruct (_ <=? lenN b); [|reflexivity]. f_equal. f_equal. f_equal.
  rewrite skipn_app, skipn_all2 by lia. cbn [app]. f_equal. lia.
Qed.

Lemma rotl128_low : forall x y, rotl128 (x + 2 ^ 88 * y) 5 = rotl128 x 5.
Proof.
  intros x y. unfold rotl128, slli_si128, srli_si128.
  change (15 <? 5) with false. change (15 <? 128 - 5) with true. cbn iota.
  rewrite !N.lor_0_r. change (2 ^ (8 * 5)) with (2 ^ 40).
  rewrite N.mul_add_distr_r.
  replace (2 ^ 88 * y * 2 ^ 40) with (y * (2 ^ 88 * 2 ^ 40)) by ring.
  change (2 ^ 88 * 2 ^ 40) with (2 ^ 128). apply N.mod_add. vm_compute; discriminate.
Qed.

Lemma xmm_ignores : forall g a pre mid mid' post,
  a <> ArchNone -> (g = 1 \/ g = 2)%nat ->
  length pre = 11%nat -> length mid = 5%nat -> length mid' = 5%nat ->
  length post = (96 * g - 16)%nat ->
  fnv_xmm g a (pre ++ mid ++ post) 0 (lenN (pre ++ mid ++ post)) =
  fnv_xmm g a (pre ++ mid' ++ post) 0 (lenN (pre ++ mid' ++ post)).
Proof.
  intros g a pre mid mid' post Ha Hg L1 L2 L2' L3.
  assert (Len : forall m, length m = 5%nat -> lenN (pre ++ m ++ post) = 96 * N.of_nat g)
    by (intros m Hm; rewrite !app_length, L1, Hm, L3; destruct Hg; subst g; reflexivity).
  rewrite !Len by assumption. unfold fnv_xmm.
  replace (match a with ArchNone => false | _ => true end) with true
    by (destruct a; [contradiction Ha; reflexivity|reflexivity|reflexivity]).
  rewrite N.leb_refl. cbn [andb].
  assert (Lp : fnv_loops (96 * N.of_nat g) (96 * N.of_nat g) = 1)
    by (destruct Hg; subst g; vm_compute; reflexivity).
  assert (Of : fnv_offset (96 * N.of_nat g) (96 * N.of_nat g) (48 * N.of_nat g) = 48 * N.of_nat g)
    by (destruct Hg; subst g; vm_compute; reflexivity).
  rewrite Lp, Of. change (N.to_nat 1) with 1%nat. cbn [xmm_loop].
  assert (G0 : forall m s, length m = 5%nat ->
     xmm_group a (pre ++ m ++ post) 0 (48 * N.of_nat g) s =
     xmm_group a (pre ++ repeat 0 5 ++ post) 0 (48 * N.of_nat g) s).
  { intros m [[A B] C] Hm. unfold xmm_group.
    assert (Ld : forall m, length m = 5%nat ->
              ld 16 (pre ++ m ++ post) 0 = Ok (le pre + 2 ^ 88 * le m)).
    { intros m' Hm'. rewrite (ld0' _ 0 [] (pre ++ m') post 16);
        [|rewrite <- app_assoc; reflexivity|reflexivity|rewrite app_length, L1, Hm'; reflexivity].
      rewrite le_app, L1. reflexivity. }
    assert (Lh : forall m i, length m = 5%nat -> 16 <= i ->
              ld 16 (pre ++ m ++ post) i = ld 16 post (i - 16)).
    { intros m' i Hm' Hi. rewrite app_assoc, ld_skip; rewrite app_length, L1, Hm'; [reflexivity|].
      exact Hi. }
    rewrite !Ld by (try reflexivity; assumption). cbn [rbind].
    rewrite !Lh by (try reflexivity; try assumption; lia).
    repeat match goal with |- context [ld 16 post ?i] =>
      destruct (ld 16 post i); cbn [rbind]; [|reflexivity] end.
    rewrite !rotl128_low. reflexivity. }
  assert (G1 : forall m s, length m = 5%nat ->
     xmm_group a (pre ++ m ++ post) 48 (48 * N.of_nat g) s =
     xmm_group a (pre ++ repeat 0 5 ++ post) 48 (48 * N.of_nat g) s).
  { intros m [[A B] C] Hm. unfold xmm_group.
    assert (Lh : forall m i, length m = 5%nat -> 16 <= i ->
              ld 16 (pre ++ m ++ post) i = ld 16 post (i - 16)).
    { intros m' i Hm' Hi. rewrite app_assoc, ld_skip; rewrite app_length, L1, Hm'; [reflexivity|].
      exact Hi. }
    rewrite !Lh by (try reflexivity; try assumption; lia). reflexivity. }
  destruct Hg as [-> | ->]; cbn [xmm_loop].
  - rewrite (G0 mid), (G0 mid') by assumption. reflexivity.
  - rewrite (G0 mid), (G0 mid') by assumption.
    destruct (xmm_group a (pre ++ repeat 0 5 ++ post) 0 (48 * N.of_nat 2)
               (set1_epi32 fnv_start, set1_epi32 fnv_start, set1_epi32 fnv_start)) as [s|e];
      cbn [rbind]; [|reflexivity].
    change (0 + 48) with 48. rewrite (G1 mid), (G1 mid') by assumption. reflexivity.
Qed.

(** ** Bytes that are noticed *)
Lemma fmix_lt : forall h x, fmix h x < 2 ^ 32.
Proof. intros. apply w32_lt. Qed.

Lemma kPRIME_inv : (kPRIME * 266768343) mod 2 ^ 32 = 1.
Proof. vm_compute. reflexivity. Qed.

Lemma fmix_eq : forall h x h' x', h < 2 ^ 32 -> h' < 2 ^ 32 -> x < 2 ^ 32 -> x' < 2 ^ 32 ->
  fmix h x = fmix h' x' -> N.lxor h x = N.lxor h' x'.
Proof.
  intros h x h' x' Hh Hh' Hx Hx' E.
  apply (mul_inj (2 ^ 32) kPRIME 266768343) in E; auto using lxor_lt.
  vm_compute; discriminate.
Qed.

Lemma fmix_inj_l : forall h h' x, h < 2 ^ 32 -> h' < 2 ^ 32 -> x < 2 ^ 32 ->
  fmix h x = fmix h' x -> h = h'.
Proof. intros h h' x Hh Hh' Hx E. apply fmix_eq in E; auto. apply lxor_inj_r in E. exact E. Qed.

Lemma fmix_inj_r : forall h x x', h < 2 ^ 32 -> x < 2 ^ 32 -> x' < 2 ^ 32 ->
  fmix h x = fmix h x' -> x = x'.
Proof. intros h x x' Hh Hx Hx' E. apply fmix_eq in E; auto. apply lxor_inj_l in E. exact E. Qed.

Lemma rotl32_lt : forall x, x < 2 ^ 32 -> rotl32 x 5 < 2 ^ 32.
Proof.
  intros x H. unfold rotl32.
  apply lt_pow2_bits. intros i Hi. rewrite N.lor_spec.
  rewrite (proj1 (lt_pow2_bits 32 (shl32 x 5)) (w32_lt _) i Hi).
  rewrite N.shiftr_spec'. rewrite (proj1 (lt_pow2_bits 32 x) H); [reflexivity|lia].
Qed.

Lemma rotl32_form : forall x, x < 2 ^ 32 -> rotl32 x 5 = (x mod 2 ^ 27) * 32 + x / 2 ^ 27.
Proof.
  intros x H. unfold rotl32, shl32. rewrite N.shiftl_mul_pow2.
  change (32 - 5) with 27. rewrite N.shiftr_div_pow2.
  change (w32 (x * 2 ^ 5)) with ((x * 2 ^ 5) mod 2 ^ 32).
  change (2 ^ 32) with (2 ^ 27 * 2 ^ 5). rewrite N.mul_mod_distr_r by (vm_compute; discriminate).
  change (2 ^ 5) with 32.
  assert (D : x / 2 ^ 27 < 2 ^ 5).
  { apply N.div_lt_upper_bound; [vm_compute; discriminate|]. exact H. }
  assert (Z : N.land (x mod 2 ^ 27 * 32) (x / 2 ^ 27) = 0).
  { change 32 with (2 ^ 5). rewrite <- N.shiftl_mul_pow2.
    apply N.bits_inj. intros i. rewrite N.land_spec, N.bits_0.
    destruct (N.lt_ge_cases i 5) as [Hi|Hi].
    - rewrite N.shiftl_spec_low by exact Hi. reflexivity.
    - rewrite (proj1 (lt_pow2_bits 5 _) D i Hi). apply andb_false_r. }
  rewrite <- N.lxor_lor by exact Z. symmetry. apply N.add_nocarry_lxor. exact Z.
Qed.

Lemma rotl32_inj : forall x y, x < 2 ^ 32 -> y < 2 ^ 32 -> rotl32 x 5 = rotl32 y 5 -> x = y.
Proof.
  intros x y Hx Hy E. rewrite !rotl32_form in E by assumption.
  assert (Dx : x / 2 ^ 27 < 32) by (apply N.div_lt_upper_bound; [vm_compute; discriminate|exact Hx]).
  assert (Dy : y / 2 ^ 27 < 32) by (apply N.div_lt_upper_bound; [vm_compute; discriminate|exact Hy]).
  rewrite (N.div_mod x (2 ^ 27)), (N.div_mod y (2 ^ 27)) by (vm_compute; discriminate).
  assert (x / 2 ^ 27 = y / 2 ^ 27) by lia. assert (x mod 2 ^ 27 = y mod 2 ^ 27) by lia.
  congruence.
Qed.

(** Two pairs that differ in exactly one component. *)
Definition one_diff (s s' : N * N) : Prop :=
  (fst s <> fst s' /\ snd s = snd s') \/ (fst s = fst s' /\ snd s <> snd s').
Definition small2 (s : N * N) : Prop := fst s < 2 ^ 32 /\ snd s < 2 ^ 32.

Lemma fnv_end_diff : forall A B A' B', small2 (A, B) -> small2 (A', B') ->
  one_diff (A, B) (A', B') -> fnv_end A B <> fnv_end A' B'.
Proof.
  intros A B A' B' [HA HB] [HA' HB'] D E. cbn [fst snd] in *.
  unfold fnv_end in E.
  apply (xorshift_inj 32) in E;
    [|vm_compute; reflexivity|apply w32_lt|apply w32_lt].
  apply (mul_inj (2 ^ 32) kPRIME 266768343) in E;
    [|vm_compute; discriminate|apply kPRIME_inv
     |apply lxor_lt; auto using rotl32_lt|apply lxor_lt; auto using rotl32_lt].
  destruct D as [[Na Eb]|[Ea Nb]]; cbn [fst snd] in *; subst.
  - apply lxor_inj_r in E. auto.
  - apply lxor_inj_l in E. apply rotl32_inj in E; auto.
Qed.

(** *** The short path as a list of chunks: (goes to A, number of bytes). *)
Definition chunk_val (c : list N) : N :=
  if (length c =? 8)%nat then N.lxor (rotl32 (le (firstn 4 c)) 5) (le (skipn 4 c))
  else if (length c =? 1)%nat then schar32 (le c) else le c.

Fixpoint run (shape : list (bool * nat)) (data : list N) (s : N * N) : N * N :=
  match shape with
  | [] => s
  | (isA, n) :: r =>
      let v := chunk_val (firstn n data) in
      run r (skipn n data) (if isA then (fmix (fst s) v, snd s) else (fst s, fmix (snd s) v))
  end.

Definition good_shape (shape : list (bool * nat)) : Prop :=
  Forall (fun x => In (snd x) [1; 2; 4; 8]%nat) shape.

Lemma schar32_inj : forall x y, is_byte x -> is_byte y -> schar32 x = schar32 y -> x = y.
Proof.
  intros x y Hx Hy. unfold schar32, is_byte in *.
  destruct (N.ltb_spec x 128), (N.ltb_spec y 128); change two32 with 4294967296; lia.
Qed.

Lemma le_lt32 : forall c, is_bytes c -> (length c <= 4)%nat -> le c < 2 ^ 32.
Proof.
  intros c B L. eapply N.lt_le_trans; [apply le_lt; exact B|]. apply N.pow_le_mono_r; lia.
Qed.

Lemma chunk_val_lt : forall c, is_bytes c -> (length c <= 4 \/ length c = 8)%nat ->
  chunk_val c < 2 ^ 32.
Proof.
  intros c B L. unfold chunk_val.
  destruct (Nat.eqb_spec (length c) 8) as [H|H].
  - rewrite <- (firstn_skipn 4 c) in B. apply bytes_app in B. destruct B as [B1 B2].
    apply lxor_lt; [apply rotl32_lt|]; apply le_lt32; auto;
      [rewrite firstn_length|rewrite skipn_length]; lia.
  - destruct (Nat.eqb_spec (length c) 1) as [H1|H1].
    + destruct c as [|b [|? ?]]; try discriminate. inversion B; subst. rewrite le_one.
      unfold schar32, is_byte in *. change two32 with 4294967296. change (2 ^ 32) with 4294967296.
      destruct (b <? 128) eqn:E; lia.
    + apply le_lt32; auto. lia.
Qed.

Lemma chunk_val_diff : forall n pre c c' post, In n [1; 2; 4; 8]%nat ->
  length (pre ++ c :: post) = n -> is_bytes (pre ++ c :: post) -> is_byte c' -> c <> c' ->
  chunk_val (pre ++ c :: post) <> chunk_val (pre ++ c' :: post).
Proof.
  intros n pre c c' post Hn L B Hc Ne.
  pose proof (bytes_swap _ _ _ _ B Hc) as B'.
  assert (L' : length (pre ++ c' :: post) = n) by (rewrite <- L, !app_length; reflexivity).
  unfold chunk_val. rewrite L, L'.
  destruct (Nat.eqb_spec n 8) as [H8|H8].
  - rewrite H8 in L, L'.
    destruct (diff_chunks 4 pre c c' post ltac:(lia) Ne)
      as [(a & w & w' & b & t & D & D' & G & G' & T & Nw) | (a & t & t' & D & D' & G & T & T' & Nt)].
    + assert (T0 : t = []).
      { rewrite D, app_length, (concat_length 4) in L by exact G.
        destruct t; [reflexivity|]. cbn [length] in *. lia. }
      subst t. rewrite app_nil_r in D, D'.
      assert (LL : length (a ++ w :: b) = 2%nat).
      { rewrite D, (concat_length 4) in L by exact G. lia. }
      assert (B1 := chunks_bytes 4 (a ++ w :: b) G ltac:(rewrite <- D; exact B)).
      assert (B2 := chunks_bytes 4 (a ++ w' :: b) G' ltac:(rewrite <- D'; exact B')).
      rewrite D, D'.
      destruct a as [|a0 [|? ?]]; cbn [app length] in LL.
      * destruct b as [|b0 [|? ?]]; try discriminate.
        inversion B1 as [|? ? [Lw Bw] B1']; subst. inversion B2 as [|? ? [Lw' Bw'] B2']; subst.
        cbn [app concat]. rewrite !app_nil_r.
        rewrite <- Lw, firstn_app_len, skipn_app_len.
        replace (length w) with (length w') by congruence.
        rewrite firstn_app_len, skipn_app_len.
        intros E. apply lxor_inj_r in E.
        apply rotl32_inj in E; try (apply le_lt32; auto; lia).
        apply le_inj in E; auto. congruence.
      * destruct b as [|? ?]; [|discriminate].
        inversion B1 as [|? ? [La Ba] B1']; subst. inversion B2 as [|? ? _ B2']; subst.
        inversion B1' as [|? ? [Lw Bw] _]; subst. inversion B2' as [|? ? [Lw' Bw'] _]; subst.
        cbn [app concat]. rewrite !app_nil_r.
        rewrite <- La, !firstn_app_len, !skipn_app_len.
        intros E. apply lxor_inj_l in E. apply le_inj in E; auto. congruence.
      * rewrite app_length in LL. cbn [length] in LL. lia.
    + assert (T0 : t = []).
      { rewrite D, app_length, (concat_length 4) in L by exact G.
        destruct t; [reflexivity|]. cbn [length] in *. lia. }
      subst t. destruct t'; [congruence|discriminate].
  - destruct (Nat.eqb_spec n 1) as [H1|H1].
    + rewrite H1 in L, L'. destruct pre as [|? ?]; [|rewrite app_length in L; cbn [length] in L; lia].
      destruct post; [|discriminate]. cbn [app] in *. inversion B; subst.
      rewrite !le_one. intros E. apply schar32_inj in E; auto.
    + intros E. apply le_inj in E; auto; [|congruence].
      apply app_inv_head in E. congruence.
Qed.

Lemma bytes_firstn : forall n data, is_bytes data -> is_bytes (firstn n data).
Proof.
  intros n data B. rewrite <- (firstn_skipn n data) in B. apply bytes_app in B. apply B.
Qed.
Lemma bytes_skipn : forall n data, is_bytes data -> is_bytes (skipn n data).
Proof.
  intros n data B. rewrite <- (firstn_skipn n data) in B. apply bytes_app in B. apply B.
Qed.

Lemma firstn_chunk_lt : forall n data, In n [1; 2; 4; 8]%nat -> is_bytes data ->
  (n <= length data)%nat -> chunk_val (firstn n data) < 2 ^ 32.
Proof.
  intros n data Hn B L. apply chunk_val_lt; [apply bytes_firstn; exact B|].
  rewrite firstn_length, Nat.min_l by exact L. cbn in Hn. lia.
Qed.

Definition shape_len (shape : list (bool * nat)) : nat := list_sum (map snd shape).

Lemma run_small : forall shape data s, good_shape shape -> is_bytes data ->
  length data = shape_len shape -> small2 s -> small2 (run shape data s).
Proof.
  induction shape as [|[isA n] r IH]; intros data s G B L S; [exact S|].
  inversion G; subst. cbn [run].
  assert (Ln : (n + shape_len r = length data)%nat) by (rewrite L; reflexivity).
  apply IH; auto using bytes_skipn.
  - rewrite skipn_length. lia.
  - destruct S as [S1 S2]. destruct isA; split; cbn [fst snd]; auto using fmix_lt.
Qed.

Lemma run_diff_state : forall shape data s s', good_shape shape -> is_bytes data ->
  length data = shape_len shape -> small2 s -> small2 s' -> one_diff s s' ->
  one_diff (run shape data s) (run shape data s').
Proof.
  induction shape as [|[isA n] r IH]; intros data s s' G B L S S' D; [exact D|].
  inversion G as [|? ? Gn Gr]; subst. cbn [snd] in Gn. cbn [run].
  assert (Ln : (n + shape_len r = length data)%nat) by (rewrite L; reflexivity).
  assert (V := firstn_chunk_lt n data Gn B ltac:(lia)).
  set (v := chunk_val (firstn n data)) in *.
  destruct S as [S1 S2], S' as [S1' S2'].
  apply IH; auto using bytes_skipn.
  - rewrite skipn_length. lia.
  - destruct isA; split; cbn [fst snd]; auto using fmix_lt.
  - destruct isA; split; cbn [fst snd]; auto using fmix_lt.
  - destruct isA; destruct D as [[D1 D2]|[D1 D2]]; [left|right|left|right]; cbn [fst snd];
      (split; [|try congruence]); try congruence;
      intros E; apply fmix_inj_l in E; auto.
Qed.

Lemma run_diff : forall shape pre c c' post s, good_shape shape ->
  is_bytes (pre ++ c :: post) -> is_byte c' -> c <> c' ->
  length (pre ++ c :: post) = shape_len shape -> small2 s ->
  one_diff (run shape (pre ++ c :: post) s) (run shape (pre ++ c' :: post) s).
Proof.
  induction shape as [|[isA n] r IH]; intros pre c c' post s G B Hc Ne L S.
  - exfalso. rewrite app_length in L. cbn in L. lia.
  - inversion G as [|? ? Gn Gr]; subst. cbn [snd] in Gn. cbn [run].
    pose proof (bytes_swap _ _ _ _ B Hc) as B'.
    assert (Ll : length (pre ++ c' :: post) = length (pre ++ c :: post))
      by (rewrite !app_length; reflexivity).
    assert (Ln : (n + shape_len r = length (pre ++ c :: post))%nat) by (rewrite L; reflexivity).
    destruct S as [S1 S2].
    destruct (Nat.lt_ge_cases (length pre) n) as [H|H].
    + assert (F : forall x, firstn n (pre ++ x :: post) = pre ++ x :: firstn (n - length pre - 1) post).
      { intros x. rewrite firstn_app, firstn_all2 by lia. f_equal.
        replace (n - length pre)%nat with (S (n - length pre - 1)) at 1 by lia. reflexivity. }
      assert (K : forall x, skipn n (pre ++ x :: post) = skipn (n - length pre - 1) post).
      { intros x. rewrite skipn_app, skipn_all2 by lia. cbn [app].
        replace (n - length pre)%nat with (S (n - length pre - 1)) at 1 by lia. reflexivity. }
      rewrite !K, !F.
      assert (Lf : length (pre ++ c :: firstn (n - length pre - 1) post) = n).
      { rewrite <- F, firstn_length. lia. }
      assert (Bf : is_bytes (pre ++ c :: firstn (n - length pre - 1) post))
        by (rewrite <- F; apply bytes_firstn; exact B).
      pose proof (chunk_val_diff n pre c c' _ Gn Lf Bf Hc Ne) as V.
      assert (V1 := firstn_chunk_lt n _ Gn B ltac:(lia)).
      assert (V2 := firstn_chunk_lt n _ Gn B' ltac:(lia)). rewrite F in V1, V2.
      apply run_diff_state; auto.
      * rewrite <- (K c). apply bytes_skipn. exact B.
      * rewrite <- (K c), skipn_length. lia.
      * destruct isA; split; cbn [fst snd]; auto using fmix_lt.
      * destruct isA; split; cbn [fst snd]; auto using fmix_lt.
      * destruct isA; [left|right]; cbn [fst snd]; split; auto;
          intros E; apply fmix_inj_r in E; auto.
    + assert (F : forall x, firstn n (pre ++ x :: post) = firstn n pre).
      { intros x. rewrite firstn_app. replace (n - length pre)%nat with 0%nat by lia.
        rewrite firstn_O, app_nil_r. reflexivity. }
      assert (K : forall x, skipn n (pre ++ x :: post) = skipn n pre ++ x :: post).
      { intros x. rewrite skipn_app. replace (n - length pre)%nat with 0%nat by lia. reflexivity. }
      rewrite !K, !F. apply IH; auto.
      * rewrite <- K. apply bytes_skipn. exact B.
      * rewrite <- K, skipn_length. lia.
      * destruct isA; split; cbn [fst snd]; auto using fmix_lt.
Qed.

(** The chunks for a length below 24. *)
Definition bits_shape (len : nat) : list (bool * nat) :=
  (if Nat.testbit len 3 then [(true, 4%nat); (false, 4%nat)] else []) ++
  (if Nat.testbit len 2 then [(true, 2%nat); (false, 2%nat)] else []) ++
  (if Nat.testbit len 1 then [(true, 2%nat)] else []) ++
  (if Nat.testbit len 0 then [(true, 1%nat)] else []).

Definition short_shape (len : nat) : list (bool * nat) :=
  (if Nat.testbit len 4 then [(true, 8%nat); (false, 8%nat)] else []) ++ bits_shape len.

Lemma skipn_skipn' : forall (A : Type) n m (l : list A), skipn n (skipn m l) = skipn (m + n) l.
Proof.
  induction m as [|m IH]; intros l; [reflexivity|].
  destruct l as [|x l]; [rewrite skipn_nil; reflexivity|]. cbn [skipn Nat.add]. apply IH.
Qed.

Lemma ld_skipn : forall n mem k, (k + n <= length mem)%nat ->
  ld n mem (N.of_nat k) = Ok (le (firstn n (skipn k mem))).
Proof.
  intros n mem k H. unfold ld.
  destruct (N.leb_spec (N.of_nat k + N.of_nat n) (N.of_nat (length mem))) as [_|C]; [|lia].
  rewrite Nat2N.id. reflexivity.
Qed.

Lemma chunk_val_le : forall n d, (n <= length d)%nat -> n <> 8%nat -> n <> 1%nat ->
  chunk_val (firstn n d) = le (firstn n d).
Proof.
  intros n d H H8 H1. unfold chunk_val. rewrite firstn_length, Nat.min_l by exact H.
  destruct (Nat.eqb_spec n 8); [contradiction|]. destruct (Nat.eqb_spec n 1); [contradiction|].
  reflexivity.
Qed.

Lemma chunk_val_1 : forall d, (1 <= length d)%nat ->
  chunk_val (firstn 1 d) = schar32 (le (firstn 1 d)).
Proof.
  intros d H. unfold chunk_val. rewrite firstn_length, Nat.min_l by exact H. reflexivity.
Qed.

Lemma chunk_val_8 : forall d, (8 <= length d)%nat ->
  chunk_val (firstn 8 d) = N.lxor (rotl32 (le (firstn 4 d)) 5) (le (firstn 4 (skipn 4 d))).
Proof.
  intros d H. unfold chunk_val. rewrite firstn_length, Nat.min_l by exact H.
  rewrite Nat.eqb_refl, firstn_firstn. change (Nat.min 4 8) with 4%nat.
  do 8 (destruct d as [|? d]; [cbn [length] in H; lia|]). reflexivity.
Qed.

Lemma bits_test : forall len, (len < 32)%nat ->
  Nat.testbit len 4 = negb (N.land (N.of_nat len) 16 =? 0) /\
  Nat.testbit len 3 = negb (N.land (N.of_nat len) 8 =? 0) /\
  Nat.testbit len 2 = negb (N.land (N.of_nat len) 4 =? 0) /\
  Nat.testbit len 1 = negb (N.land (N.of_nat len) 2 =? 0) /\
  Nat.testbit len 0 = negb (N.land (N.of_nat len) 1 =? 0) /\
  (len = 16 * Nat.b2n (Nat.testbit len 4) + 8 * Nat.b2n (Nat.testbit len 3) +
         4 * Nat.b2n (Nat.testbit len 2) + 2 * Nat.b2n (Nat.testbit len 1) +
         Nat.b2n (Nat.testbit len 0))%nat.
Proof.
  intros len H. do 32 (destruct len as [|len]; [vm_compute; repeat split|]). lia.
Qed.

Lemma bits_run : forall mem k len A B, (len < 32)%nat ->
  (k + 8 * Nat.b2n (Nat.testbit len 3) + 4 * Nat.b2n (Nat.testbit len 2) +
   2 * Nat.b2n (Nat.testbit len 1) + Nat.b2n (Nat.testbit len 0) <= length mem)%nat ->
  fnv_bits mem (N.of_nat k) (N.of_nat len) A B = Ok (run (bits_shape len) (skipn k mem) (A, B)).
Proof.
  intros mem k len A B H L.
  destruct (bits_test len H) as (_ & T3 & T2 & T1 & T0 & _).
  unfold fnv_bits, bits_shape. rewrite <- T3, <- T2, <- T1, <- T0.
  clear T3 T2 T1 T0.
  destruct (Nat.testbit len 3), (Nat.testbit len 2), (Nat.testbit len 1), (Nat.testbit len 0);
    cbn [app run fst snd rbind Nat.b2n] in *;
    repeat match goal with |- context [ld ?n ?m ?i] =>
      replace (ld n m i) with (ld n m (N.of_nat (N.to_nat i))) by (f_equal; lia);
      rewrite (ld_skipn n m (N.to_nat i)) by lia; cbn [rbind] end;
    rewrite ?N2Nat.inj_add, ?Nat2N.id;
    change (N.to_nat 8) with 8%nat; change (N.to_nat 4) with 4%nat;
    change (N.to_nat 2) with 2%nat;
    rewrite ?skipn_skipn', <- ?Nat.add_assoc; cbn [Nat.add];
    repeat (first [rewrite chunk_val_1 by (rewrite skipn_length; lia)
                  |rewrite chunk_val_le by (try discriminate; rewrite skipn_length; lia)]);
    reflexivity.
Qed.

Lemma bits_shape_good : forall len, good_shape (bits_shape len).
Proof.
  intros len. unfold bits_shape, good_shape.
  destruct (Nat.testbit len 3), (Nat.testbit len 2), (Nat.testbit len 1), (Nat.testbit len 0);
    cbn [app]; repeat (apply Forall_cons; [cbn; auto 6|]); apply Forall_nil.
Qed.

Lemma short_shape_good : forall len, good_shape (short_shape len).
Proof.
  intros len. unfold short_shape. destruct (Nat.testbit len 4); [|apply bits_shape_good].
  cbn [app]. do 2 (apply Forall_cons; [cbn; auto 6|]). apply bits_shape_good.
Qed.

Lemma short_shape_len : forall len, (len < 32)%nat -> shape_len (short_shape len) = len.
Proof.
  intros len H. do 32 (destruct len as [|len]; [vm_compute; reflexivity|]). lia.
Qed.

Lemma bits_shape_len : forall len, (len < 16)%nat -> shape_len (bits_shape len) = len.
Proof.
  intros len H. do 16 (destruct len as [|len]; [vm_compute; reflexivity|]). lia.
Qed.

Lemma start_small : small2 (fnv_start, fnv_start).
Proof. split; vm_compute; reflexivity. Qed.

Lemma run_end_diff : forall shape pre c c' post, good_shape shape ->
  is_bytes (pre ++ c :: post) -> is_byte c' -> c <> c' ->
  length (pre ++ c :: post) = shape_len shape ->
  (let s := run shape (pre ++ c :: post) (fnv_start, fnv_start) in fnv_end (fst s) (snd s)) <>
  (let s := run shape (pre ++ c' :: post) (fnv_start, fnv_start) in fnv_end (fst s) (snd s)).
Proof.
  intros shape pre c c' post G B Hc Ne L. cbv zeta.
  pose proof (run_diff shape pre c c' post _ G B Hc Ne L start_small) as D.
  pose proof (run_small shape _ _ G B L start_small) as S1.
  pose proof (run_small shape (pre ++ c' :: post) _ G (bytes_swap _ _ _ _ B Hc)
                ltac:(rewrite <- L, !app_length; reflexivity) start_small) as S2.
  destruct (run shape (pre ++ c :: post) (fnv_start, fnv_start)) as [A0 B0].
  destruct (run shape (pre ++ c' :: post) (fnv_start, fnv_start)) as [A1 B1].
  cbn [fst snd]. apply fnv_end_diff; assumption.
Qed.

Lemma yoshimura_short : forall data, (length data < 16)%nat ->
  FNV1A_Yoshimura data 0 (lenN data) =
  Ok (let s := run (bits_shape (length data)) data (fnv_start, fnv_start) in
      fnv_end (fst s) (snd s)).
Proof.
  intros data L. unfold FNV1A_Yoshimura.
  destruct (N.leb_spec 16 (lenN data)) as [H|H]; [lia|].
  destruct (bits_test (length data) ltac:(lia)) as (_ & _ & _ & _ & _ & E).
  rewrite (bits_run data 0 (length data)) by lia. reflexivity.
Qed.

Lemma triad_short : forall g a data, (0 < g)%nat -> (length data < 24)%nat ->
  fnv_xmm g a data 0 (lenN data) =
  Ok (let s := run (short_shape (length data)) data (fnv_start, fnv_start) in
      fnv_end (fst s) (snd s)).
Proof.
  intros g a data Hg L. unfold fnv_xmm.
  destruct (N.leb_spec (96 * N.of_nat g) (lenN data)) as [H|H]; [lia|].
  rewrite andb_false_r.
  destruct (N.leb_spec 24 (lenN data)) as [H'|H']; [lia|].
  destruct (bits_test (length data) ltac:(lia)) as (T4 & _ & _ & _ & _ & E).
  unfold short_shape. rewrite <- T4.
  destruct (Nat.testbit (length data) 4) eqn:T; cbn [Nat.b2n] in E.
  - change (0 + 4) with (N.of_nat 4). change (0 + 8) with (N.of_nat 8).
    change (0 + 12) with (N.of_nat 12). change (0 + 16) with (N.of_nat 16).
    replace (ld 4 data 0) with (ld 4 data (N.of_nat 0)) by reflexivity.
    rewrite !ld_skipn by lia. cbn [rbind].
    rewrite (bits_run data 16 (length data)) by lia. cbn [rbind app run fst snd].
    rewrite !skipn_skipn', !chunk_val_8 by (rewrite ?skipn_length; lia).
    rewrite !skipn_skipn'. reflexivity.
  - cbn [rbind app]. rewrite (bits_run data 0 (length data)) by lia. reflexivity.
Qed.

(** *** Lanes *)
Definition word4 (data : list N) (j : nat) : N := le (firstn 4 (skipn (4 * j) data)).

Lemma word4_lt : forall data j, is_bytes data -> word4 data j < 2 ^ 32.
Proof.
  intros data j B. apply le_lt32; [apply bytes_firstn, bytes_skipn, B|].
  rewrite firstn_length. lia.
Qed.

Lemma word4_diff : forall pre c c' post m,
  is_bytes (pre ++ c :: post) -> is_byte c' -> c <> c' ->
  length (pre ++ c :: post) = (4 * m)%nat ->
  exists J, (J < m)%nat /\
    word4 (pre ++ c :: post) J <> word4 (pre ++ c' :: post) J /\
    forall j, j <> J -> word4 (pre ++ c :: post) j = word4 (pre ++ c' :: post) j.
Proof.
  intros pre c c' post m B Hc Ne L. exists (length pre / 4)%nat.
  pose proof (Nat.div_mod (length pre) 4 ltac:(lia)) as D.
  pose proof (Nat.mod_upper_bound (length pre) 4 ltac:(lia)) as M.
  set (J := (length pre / 4)%nat) in *. clearbody J.
  pose proof (bytes_swap _ _ _ _ B Hc) as B'.
  rewrite app_length in L. cbn [length] in L.
  split; [lia|]. split.
  - unfold word4. intros E. apply le_inj in E.
    + rewrite !skipn_app in E. replace (4 * J - length pre)%nat with 0%nat in E by lia.
      cbn [skipn] in E. rewrite !firstn_app in E.
      apply app_inv_head in E. rewrite !skipn_length in E.
      replace (4 - (length pre - 4 * J))%nat with (S (3 - (length pre - 4 * J))) in E by lia.
      cbn [firstn] in E. congruence.
    + rewrite !firstn_length, !skipn_length, !app_length. reflexivity.
    + apply bytes_firstn, bytes_skipn, B.
    + apply bytes_firstn, bytes_skipn, B'.
  - intros j Nj. unfold word4. f_equal.
    destruct (Nat.lt_ge_cases j J) as [H|H].
    + rewrite !skipn_app. replace (4 * j - length pre)%nat with 0%nat by lia. cbn [skipn].
      rewrite !firstn_app, !skipn_length.
      replace (4 - (length pre - 4 * j))%nat with 0%nat by lia. reflexivity.
    + rewrite !skipn_app.
      replace (4 * j - length pre)%nat with (S (4 * j - length pre - 1)) by lia. reflexivity.
Qed.

Definition lane (f : nat -> N) (i cnt : nat) (h : N) : N :=
  fold_left (fun h i => fmix h (f i)) (seq i cnt) h.

Lemma lane_lt : forall f cnt i h, h < 2 ^ 32 -> lane f i cnt h < 2 ^ 32.
Proof.
  unfold lane. induction cnt as [|cnt IH]; intros i h H; [exact H|].
  cbn [seq fold_left]. apply IH. apply fmix_lt.
Qed.

Lemma lane_ext : forall f g cnt i h, (forall k, (i <= k < i + cnt)%nat -> f k = g k) ->
  lane f i cnt h = lane g i cnt h.
Proof.
  unfold lane. induction cnt as [|cnt IH]; intros i h E; [reflexivity|].
  cbn [seq fold_left]. rewrite (E i) by lia. apply IH. intros k Hk. apply E. lia.
Qed.

Lemma lane_inj : forall f cnt i h h', (forall k, f k < 2 ^ 32) -> h < 2 ^ 32 -> h' < 2 ^ 32 ->
  lane f i cnt h = lane f i cnt h' -> h = h'.
Proof.
  unfold lane. induction cnt as [|cnt IH]; intros i h h' F H H' E; [exact E|].
  cbn [seq fold_left] in E. apply IH in E; auto using fmix_lt.
  apply fmix_inj_l in E; auto.
Qed.

Lemma lane_sens : forall f g I cnt i h, (forall k, f k < 2 ^ 32) -> (forall k, g k < 2 ^ 32) ->
  h < 2 ^ 32 -> (i <= I < i + cnt)%nat -> f I <> g I ->
  (forall k, (i <= k < i + cnt)%nat -> k <> I -> f k = g k) -> lane f i cnt h <> lane g i cnt h.
Proof.
  induction cnt as [|cnt IH]; intros i h F G H R D E; [lia|].
  unfold lane. cbn [seq fold_left].
  destruct (Nat.eq_dec i I) as [->|Ni].
  - fold (lane f (S I) cnt (fmix h (f I))). fold (lane g (S I) cnt (fmix h (g I))).
    rewrite (lane_ext f g) by (intros k Hk; apply E; lia).
    intros X. apply lane_inj in X; auto using fmix_lt. apply fmix_inj_r in X; auto.
  - rewrite (E i) by lia. apply IH; auto using fmix_lt; [lia|].
    intros k Hk. apply E. lia.
Qed.

(** A lane of pairs of words [p i] and [r i]. *)
Definition pair_lane (W : nat -> N) (p r : nat -> nat) (i : nat) : N :=
  N.lxor (rotl32 (W (p i)) 5) (W (r i)).

Lemma pair_hit : forall W W' p r J I cnt h,
  (forall j, W j < 2 ^ 32) -> (forall j, W' j < 2 ^ 32) -> h < 2 ^ 32 ->
  W J <> W' J -> (forall j, j <> J -> W j = W' j) -> (I < cnt)%nat ->
  (p I = J /\ r I <> J \/ p I <> J /\ r I = J) ->
  (forall i, (i < cnt)%nat -> i <> I -> p i <> J /\ r i <> J) ->
  lane (pair_lane W p r) 0 cnt h <> lane (pair_lane W' p r) 0 cnt h.
Proof.
  intros W W' p r J I cnt h B B' Hh D E HI Hit Miss.
  apply (lane_sens _ _ I); auto; try lia.
  - intros k. unfold pair_lane. apply lxor_lt; auto using rotl32_lt.
  - intros k. unfold pair_lane. apply lxor_lt; auto using rotl32_lt.
  - unfold pair_lane. destruct Hit as [[P R]|[P R]].
    + rewrite (E (r I)) by exact R. rewrite P. intros X. apply lxor_inj_r in X.
      apply rotl32_inj in X; auto.
    + rewrite (E (p I)) by exact P. rewrite R. intros X. apply lxor_inj_l in X. auto.
  - intros k Hk Nk. destruct (Miss k ltac:(lia) Nk) as [P R]. unfold pair_lane.
    rewrite (E (p k)), (E (r k)) by assumption. reflexivity.
Qed.

Lemma pair_miss : forall W W' p r J cnt h, (forall j, j <> J -> W j = W' j) ->
  (forall i, (i < cnt)%nat -> p i <> J /\ r i <> J) ->
  lane (pair_lane W p r) 0 cnt h = lane (pair_lane W' p r) 0 cnt h.
Proof.
  intros W W' p r J cnt h E Miss. apply lane_ext. intros k Hk.
  destruct (Miss k ltac:(lia)) as [P R]. unfold pair_lane.
  rewrite (E (p k)), (E (r k)) by assumption. reflexivity.
Qed.

Lemma ld_word : forall data j i, i = 4 * N.of_nat j -> (4 * j + 4 <= length data)%nat ->
  ld 4 data i = Ok (word4 data j).
Proof.
  intros data j i -> H. unfold word4. rewrite <- ld_skipn by lia. f_equal. lia.
Qed.

Lemma yoshimura_lanes : forall data o cnt i A B, (4 * (2 * (i + cnt) + o) <= length data)%nat ->
  yoshimura_loop cnt data (8 * N.of_nat i) (4 * N.of_nat o) A B =
  Ok (lane (pair_lane (word4 data) (fun i => 2 * i)%nat (fun i => 2 * i + o)%nat) i cnt A,
      lane (pair_lane (word4 data) (fun i => 2 * i + 1 + o)%nat (fun i => 2 * i + 1)%nat) i cnt B).
Proof.
  induction cnt as [|cnt IH]; intros i A B H; [reflexivity|].
  cbn [yoshimura_loop].
  rewrite (ld_word data (2 * i)) by lia. cbn [rbind].
  rewrite (ld_word data (2 * i + o)) by lia. cbn [rbind].
  rewrite (ld_word data (2 * i + 1 + o)) by lia. cbn [rbind].
  rewrite (ld_word data (2 * i + 1)) by lia. cbn [rbind].
  replace (8 * N.of_nat i + 8) with (8 * N.of_nat (S i)) by lia.
  rewrite IH by lia. reflexivity.
Qed.

Lemma triad_lanes : forall data o cnt i A B C, (4 * (3 * (i + cnt) + o) <= length data)%nat ->
  triad_loop cnt data (12 * N.of_nat i) (4 * N.of_nat o) A B C =
  Ok (lane (pair_lane (word4 data) (fun i => 3 * i)%nat (fun i => 3 * i + o)%nat) i cnt A,
      lane (pair_lane (word4 data) (fun i => 3 * i + 1 + o)%nat (fun i => 3 * i + 1)%nat) i cnt B,
      lane (pair_lane (word4 data) (fun i => 3 * i + 2)%nat (fun i => 3 * i + 2 + o)%nat) i cnt C).
Proof.
  induction cnt as [|cnt IH]; intros i A B C H; [reflexivity|].
  cbn [triad_loop].
  rewrite (ld_word data (3 * i)) by lia. cbn [rbind].
  rewrite (ld_word data (3 * i + o)) by lia. cbn [rbind].
  rewrite (ld_word data (3 * i + 1 + o)) by lia. cbn [rbind].
  rewrite (ld_word data (3 * i + 1)) by lia. cbn [rbind].
  rewrite (ld_word data (3 * i + 2)) by lia. cbn [rbind].
  rewrite (ld_word data (3 * i + 2 + o)) by lia. cbn [rbind].
  replace (12 * N.of_nat i + 12) with (12 * N.of_nat (S i)) by lia.
  rewrite IH by lia. reflexivity.
Qed.

Lemma loops_exact : forall half L, 0 < half -> fnv_loops (2 * half * L) (2 * half) = L.
Proof.
  intros half L H. unfold fnv_loops. rewrite (N.mul_comm (2 * half)).
  rewrite N.mod_mul, N.div_mul by lia. reflexivity.
Qed.

Lemma yoshimura_long : forall data L, (0 < L)%nat -> length data = (16 * L)%nat ->
  lenN data < 2 ^ 64 ->
  FNV1A_Yoshimura data 0 (lenN data) =
  Ok (fnv_end (lane (pair_lane (word4 data) (fun i => 2 * i)%nat (fun i => 2 * i + 2 * L)%nat)
                 0 L fnv_start)
              (lane (pair_lane (word4 data) (fun i => 2 * i + 1 + 2 * L)%nat
                 (fun i => 2 * i + 1)%nat) 0 L fnv_start)).
Proof.
  intros data L HL E Hb. unfold FNV1A_Yoshimura.
  destruct (N.leb_spec 16 (lenN data)) as [H|H]; [|lia].
  assert (EN : lenN data = 2 * 8 * N.of_nat L) by lia.
  change 16 with (2 * 8) in *.
  pose proof (offset_spec (lenN data) 8 Hb ltac:(lia) H) as O.
  rewrite EN in *. rewrite loops_exact in * by lia.
  replace (fnv_offset (2 * 8 * N.of_nat L) (2 * 8) 8) with (4 * N.of_nat (2 * L)) by lia.
  rewrite Nat2N.id. change 0 with (8 * N.of_nat 0).
  rewrite yoshimura_lanes by lia. reflexivity.
Qed.

Lemma triad_long : forall g a data L, (0 < L)%nat -> length data = (24 * L)%nat ->
  lenN data < 2 ^ 64 -> a = ArchNone \/ (length data < 96 * g)%nat ->
  fnv_xmm g a data 0 (lenN data) =
  Ok (fnv_end
       (fmix (lane (pair_lane (word4 data) (fun i => 3 * i)%nat (fun i => 3 * i + 3 * L)%nat)
                0 L fnv_start)
             (rotl32 (lane (pair_lane (word4 data) (fun i => 3 * i + 2)%nat
                       (fun i => 3 * i + 2 + 3 * L)%nat) 0 L fnv_start) 5))
       (lane (pair_lane (word4 data) (fun i => 3 * i + 1 + 3 * L)%nat (fun i => 3 * i + 1)%nat)
          0 L fnv_start)).
Proof.
  intros g a data L HL E Hb Ha. unfold fnv_xmm.
  replace (match a with ArchNone => false | _ => true end && (96 * N.of_nat g <=? lenN data))
    with false.
  2: { destruct Ha as [->|Ha]; [reflexivity|].
       destruct (N.leb_spec (96 * N.of_nat g) (lenN data)); [lia|]. symmetry. apply andb_false_r. }
  destruct (N.leb_spec 24 (lenN data)) as [H|H]; [|lia].
  assert (EN : lenN data = 2 * 12 * N.of_nat L) by lia.
  change 24 with (2 * 12) in *.
  pose proof (offset_spec (lenN data) 12 Hb ltac:(lia) H) as O.
  rewrite EN in *. rewrite loops_exact in * by lia.
  replace (fnv_offset (2 * 12 * N.of_nat L) (2 * 12) 12) with (4 * N.of_nat (3 * L)) by lia.
  rewrite Nat2N.id. change 0 with (12 * N.of_nat 0) at 1.
  rewrite triad_lanes by lia. reflexivity.
Qed.

Lemma start_lt : fnv_start < 2 ^ 32.
Proof. vm_compute. reflexivity. Qed.

Lemma yoshimura_sens : forall pre c c' post,
  is_bytes (pre ++ c :: post) -> is_byte c' -> c <> c' -> lenN (pre ++ c :: post) < 2 ^ 64 ->
  ((length (pre ++ c :: post) < 16)%nat \/ (length (pre ++ c :: post) mod 16 = 0)%nat) ->
  exists h h',
    FNV1A_Yoshimura (pre ++ c :: post) 0 (lenN (pre ++ c :: post)) = Ok h /\
    FNV1A_Yoshimura (pre ++ c' :: post) 0 (lenN (pre ++ c' :: post)) = Ok h' /\ h <> h'.
Proof.
  intros pre c c' post B Hc Ne Hb Hl.
  assert (Ll : length (pre ++ c' :: post) = length (pre ++ c :: post))
    by (rewrite !app_length; reflexivity).
  pose proof (bytes_swap _ _ _ _ B Hc) as B'.
  destruct (Nat.lt_ge_cases (length (pre ++ c :: post)) 16) as [H|H].
  - rewrite !yoshimura_short by lia. do 2 eexists. split; [reflexivity|]. split; [reflexivity|].
    rewrite Ll. apply run_end_diff; auto using bits_shape_good.
    symmetry. apply bits_shape_len, H.
  - destruct Hl as [Hl|Hl]; [lia|]. apply Nat.mod_divides in Hl; [|lia].
    destruct Hl as [L HL].
    rewrite (yoshimura_long _ L), (yoshimura_long _ L) by (rewrite ?Ll; lia).
    do 2 eexists. split; [reflexivity|]. split; [reflexivity|].
    destruct (word4_diff pre c c' post (4 * L)%nat B Hc Ne ltac:(lia)) as (J & HJ & D & S).
    assert (W := fun j => word4_lt (pre ++ c :: post) j B).
    assert (W' := fun j => word4_lt (pre ++ c' :: post) j B').
    set (w := word4 (pre ++ c :: post)) in *. set (w' := word4 (pre ++ c' :: post)) in *.
    pose proof start_lt as SL.
    apply fnv_end_diff; [split; apply lane_lt; exact SL|split; apply lane_lt; exact SL|].
    assert (P : exists I, (I < L)%nat /\ (J = 2 * I \/ J = 2 * I + 2 * L \/ J = 2 * I + 1 \/
                                          J = 2 * I + 1 + 2 * L)%nat).
    { pose proof (Nat.div_mod J 2 ltac:(lia)). pose proof (Nat.mod_upper_bound J 2 ltac:(lia)).
      destruct (Nat.lt_ge_cases J (2 * L)).
      - exists (J / 2)%nat. lia.
      - exists (J / 2 - L)%nat. lia. }
    destruct P as (I & HI & [P|[P|[P|P]]]).
    + left. cbn [fst snd]. split.
      * apply (pair_hit w w' _ _ J I); auto; try lia; intros; lia.
      * apply (pair_miss w w' _ _ J); auto; intros; lia.
    + left. cbn [fst snd]. split.
      * apply (pair_hit w w' _ _ J I); auto; try lia; intros; lia.
      * apply (pair_miss w w' _ _ J); auto; intros; lia.
    + right. cbn [fst snd]. split.
      * apply (pair_miss w w' _ _ J); auto; intros; lia.
      * apply (pair_hit w w' _ _ J I); auto; try lia; intros; lia.
    + right. cbn [fst snd]. split.
      * apply (pair_miss w w' _ _ J); auto; intros; lia.
      * apply (pair_hit w w' _ _ J I); auto; try lia; intros; lia.
Qed.

Lemma triad_sens : forall g a pre c c' post, (0 < g)%nat ->
  is_bytes (pre ++ c :: post) -> is_byte c' -> c <> c' -> lenN (pre ++ c :: post) < 2 ^ 64 ->
  ((length (pre ++ c :: post) < 24)%nat \/
   (length (pre ++ c :: post) mod 24 = 0)%nat /\
   (a = ArchNone \/ (length (pre ++ c :: post) < 96 * g)%nat)) ->
  exists h h',
    fnv_xmm g a (pre ++ c :: post) 0 (lenN (pre ++ c :: post)) = Ok h /\
    fnv_xmm g a (pre ++ c' :: post) 0 (lenN (pre ++ c' :: post)) = Ok h' /\ h <> h'.
Proof.
  intros g a pre c c' post Hg B Hc Ne Hb Hl.
  assert (Ll : length (pre ++ c' :: post) = length (pre ++ c :: post))
    by (rewrite !app_length; reflexivity).
  pose proof (bytes_swap _ _ _ _ B Hc) as B'.
  destruct (Nat.lt_ge_cases (length (pre ++ c :: post)) 24) as [H|H].
  - rewrite !triad_short by lia. do 2 eexists. split; [reflexivity|]. split; [reflexivity|].
    rewrite Ll. apply run_end_diff; auto using short_shape_good.
    symmetry. apply short_shape_len. lia.
  - destruct Hl as [Hl|[Hl Ha]]; [lia|]. apply Nat.mod_divides in Hl; [|lia].
    destruct Hl as [L HL].
    rewrite (triad_long g a _ L), (triad_long g a _ L) by (rewrite ?Ll; first [exact Ha | lia]).
    do 2 eexists. split; [reflexivity|]. split; [reflexivity|].
    destruct (word4_diff pre c c' post (6 * L)%nat B Hc Ne ltac:(lia)) as (J & HJ & D & S).
    assert (W := fun j => word4_lt (pre ++ c :: post) j B).
    assert (W' := fun j => word4_lt (pre ++ c' :: post) j B').
    set (w := word4 (pre ++ c :: post)) in *. set (w' := word4 (pre ++ c' :: post)) in *.
    pose proof start_lt as SL.
    apply fnv_end_diff; [split; [apply fmix_lt|apply lane_lt; exact SL]
                        |split; [apply fmix_lt|apply lane_lt; exact SL]|].
    assert (P : exists I, (I < L)%nat /\ (J = 3 * I \/ J = 3 * I + 3 * L \/ J = 3 * I + 1 \/
                    J = 3 * I + 1 + 3 * L \/ J = 3 * I + 2 \/ J = 3 * I + 2 + 3 * L)%nat).
    { pose proof (Nat.div_mod J 3 ltac:(lia)). pose proof (Nat.mod_upper_bound J 3 ltac:(lia)).
      destruct (Nat.lt_ge_cases J (3 * L)).
      - exists (J / 3)%nat. lia.
      - exists (J / 3 - L)%nat. lia. }
    destruct P as (I & HI & P).
    assert (RL : forall f, rotl32 (lane f 0 L fnv_start) 5 < 2 ^ 32)
      by (intros f; apply rotl32_lt, lane_lt, SL).
    assert (LL := fun f => lane_lt f L 0 fnv_start SL).
    destruct P as [P|[P|[P|[P|[P|P]]]]].
    1, 2: left; cbn [fst snd]; split;
      [|apply (pair_miss w w' _ _ J); auto; intros; lia];
      rewrite (pair_miss w w' (fun i => 3 * i + 2)%nat (fun i => 3 * i + 2 + 3 * L)%nat J)
        by (auto; intros; lia);
      intros X; apply fmix_inj_l in X; auto; revert X;
      apply (pair_hit w w' _ _ J I); auto; try lia; intros; lia.
    1, 2: right; cbn [fst snd]; split;
      [rewrite (pair_miss w w' (fun i => 3 * i + 2)%nat (fun i => 3 * i + 2 + 3 * L)%nat J),
               (pair_miss w w' (fun i => 3 * i)%nat (fun i => 3 * i + 3 * L)%nat J)
         by (auto; intros; lia); reflexivity
      |apply (pair_hit w w' _ _ J I); auto; try lia; intros; lia].
    1, 2: left; cbn [fst snd]; split;
      [|apply (pair_miss w w' _ _ J); auto; intros; lia];
      rewrite (pair_miss w w' (fun i => 3 * i)%nat (fun i => 3 * i + 3 * L)%nat J)
        by (auto; intros; lia);
      intros X; apply fmix_inj_r in X; auto; apply rotl32_inj in X; auto; revert X;
      apply (pair_hit w w' _ _ J I); auto; try lia; intros; lia.
Qed.
