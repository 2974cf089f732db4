(** Lemmas about the loops, loads and words of the hash functions. *)
From Coq Require Import NArith ZArith List Bool Lia.
From Coq Require Import ZifyBool ZifyNat ZifyN.
From Verif Require Import Base BitsModel Crc32Model HashModel HashSpec.
Import ListNotations.
Open Scope N_scope.

Notation lenN l := (N.of_nat (length l)).

(** ** Loads *)
Lemma firstn_app_len {A} (a b : list A) : firstn (length a) (a ++ b) = a.
Proof. rewrite firstn_app, Nat.sub_diag, firstn_O, app_nil_r, firstn_all. reflexivity. Qed.

Lemma skipn_app_len {A} (a b : list A) : skipn (length a) (a ++ b) = b.
Proof. rewrite skipn_app, Nat.sub_diag, skipn_O, skipn_all. reflexivity. Qed.

Lemma ld_at : forall A pre w post B n,
  length w = n ->
  ld n (A ++ (pre ++ w ++ post) ++ B) (lenN A + lenN pre) = Ok (le w).
Proof.
  intros A pre w post B n Hn. unfold ld.
  rewrite !app_length.
  replace (lenN A + lenN pre + N.of_nat n <=? _) with true by lia.
  replace (N.to_nat (lenN A + lenN pre)) with (length (A ++ pre))
    by (rewrite app_length; lia).
  replace (A ++ (pre ++ w ++ post) ++ B) with ((A ++ pre) ++ w ++ (post ++ B))
    by (rewrite <- !app_assoc; reflexivity).
  rewrite skipn_app_len, <- Hn, firstn_app_len. reflexivity.
Qed.

Lemma ld_out : forall n mem i, lenN mem < i + N.of_nat n -> ld n mem i = Err EUndef.
Proof.
  intros n mem i H. unfold ld.
  replace (i + N.of_nat n <=? lenN mem) with false by lia. reflexivity.
Qed.

Lemma ld_in : forall n mem i, i + N.of_nat n <= lenN mem -> exists v, ld n mem i = Ok v.
Proof.
  intros n mem i H. unfold ld.
  replace (i + N.of_nat n <=? lenN mem) with true by lia. eexists; reflexivity.
Qed.

Lemma le_one : forall c, le [c] = c.
Proof. intros c. unfold le. lia. Qed.

Lemma le_lt : forall w, is_bytes w -> le w < 2 ^ (8 * lenN w).
Proof.
  induction w as [|b w IH]; intros H.
  - cbn. lia.
  - inversion H as [|x y Hb Hw]; subst. specialize (IH Hw).
    cbn [le length].
    replace (8 * N.of_nat (S (length w))) with (8 + 8 * lenN w) by lia.
    rewrite N.pow_add_r. change (2 ^ 8) with 256. unfold is_byte in Hb. nia.
Qed.

Lemma le_inj : forall w v, length w = length v -> is_bytes w -> is_bytes v ->
  le w = le v -> w = v.
Proof.
  induction w as [|b w IH]; intros [|c v] Hl Hw Hv E; try discriminate; [reflexivity|].
  inversion Hw; inversion Hv; subst. unfold is_byte in *. cbn [le] in E.
  assert (b = c) by lia. assert (le w = le v) by lia.
  f_equal; [assumption|]. apply IH; auto.
Qed.

Lemma le_app : forall w v, le (w ++ v) = le w + 2 ^ (8 * lenN w) * le v.
Proof.
  induction w as [|b w IH]; intros v.
  - cbn [le app length]. change (2 ^ (8 * N.of_nat 0)) with 1. lia.
  - cbn [le app length]. rewrite IH.
    replace (8 * N.of_nat (S (length w))) with (8 + 8 * lenN w) by lia.
    rewrite N.pow_add_r. change (2 ^ 8) with 256. ring.
Qed.

Lemma le_zeros : forall w k, le (w ++ repeat 0 k) = le w.
Proof.
  intros w k. rewrite le_app.
  assert (E : le (repeat 0 k) = 0)
    by (induction k as [|k IH]; cbn [repeat le]; [reflexivity|rewrite IH; reflexivity]).
  rewrite E. lia.
Qed.

(** ** Chunks *)
Lemma chunks_exist : forall n (l : list N), (0 < n)%nat ->
  exists cs tail, l = concat cs ++ tail /\ Forall (fun c => length c = n) cs /\
                  (length tail < n)%nat.
Proof.
  intros n l Hn.
  remember (length l) as k eqn:Hk.
  revert l Hk. induction k as [k IH] using lt_wf_ind. intros l Hk.
  destruct (Nat.lt_ge_cases k n) as [Hlt|Hge].
  - exists [], l. cbn. split; [reflexivity|]. split; [constructor|lia].
  - destruct (IH (k - n)%nat ltac:(lia) (skipn n l)) as (cs & tail & E & F & T).
    { rewrite skipn_length. lia. }
    exists (firstn n l :: cs), tail. split; [|split; [|exact T]].
    + cbn [concat]. rewrite <- app_assoc, <- E. symmetry. apply firstn_skipn.
    + constructor; [|exact F]. rewrite firstn_length. lia.
Qed.

Lemma concat_length : forall n (cs : list (list N)),
  Forall (fun c => length c = n) cs -> length (concat cs) = (n * length cs)%nat.
Proof.
  intros n cs H. induction H as [|c cs Hc H IH]; cbn [concat length]; [lia|].
  rewrite app_length, IH. lia.
Qed.

(** ** Loops *)
Lemma while_chunks : forall (X : Type) (g : X -> list N -> X) body cond step limit data,
  (0 < step)%nat ->
  (forall pre w post h, data = pre ++ w ++ post -> length w = step ->
     body (lenN pre, h) = Ok (lenN pre + N.of_nat step, g h w)) ->
  (forall i h, i + N.of_nat step <= limit -> cond (i, h) = true) ->
  (forall h, cond (limit, h) = false) ->
  forall cs pre post h fuel,
  data = pre ++ concat cs ++ post -> Forall (fun c => length c = step) cs ->
  limit = lenN pre + lenN (concat cs) -> (length cs <= fuel)%nat ->
  while fuel cond body (lenN pre, h) = Ok (limit, fold_left g cs h).
Proof.
  intros X g body cond step limit data Hs Hb Ht Hf.
  induction cs as [|c cs IH]; intros pre post h fuel Hd HF Hl Hfu.
  - cbn [concat length] in Hl. replace (lenN pre) with limit by lia.
    destruct fuel; cbn [while]; rewrite Hf; reflexivity.
  - inversion HF as [|x y Hc HF']; subst x y.
    cbn [concat] in *. rewrite app_length in Hl.
    destruct fuel as [|fuel]; [cbn [length] in Hfu; lia|].
    cbn [while]. rewrite Ht by lia.
    rewrite (Hb pre c (concat cs ++ post)) by (auto; rewrite Hd, <- app_assoc; reflexivity).
    cbn [rbind fold_left].
    replace (lenN pre + N.of_nat step) with (lenN (pre ++ c)) by (rewrite app_length; lia).
    apply IH with (post := post).
    + rewrite Hd, <- !app_assoc. reflexivity.
    + exact HF'.
    + rewrite app_length. lia.
    + cbn [length] in Hfu. lia.
Qed.

(** Chunks of one byte. *)
Lemma concat_singles : forall l : list N, concat (map (fun x => [x]) l) = l.
Proof. induction l as [|x l IH]; cbn; [reflexivity|]. rewrite IH. reflexivity. Qed.

Lemma singles_len : forall l : list N,
  Forall (fun c => length c = 1%nat) (map (fun x => [x]) l).
Proof. induction l; cbn; constructor; auto. Qed.

Lemma while_bytes : forall (X : Type) (g : X -> N -> X) body cond limit data,
  (forall pre c post h, data = pre ++ c :: post ->
     body (lenN pre, h) = Ok (lenN pre + 1, g h c)) ->
  (forall i h, i < limit -> cond (i, h) = true) ->
  (forall h, cond (limit, h) = false) ->
  forall l pre post h fuel,
  data = pre ++ l ++ post -> limit = lenN pre + lenN l -> (length l <= fuel)%nat ->
  while fuel cond body (lenN pre, h) = Ok (limit, fold_left g l h).
Proof.
  intros X g body cond limit data Hb Ht Hf l pre post h fuel Hd Hl Hfu.
  assert (E : fold_left g l h = fold_left (fun h w => g h (hd 0 w)) (map (fun x => [x]) l) h).
  { clear. revert h. induction l as [|x l IH]; intros h; cbn; [reflexivity|]. apply IH. }
  rewrite E.
  apply (while_chunks X (fun h w => g h (hd 0 w)) body cond 1 limit data) with (post := post).
  - lia.
  - intros pre' w post' h' E' Hw. destruct w as [|c [|? ?]]; try discriminate.
    cbn [hd]. change (N.of_nat 1) with 1. apply (Hb pre' c post'). exact E'.
  - intros i h' Hi. apply Ht. lia.
  - exact Hf.
  - rewrite concat_singles. exact Hd.
  - apply singles_len.
  - rewrite concat_singles. exact Hl.
  - rewrite map_length. exact Hfu.
Qed.

(** len & ~(2^k - 1) *)
Lemma land_align : forall k len, k < 64 -> len < 2 ^ 64 ->
  N.land len (wsub (two64 - 1) (2 ^ k - 1)) = 2 ^ k * (len / 2 ^ k).
Proof.
  intros k len Hk Hl.
  assert (P : 2 ^ k <= 2 ^ 63) by (apply N.pow_le_mono_r; lia).
  assert (P0 : 0 < 2 ^ k) by (apply N.neq_0_lt_0, N.pow_nonzero; lia).
  assert (T : 2 ^ 63 < 2 ^ 64) by (vm_compute; reflexivity).
  assert (E : wsub (two64 - 1) (2 ^ k - 1) = N.ldiff (N.ones 64) (N.ones k)).
  { rewrite N.ldiff_ones_r.
    rewrite N.shiftr_div_pow2, N.shiftl_mul_pow2, N.ones_equiv.
    unfold wsub, w64, two64.
    rewrite (N.mod_small (2 ^ k - 1)) by lia.
    replace (2 ^ 64 - 1 + (2 ^ 64 - (2 ^ k - 1))) with (2 ^ 64 - 2 ^ k + 1 * 2 ^ 64) by lia.
    rewrite N.mod_add by (vm_compute; discriminate).
    rewrite N.mod_small by lia.
    replace (N.pred (2 ^ 64)) with (2 ^ 64 - 1) by lia.
    assert (D : 2 ^ 64 = 2 ^ (64 - k) * 2 ^ k)
      by (rewrite <- N.pow_add_r; f_equal; lia).
    set (a := 2 ^ (64 - k)) in *. set (b := 2 ^ k) in *.
    assert (A0 : a <> 0) by (apply N.pow_nonzero; lia).
    replace (2 ^ 64 - 1) with ((b - 1) + (a - 1) * b) by nia.
    rewrite N.div_add, N.div_small by lia. nia. }
  rewrite E, N.ldiff_ones_r.
  rewrite N.shiftr_div_pow2, N.shiftl_mul_pow2.
  rewrite N.ones_equiv.
  apply N.bits_inj. intro i.
  rewrite N.land_spec.
  destruct (N.lt_ge_cases i k) as [Hik|Hik].
  - rewrite (N.mul_pow2_bits_low (N.pred (2 ^ 64) / 2 ^ k)) by lia.
    rewrite andb_false_r, N.mul_comm, N.mul_pow2_bits_low by lia. reflexivity.
  - rewrite (N.mul_comm (2 ^ k)).
    rewrite !N.mul_pow2_bits_high by lia.
    rewrite !N.div_pow2_bits by lia.
    replace (i - k + k) with i by lia.
    rewrite <- N.ones_equiv.
    destruct (N.lt_ge_cases i 64) as [Hi|Hi].
    + rewrite N.ones_spec_low by lia. apply andb_true_r.
    + replace (N.testbit len i) with false; [reflexivity|].
      symmetry. destruct (N.eq_dec len 0) as [->|Z]; [apply N.bits_0|].
      apply N.bits_above_log2.
      apply N.log2_lt_pow2; [lia|].
      eapply N.lt_le_trans; [exact Hl|]. apply N.pow_le_mono_r; lia.
Qed.

(** ** Words of 32 bits *)
Lemma w32_add_l : forall x y, w32 (w32 x + y) = w32 (x + y).
Proof. intros. apply N.add_mod_idemp_l. vm_compute; discriminate. Qed.
Lemma w32_add_r : forall x y, w32 (x + w32 y) = w32 (x + y).
Proof. intros. apply N.add_mod_idemp_r. vm_compute; discriminate. Qed.
Lemma w32_mul_l : forall x y, w32 (w32 x * y) = w32 (x * y).
Proof. intros. apply N.mul_mod_idemp_l. vm_compute; discriminate. Qed.
Lemma w32_mul_r : forall x y, w32 (x * w32 y) = w32 (x * y).
Proof. intros. apply N.mul_mod_idemp_r. vm_compute; discriminate. Qed.
Lemma w32_w32 : forall x, w32 (w32 x) = w32 x.
Proof. intros. apply N.mod_mod. vm_compute; discriminate. Qed.
Lemma w32_small : forall x, x < 2 ^ 32 -> w32 x = x.
Proof. intros. apply N.mod_small. assumption. Qed.
Lemma w32_lt : forall x, w32 x < 2 ^ 32.
Proof. intros. apply N.mod_lt. vm_compute; discriminate. Qed.

Global Hint Rewrite w32_add_l w32_add_r w32_mul_l w32_mul_r w32_w32 : w32.

Lemma byte_w32 : forall c, is_byte c -> w32 c = c.
Proof.
  intros c H. apply w32_small. unfold is_byte in H.
  eapply N.lt_trans; [exact H|]. vm_compute; reflexivity.
Qed.

Lemma bytes_app : forall a b, is_bytes (a ++ b) <-> is_bytes a /\ is_bytes b.
Proof. intros. apply Forall_app. Qed.

Lemma bytes_in : forall pre c post, is_bytes (pre ++ c :: post) -> is_byte c.
Proof.
  intros pre c post H. apply bytes_app in H. destruct H as [_ H]. inversion H; assumption.
Qed.

(** Equality modulo 2^32. *)
Definition eq32 (x y : N) : Prop := w32 x = w32 y.

Global Instance eq32_equiv : RelationClasses.Equivalence eq32.
Proof.
  split; unfold eq32.
  - intros x. reflexivity.
  - intros x y H. congruence.
  - intros x y z H1 H2. congruence.
Qed.

Global Instance eq32_add : Morphisms.Proper
  (Morphisms.respectful eq32 (Morphisms.respectful eq32 eq32)) N.add.
Proof.
  intros x x' Hx y y' Hy. unfold eq32 in *.
  rewrite <- w32_add_l, Hx, w32_add_l, <- w32_add_r, Hy, w32_add_r. reflexivity.
Qed.

Global Instance eq32_mul : Morphisms.Proper
  (Morphisms.respectful eq32 (Morphisms.respectful eq32 eq32)) N.mul.
Proof.
  intros x x' Hx y y' Hy. unfold eq32 in *.
  rewrite <- w32_mul_l, Hx, w32_mul_l, <- w32_mul_r, Hy, w32_mul_r. reflexivity.
Qed.

Lemma w32_eq32 : forall x, eq32 (w32 x) x.
Proof. intros x. apply w32_w32. Qed.

Global Instance eq32_w32 : Morphisms.Proper (Morphisms.respectful eq32 eq32) w32.
Proof. intros x x' H. unfold eq32 in *. rewrite H. reflexivity. Qed.
