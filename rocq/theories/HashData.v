(** The loops over the data compute what HashSpec says and stay inside the data. *)
From Coq Require Import NArith ZArith List Bool Lia.
From Coq Require Import ZifyBool ZifyNat ZifyN.
From Verif Require Import Base BitsModel Crc32Model HashModel HashSpec HashFacts.
Import ListNotations.
Open Scope N_scope.

Lemma ld0 : forall pre w post n, length w = n ->
  ld n (pre ++ w ++ post) (lenN pre) = Ok (le w).
Proof.
  intros pre w post n H.
  pose proof (ld_at [] pre w post [] n H) as E.
  cbn [app length] in E. rewrite app_nil_r in E.
  rewrite <- E. f_equal.
Qed.

Lemma ld0' : forall data i pre w post n, data = pre ++ w ++ post -> i = lenN pre ->
  length w = n -> ld n data i = Ok (le w).
Proof. intros; subst. apply ld0. reflexivity. Qed.

(** ** Hashes of one byte after the other *)
Lemma wmul_1 : forall n, n < 2 ^ 64 -> wmul n (N.of_nat 1) = n.
Proof.
  intros n H. unfold wmul, w64, two64. change (N.of_nat 1) with 1.
  rewrite N.mul_1_r. apply N.mod_small. exact H.
Qed.

Definition hstep (seed h c : N) : N := a32 (m32 h seed) (w32 c).

Lemma horner_step : forall seed start data, is_bytes data ->
  fold_left (hstep seed) data start = horner seed start data.
Proof.
  intros seed start data H. unfold horner. revert start.
  induction H as [|b data Hb H IH]; intros start; cbn [fold_left]; [reflexivity|].
  replace (hstep seed start b) with ((start * seed + b) mod 2 ^ 32); [apply IH|].
  unfold hstep, a32, m32. autorewrite with w32. reflexivity.
Qed.

Lemma BKDR_std_correct : forall data, is_bytes data -> lenN data < 2 ^ 64 ->
  BKDRHash_31_std 1 data 0 (lenN data) = Ok (horner 31 0 data).
Proof.
  intros data H L. unfold BKDRHash_31_std. rewrite wmul_1 by exact L.
  change (0, 0) with (lenN (@nil N), 0).
  rewrite (while_bytes N (hstep 31) _ _ (lenN data) data) with (l := data) (post := []).
  - cbn [rbind snd]. rewrite horner_step by exact H. reflexivity.
  - intros pre c post h E. cbn [fst snd].
    rewrite (ld0' data _ pre [c] post 1) by (auto; change (N.of_nat 1) with 1; lia).
    cbn [rbind]. rewrite le_one. reflexivity.
  - intros. cbn [fst]. lia.
  - intros. cbn [fst]. lia.
  - rewrite app_nil_r. reflexivity.
  - cbn [length]. lia.
  - lia.
Qed.

Definition hstep4 (seed h : N) (w : list N) : N :=
  let seed_2 := m32 seed seed in
  let seed_3 := m32 seed_2 seed in
  let seed_4 := m32 seed_2 seed_2 in
  a32 (a32 (a32 (a32 (m32 h seed_4) (m32 (w32 (nth 0 w 0)) seed_3))
       (m32 (w32 (nth 1 w 0)) seed_2)) (m32 (w32 (nth 2 w 0)) seed)) (w32 (nth 3 w 0)).

Lemma hstep4_eq : forall seed h w, length w = 4%nat ->
  hstep4 seed h w = fold_left (hstep seed) w h.
Proof.
  intros seed h w H.
  destruct w as [|a [|b [|c [|d [|? ?]]]]]; try discriminate.
  cbn [fold_left]. unfold hstep4, hstep, a32, m32. cbn [nth].
  change (eq32
    (w32 (w32 (w32 (w32 (h * w32 (w32 (seed * seed) * w32 (seed * seed))) +
       w32 (w32 a * w32 (w32 (seed * seed) * seed))) +
       w32 (w32 b * w32 (seed * seed))) + w32 (w32 c * seed)) + w32 d)
    (w32 (w32 (w32 (w32 (w32 (w32 (w32 (h * seed) + w32 a) * seed) + w32 b) * seed) +
       w32 c) * seed) + w32 d)).
  rewrite !w32_eq32. unfold eq32. f_equal. ring.
Qed.

Lemma fold_concat : forall (X : Type) (g : X -> N -> X) (g4 : X -> list N -> X) n cs h,
  (forall h w, length w = n -> g4 h w = fold_left g w h) ->
  Forall (fun c => length c = n) cs ->
  fold_left g4 cs h = fold_left g (concat cs) h.
Proof.
  intros X g g4 n cs h Hg HF. revert h.
  induction HF as [|c cs Hc HF IH]; intros h; cbn [concat fold_left]; [reflexivity|].
  rewrite fold_left_app, Hg by exact Hc. apply IH.
Qed.

Lemma align_limit : forall k n (data : list N) cs tail, k < 64 -> N.of_nat n = 2 ^ k ->
  lenN data < 2 ^ 64 -> data = concat cs ++ tail ->
  Forall (fun c => length c = n) cs -> (length tail < n)%nat ->
  N.land (lenN data) (wsub (two64 - 1) (2 ^ k - 1)) = lenN (concat cs).
Proof.
  intros k n data cs tail Hk Hn L E F T.
  rewrite land_align by assumption.
  rewrite E at 1. rewrite app_length, (concat_length n) by exact F.
  rewrite <- Hn.
  replace (N.of_nat (n * length cs + length tail)) with (lenN tail + lenN cs * N.of_nat n)
    by lia.
  rewrite N.div_add by lia. rewrite N.div_small by lia. lia.
Qed.

Lemma BKDR_correct : forall seed data, is_bytes data -> lenN data < 2 ^ 64 ->
  BKDRHash seed 1 data 0 (lenN data) = Ok (horner seed 0 data).
Proof.
  intros seed data H L. unfold BKDRHash. rewrite wmul_1 by exact L.
  destruct (chunks_exist 4 data ltac:(lia)) as (cs & tail & E & F & T).
  change (wsub (two64 - 1) 3) with (wsub (two64 - 1) (2 ^ 2 - 1)).
  rewrite (align_limit 2 4 data cs tail) by (auto; lia).
  change (@pair N N 0 0) with (lenN (@nil N), 0).
  rewrite (while_chunks N (hstep4 seed) _ _ 4 (lenN (concat cs)) data)
    with (cs := cs) (post := tail); [|lia| | | |exact E|exact F|cbn [length]; lia| ].
  - rewrite (fold_concat N (hstep seed) (hstep4 seed) 4)
      by (auto using hstep4_eq).
    cbn [rbind].
    rewrite (while_bytes N (hstep seed) _ _ (lenN data) data)
      with (l := tail) (pre := concat cs) (post := []).
    + cbn [rbind snd]. rewrite <- fold_left_app, <- E, horner_step by exact H. reflexivity.
    + intros pre c post h E'. cbn [fst snd].
      rewrite (ld0' data _ pre [c] post 1) by (auto; change (N.of_nat 1) with 1; lia).
      cbn [rbind]. rewrite le_one. reflexivity.
    + intros. cbn [fst]. lia.
    + intros. cbn [fst]. lia.
    + rewrite app_nil_r. exact E.
    + rewrite E at 1. rewrite app_length. lia.
    + rewrite E, app_length. lia.
  - intros pre w post h E' Hw. cbn [fst snd].
    destruct w as [|a [|b [|c [|d [|? ?]]]]]; try discriminate.
    change (N.of_nat 1) with 1. rewrite !N.mul_1_r, !N.add_0_l.
    rewrite (ld0' data (lenN pre) pre [a] ([b; c; d] ++ post) 1) by auto.
    rewrite (ld0' data _ (pre ++ [a]) [b] ([c; d] ++ post) 1)
      by (auto; rewrite ?app_length; cbn [length]; try lia;
          rewrite E', <- !app_assoc; reflexivity).
    rewrite (ld0' data _ (pre ++ [a; b]) [c] ([d] ++ post) 1)
      by (auto; rewrite ?app_length; cbn [length]; try lia;
          rewrite E', <- !app_assoc; reflexivity).
    rewrite (ld0' data _ (pre ++ [a; b; c]) [d] post 1)
      by (auto; rewrite ?app_length; cbn [length]; try lia;
          rewrite E', <- !app_assoc; reflexivity).
    cbn [rbind]. rewrite !le_one. reflexivity.
  - intros. cbn [fst]. lia.
  - intros. cbn [fst]. lia.
  - rewrite E, app_length, (concat_length 4) by exact F. lia.
Qed.

(** ** DJBHash *)
Lemma DJB_correct : forall data, is_bytes data ->
  DJBHash data 0 (lenN data) = Ok (horner 33 5381 data).
Proof.
  intros data H. unfold DJBHash.
  change (0, 5381) with (lenN (@nil N), 5381).
  rewrite (while_bytes N (hstep 33) _ _ (lenN data) data) with (l := data) (post := []).
  - cbn [rbind snd]. rewrite horner_step by exact H. reflexivity.
  - intros pre c post h E. cbn [fst snd].
    rewrite (ld0' data _ pre [c] post 1) by (auto; lia).
    cbn [rbind]. rewrite le_one. do 2 f_equal.
    unfold hstep, a32, m32, shl32. rewrite N.shiftl_mul_pow2. change (2 ^ 5) with 32.
    change (eq32 (h + w32 (w32 (h * 32) + c)) (w32 (h * 33) + w32 c)).
    rewrite !w32_eq32. unfold eq32. f_equal. ring.
  - intros. cbn [fst]. lia.
  - intros. cbn [fst]. lia.
  - rewrite app_nil_r. reflexivity.
  - cbn [length]. lia.
  - lia.
Qed.
