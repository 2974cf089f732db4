(** Statements about fnv1a.h in the form used by PropertiesFnv.v. *)
From Coq Require Import Arith NArith ZArith List Bool Lia.
From Verif Require Import Base HashModel HashSpec FnvModel FnvFacts.
Import ListNotations.
Open Scope N_scope.

Lemma yoshimura_byte_sensitive :
  byte_sensitive_for (fun n => n < 16 \/ n mod 16 = 0)%nat
    (fun data len => defined (FNV1A_Yoshimura data 0 len)).
Proof.
  intros pre c c' post B Hc Ne L P.
  destruct (yoshimura_sens pre c c' post B Hc Ne L P) as (h & h' & E & E' & N).
  exists h, h'. rewrite E, E'. auto.
Qed.

Lemma triad_byte_sensitive : forall g a, (0 < g)%nat ->
  byte_sensitive_for
    (fun n => n < 24 \/ n mod 24 = 0 /\ (a = ArchNone \/ n < 96 * g))%nat
    (fun data len => defined (fnv_xmm g a data 0 len)).
Proof.
  intros g a Hg pre c c' post B Hc Ne L P.
  destruct (triad_sens g a pre c c' post Hg B Hc Ne L P) as (h & h' & E & E' & N).
  exists h, h'. rewrite E, E'. auto.
Qed.

Definition yos1 : list N := [0; 0; 0; 0; 0; 0; 0; 0; 53; 174; 225; 125].
Definition yos2 : list N := [0; 0; 0; 121; 247; 24; 9].

Lemma yoshimura_collision :
  FNV1A_Yoshimura (yos1 ++ 0 :: yos2) 0 20 = Ok 2173983996 /\
  FNV1A_Yoshimura (yos1 ++ 15 :: yos2) 0 20 = Ok 2173983996.
Proof. vm_compute. auto. Qed.

Lemma bytes_dec : forall l, forallb (fun b => b <? 256) l = true -> is_bytes l.
Proof.
  intros l H. rewrite forallb_forall in H. apply Forall_forall. intros b Hb.
  apply N.ltb_lt, H, Hb.
Qed.

Lemma yoshimura_not_sensitive :
  ~ byte_sensitive (fun data len => defined (FNV1A_Yoshimura data 0 len)).
Proof.
  intros H.
  destruct (H yos1 0 15 yos2 (bytes_dec (yos1 ++ 0 :: yos2) eq_refl) eq_refl ltac:(discriminate) eq_refl)
    as (h & h' & E & E' & N).
  change (N.of_nat (length (yos1 ++ 0 :: yos2))) with 20 in E.
  change (N.of_nat (length (yos1 ++ 15 :: yos2))) with 20 in E'.
  destruct yoshimura_collision as [C C']. rewrite C in E. rewrite C' in E'.
  cbn [defined] in *. congruence.
Qed.

Definition tri1 : list N := [0; 0; 0; 0; 0; 0; 0; 0; 0; 0; 0; 0; 70; 39; 64; 7].
Definition tri2 : list N := [0; 0; 0; 150; 90; 69; 190; 225; 77; 124; 138].

Lemma triad_collision : forall a g, (0 < g)%nat ->
  fnv_xmm g a (tri1 ++ 0 :: tri2) 0 28 = Ok 3607979887 /\
  fnv_xmm g a (tri1 ++ 1 :: tri2) 0 28 = Ok 3607979887.
Proof.
  intros a g Hg. unfold fnv_xmm.
  destruct (N.leb_spec (96 * N.of_nat g) 28) as [H|_]; [lia|].
  rewrite andb_false_r. split; vm_compute; reflexivity.
Qed.

Lemma triad_not_sensitive : forall a g, (0 < g)%nat ->
  ~ byte_sensitive (fun data len => defined (fnv_xmm g a data 0 len)).
Proof.
  intros a g Hg H.
  destruct (H tri1 0 1 tri2 (bytes_dec (tri1 ++ 0 :: tri2) eq_refl) eq_refl ltac:(discriminate) eq_refl)
    as (h & h' & E & E' & N).
  change (N.of_nat (length (tri1 ++ 0 :: tri2))) with 28 in E.
  change (N.of_nat (length (tri1 ++ 1 :: tri2))) with 28 in E'.
  destruct (triad_collision a g Hg) as [C C']. rewrite C in E. rewrite C' in E'.
  cbn [defined] in *. congruence.
Qed.

Lemma TRIADii_defined : forall a data, N.of_nat (length data) < 2 ^ 64 ->
  exists h, FNV1A_TRIADii a data 0 (N.of_nat (length data)) = Ok h.
Proof. intros a data L. apply fnv_xmm_defined; [lia|exact L]. Qed.

Lemma penumbra_defined : forall a data, N.of_nat (length data) < 2 ^ 64 ->
  exists h, FNV1A_penumbra a data 0 (N.of_nat (length data)) = Ok h.
Proof. intros a data L. apply fnv_xmm_defined; [lia|exact L]. Qed.

Lemma TRIADii_ignores : forall a pre mid mid' post, a <> ArchNone ->
  length pre = 11%nat -> length mid = 5%nat -> length mid' = 5%nat -> length post = 80%nat ->
  FNV1A_TRIADii a (pre ++ mid ++ post) 0 96 = FNV1A_TRIADii a (pre ++ mid' ++ post) 0 96.
Proof.
  intros a pre mid mid' post Ha L1 L2 L3 L4.
  pose proof (xmm_ignores 1 a pre mid mid' post Ha (or_introl eq_refl) L1 L2 L3 L4) as E.
  rewrite !app_length, L1, L2, L3, L4 in E. exact E.
Qed.

Lemma penumbra_ignores : forall a pre mid mid' post, a <> ArchNone ->
  length pre = 11%nat -> length mid = 5%nat -> length mid' = 5%nat -> length post = 176%nat ->
  FNV1A_penumbra a (pre ++ mid ++ post) 0 192 = FNV1A_penumbra a (pre ++ mid' ++ post) 0 192.
Proof.
  intros a pre mid mid' post Ha L1 L2 L3 L4.
  pose proof (xmm_ignores 2 a pre mid mid' post Ha (or_intror eq_refl) L1 L2 L3 L4) as E.
  rewrite !app_length, L1, L2, L3, L4 in E. exact E.
Qed.

Lemma xmm_not_sensitive : forall a g, a <> ArchNone -> (g = 1 \/ g = 2)%nat ->
  ~ byte_sensitive_for (fun n => n = 96 * g)%nat (fun data len => defined (fnv_xmm g a data 0 len)).
Proof.
  intros a g Ha Hg H.
  set (post := repeat 0 (96 * g - 16)).
  assert (L : forall c : N, length (repeat 0 11 ++ c :: repeat 0 4 ++ post) = (96 * g)%nat)
    by (intros c; unfold post; rewrite !app_length; cbn [length];
        rewrite app_length, !repeat_length; lia).
  assert (Hb : N.of_nat (length (repeat 0 11 ++ 0 :: repeat 0 4 ++ post)) < 2 ^ 64)
    by (rewrite L; destruct Hg; subst g; vm_compute; reflexivity).
  assert (B : is_bytes (repeat 0 11 ++ 0 :: repeat 0 4 ++ post)).
  { apply Forall_forall. intros x Hx. apply in_app_or in Hx.
    assert (x = 0) by (destruct Hx as [Hx|[Hx|Hx]];
      [apply repeat_spec in Hx|..|apply in_app_or in Hx; destruct Hx as [Hx|Hx];
       apply repeat_spec in Hx]; auto). subst x. vm_compute. reflexivity. }
  destruct (H (repeat 0 11) 0 1 (repeat 0 4 ++ post) B eq_refl ltac:(discriminate) Hb (L 0))
    as (h & h' & E & E' & N).
  apply N.
  pose proof (xmm_ignores g a (repeat 0 11) (0 :: repeat 0 4) (1 :: repeat 0 4) post Ha Hg
                eq_refl eq_refl eq_refl ltac:(unfold post; apply repeat_length)) as X.
  change ((0 :: repeat 0 4) ++ post) with (0 :: repeat 0 4 ++ post) in X.
  change ((1 :: repeat 0 4) ++ post) with (1 :: repeat 0 4 ++ post) in X.
  rewrite X in E. rewrite E in E'. congruence.
Qed.

Lemma xmm_short_same : forall g a a' mem p len, len < 96 * N.of_nat g ->
  fnv_xmm g a mem p len = fnv_xmm g a' mem p len.
Proof.
  intros g a a' mem p len H. unfold fnv_xmm.
  replace (96 * N.of_nat g <=? len) with false by (symmetry; apply N.leb_gt; exact H).
  rewrite !Bool.andb_false_r. reflexivity.
Qed.

Lemma xmm_arch_differs : forall a a' g, a <> a' -> (g = 1 \/ g = 2)%nat ->
  exists data, is_bytes data /\ length data = (96 * g)%nat /\
  exists h h', fnv_xmm g a data 0 (N.of_nat (length data)) = Ok h
               /\ fnv_xmm g a' data 0 (N.of_nat (length data)) = Ok h' /\ h <> h'.
Proof.
  intros a a' g Ne [->| ->]; [exists (repeat 97 96)|exists (repeat 97 192)];
    (split; [apply bytes_dec; vm_compute; reflexivity|split; [reflexivity|]]);
    destruct a, a'; try congruence;
    (eexists; eexists; split; [vm_compute; reflexivity|split; [vm_compute; reflexivity|]];
     discriminate).
Qed.

(** The last byte of an odd length is a signed char. *)
Lemma schar32_signed : forall c, c < 256 ->
  Z.of_N (schar32 c) = ((if (Z.of_N c <? 128)%Z then Z.of_N c else Z.of_N c - 256) mod 2 ^ 32)%Z.
Proof.
  intros c C. unfold schar32. change two32 with 4294967296. change (2 ^ 32)%Z with 4294967296%Z.
  destruct (N.ltb_spec c 128); destruct (Z.ltb_spec (Z.of_N c) 128); lia.
Qed.
