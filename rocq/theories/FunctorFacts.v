(** Copies, moves and swaps of robin, group15 and group16 maps with their function
    objects. *)
From Coq Require Import NArith ZArith List Bool Lia Permutation.
From Coq Require Import ZifyBool ZifyNat ZifyN.
From Verif Require Import Base BaseFacts BitsModel BitsFacts GroupModel GroupFacts TableModel TableInv
  MapSpec MapFacts RunModel IterModel CopyModel CopyFacts ReachModel
  ReachFacts MapProps MapProps2 RobinModel RobinSpec RobinFacts RobinRefine FunctorModel.
Import ListNotations.
Open Scope N_scope.
Ltac Zify.zify_post_hook ::= Z.div_mod_to_equations.

(** ** robin *)

Lemma r_copy_held_agrees {K V} (x : held K (rmap K V)) q m alloc : lawful (h_hash x) (h_eq x) -> q = 1 \/ q = 2 ->
  r_reach K V (h_hash x) (h_eq x) q (h_map x) m -> sane alloc -> spread_all K V (h_hash x) 2 m ->
  match r_copy_held K V alloc x with
  | Ret y _ => forall calls, Forall (fun c => sane (fst c)) calls ->
      r_agrees K V (h_hash y) (h_eq x) (spread_all K V (h_hash x) q) q calls (h_map y) m
  | Throw _ => True
  | Fail _ => False
  end.
Proof.
  destruct x as [hash keq t]. cbn [h_hash h_eq h_map]. intros LW Hq R HA HS.
  unfold r_copy_held. cbn [h_hash h_eq h_map].
  destruct (reach_inv hash keq LW q t m Hq R) as [I P].
  destruct (copy_spec hash keq LW q alloc t HA I Hq) as [(t1 & E1)|(t1 & E1 & I1 & P1)].
  - eapply (spread_all_perm hash 2); eauto.
  - rewrite E1. exact Logic.I.
  - rewrite E1. cbn [holding h_hash h_map]. intros calls HC.
    apply (reach_agrees hash keq LW q t1 m calls Hq); auto.
    eapply reach_copy; eauto.
Qed.

Lemma r_move_held_agrees {K V} (x : held K (rmap K V)) q m : lawful (h_hash x) (h_eq x) -> q = 1 \/ q = 2 ->
  r_reach K V (h_hash x) (h_eq x) q (h_map x) m ->
  let y := fst (r_move_held K V x) in
  h_hash y = h_hash x /\ h_eq y = h_eq x /\ r_reach K V (h_hash y) (h_eq y) q (h_map y) m.
Proof.
  destruct x as [hash keq t]. cbn [h_hash h_eq h_map]. intros LW Hq R. unfold r_move_held. cbn [h_map h_hash h_eq].
  pose proof (reach_move K V hash keq q t m R) as R'. destruct (r_move K V t) as [a b]. cbn [fst h_hash h_eq h_map] in *. auto.
Qed.

(** ** group15 and group16 *)

Section Groups.

Context {K V : Type} (kd : kind) (HK : group_kind kd).
Notation okay x := (built K V (h_hash x) (h_eq x) kd (h_map x)).

Lemma assign_held_spec (x y : held K (table K V)) alloc past :
  lawful (h_hash x) (h_eq x) -> okay x -> lawful (h_hash y) (h_eq y) -> okay y -> sane alloc ->
  match assign_held K V kd alloc past x y with
  | Ret z _ => h_hash z = h_hash y /\ h_eq z = h_eq y
      /\ (capacity K V kd (h_map z) <> capacity K V kd (h_map y) \/ t_size _ _ (h_map y) = 0 ->
          okay z /\ exists l l', traverse K V kd past (h_map y) = Ok l /\ traverse K V kd past (h_map z) = Ok l'
            /\ Permutation l' l)
  | Throw z => z = x
  | Fail _ => False
  end.
Proof.
  destruct x as [hx ex tx], y as [hy ey ty]. cbn [h_hash h_eq h_map]. intros LX BX LY BY HA.
  unfold assign_held, copy_held. cbn [h_hash h_eq h_map].
  destruct (kind_laws kd HK) as [L R].
  destruct (copy_construct K V hy kd alloc past ty) as [t' []|t'|e] eqn:E; cbn [holding]; auto.
  - unfold swap_held. cbn [h_map h_hash h_eq]. rewrite swap_content_eq. cbn [h_map h_hash h_eq].
    destruct (MapProps.built_destroy hx ex LX kd HK tx BX) as (d & -> & _). cbn [h_map h_hash h_eq].
    split; auto. split; auto. intros HC. split; [eapply built_copy; eauto|].
    destruct (built_copy_spec hy ey LY kd HK ty t' alloc past BY HA E HC) as (_ & l & l' & E1 & E2 & P). eauto.
  - exfalso. pose proof (built_Inv0 hy ey kd L LY ty R BY) as I.
    destruct (N.eq_dec (t_size _ _ ty) 0) as [Hz|Hz].
    + unfold copy_construct in E. rewrite Hz in E. cbn in E. discriminate.
    + destruct (copy_construct_spec hy ey kd L LY alloc past ty R HA I Hz)
        as (c & _ & _ & [(_ & H)|[(_ & t1 & H & _)|(_ & t1 & H & _)]]); congruence.
Qed.

Lemma move_assign_held_spec (x y : held K (table K V)) :
  lawful (h_hash x) (h_eq x) -> okay x -> okay y ->
  exists s, move_assign_held K V kd x y = Ok (y, s) /\ h_hash s = h_hash y /\ h_eq s = h_eq y
    /\ h_map s = new_map K V kd.
Proof.
  destruct x as [hx ex tx], y as [hy ey ty]. cbn [h_hash h_eq h_map]. intros LX BX BY.
  unfold move_assign_held. cbn [h_map h_hash h_eq]. rewrite move_construct_eq. cbn [h_map h_hash h_eq].
  unfold swap_held. cbn [h_map h_hash h_eq]. rewrite swap_content_eq. cbn [h_map h_hash h_eq].
  destruct (MapProps.built_destroy hx ex LX kd HK tx BX) as (d & -> & _). eexists. split; [reflexivity|].
  cbn [h_map h_hash h_eq]. auto.
Qed.

Lemma swap_held_spec (x y : held K (table K V)) : swap_held K V x y = (y, x).
Proof. destruct x as [hx ex tx], y as [hy ey ty]. unfold swap_held. cbn [h_map h_hash h_eq]. now rewrite swap_content_eq. Qed.

End Groups.
