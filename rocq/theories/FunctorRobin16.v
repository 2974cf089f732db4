(** Copies, moves and swaps of robin16 maps with their function objects. *)
From Coq Require Import NArith ZArith List Bool Lia Permutation.
From Coq Require Import ZifyBool ZifyNat ZifyN.
From Verif Require Import Base BaseFacts BitsModel BitsFacts GroupModel GroupFacts TableModel TableInv
  MapSpec MapFacts RobinFacts Flat16Model Flat16Spec
  Robin16Model Robin16Spec Robin16Ring Robin16Scan Robin16Facts Robin16Moves Robin16Ops Robin16Refine Robin16Client FunctorModel.
Import ListNotations.
Open Scope N_scope.
Ltac Zify.zify_post_hook ::= Z.div_mod_to_equations.

Section Robin16.

Context {K V : Type} (wide trivial : bool).

Lemma q_copy_other (hash hash0 : K -> N) keq keq0 : tame hash0 keq0 ->
  forall alloc b (t : qmap K V) A, f_sane alloc -> good hash keq trivial b t A ->
  distinct_keys K V keq0 (ents A) -> q_fine K V hash0 (ents A) ->
  resized hash0 keq0 trivial (ents A) (q_copy K V hash0 keq0 wide trivial alloc t).
Proof.
  intros LW0 alloc b t A HA X HD HF. unfold q_copy. fold (q_new K V alloc (q_min_require qDefaultRev (q_size _ _ t))).
  destruct (min_require_ge qDefaultRev (q_size _ _ t)) as [G1 G2];
    [unfold qDefaultRev; lia|unfold qDefaultRev; lia|apply (size_bound hash keq trivial _ _ _ X)|].
  destruct (new_spec (V := V) hash0 keq0 trivial alloc (q_min_require qDefaultRev (q_size _ _ t)) HA)
    as [(t' & ->)|(nt & b' & -> & Y & M & Hb)].
  - etransitivity; [exact G2|]. apply pow2_le. lia.
  - left. cbn [obind]. eauto.
  - right. cbn [obind].
    rewrite (traverse_spec hash wide trivial b (g_b2 _ _ _ _ _ _ X) (b50 _ (g_b44 _ _ _ _ _ _ X)) t A (g_st _ _ _ _ _ _ X)).
    assert (HL : N.of_nat (length (ents A)) <= 2 ^ b') by (rewrite <- (g_size _ _ _ _ _ _ X); lia).
    destruct (insert_unique_all_spec hash0 keq0 LW0 wide trivial alloc (ents A) b' nt _ Y) as (t' & A' & E & X' & M1 & M2 & P);
      try (rewrite empty_ents, app_nil_r).
    + exact HD.
    + exact HL.
    + refine (HF b' _ HL). apply (g_b2 _ _ _ _ _ _ Y).
    + exists t', b', A'. split; auto. split; auto. split.
      * unfold mlf_ok in *. now rewrite M1, M2.
      * rewrite P, empty_ents, app_nil_r. reflexivity.
Qed.

Lemma q_copy_held_agrees (hash : K -> N) keq : lawful hash keq ->
  forall t m alloc hash0 keq0, lawful hash0 keq0 -> q_built K V hash keq wide trivial t m -> f_sane alloc ->
  distinct_keys K V keq0 m -> q_fine K V hash0 m ->
  match q_copy_held K V wide trivial hash0 keq0 alloc (mkHeld hash keq t) with
  | Ret x _ => q_size _ _ (h_map x) = q_size _ _ t
      /\ (exists l, q_traverse K V wide (h_map x) = Ok l /\ Permutation l m)
      /\ forall calls, Forall (fun c => f_sane (fst c)) calls ->
         q_agrees K V (h_hash x) (h_eq x) wide trivial (q_fine K V (h_hash x))
           (q_client K V (h_hash x) (h_eq x)) calls (h_map x) m
  | Throw _ => True
  | Fail _ => False
  end.
Proof.
  intros LW t m alloc hash0 keq0 LW0 B HA HD HF.
  apply (built_inv hash keq LW) in B. destruct B as (M & _ & b & A & X & P).
  unfold q_copy_held. cbn [h_map].
  destruct (q_copy_other hash hash0 keq keq0 LW0 alloc b t A HA X) as [(t2 & ->)|(t2 & b2 & A2 & -> & X2 & M2 & P2)];
    cbn [holding h_map h_hash h_eq]; auto.
  - eapply (distinct_perm hash0 keq0 LW0); [symmetry; exact P|exact HD].
  - eapply fine_perm; [symmetry; exact P|exact HF].
  - split; [|split].
    + rewrite (g_size _ _ _ _ _ _ X2), (g_size _ _ _ _ _ _ X). now rewrite (Permutation_length P2).
    + exists (ents A2). split; [|now rewrite P2].
      apply (traverse_spec hash0 wide trivial b2);
        [apply (g_b2 _ _ _ _ _ _ X2)|apply b50, (g_b44 _ _ _ _ _ _ X2)|apply (g_st _ _ _ _ _ _ X2)].
    + intros calls HS. apply (agrees_spec hash0 keq0 LW0).
      * intros c Hc. rewrite Forall_forall in HS. now apply HS.
      * split; auto. split; auto. exists b2, A2. split; auto. now rewrite P2.
Qed.

(** Moving and swapping. *)
Lemma q_move_held_agrees (x : held K (qmap K V)) m : lawful (h_hash x) (h_eq x) ->
  q_built K V (h_hash x) (h_eq x) wide trivial (h_map x) m ->
  let y := fst (q_move_held K V x) in
  h_hash y = h_hash x /\ h_eq y = h_eq x
  /\ q_built K V (h_hash y) (h_eq y) wide trivial (h_map y) m.
Proof.
  intros LW B. unfold q_move_held, q_move. cbn [fst h_hash h_eq h_map]. auto.
Qed.

Lemma q_swap_held_built (x y : held K (qmap K V)) m n :
  q_built K V (h_hash x) (h_eq x) wide trivial (h_map x) m ->
  q_built K V (h_hash y) (h_eq y) wide trivial (h_map y) n ->
  let (x', y') := q_swap_held K V x y in
  q_built K V (h_hash x') (h_eq x') wide trivial (h_map x') n
  /\ q_built K V (h_hash y') (h_eq y') wide trivial (h_map y') m.
Proof. intros B1 B2. unfold q_swap_held, q_swap. cbn [h_hash h_eq h_map]. auto. Qed.

End Robin16.
