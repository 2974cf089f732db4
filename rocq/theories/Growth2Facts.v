(** Doubling at half of the capacity is amortised. *)
From Coq Require Import NArith List Bool Lia.
From Coq Require Import ZifyBool ZifyNat ZifyN.
From Verif Require Import Base TableModel Growth2Spec.
Import ListNotations.
Open Scope N_scope.

Section Costs.

Context {C T R : Type} (step : C -> T -> out T R) (cap size : T -> N) (ok : C -> T -> Prop) (J : T -> Prop).

(** What one call does to capacity and size. *)
Definition doubles (t t' : T) : Prop :=
  (cap t' = cap t /\ size t <= size t')
  \/ (cap t' = 2 * cap t /\ cap t = 2 * size t /\ size t' = size t + 1 /\ 4 <= cap t)
  \/ (cap t = 0 /\ size t = 0 /\ cap t' = 4 /\ size t' = 1).

Hypothesis J_room : forall t, J t -> 2 * size t <= cap t.
Hypothesis J_step : forall c t, J t -> ok c t ->
  match step c t with Ret t' _ => J t' /\ doubles t t' | Throw _ => True | Fail _ => False end.

Lemma costs_total calls : forall t, J t -> obeys2 step ok calls t ->
  match costs2 step cap size calls t with
  | Ret t' (r, m) => J t' /\ size t <= size t'
      /\ ((r = 0 /\ m = 0 /\ cap t' = cap t)
          \/ (r <> 0 /\ cap t' = 2 ^ r * N.max (cap t) 2 /\ cap t' <= 4 * size t'
              /\ 2 * m + N.max (cap t) 4 = cap t'))
  | Throw _ => True
  | Fail _ => False
  end.
Proof.
  induction calls as [|c calls IH]; intros t HJ HO; cbn [costs2].
  - split; auto. split; [lia|]. auto.
  - destruct HO as [HO1 HO2]. pose proof (J_step c t HJ HO1) as HS.
    destruct (step c t) as [t1 x|t1|e]; cbn [obind]; auto. destruct HS as [HJ1 HD].
    specialize (IH t1 HJ1 HO2). destruct (costs2 step cap size calls t1) as [t' [r m]|t'|e]; cbn [obind]; auto.
    destruct IH as (HJ' & HZ & HR). cbn [fst snd].
    assert (HZ1 : size t <= size t1) by (destruct HD as [[_ H]|[(H & _ & H' & H4)|(H & H' & _ & H4)]]; lia).
    destruct (N.eqb_spec (cap t1) (cap t)) as [E|E].
    + split; auto. split; [lia|]. rewrite E in HR. exact HR.
    + split; auto. split; [lia|]. right. split; [lia|].
      rewrite N.add_1_r, N.pow_succ_r'.
      destruct HD as [[H _]|[(H1 & H2 & H3 & H4)|(H1 & H2 & H3 & H4)]]; [congruence| |].
      * replace (N.max (cap t) 2) with (cap t) by lia. replace (N.max (cap t) 4) with (cap t) by lia.
        destruct HR as [(-> & -> & ->)|(Hr & C1 & C2 & C3)].
        -- change (2 ^ 0) with 1. lia.
        -- replace (N.max (cap t1) 2) with (2 * cap t) in C1 by lia.
           replace (N.max (cap t1) 4) with (2 * cap t) in C3 by lia.
           split; [rewrite C1; ring|]. split; [exact C2|]. lia.
      * rewrite H1, H2. change (N.max 0 2) with 2. change (N.max 0 4) with 4.
        destruct HR as [(-> & -> & ->)|(Hr & C1 & C2 & C3)].
        -- change (2 ^ 0) with 1. lia.
        -- rewrite H3 in C1, C3. change (N.max 4 2) with 4 in C1. change (N.max 4 4) with 4 in C3.
           split; [rewrite C1; ring|]. split; [exact C2|]. lia.
Qed.

Theorem costs_bound calls t : J t -> obeys2 step ok calls t ->
  match costs2 step cap size calls t with
  | Ret t' (r, m) => 2 * size t' <= cap t' /\ m <= 2 * size t'
      /\ ((r = 0 /\ cap t' = cap t) \/ (cap t' = 2 ^ r * N.max (cap t) 2 /\ cap t' <= 4 * size t'))
  | Throw _ => True
  | Fail _ => False
  end.
Proof.
  intros HJ HO. pose proof (costs_total calls t HJ HO) as H.
  destruct (costs2 _ _ _ calls t) as [t' [r m]| |]; auto. destruct H as (H1 & H2 & H3).
  split; [auto|]. destruct H3 as [(-> & -> & H3)|(H3 & H4 & H5 & H6)].
  - split; [lia|]. auto.
  - split; [lia|]. auto.
Qed.

End Costs.
