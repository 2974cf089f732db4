(** Maps reached by calls that meet the conditions of Robin16Spec.v. *)
From Coq Require Import NArith ZArith List Bool Lia Permutation.
From Coq Require Import ZifyBool ZifyNat ZifyN.
From Verif Require Import Base BaseFacts TableModel TableInv MapSpec MapFacts WitnessModel WitnessFacts
  Flat16Model Flat16Spec Robin16Model Robin16Spec Robin16Client Robin16Witness.
Import ListNotations.
Open Scope N_scope.

Notation qbuilt := (q_built N N idhash N.eqb).

(** The conditions, computed. *)
Definition q_seenb (k : N) (t : qm) : bool := (16 <=? q_cap _ _ t) || negb (q_tag N idhash k =? 0).

Definition q_cutb (k : N) (t : qm) : bool :=
  forallb (fun i =>
    match geti (q_ctrls _ _ t) i, geti (q_slots _ _ t) i with
    | Some (d, _), Some (Some kv) =>
        negb ((d <? 254) && (fst kv =? k))
        || existsb (fun j => (i <? j)
             && match geti (q_ctrls _ _ t) (j mod q_cap _ _ t) with
                | Some (d', _) => (d' =? 0) || (d' =? 255)
                | None => false
                end) (seqN (q_cap _ _ t + 1))
    | _, _ => true
    end) (seqN (q_cap _ _ t)).

Definition q_clientb (o : op N N) (t : qm) : bool :=
  match o with
  | OInsert _ _ k _ | OAssign _ _ k _ | OFind _ _ k | OContains _ _ k => q_seenb k t
  | OErase _ _ k => q_seenb k t && q_cutb k t
  | OClear _ _ b => b || (q_cap _ _ t <? 16)
  | OReserve _ _ n | ORehash _ _ n => n <=? 2 ^ 44
  | _ => true
  end.

Lemma q_seenb_ok k t : q_seenb k t = true -> q_seen N N idhash k t.
Proof. unfold q_seenb, q_seen. lia. Qed.

Lemma q_cutb_ok k t : q_cutb k t = true -> q_cut N N N.eqb k t.
Proof.
  unfold q_cutb. rewrite forallb_forall. intros H i d x kv Hi Hc Hd Hs Hk.
  specialize (H i (proj2 (seqN_In _ _) Hi)). rewrite Hc, Hs in H.
  assert (E : (d <? 254) && (fst kv =? k) = true) by lia. rewrite E in H. cbn [negb orb] in H.
  apply existsb_exists in H. destruct H as (j & Hj & H). rewrite seqN_In in Hj.
  apply andb_true_iff in H. destruct H as [H1 H2].
  destruct (geti (q_ctrls _ _ t) (j mod q_cap _ _ t)) as [[d' x']|] eqn:Ej; [|discriminate].
  exists j, d', x'. split; [lia|]. split; [lia|]. split; [exact Ej|]. lia.
Qed.

Lemma q_clientb_ok o t : q_clientb o t = true -> q_client N N idhash N.eqb o t.
Proof.
  destruct o; cbn [q_clientb q_client]; intros H; auto using q_seenb_ok.
  - apply andb_true_iff in H. destruct H. auto using q_seenb_ok, q_cutb_ok.
  - apply orb_true_iff in H. destruct H as [H|H]; [auto|]. right. apply N.ltb_lt, H.
  - apply N.leb_le, H.
  - apply N.leb_le, H.
Qed.

(** The calls in sequence, with at most 129 entries. *)
Fixpoint q_make (wide trivial : bool) (ops : list (op N N)) (t : qm) (m : list (N * N)) : option (qm * list (N * N)) :=
  match ops with
  | [] => Some (t, m)
  | o :: ops' =>
      let m' := fst (spec_step N N N.eqb o m) in
      if q_clientb o t && (N.of_nat (length m') <=? 129) then
        match q_step N N idhash N.eqb wide trivial qal o t with
        | Ret t' _ => q_make wide trivial ops' t' m'
        | _ => None
        end
      else None
  end.

Lemma q_make_built wide trivial ops : forall t m t' m', qbuilt wide trivial t m ->
  q_make wide trivial ops t m = Some (t', m') -> qbuilt wide trivial t' m'.
Proof.
  induction ops as [|o ops IH]; intros t m t' m' B E; cbn [q_make] in E; [congruence|].
  destruct (q_clientb o t && (N.of_nat (length (fst (spec_step N N N.eqb o m))) <=? 129)) eqn:EC; [|discriminate].
  apply andb_true_iff in EC. destruct EC as [C1 C2].
  destruct (q_step N N idhash N.eqb wide trivial qal o t) as [t1 r| |] eqn:ES; try discriminate.
  refine (IH _ _ _ _ _ E). eapply q_built_step; [exact B|exact qal_sane|now apply q_clientb_ok| |exact ES].
  apply few_fine. lia.
Qed.

Definition q_made (wide trivial : bool) (n : N) (ops : list (op N N)) : qm * list (N * N) :=
  match q_make wide trivial ops (q_start n) [] with Some p => p | None => (q_blank N N, []) end.

Lemma q_made_built wide trivial n ops : n <= 2 ^ 44 ->
  match q_new N N qal n with Ret _ _ => true | _ => false end = true ->
  match q_make wide trivial ops (q_start n) [] with Some _ => true | None => false end = true ->
  qbuilt wide trivial (fst (q_made wide trivial n ops)) (snd (q_made wide trivial n ops)).
Proof.
  intros Hn E1 E2. unfold q_made. destruct (q_make _ _ _ _ _) as [[t m]|] eqn:E; [|discriminate].
  refine (q_make_built _ _ _ _ _ _ _ _ E). unfold q_start.
  destruct (q_new N N qal n) as [t0 []| |] eqn:E0; try discriminate.
  eapply q_built_new; [exact qal_sane|exact Hn|exact E0].
Qed.

Definition q_ins_ (k : N) : op N N := OInsert N N k (k + 1).

(** Growth from four slots, erasures, assignments, a smaller load factor, shrinking. *)
Definition q_busy_ops : list (op N N) :=
  map (fun i => q_ins_ (7 * i + 1)) (seqN 60)
  ++ map (fun i => OErase N N (7 * (3 * i) + 1)) (seqN 12)
  ++ [OMlf N N 20000000; OAssign N N 8 5; OReserve N N 200; OShrink N N true; OErase N N 8; OFind N N 8]
  ++ map (fun i => q_ins_ (64 * i)) (seqN 20).

Definition qx_busy (wide trivial : bool) : qm := fst (q_made wide trivial 4 q_busy_ops).
Definition qx_busy_map (wide trivial : bool) : list (N * N) := snd (q_made wide trivial 4 q_busy_ops).

(** 129 keys for one slot. *)
Definition q_crowd_ops : list (op N N) := map (fun i => q_ins_ (4096 * i)) (seqN 129).

Definition qx_crowd (wide trivial : bool) : qm := fst (q_made wide trivial 16 q_crowd_ops).
Definition qx_crowd_map (wide trivial : bool) : list (N * N) := snd (q_made wide trivial 16 q_crowd_ops).

Lemma qx_busy_built wide trivial : qbuilt wide trivial (qx_busy wide trivial) (qx_busy_map wide trivial).
Proof.
  apply q_made_built; [lia|vm_compute; reflexivity|]. destruct wide, trivial; vm_compute; reflexivity.
Qed.

Lemma qx_crowd_built wide trivial : qbuilt wide trivial (qx_crowd wide trivial) (qx_crowd_map wide trivial).
Proof.
  apply q_made_built; [lia|vm_compute; reflexivity|]. destruct wide, trivial; vm_compute; reflexivity.
Qed.

Lemma qx_example_lemma : forall wide trivial, lawful idhash N.eqb
  /\ qbuilt wide trivial (qx_busy wide trivial) (qx_busy_map wide trivial)
  /\ (q_size _ _ (qx_busy wide trivial), q_cap _ _ (qx_busy wide trivial)) = (67, 256)
  /\ qbuilt wide trivial (qx_crowd wide trivial) (qx_crowd_map wide trivial)
  /\ (q_size _ _ (qx_crowd wide trivial), q_cap _ _ (qx_crowd wide trivial)) = (129, 512)
  /\ geti (q_ctrls _ _ (qx_crowd wide trivial)) 128 = Some (128, q_tag N idhash (4096 * 128)).
Proof.
  intros wide trivial. split; [exact idlaw|]. split; [apply qx_busy_built|].
  split; [destruct wide, trivial; vm_compute; reflexivity|]. split; [apply qx_crowd_built|].
  split; destruct wide, trivial; vm_compute; reflexivity.
Qed.

(** A row that goes over the end: 15 and 31 want slot 15 of 16, 31 is in slot 0. *)
Definition q_edge_ops : list (op N N) := [q_ins_ 15; q_ins_ 31; q_ins_ 4].
Definition qx_edge (wide trivial : bool) : qm := fst (q_made wide trivial 16 q_edge_ops).
Definition qx_edge_map : list (N * N) := [(4, 5); (31, 32); (15, 16)].

Lemma qx_edge_lemma : forall wide trivial,
  qbuilt wide trivial (qx_edge wide trivial) qx_edge_map
  /\ q_size _ _ (qx_edge wide trivial) < q_cap _ _ (qx_edge wide trivial)
  /\ (forall k, q_seen N N idhash k (qx_edge wide trivial))
  /\ has N N N.eqb 31 qx_edge_map = true /\ q_cut N N N.eqb 31 (qx_edge wide trivial)
  /\ has N N N.eqb 15 qx_edge_map = true /\ ~ q_cut N N N.eqb 15 (qx_edge wide trivial).
Proof.
  intros wide trivial. split.
  { replace qx_edge_map with (snd (q_made wide trivial 16 q_edge_ops)) by (destruct wide, trivial; vm_compute; reflexivity).
    apply q_made_built; [lia|vm_compute; reflexivity|]. destruct wide, trivial; vm_compute; reflexivity. }
  split; [destruct wide, trivial; vm_compute; reflexivity|].
  split; [intros k; left; destruct wide, trivial; vm_compute; discriminate|].
  split; [reflexivity|]. split; [apply q_cutb_ok; destruct wide, trivial; vm_compute; reflexivity|].
  split; [reflexivity|]. intros C.
  assert (E : q_cap _ _ (qx_edge wide trivial) = 16) by (destruct wide, trivial; vm_compute; reflexivity).
  destruct (C 15 0 (q_tag N idhash 15) (15, 16)) as (j & d & x & H1 & H2 & H3 & H4).
  - rewrite E. lia.
  - destruct wide, trivial; vm_compute; reflexivity.
  - lia.
  - destruct wide, trivial; vm_compute; reflexivity.
  - reflexivity.
  - rewrite E in *. assert (j = 16) by lia. subst j. change (16 mod 16) with 0 in H3.
    assert (E3 : geti (q_ctrls _ _ (qx_edge wide trivial)) 0 = Some (1, q_tag N idhash 31))
      by (destruct wide, trivial; vm_compute; reflexivity).
    rewrite E3 in H3. injection H3 as <- _. lia.
Qed.

(** Without erasing: growth from 16 slots with keys of any hash. *)
Definition q_adding : list ((bool -> N -> bool) * op N N) :=
  map qput [5; 13; 21; 2301; 0; 2856] ++ map qask [OContains N N 2301; OAssign N N 0 9; OFind N N 0; OSize N N].

Lemma qx_adding_lemma : forall wide trivial,
  q_new N N qal 9 = Ret (q_start 9) tt /\ Forall (fun c => f_sane (fst c) /\ q_adds N N (snd c)) q_adding
  /\ q_run N N idhash N.eqb wide trivial q_adding (q_start 9)
     = Ok (map qnew_ [5; 13; 21; 2301; 0; 2856]
           ++ [qsays true; Some (RIns N N (0, 9) false); Some (REntry N N (Some (0, 9))); Some (RNum N N 6)],
           match q_run N N idhash N.eqb wide trivial q_adding (q_start 9) with Ok (_, t) => t | _ => q_start 9 end).
Proof.
  intros wide trivial. split; [vm_compute; reflexivity|]. split.
  - unfold q_adding. repeat constructor; exact qal_sane.
  - destruct wide, trivial; vm_compute; reflexivity.
Qed.

(** The search for an absent key in the crowd needs all eight groups. *)
Lemma qx_eight_lemma : forall wide trivial,
  q_groups N N N.eqb wide 7 (qx_crowd wide trivial) (Some (4096 * 129)) (q_tag N idhash (4096 * 129)) 0 2 2 = Err ELoop
  /\ q_groups N N N.eqb wide 8 (qx_crowd wide trivial) (Some (4096 * 129)) (q_tag N idhash (4096 * 129)) 0 2 2
     = Ok (QStop 129 129)
  /\ q_search N N idhash N.eqb wide 2 (qx_crowd wide trivial) (Some (4096 * 129)) (4096 * 129) = Ok (QStop 129 129).
Proof. intros wide trivial; split; [|split]; destruct wide, trivial; vm_compute; reflexivity. Qed.

(** Copying and walking over the first map. *)
Lemma qx_copy_lemma : forall wide trivial, exists t',
  q_copy N N idhash N.eqb wide trivial qal (qx_busy wide trivial) = Ret t' tt
  /\ q_size _ _ t' = 67 /\ q_cap _ _ t' = 256
  /\ (exists l, q_traverse N N wide (qx_busy wide trivial) = Ok l /\ length l = 67%nat)
  /\ q_destroy N N trivial (qx_busy wide trivial) = Ok tt.
Proof.
  intros wide trivial.
  exists (match q_copy N N idhash N.eqb wide trivial qal (qx_busy wide trivial) with Ret t' _ => t' | _ => q_start 4 end).
  split; [destruct wide, trivial; vm_compute; reflexivity|].
  split; [destruct wide, trivial; vm_compute; reflexivity|].
  split; [destruct wide, trivial; vm_compute; reflexivity|].
  split; [|destruct wide, trivial; vm_compute; reflexivity].
  exists (match q_traverse N N wide (qx_busy wide trivial) with Ok l => l | _ => [] end).
  split; destruct wide, trivial; vm_compute; reflexivity.
Qed.
