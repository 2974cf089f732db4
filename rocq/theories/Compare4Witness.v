(** Robin16 maps with unusual key equalities. *)
From Coq Require Import NArith List Bool Lia Permutation ZifyBool ZifyNat ZifyN.
From Verif Require Import Base BaseFacts TableModel TableInv WitnessModel WitnessFacts Flat16Spec
  Robin16Model Robin16Spec Robin16Client Robin16Witness CompareModel CompareSpec CompareWitness Compare2Witness
  Compare3Spec Compare4Model Compare4Spec.
Import ListNotations.
Open Scope N_scope.

(** The conditions, computed. *)
Definition q_cut_cb (k : N) (t : qm) : bool :=
  forallb (fun i =>
    match geti (q_ctrls _ _ t) i, geti (q_slots _ _ t) i with
    | Some (d, _), Some (Some kv) =>
        negb ((d <? 254) && same_byte idhash (fst kv) k)
        || existsb (fun j => (i <? j)
             && match geti (q_ctrls _ _ t) (j mod q_cap _ _ t) with
                | Some (d', _) => (d' =? 0) || (d' =? 255)
                | None => false
                end) (seqN (q_cap _ _ t + 1))
    | _, _ => true
    end) (seqN (q_cap _ _ t)).

Definition q_client_cb (wide : bool) (o : op N N) (t : qm) : bool :=
  let seen k := (16 <=? q_cap _ _ t) || negb (q_tag N idhash k =? 0) in
  match o with
  | OInsert _ _ k _ | OAssign _ _ k _ | OFind _ _ k | OContains _ _ k => seen k
  | OErase _ _ k => seen k && q_cut_cb k t
  | OClear _ _ b => b || (q_cap _ _ t <? 16)
  | OReserve _ _ n | ORehash _ _ n => n <=? 2 ^ 44
  | _ => true
  end
  && match q_traverse N N wide t with Ok m => N.of_nat (length m) <=? 128 | Err _ => false end.

Lemma q_cut_cb_ok k t : q_cut_cb k t = true -> q_cut N N (same_byte idhash) k t.
Proof.
  unfold q_cut_cb. rewrite forallb_forall. intros H i d x kv Hi Hc Hd Hs Hk.
  specialize (H i (proj2 (seqN_In _ _) Hi)). rewrite Hc, Hs in H.
  assert (E : (d <? 254) && same_byte idhash (fst kv) k = true) by (rewrite Hk; lia).
  rewrite E in H. cbn [negb orb] in H.
  apply existsb_exists in H. destruct H as (j & Hj & H). rewrite seqN_In in Hj.
  apply andb_true_iff in H. destruct H as [H1 H2].
  destruct (geti (q_ctrls _ _ t) (j mod q_cap _ _ t)) as [[d' x']|] eqn:Ej; [|discriminate].
  exists j, d', x'. split; [lia|]. split; [lia|]. split; [exact Ej|]. lia.
Qed.

Lemma q_client_cb_ok wide o t : q_client_cb wide o t = true -> q_client_c idhash wide o t.
Proof.
  unfold q_client_cb. intros H. apply andb_true_iff in H. destruct H as [H1 H2]. split.
  - assert (SE : forall k, (16 <=? q_cap _ _ t) || negb (q_tag N idhash k =? 0) = true -> q_seen N N idhash k t)
      by (unfold q_seen; lia).
    destruct o; cbn [q_client] in *; auto.
    + apply andb_true_iff in H1. destruct H1 as [H1 H3]. split; [auto|]. now apply q_cut_cb_ok.
    + apply orb_true_iff in H1. destruct H1 as [H1|H1]; [auto|]. right. apply N.ltb_lt, H1.
    + apply N.leb_le, H1.
    + apply N.leb_le, H1.
  - destruct (q_traverse N N wide t) as [m|]; [|discriminate]. exists m. split; auto.
    apply few_fine. destruct o; cbn [at_most length]; lia.
Qed.

Fixpoint q_obeysb (wide trivial : bool) (calls : list (@q_call_c N N)) (t : qm) : bool :=
  match calls with
  | [] => true
  | (alloc, cmp, o) :: rest =>
      q_client_cb wide o t
      && match q_step_c N N idhash cmp wide trivial alloc o t with
         | Ret t' _ => q_obeysb wide trivial rest t'
         | _ => true
         end
  end.

Lemma q_obeysb_ok wide trivial calls : forall t, q_obeysb wide trivial calls t = true ->
  q_obeys_c idhash wide trivial calls t.
Proof.
  induction calls as [|[[alloc cmp] o] calls IH]; intros t H; cbn [q_obeys_c q_obeysb] in *; auto.
  apply andb_prop in H. destruct H as [H1 H2]. split; [now apply q_client_cb_ok|].
  destruct (q_step_c _ _ _ _ _ _ _ _ _); auto.
Qed.

Definition qc_run (wide trivial : bool) (calls : list (@q_call_c N N)) : out qm (list (option (obs N N))) :=
  q_run_c idhash wide trivial calls (q_start 4).
Definition qc_end (wide trivial : bool) (calls : list (@q_call_c N N)) : qm :=
  match qc_run wide trivial calls with Ret t _ => t | _ => q_start 4 end.
Definition qc_outs (wide trivial : bool) (calls : list (@q_call_c N N)) : list (option (obs N N)) :=
  match qc_run wide trivial calls with Ret _ outs => outs | _ => [] end.

(** [n] insertions of a key that differs from itself. *)
Definition qc_copies (n : N) : list (@q_call_c N N) :=
  map (fun i => (qal, nan_cmp, OInsert N N 7 i)) (seqN n).

Definition qc_calls : list (@q_call_c N N) :=
  qc_copies 12
  ++ [(qal, nan_cmp, OFind N N 7); (qal, near_cmp, OErase N N 7); (qal, odd_cmp, OErase N N 7);
      (qal, near_cmp, OAssign N N 7 100); (qal, odd_cmp, OInsert N N 7 9); (qal, nan_cmp, OSize N N)].

Lemma qc_copies_sane n : Forall (fun c => f_sane (fst (fst c))) (qc_copies n).
Proof. apply Forall_forall. intros c H. apply in_map_iff in H. destruct H as (i & <- & _). exact qal_sane. Qed.

Lemma qc_sane : Forall (fun c => f_sane (fst (fst c))) qc_calls.
Proof.
  apply Forall_app. split; [apply qc_copies_sane|]. repeat (constructor; [exact qal_sane|]). constructor.
Qed.

Lemma qc_obeys wide trivial : q_obeys_c idhash wide trivial qc_calls (q_start 4).
Proof. apply q_obeysb_ok. destruct wide, trivial; vm_compute; reflexivity. Qed.

Lemma qc_reached wide trivial calls : Forall (fun c => f_sane (fst (fst c))) calls ->
  q_obeysb wide trivial calls (q_start 4) = true ->
  qc_run wide trivial calls = Ret (qc_end wide trivial calls) (qc_outs wide trivial calls) ->
  q_reached_c idhash wide trivial (qc_end wide trivial calls).
Proof.
  intros HS HB E. exists qal, 4, (q_start 4), calls, (qc_outs wide trivial calls).
  split; [exact qal_sane|]. split; [lia|]. split; [apply q_start_new|]. split; [exact HS|].
  split; [now apply q_obeysb_ok|exact E].
Qed.

(** Two elements in four slots: the next insertion grows the map. *)
Lemma qc_two_reached wide trivial : q_reached_c idhash wide trivial (qc_end wide trivial (qc_copies 2)).
Proof. apply qc_reached; [apply qc_copies_sane| |]; destruct wide, trivial; vm_compute; reflexivity. Qed.

Lemma qc_two_client wide trivial o : o = OInsert N N 7 2 \/ o = OFind N N 7 ->
  q_client_c idhash wide o (qc_end wide trivial (qc_copies 2)).
Proof. intros [-> | ->]; apply q_client_cb_ok; destruct wide, trivial; vm_compute; reflexivity. Qed.

Lemma qc_twenty_reached wide trivial : q_reached_c idhash wide trivial (qc_end wide trivial (qc_copies 20)).
Proof. apply qc_reached; [apply qc_copies_sane| |]; destruct wide, trivial; vm_compute; reflexivity. Qed.
