(** Example maps and counterexamples for the indirect layout of the robin hood map.
    Keys and values are numbers, the hash is the identity. *)
From Coq Require Import NArith ZArith List Bool Lia Permutation.
From Coq Require Import ZifyBool ZifyNat ZifyN.
From Verif Require Import Base BaseFacts GroupModel TableModel TableInv MapSpec MapFacts ReachModel
  WitnessModel WitnessFacts RobinModel RobinSpec RobinWitness IndirectModel IndirectSpec IndirectRefine.
Import ListNotations.
Open Scope N_scope.

Notation im := (imap N N).
Notation istep := (i_step N N idhash N.eqb).
Notation irun := (i_run N N idhash N.eqb).
Notation ireach := (i_reach N N idhash N.eqb).

Definition ifineb (q : N) (m : list (N * N)) : bool :=
  fineb q m && (N.of_nat (length m) <=? 1000).

Lemma ifineb_ok q m : 1 <= q -> ifineb q m = true -> i_fine N N idhash q m.
Proof.
  intros Hq H. apply andb_true_iff in H. destruct H as [H1 H2]. split; [now apply fineb_spread|lia].
Qed.

Definition iclientb (q : N) (o : op N N) (t : im) : bool :=
  match o with
  | OClear _ _ _ => i_alloc _ _ t
  | OFind _ _ k => match i_contains N N idhash N.eqb t k with Ok true => true | _ => false end
  | OReserve _ _ n | ORehash _ _ n => (n <=? 2 ^ 50) && ((q =? 1) || (i_size _ _ t <=? n))
  | OShrink _ _ b => (q =? 1) || negb b
  | OMlf _ _ _ => q =? 1
  | _ => true
  end.

Lemma iclientb_ok q o t : iclientb q o t = true -> i_client N N idhash N.eqb q o t.
Proof.
  destruct o; cbn [iclientb i_client]; auto;
    rewrite ?andb_true_iff, ?orb_true_iff, ?N.leb_le, ?N.eqb_eq, ?negb_true_iff; auto.
  intros H. left. destruct (i_contains _ _ _ _ _ _) as [[|]|]; try discriminate. reflexivity.
Qed.

(** Calls that return, with the abstract map. *)
Fixpoint ichase (q : N) (ops : list (op N N)) (t : im) (m : list (N * N)) : option (im * list (N * N)) :=
  match ops with
  | [] => Some (t, m)
  | o :: ops' =>
      let m' := fst (spec_step N N N.eqb o m) in
      if iclientb q o t && ifineb q m' then
        match istep some_alloc o t with
        | Ret t' _ => ichase q ops' t' m'
        | _ => None
        end
      else None
  end.

Lemma ichase_reach q ops : 1 <= q -> forall t m t' m', ireach q t m ->
  ichase q ops t m = Some (t', m') -> ireach q t' m'.
Proof.
  intros Hq. induction ops as [|o ops IH]; intros t m t' m' R H; cbn [ichase] in H; [congruence|].
  destruct (iclientb q o t) eqn:E1; [|discriminate].
  destruct (ifineb q (fst (spec_step N N N.eqb o m))) eqn:E2; [|discriminate]. cbn [andb] in H.
  destruct (istep some_alloc o t) as [t1 r| |] eqn:E3; try discriminate.
  eapply IH; [|exact H]. eapply ireach_step; eauto.
  - exact some_sane.
  - now apply iclientb_ok.
  - now apply ifineb_ok.
Qed.

Definition ichased (q : N) (ops : list (op N N)) : im * list (N * N) :=
  match ichase q ops (inew N N) [] with Some x => x | None => (inew N N, []) end.

Lemma ichased_reach q ops : 1 <= q -> ireach q (fst (ichased q ops)) (snd (ichased q ops)).
Proof.
  intros Hq. unfold ichased. destruct (ichase q ops (inew N N) []) as [[t m]|] eqn:E; [|constructor].
  eapply ichase_reach; eauto. constructor.
Qed.

(** The calls of [rx_crowd_ops], [rx_seq] and [rx_dense_ops]. *)
Definition ix_crowd : im := fst (ichased 2 rx_crowd_ops).
Definition ix_seq : im := fst (ichased 2 (put_ops (seqN 40))).
Definition ix_dense : im := fst (ichased 1 rx_dense_ops).

Lemma ix_example_lemma :
  lawful idhash N.eqb
  /\ ireach 2 ix_crowd (snd (ichased 2 rx_crowd_ops))
  /\ ireach 2 ix_seq (snd (ichased 2 (put_ops (seqN 40))))
  /\ ireach 1 ix_dense (snd (ichased 1 rx_dense_ops))
  /\ (i_size _ _ ix_crowd, i_slot_capacity _ _ ix_crowd, i_alloc _ _ ix_crowd) = (11, 32, true)
  /\ (i_size _ _ ix_seq, i_slot_capacity _ _ ix_seq, i_alloc _ _ ix_seq) = (40, 128, true)
  /\ (i_size _ _ ix_dense, i_slot_capacity _ _ ix_dense, i_alloc _ _ ix_dense) = (40, 64, true).
Proof.
  split; [exact idlaw|]. split; [apply ichased_reach; lia|]. split; [apply ichased_reach; lia|].
  split; [apply ichased_reach; lia|]. vm_compute. auto.
Qed.

Lemma all_sane (l : list (op N N)) : Forall (fun c => sane (fst c)) (map call l).
Proof.
  apply Forall_forall. intros c H. apply in_map_iff in H. destruct H as (o & <- & _). exact some_sane.
Qed.

(** ** Sequences of calls *)

Definition ix_calls : list ((N -> bool) * op N N) :=
  map call (put_ops (keys 11 32 31)
    ++ [OErase N N 31; OContains N N 31; OFind N N 63; OContains N N 95; OAssign N N 95 7; OFind N N 95; OSize N N;
        OShrink N N false; OReserve N N 100; OClear N N false; OSize N N; OClear N N true; OInsert N N 5 6]).

Lemma ix_calls_lemma :
  Forall (fun c => sane (fst c)) ix_calls
  /\ match irun ix_calls (inew N N) with
     | Ok (rs, t) => skipn 11 rs =
         [Some (RNum N N 1); Some (RBool N N false); Some (REntry N N (Some (63, 64))); Some (RBool N N true);
          Some (RIns N N (95, 7) false); Some (REntry N N (Some (95, 7))); Some (RNum N N 10); Some (RUnit N N);
          Some (RUnit N N); Some (RUnit N N); Some (RNum N N 0); Some (RUnit N N); Some (RIns N N (5, 6) true)]
     | Err _ => False
     end.
Proof. split; [apply all_sane|]. vm_compute. reflexivity. Qed.

(** ** Keys that share their home position *)

Lemma ix_erase_lemma :
  exists l k, length l = 12%nat /\ In k l
    /\ match irun (map call (put_ops l ++ [OContains N N k; OErase N N k; OContains N N k; OSize N N])) (inew N N) with
       | Ok (rs, _) => skipn 12 rs = [Some (RBool N N true); Some (RNum N N 0); Some (RBool N N true); Some (RNum N N 12)]
       | Err _ => False
       end.
Proof.
  exists (keys 12 32 31), 383. split; [reflexivity|]. split; [vm_compute; tauto|]. vm_compute. reflexivity.
Qed.

Lemma ix_lost_lemma :
  exists l k k', length l = 129%nat /\ In k l /\ In k' l /\ k <> k'
    /\ match irun (map call (OReserve N N 300 :: put_ops l
                 ++ [OContains N N k; OErase N N k'; OContains N N k])) (inew N N) with
       | Ok (rs, _) => skipn 130 rs = [Some (RBool N N true); Some (RNum N N 1); Some (RBool N N false)]
       | Err _ => False
       end.
Proof.
  exists (keys 129 1024 0), 131072, 0.
  split; [vm_compute; reflexivity|].
  assert (HI : forall i, i < 129 -> In (0 + 1024 * i) (keys 129 1024 0)).
  { intros i Hi. unfold keys. apply (in_map (fun i => 0 + 1024 * i)). apply seqN_In. exact Hi. }
  split; [exact (HI 128 eq_refl)|]. split; [exact (HI 0 eq_refl)|]. split; [discriminate|].
  vm_compute. reflexivity.
Qed.

Lemma ix_overflow_lemma :
  exists l, length l = 18%nat /\ Forall (fun c => sane (fst c)) (map call (put_ops l))
    /\ irun (map call (put_ops l)) (inew N N) = Err EUndef.
Proof.
  exists (keys 18 64 63). split; [reflexivity|]. split; [apply all_sane|]. vm_compute. reflexivity.
Qed.

(** ** Small maps *)

Definition ix_two : im := fst (ichased 2 (put_ops [1; 2])).

Lemma ix_two_reach : ireach 2 ix_two [(2, 3); (1, 2)].
Proof. apply (ichased_reach 2 (put_ops [1; 2])). lia. Qed.

Lemma ix_find_lemma :
  exists t m k, ireach 2 t m /\ has N N N.eqb k m = false
    /\ i_find N N idhash N.eqb t k = Ok (ISlot 8) /\ i_end N N t = ISlot 2
    /\ istep some_alloc (OFind N N k) t = Fail EUndef.
Proof.
  exists ix_two, [(2, 3); (1, 2)], 7. split; [exact ix_two_reach|]. vm_compute. auto.
Qed.

Lemma ix_copy_lemma :
  exists t m, ireach 2 t m /\ length m = 1%nat /\ i_copy N N idhash some_alloc t = Fail EUndef.
Proof.
  exists (fst (ichased 2 (put_ops [1]))), [(1, 2)]. split; [apply (ichased_reach 2 (put_ops [1])); lia|].
  vm_compute. auto.
Qed.

Definition ix_failed : im := match istep no_alloc (OInsert N N 3 4) ix_two with Throw t => t | _ => inew N N end.

Lemma ix_failed_lemma :
  exists t m t', ireach 2 t m
    /\ istep no_alloc (OInsert N N 3 4) t = Throw t'
    /\ (exists t2, istep some_alloc (OClear N N false) t = Ret t2 (RUnit N N))
    /\ istep some_alloc (OClear N N false) t' = Fail EUndef.
Proof.
  exists ix_two, [(2, 3); (1, 2)], ix_failed. split; [exact ix_two_reach|]. split; [vm_compute; reflexivity|].
  split; [eexists; vm_compute; reflexivity|]. vm_compute. reflexivity.
Qed.

Lemma ix_moved_from_lemma :
  exists t m, ireach 2 t m
    /\ istep some_alloc (OInsert N N 3 4) (snd (i_move N N t)) = Fail EUndef.
Proof. exists ix_two, [(2, 3); (1, 2)]. split; [exact ix_two_reach|]. vm_compute. reflexivity. Qed.

Definition ix_order_ops : list (op N N) := put_ops [5; 3; 9; 1; 7].

Lemma ix_order_lemma :
  exists t m t', ireach 2 t m /\ i_traverse N N t = Ok [(5, 6); (3, 4); (9, 10); (1, 2); (7, 8)]
    /\ sane some_alloc /\ i_client N N idhash N.eqb 2 (OErase N N 3) t
    /\ i_fine N N idhash 2 (fst (spec_step N N N.eqb (OErase N N 3) m))
    /\ istep some_alloc (OErase N N 3) t = Ret t' (RNum N N 1)
    /\ i_traverse N N t' = Ok [(5, 6); (7, 8); (9, 10); (1, 2)].
Proof.
  exists (fst (ichased 2 ix_order_ops)), (snd (ichased 2 ix_order_ops)).
  eexists. split; [apply ichased_reach; lia|]. split; [vm_compute; reflexivity|].
  split; [exact some_sane|]. split; [exact I|].
  split; [apply ifineb_ok; [lia|vm_compute; reflexivity]|].
  split; [vm_compute; reflexivity|]. vm_compute. reflexivity.
Qed.

Lemma ix_throw_lemma :
  exists t m t', ireach 2 t m /\ sane no_alloc
    /\ i_client N N idhash N.eqb 2 (OInsert N N 3 4) t
    /\ i_fine N N idhash 2 (fst (spec_step N N N.eqb (OInsert N N 3 4) m))
    /\ istep no_alloc (OInsert N N 3 4) t = Throw t' /\ m <> [].
Proof.
  exists ix_two, [(2, 3); (1, 2)], ix_failed. split; [exact ix_two_reach|]. split; [exact no_sane|].
  split; [exact I|]. split; [apply ifineb_ok; [lia|vm_compute; reflexivity]|].
  split; [vm_compute; reflexivity|discriminate].
Qed.

Lemma ix_swap_lemma :
  ireach 2 (fst (i_swap N N ix_crowd ix_seq)) (snd (ichased 2 (put_ops (seqN 40))))
  /\ match irun (map call [OContains N N 39; OInsert N N 40 41; OErase N N 3; OSize N N; OFind N N 5])
            (fst (i_swap N N ix_crowd ix_seq)) with
     | Ok (rs, _) => rs = [Some (RBool N N true); Some (RIns N N (40, 41) true); Some (RNum N N 1);
                           Some (RNum N N 40); Some (REntry N N (Some (5, 6)))]
     | Err _ => False
     end.
Proof.
  split; [|vm_compute; reflexivity].
  eapply ireach_swap; apply (ichased_reach 2); lia.
Qed.
