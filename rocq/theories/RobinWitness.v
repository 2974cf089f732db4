(** Example maps and counterexamples for the robin hood map.  Keys and values are
    numbers, the hash is the identity (std::hash<int> of libstdc++). *)
From Coq Require Import NArith ZArith List Bool Lia Permutation.
From Coq Require Import ZifyBool ZifyNat ZifyN.
From Verif Require Import Base BaseFacts GroupModel TableModel TableInv MapSpec MapFacts ReachModel
  WitnessModel WitnessFacts RobinModel RobinSpec RobinFacts RobinOps RobinRefine.
Import ListNotations.
Open Scope N_scope.

Notation rm := (rmap N N).
Notation rstep := (r_step N N idhash N.eqb).
Notation rrun := (r_run N N idhash N.eqb).
Notation rreach := (r_reach N N idhash N.eqb).

(** At most a million slots. *)
Definition some_alloc (n : N) : bool := n <=? 2 ^ 20.
Definition no_alloc (n : N) : bool := false.

Lemma some_sane : sane some_alloc.
Proof. intros n H. unfold some_alloc in H. lia. Qed.

Lemma no_sane : sane no_alloc.
Proof. intros n H. discriminate. Qed.

Definition ins (k : N) : (N -> bool) * op N N := (some_alloc, OInsert N N k (k + 1)).
Definition call (o : op N N) : (N -> bool) * op N N := (some_alloc, o).

(** [n] keys that are [r] modulo [m]. *)
Definition keys (n m r : N) : list N := map (fun i => r + m * i) (seqN n).

(** ** A checker for reachability *)

Fixpoint nlist_eqb (a b : list N) : bool :=
  match a, b with
  | [], [] => true
  | x :: a, y :: b => (x =? y) && nlist_eqb a b
  | _, _ => false
  end.

Lemma nlist_eqb_eq a : forall b, nlist_eqb a b = true -> a = b.
Proof.
  induction a as [|x a IH]; intros [|y b] H; try discriminate; auto. cbn in H.
  apply andb_true_iff in H. destruct H as [H1 H2]. apply N.eqb_eq in H1. subst. f_equal. auto.
Qed.

Definition is_seq (m : list (N * N)) : bool :=
  (N.of_nat (length m) <=? 1000) && nlist_eqb (map fst m) (rev (seqN (N.of_nat (length m)))).

Definition fineb (q : N) (m : list (N * N)) : bool :=
  (q =? 2) && (length m <=? 11)%nat || is_seq m.

Lemma seq_spread q m : 1 <= q -> is_seq m = true -> spread_all N N idhash q m.
Proof.
  intros Hq H b Hb Hf a n Hn. unfold is_seq in H.
  apply andb_true_iff in H. destruct H as [H0 H]. apply nlist_eqb_eq in H.
  assert (HL : N.of_nat (length m) <= 2 ^ b)
    by (pose proof (N.mul_le_mono_r 1 q (N.of_nat (length m)) Hq); lia).
  assert (E : homes_in N N idhash (2 ^ b) a n m
    = N.of_nat (length (filter (fun k => (a <=? k) && (k <? a + n)) (map fst m)))).
  { unfold homes_in. f_equal.
    assert (HB : Forall (fun e => fst e < 2 ^ b /\ fst e < two64) m).
    { apply Forall_forall. intros e He. apply (in_map fst) in He. rewrite H in He.
      apply in_rev in He. apply seqN_In in He. unfold two64. lia. }
    clear -HB. induction m as [|e m IH]; [reflexivity|]. inversion HB as [|? ? H1 H2]; subst. cbn [map filter].
    cbv zeta in *. destruct H1 as [H1 H3].
    unfold idhash at 1 2. rewrite (w64_small (fst e)) by exact H3. rewrite (N.mod_small (fst e)) by exact H1. destruct (_ && _); cbn [length]; auto. }
  rewrite E, H.
  assert (HN : (length (filter (fun k => (a <=? k)%N && (k <? a + n)%N) (rev (seqN (N.of_nat (length m)))))
     <= length (map (fun i => (a + i)%N) (seqN n)))%nat).
  { apply NoDup_incl_length.
    - apply NoDup_filter. apply NoDup_rev. apply seqN_NoDup.
    - intros k Hk. apply filter_In in Hk. destruct Hk as [_ Hk]. apply in_map_iff. exists (k - a).
      split; [lia|]. apply seqN_In. lia. }
  rewrite map_length, seqN_length in HN. lia.
Qed.

Lemma fineb_spread q m : 1 <= q -> fineb q m = true -> spread_all N N idhash q m.
Proof.
  intros Hq H. unfold fineb in H. apply orb_true_iff in H. destruct H as [H|H].
  - apply andb_true_iff in H. destruct H as [H1 H2]. apply N.eqb_eq in H1. subst q.
    apply few_spread. lia.
  - now apply seq_spread.
Qed.

Definition clientb (q : N) (o : op N N) (t : rm) : bool :=
  match o with
  | OClear _ _ _ | OFind _ _ _ => r_alloc _ _ t
  | OReserve _ _ n | ORehash _ _ n => (n <=? 2 ^ 50) && ((q =? 1) || (r_size _ _ t <=? n))
  | OShrink _ _ b => (q =? 1) || negb b
  | OMlf _ _ _ => q =? 1
  | _ => true
  end.

Lemma clientb_ok q o t : clientb q o t = true -> r_client N N q o t.
Proof.
  destruct o; cbn [clientb r_client]; auto; rewrite ?andb_true_iff, ?orb_true_iff, ?N.leb_le, ?N.eqb_eq, ?negb_true_iff; auto.
Qed.

(** Calls that return, with the abstract map. *)
Fixpoint chase (q : N) (ops : list (op N N)) (t : rm) (m : list (N * N)) : option (rm * list (N * N)) :=
  match ops with
  | [] => Some (t, m)
  | o :: ops' =>
      let m' := fst (spec_step N N N.eqb o m) in
      if clientb q o t && fineb q m' then
        match rstep some_alloc o t with
        | Ret t' _ => chase q ops' t' m'
        | _ => None
        end
      else None
  end.

Lemma chase_reach q ops : 1 <= q -> forall t m t' m', rreach q t m ->
  chase q ops t m = Some (t', m') -> rreach q t' m'.
Proof.
  intros Hq. induction ops as [|o ops IH]; intros t m t' m' R H; cbn [chase] in H; [congruence|].
  destruct (clientb q o t) eqn:E1; [|discriminate].
  destruct (fineb q (fst (spec_step N N N.eqb o m))) eqn:E2; [|discriminate]. cbn [andb] in H.
  destruct (rstep some_alloc o t) as [t1 r| |] eqn:E3; try discriminate.
  eapply IH; [|exact H]. eapply reach_step; eauto.
  - exact some_sane.
  - now apply clientb_ok.
  - now apply fineb_spread.
Qed.

Definition chased (q : N) (ops : list (op N N)) : rm * list (N * N) :=
  match chase q ops (rnew N N) [] with Some x => x | None => (rnew N N, []) end.

Lemma chased_reach q ops : 1 <= q -> rreach q (fst (chased q ops)) (snd (chased q ops)).
Proof.
  intros Hq. unfold chased. destruct (chase q ops (rnew N N) []) as [[t m]|] eqn:E; [|constructor].
  eapply chase_reach; eauto. constructor.
Qed.

Definition put_ops (l : list N) : list (op N N) := map (fun k => OInsert N N k (k + 1)) l.

(** Eleven keys with the same home position in every table of up to 32 positions;
    three are erased and put back. *)
Definition rx_crowd_ops : list (op N N) :=
  put_ops (keys 11 32 31) ++ [OErase N N 31; OErase N N 159; OErase N N 351; OContains N N 31; OFind N N 63]
  ++ put_ops [31; 159; 351; 63] ++ [OAssign N N 63 5; OErase N N 4; OSize N N].
Definition rx_crowd : rm := fst (chased 2 rx_crowd_ops).

(** Forty consecutive keys, in a table with 128 positions. *)
Definition rx_seq : rm := fst (chased 2 (put_ops (seqN 40))).

(** Forty consecutive keys, load factor 0.6, shrunk to 64 positions. *)
Definition rx_dense_ops : list (op N N) :=
  put_ops (seqN 40) ++ [OMlf N N 160; OShrink N N true; ORehash N N 0; OContains N N 39].
Definition rx_dense : rm := fst (chased 1 rx_dense_ops).

Lemma rx_example_lemma :
  lawful idhash N.eqb
  /\ rreach 2 rx_crowd (snd (chased 2 rx_crowd_ops))
  /\ rreach 2 rx_seq (snd (chased 2 (put_ops (seqN 40))))
  /\ rreach 1 rx_dense (snd (chased 1 rx_dense_ops))
  /\ (r_size _ _ rx_crowd, r_slot_capacity _ _ rx_crowd, r_alloc _ _ rx_crowd) = (11, 32, true)
  /\ (r_size _ _ rx_seq, r_slot_capacity _ _ rx_seq, r_alloc _ _ rx_seq) = (40, 128, true)
  /\ (r_size _ _ rx_dense, r_slot_capacity _ _ rx_dense, r_alloc _ _ rx_dense) = (40, 64, true).
Proof.
  split; [exact idlaw|]. split; [apply chased_reach; lia|]. split; [apply chased_reach; lia|].
  split; [apply chased_reach; lia|]. vm_compute. auto.
Qed.

(** ** Sequences of calls *)

Definition rx_calls : list ((N -> bool) * op N N) :=
  map call (put_ops (keys 11 32 31)
    ++ [OErase N N 31; OFind N N 31; OFind N N 63; OContains N N 95; OAssign N N 95 7; OFind N N 95; OSize N N;
        OShrink N N false; OReserve N N 100; OClear N N false; OSize N N; OClear N N true; OInsert N N 5 6]).

Lemma rx_calls_lemma :
  Forall (fun c => sane (fst c)) rx_calls
  /\ match rrun rx_calls (rnew N N) with
     | Ok (rs, t) => skipn 11 rs =
         [Some (RNum N N 1); Some (REntry N N None); Some (REntry N N (Some (63, 64))); Some (RBool N N true);
          Some (RIns N N (95, 7) false); Some (REntry N N (Some (95, 7))); Some (RNum N N 10); Some (RUnit N N);
          Some (RUnit N N); Some (RUnit N N); Some (RNum N N 0); Some (RUnit N N); Some (RIns N N (5, 6) true)]
     | Err _ => False
     end.
Proof.
  split.
  - apply Forall_forall. intros c H. apply in_map_iff in H. destruct H as (o & <- & _). exact some_sane.
  - vm_compute. reflexivity.
Qed.

(** Twelve keys with the same home position at the end of the table run over the end. *)
Lemma rx_overflow : rrun (map ins (keys 12 32 31)) (rnew N N) = Err EUndef
  /\ Forall (fun c => sane (fst c)) (map ins (keys 12 32 31)).
Proof.
  split; [vm_compute; reflexivity|]. apply Forall_forall. intros c H. apply in_map_iff in H.
  destruct H as (o & <- & _). exact some_sane.
Qed.

(** A distance of 128 reads as negative: 129 keys with the same home position, with
    ample room. *)
Lemma rx_distance :
  rrun (call (OReserve N N 300) :: map ins (keys 129 1024 0)) (rnew N N) = Err EUndef
  /\ exists rs t, rrun (call (OReserve N N 300) :: map ins (keys 128 1024 0)) (rnew N N) = Ok (rs, t)
       /\ r_slot_capacity _ _ t = 1024.
Proof.
  split; [vm_compute; reflexivity|].
  destruct (rrun (call (OReserve N N 300) :: map ins (keys 128 1024 0)) (rnew N N)) as [[rs t]|e] eqn:E.
  - exists rs, t. split; auto.
    assert (X : match rrun (call (OReserve N N 300) :: map ins (keys 128 1024 0)) (rnew N N) with
      | Ok (_, t) => r_slot_capacity _ _ t | Err _ => 0 end = 1024) by (vm_compute; reflexivity).
    now rewrite E in X.
  - exfalso. assert (X : match rrun (call (OReserve N N 300) :: map ins (keys 128 1024 0)) (rnew N N) with
      | Ok (_, t) => true | Err _ => false end = true) by (vm_compute; reflexivity).
    rewrite E in X. discriminate.
Qed.

(** ** Lookups in a map without storage *)

Lemma rx_find_new : r_find N N idhash N.eqb (rnew N N) 3 = Ok 0 /\ r_end N N (rnew N N) = 4
  /\ rstep some_alloc (OFind N N 3) (rnew N N) = Fail EUndef.
Proof. vm_compute. auto. Qed.

Lemma rx_clear_new : rstep some_alloc (OClear N N false) (rnew N N) = Fail EUndef
  /\ rstep some_alloc (OClear N N true) (rnew N N) = Fail EUndef.
Proof. vm_compute. auto. Qed.

(** ** Moved-from maps, swap and assignment *)

Definition rx_two : rm := fst (chased 2 (put_ops [1; 2])).

Lemma rx_two_reach : rreach 2 rx_two [(2, 3); (1, 2)].
Proof. apply (chased_reach 2 (put_ops [1; 2])). lia. Qed.

Lemma rx_moved_from : rstep some_alloc (OInsert N N 3 4) (snd (r_move N N rx_two)) = Fail EUndef.
Proof. vm_compute. reflexivity. Qed.

Definition rx_three : rm := fst (chased 2 (put_ops [0; 1; 2])).

Lemma rx_three_reach : rreach 2 rx_three [(2, 3); (1, 2); (0, 1)].
Proof. apply (chased_reach 2 (put_ops [0; 1; 2])). lia. Qed.

Lemma rx_swapped :
  rstep some_alloc (OFind N N 7) (fst (r_swap N N rx_two rx_three)) = Fail EUndef
  /\ rstep some_alloc (OInsert N N 8 0) (fst (r_swap N N rx_two rx_three)) = Fail EUndef
  /\ exists t, r_assign N N idhash N.eqb some_alloc rx_two rx_three = Ret t tt
       /\ rstep some_alloc (OFind N N 7) t = Fail EUndef
       /\ rstep some_alloc (OInsert N N 8 0) t = Fail EUndef.
Proof.
  split; [vm_compute; reflexivity|]. split; [vm_compute; reflexivity|].
  eexists. split; [vm_compute; reflexivity|]. vm_compute. auto.
Qed.

(** ** A growth that fails *)

Definition rx_failed : rm := match rstep no_alloc (OInsert N N 3 4) rx_two with Throw t => t | _ => rnew N N end.

Lemma rx_failed_lemma :
  rstep no_alloc (OInsert N N 3 4) rx_two = Throw rx_failed
  /\ rstep some_alloc (OFind N N 7) rx_two = Ret rx_two (REntry N N None)
  /\ r_find N N idhash N.eqb rx_failed 7 = Ok 8 /\ r_end N N rx_failed = 10
  /\ rstep some_alloc (OFind N N 7) rx_failed = Fail EUndef.
Proof. vm_compute. auto. Qed.

(** ** Shrinking *)

Definition rx_ten : rm := fst (chased 2 (put_ops (keys 10 32 31))).

Lemma rx_ten_lemma :
  rreach 2 rx_ten (snd (chased 2 (put_ops (keys 10 32 31))))
  /\ r_size _ _ rx_ten = 10 /\ r_slot_capacity _ _ rx_ten = 32
  /\ rstep some_alloc (OShrink N N true) rx_ten = Fail EUndef
  /\ rstep some_alloc (ORehash N N 0) rx_ten = Fail EUndef.
Proof. split; [apply chased_reach; lia|]. vm_compute. auto. Qed.

(** ** The load factor *)

Lemma rx_mlf_lemma :
  exists t, rstep some_alloc (OMlf N N 77) rx_seq = Ret t (RUnit N N)
    /\ r_mlf _ _ t = 77 /\ r_slot_capacity _ _ t = 128 /\ r_thr _ _ t = 64 /\ r_size _ _ t = 40.
Proof. eexists. split; [vm_compute; reflexivity|]. vm_compute. auto. Qed.

(** ** In the form of PropertiesRobin.v *)

Lemma rx_overflow_lemma :
  exists l, length l = 12%nat /\ Forall (fun c => sane (fst c)) (map ins l)
    /\ r_run N N idhash N.eqb (map ins l) (rnew N N) = Err EUndef.
Proof. exists (keys 12 32 31). split; [reflexivity|]. destruct rx_overflow. auto. Qed.

Lemma rx_distance_lemma :
  exists l, length l = 129%nat
    /\ r_run N N idhash N.eqb (call (OReserve N N 300) :: map ins l) (rnew N N) = Err EUndef
    /\ exists rs t, r_run N N idhash N.eqb (call (OReserve N N 300) :: map ins (firstn 128 l)) (rnew N N)
                    = Ok (rs, t) /\ r_slot_capacity _ _ t = 1024.
Proof.
  exists (keys 129 1024 0). split; [vm_compute; reflexivity|]. destruct rx_distance as [A B]. split; [exact A|].
  replace (firstn 128 (keys 129 1024 0)) with (keys 128 1024 0) by (vm_compute; reflexivity). exact B.
Qed.

Lemma rx_find_new_lemma :
  exists k : N, r_find N N idhash N.eqb (rnew N N) k = Ok 0 /\ r_end N N (rnew N N) = 4.
Proof. exists 3. destruct rx_find_new as (A & B & _). auto. Qed.

Lemma rx_copy_lemma :
  spread_all N N idhash 2 (snd (chased 2 rx_crowd_ops)) /\ sane some_alloc
  /\ exists t', r_copy N N idhash N.eqb some_alloc rx_crowd = Ret t' tt /\ r_size _ _ t' = 11.
Proof.
  split; [apply fineb_spread; [lia|vm_compute; reflexivity]|]. split; [exact some_sane|].
  eexists. split; [vm_compute; reflexivity|]. reflexivity.
Qed.

Lemma rx_moved_from_lemma :
  exists t m, r_reach N N idhash N.eqb 2 t m
    /\ r_step N N idhash N.eqb some_alloc (OInsert N N 3 4) (snd (r_move N N t)) = Fail EUndef.
Proof. exists rx_two, [(2, 3); (1, 2)]. split; [exact rx_two_reach|exact rx_moved_from]. Qed.

Lemma rx_swapped_lemma :
  exists a ma b mb, r_reach N N idhash N.eqb 2 a ma /\ r_reach N N idhash N.eqb 2 b mb
    /\ r_step N N idhash N.eqb some_alloc (OFind N N 7) (fst (r_swap N N a b)) = Fail EUndef
    /\ r_step N N idhash N.eqb some_alloc (OInsert N N 8 0) (fst (r_swap N N a b)) = Fail EUndef
    /\ exists t, r_assign N N idhash N.eqb some_alloc a b = Ret t tt
         /\ r_step N N idhash N.eqb some_alloc (OFind N N 7) t = Fail EUndef
         /\ r_step N N idhash N.eqb some_alloc (OInsert N N 8 0) t = Fail EUndef.
Proof.
  exists rx_two, [(2, 3); (1, 2)], rx_three, [(2, 3); (1, 2); (0, 1)].
  split; [exact rx_two_reach|]. split; [exact rx_three_reach|exact rx_swapped].
Qed.

Lemma rx_failed_growth_lemma :
  exists t m t', r_reach N N idhash N.eqb 2 t m
    /\ r_step N N idhash N.eqb no_alloc (OInsert N N 3 4) t = Throw t'
    /\ r_step N N idhash N.eqb some_alloc (OFind N N 7) t = Ret t (REntry N N None)
    /\ r_step N N idhash N.eqb some_alloc (OFind N N 7) t' = Fail EUndef.
Proof.
  exists rx_two, [(2, 3); (1, 2)], rx_failed. split; [exact rx_two_reach|].
  destruct rx_failed_lemma as (A & B & _ & _ & C). auto.
Qed.

Lemma rx_failed_clear_lemma :
  exists t m t', r_reach N N idhash N.eqb 2 t m
    /\ r_step N N idhash N.eqb no_alloc (OReserve N N 40000) t = Throw t'
    /\ (exists t2, r_step N N idhash N.eqb some_alloc (OClear N N false) t = Ret t2 (RUnit N N))
    /\ r_step N N idhash N.eqb some_alloc (OClear N N false) t' = Fail EUndef.
Proof.
  exists rx_two, [(2, 3); (1, 2)].
  exists (match r_step N N idhash N.eqb no_alloc (OReserve N N 40000) rx_two with Throw t => t | _ => rx_two end).
  split; [exact rx_two_reach|]. split; [vm_compute; reflexivity|].
  split; [eexists; vm_compute; reflexivity|]. vm_compute. reflexivity.
Qed.

Lemma rx_shrink_lemma :
  exists t m, r_reach N N idhash N.eqb 2 t m /\ length m = 10%nat
    /\ r_step N N idhash N.eqb some_alloc (OShrink N N true) t = Fail EUndef
    /\ r_step N N idhash N.eqb some_alloc (ORehash N N 0) t = Fail EUndef.
Proof.
  exists rx_ten, (snd (chased 2 (put_ops (keys 10 32 31)))). destruct rx_ten_lemma as (A & _ & _ & B & C).
  split; [exact A|]. split; [vm_compute; reflexivity|]. auto.
Qed.

Lemma rx_load_lemma :
  exists t m t', r_reach N N idhash N.eqb 2 t m
    /\ r_step N N idhash N.eqb some_alloc (OMlf N N 77) t = Ret t' (RUnit N N)
    /\ r_mlf _ _ t' = 77 /\ r_slot_capacity _ _ t' = 128 /\ r_size _ _ t' = 40 /\ r_thr _ _ t' = 64
    /\ r_slot_capacity _ _ t' * r_mlf _ _ t' < r_size _ _ t' * 256.
Proof.
  exists rx_seq, (snd (chased 2 (put_ops (seqN 40)))). destruct rx_mlf_lemma as (t & A & B & C & D & E).
  exists t. split; [apply chased_reach; lia|]. rewrite B, C, D, E. split; [exact A|]. lia.
Qed.
