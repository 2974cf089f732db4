(** The claims about the robin hood map with any key equality, and executions. *)
From Coq Require Import NArith List Bool Lia Permutation.
From Verif Require Import Base BaseFacts GroupModel TableModel TableInv ReachModel WitnessModel RobinModel RobinSpec
  RobinOps RobinRefine RobinWitness CompareModel CompareSpec CompareFacts CompareWitness
  Compare3Model Compare3Spec Compare3Facts.
Import ListNotations.
Open Scope N_scope.

Section Claims.

Context {K V : Type} (hash : K -> N) (H64 : forall k, hash k < 2 ^ 64).

Lemma robin_is_a_bag : forall q (calls : list (@call_c K V)), q = 1 \/ q = 2 ->
  Forall (fun c => sane (fst (fst c))) calls -> r_obeys_c hash q calls (rnew K V) ->
  match r_run_c hash calls (rnew K V) with
  | Ret t outs => exists l, r_traverse K V t = Ok l /\ bag_run hash calls outs [] l
                   /\ r_size _ _ t = N.of_nat (length l)
  | Throw _ => True
  | Fail _ => False
  end.
Proof.
  intros q calls Hq HA Ho.
  pose proof (r_run_c_bag hash H64 q calls Hq (rnew K V) HA (rinv_new hash _ q Hq) Ho) as H.
  destruct (r_run_c hash calls (rnew K V)) as [t outs|t|e]; auto.
  destruct H as [I HB]. exists (content t).
  split; [exact (traverse_spec hash _ q Hq t I)|]. split; [exact HB|]. exact (rinv_size hash _ q t I).
Qed.

Lemma robin_escapes : forall q (t : rmap K V), q = 1 \/ q = 2 -> r_reached_c hash q t ->
  forall alloc cmp o t', sane alloc -> r_client_c hash q o t ->
  r_step_c K V hash cmp alloc o t = Ret t' None ->
  t' = t /\ exists m k e seen, r_traverse K V t = Ok m /\ concerns o k /\ In e m /\ cmp seen k (fst e) = None.
Proof.
  intros q t Hq HR alloc cmp o t' HA (HC & m & Em & Hm) E.
  pose proof (r_reached_inv hash H64 q t Hq HR) as I.
  rewrite (traverse_spec hash _ q Hq t I) in Em. injection Em as <-.
  destruct (step_c_followed hash cmp q Hq H64 alloc o t HA I HC Hm) as [(t1 & E1)|(t1 & x & E1 & _ & HX)];
    [congruence|].
  rewrite E in E1. injection E1 as <- <-. destruct HX as (-> & k & e & seen & X1 & X2 & X3). split; auto.
  exists (content t), k, e, seen. split; [exact (traverse_spec hash _ q Hq t I)|]. auto.
Qed.

Lemma robin_compared_once : forall q (t : rmap K V), q = 1 \/ q = 2 -> r_reached_c hash q t ->
  r_alloc _ _ t = true -> forall cmp k,
  exists compared r m, r_search_c K V hash cmp t k [] = Ok (compared, r)
    /\ r_traverse K V t = Ok m
    /\ (exists rest, Permutation (compared ++ rest) (map fst m))
    /\ N.of_nat (length compared) <= room (r_slot_capacity K V t) + 1
    /\ Forall (fun k' => hash k' mod r_slot_capacity K V t <= hash k mod r_slot_capacity K V t) compared.
Proof.
  intros q t Hq HR HAl cmp k. pose proof (r_reached_inv hash H64 q t Hq HR) as I.
  destruct (search_c_spec hash cmp q Hq H64 t k [] I) as (seen & r & A & _).
  destruct (search_c_once hash cmp q Hq H64 t k seen r I A) as (B1 & B2 & B3 & B4).
  exists seen, r, (content t). split; [exact A|]. split; [exact (traverse_spec hash _ q Hq t I)|]. auto.
Qed.

End Claims.

(** ** Executions *)

Definition rc_run (calls : list (@call_c N N)) : out (rmap N N) (list (option (obs N N))) :=
  r_run_c idhash calls (rnew N N).
Definition rc_end (calls : list (@call_c N N)) : rmap N N :=
  match rc_run calls with Ret t _ => t | _ => rnew N N end.
Definition rc_outs (calls : list (@call_c N N)) : list (option (obs N N)) :=
  match rc_run calls with Ret _ outs => outs | _ => [] end.

Definition rc_clientb (o : op N N) (t : rmap N N) : bool :=
  clientb 2 o t
  && match r_traverse N N t with Ok m => Nat.leb (length (at_most o m)) 11 | Err _ => false end.

Lemma rc_clientb_ok o t : rc_clientb o t = true -> r_client_c idhash 2 o t.
Proof.
  intros H. apply andb_prop in H. destruct H as [H1 H2]. split; [now apply clientb_ok|].
  destruct (r_traverse N N t) as [m|]; [|discriminate]. exists m. split; auto.
  apply few_spread. now apply PeanoNat.Nat.leb_le.
Qed.

Fixpoint rc_obeysb (calls : list (@call_c N N)) (t : rmap N N) : bool :=
  match calls with
  | [] => true
  | (alloc, cmp, o) :: rest =>
      rc_clientb o t
      && match r_step_c N N idhash cmp alloc o t with
         | Ret t' _ => rc_obeysb rest t'
         | _ => true
         end
  end.

Lemma rc_obeysb_ok calls : forall t, rc_obeysb calls t = true -> r_obeys_c idhash 2 calls t.
Proof.
  induction calls as [|[[alloc cmp] o] calls IH]; intros t H; cbn [r_obeys_c rc_obeysb] in *; auto.
  apply andb_prop in H. destruct H as [H1 H2]. split; [now apply rc_clientb_ok|].
  destruct (r_step_c _ _ _ _ _ _ _); auto.
Qed.

(** An equality that throws at the second comparison. *)
Definition second_cmp : comparison N := fun seen _ _ =>
  match seen with [] => Some false | _ => None end.

(** [n] insertions of key 31 with an equality under which it differs from itself. *)
Definition never_cmp : comparison N := fun _ _ _ => Some false.
Definition rc_same (n : N) : list (@call_c N N) :=
  map (fun i => (some_alloc, never_cmp, OInsert N N 31 i)) (seqN n).

Definition rc_calls : list (@call_c N N) :=
  rc_same 11
  ++ [(some_alloc, never_cmp, OFind N N 31); (some_alloc, near_cmp, OErase N N 31);
      (some_alloc, odd_cmp, OErase N N 31); (some_alloc, near_cmp, OAssign N N 63 100);
      (some_alloc, odd_cmp, OInsert N N 31 9); (some_alloc, never_cmp, OSize N N)].

Lemma rc_sane : Forall (fun c => sane (fst (fst c))) rc_calls.
Proof.
  apply Forall_forall. intros c H. apply in_app_or in H. destruct H as [H|H].
  - apply in_map_iff in H. destruct H as (i & <- & _). exact some_sane.
  - cbn [In] in H. repeat (destruct H as [<-|H]; [exact some_sane|]). destruct H.
Qed.

Lemma rc_obeys : r_obeys_c idhash 2 rc_calls (rnew N N).
Proof. apply rc_obeysb_ok. vm_compute. reflexivity. Qed.

Lemma rc_same_sane n : Forall (fun c => sane (fst (fst c))) (rc_same n).
Proof. apply Forall_forall. intros c H. apply in_map_iff in H. destruct H as (i & <- & _). exact some_sane. Qed.

(** Two elements: the next insertion grows the map from four to eight positions. *)
Lemma rc_two_reached : r_reached_c idhash 2 (rc_end (rc_same 2)).
Proof.
  exists (rc_same 2), (rc_outs (rc_same 2)). split; [apply rc_same_sane|].
  split; [apply rc_obeysb_ok; vm_compute; reflexivity|]. vm_compute. reflexivity.
Qed.

Lemma rc_two_client : r_client_c idhash 2 (OInsert N N 31 2) (rc_end (rc_same 2)).
Proof. apply rc_clientb_ok. vm_compute. reflexivity. Qed.

Lemma rc_eleven_reached : r_reached_c idhash 2 (rc_end (rc_same 11)).
Proof.
  exists (rc_same 11), (rc_outs (rc_same 11)). split; [apply rc_same_sane|].
  split; [apply rc_obeysb_ok; vm_compute; reflexivity|]. vm_compute. reflexivity.
Qed.
