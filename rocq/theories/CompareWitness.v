(** The claims about arbitrary key equalities in the form in which they are stated, and
    executions. *)
From Coq Require Import NArith List Bool Lia Permutation.
From Verif Require Import Base BaseFacts BitsModel ProberModel GroupModel GroupFacts TableModel
  TableInv TableOps IterModel IterFacts CopyModel CopyFacts RunModel Refine Progress ReachModel ReachFacts MapProps
  WitnessModel GrowthWitness CompareModel CompareSpec CompareFacts.
Import ListNotations.
Open Scope N_scope.

Section Claims.

Context {K V : Type} (hash : K -> N) (H64 : forall k, hash k < 2 ^ 64).

Lemma run_c_bag kd : group_kind kd -> forall (calls : list (@call_c K V)) past,
  Forall (fun c => sane (fst (fst c))) calls ->
  obeys_c hash kd (client_ok K V kd) calls (new_map K V kd) ->
  match run_c hash kd calls (new_map K V kd) with
  | Ok (outs, t) => exists l, traverse K V kd past t = Ok l /\ bag_run hash calls outs [] l
                     /\ t_size _ _ t = N.of_nat (length l)
  | Err e => e = ELoop
  end.
Proof.
  intros HK calls past HA Ho. destruct (kind_laws kd HK) as [L R].
  pose proof (run_c_refines hash H64 kd L calls (new_map K V kd) HA
                (default_Inv0 hash (fun _ _ => false) kd L) Ho) as H.
  destruct (run_c hash kd calls (new_map K V kd)) as [[outs t]|e]; auto.
  destruct H as [I HB]. exists (elems (t_slots _ _ t)).
  split; [now apply (CopyFacts.traverse_spec hash (fun _ _ => false) kd L)|].
  split; [exact HB|]. apply (iv_size _ _ _ _ _ I).
Qed.

Lemma noshrink_obeys kd calls : forall t : table K V,
  obeys_c hash kd (client_noshrink K V kd) calls t -> obeys_c hash kd (client_ok K V kd) calls t.
Proof.
  induction calls as [|[[alloc cmp] o] calls IH]; intros t Ho; auto.
  cbn [obeys_c] in *. destruct Ho as [H1 H2]. split.
  - destruct o; auto. destruct H1.
  - destruct (step_c _ _ _ _ _ _ _ _); auto.
Qed.

Lemma run_c_returns15 calls : forall t, Inv1 hash (fun _ _ => false) k15 k15_laws t ->
  Forall (fun c : @call_c K V => sane (fst (fst c))) calls ->
  obeys_c hash k15 (client_noshrink K V k15) calls t ->
  exists outs t', run_c hash k15 calls t = Ok (outs, t').
Proof.
  induction calls as [|[[alloc cmp] o] calls IH]; intros t I HA Ho; cbn [run_c]; eauto.
  inversion HA as [|? ? HA1 HA2]; subst. cbn [fst] in HA1.
  cbn [obeys_c] in Ho. destruct Ho as [H1 H2].
  pose proof (step_c_keeps1 hash H64 k15 k15_laws cmp eq_refl eq_refl alloc o t HA1 I H1) as Hk.
  destruct (step_c K V hash k15 cmp alloc o t) as [t1 r|t1|e]; cbn [keeps] in Hk; [| |destruct Hk];
    destruct (IH t1 Hk HA2 H2) as (outs & t' & E); rewrite E; cbn [rbind]; eauto.
Qed.

Lemma group15_is_a_bag : forall (calls : list (@call_c K V)) past,
  Forall (fun c => sane (fst (fst c))) calls ->
  obeys_c hash k15 (client_noshrink K V k15) calls (new_map K V k15) ->
  exists outs t, run_c hash k15 calls (new_map K V k15) = Ok (outs, t)
  /\ exists l, traverse K V k15 past t = Ok l /\ bag_run hash calls outs [] l
       /\ t_size _ _ t = N.of_nat (length l).
Proof.
  intros calls past HA Ho.
  destruct (run_c_returns15 calls (new_map K V k15)) as (outs & t & E); auto.
  { apply empty_Inv1. unfold kDefaultMaxLoadFactor. lia. }
  exists outs, t. split; auto.
  pose proof (run_c_bag k15 (or_introl eq_refl) calls past HA (noshrink_obeys _ _ _ Ho)) as H.
  now rewrite E in H.
Qed.

Lemma thrown_unchanged kd : group_kind kd -> forall t : table K V, reached_c hash kd t ->
  forall alloc cmp o t', sane alloc -> client_ok K V kd o t ->
  step_c K V hash kd cmp alloc o t = Throw t' ->
  (forall m, o <> OMlf _ _ m) -> t' = t.
Proof.
  intros HK t HR alloc cmp o t' HA Ho E Hm. destruct (kind_laws kd HK) as [L R].
  pose proof (step_c_refines hash H64 kd L cmp alloc o t HA (reached_c_Inv0 hash H64 kd L t HR) Ho) as H.
  rewrite E in H. cbn [step_c_ok] in H. destruct H as [H|(m & H & _)]; auto. now destruct (Hm m).
Qed.

Lemma thrown_by_comparison kd : group_kind kd -> forall t : table K V, reached_c hash kd t ->
  forall alloc cmp k o, o = OErase _ _ k \/ o = OFind _ _ k \/ o = OContains _ _ k ->
  forall t', step_c K V hash kd cmp alloc o t = Throw t' ->
  t' = t /\ exists e seen, In e (elems (t_slots _ _ t)) /\ cmp seen k (fst e) = None.
Proof.
  intros HK t HR alloc cmp k o Ho t' E. destruct (kind_laws kd HK) as [L R].
  pose proof (reached_c_Inv0 hash H64 kd L t HR) as I.
  destruct (find_c_spec hash H64 kd L cmp t k I) as (is & seen & a & Ef & _ & _ & He & Ha).
  assert (Hth : step_c K V hash kd cmp alloc o t = Throw t' -> a = Thrown /\ t' = t).
  { destruct Ho as [-> |[-> | ->]]; cbn [step_c]; unfold find_and_erase_c, lookup_c; rewrite Ef;
      destruct a as [[gi p]| |]; cbn [obind]; try discriminate.
    - destruct (erase_slot _ _ _ _ _ _); discriminate.
    - intros [= <-]. auto.
    - destruct (geti _ _) as [[?|]|]; discriminate.
    - intros [= <-]. auto.
    - destruct (geti _ _) as [[?|]|]; discriminate.
    - intros [= <-]. auto. }
  destruct (Hth E) as [-> ->]. split; auto. cbn [ends] in He. destruct He as (i & kv & s & Hs & Hc).
  exists kv, s. split; auto. apply In_elems. eauto.
Qed.

Lemma compared_once kd : group_kind kd -> forall t : table K V, reached_c hash kd t ->
  forall cmp k, exists compared a, find_c K V hash kd cmp t k = Ok (compared, a)
    /\ (exists rest, Permutation (compared ++ rest) (map fst (elems (t_slots _ _ t))))
    /\ N.of_nat (length compared) <= t_size _ _ t
    /\ Forall (fun k' => ctrl_for_hash kd (hash k') = ctrl_for_hash kd (hash k)) compared.
Proof.
  intros HK t HR cmp k. destruct (kind_laws kd HK) as [L R].
  pose proof (reached_c_Inv0 hash H64 kd L t HR) as I.
  destruct (find_c_spec hash H64 kd L cmp t k I) as (is & seen & a & Ef & ND & F & _).
  exists seen, a. split; auto.
  assert (HP : exists rest, Permutation (seen ++ rest) (map fst (elems (t_slots _ _ t)))).
  { apply (part_of is); auto. clear - F. induction F as [|i k' is seen (v & Hv & _) F IH]; constructor; eauto. }
  split; auto. split.
  - destruct HP as [rest HP]. apply Permutation_length in HP. rewrite app_length, map_length in HP.
    rewrite (iv_size _ _ _ _ _ I). lia.
  - clear - F. induction F as [|i k' is seen (v & _ & Hr) F IH]; constructor; auto.
Qed.

End Claims.

(** ** Executions *)

(** Keys like floating-point numbers with 7 for NaN: not equal to itself. *)
Definition nan_cmp : comparison N := fun _ a b => Some ((a =? b) && negb (a =? 7)).

(** An equality that depends on the number of comparisons and throws at the third one. *)
Definition odd_cmp : comparison N := fun seen a b =>
  match length seen with
  | 0%nat => Some false
  | 1%nat => Some (a <? b)
  | _ => None
  end.

(** An equality that is not transitive. *)
Definition near_cmp : comparison N := fun _ a b => Some ((a <=? b + 256) && (b <=? a + 256)).

Definition nan_calls : list (@call_c N N) :=
  map (fun i => (roomy_alloc, nan_cmp, OInsert N N 7 i)) (seqN 40)
  ++ [(roomy_alloc, nan_cmp, OFind N N 7); (roomy_alloc, nan_cmp, OErase N N 7);
      (roomy_alloc, nan_cmp, OSize N N)].

Definition mixed_calls : list (@call_c N N) :=
  map (fun i => (roomy_alloc, near_cmp, OInsert N N (512 * i) i)) (seqN 6)
  ++ [(roomy_alloc, near_cmp, OInsert N N 256 9);       (* near 0 and near 512 *)
      (roomy_alloc, odd_cmp, OFind N N 1024);
      (roomy_alloc, nan_cmp, OAssign N N 7 1); (roomy_alloc, nan_cmp, OAssign N N 7 2);
      (roomy_alloc, odd_cmp, OInsert N N 4096 1);       (* the third comparison throws *)
      (roomy_alloc, near_cmp, OErase N N 1280);
      (roomy_alloc, nan_cmp, OContains N N 512); (roomy_alloc, nan_cmp, OSize N N)].

Definition outs_of (r : res (list (option (obs N N)) * table N N)) : list (option (obs N N)) :=
  match r with Ok (outs, _) => outs | Err _ => [] end.

Definition end_of (r : res (list (option (obs N N)) * table N N)) : table N N :=
  match r with Ok (_, t) => t | Err _ => new_map N N k15 end.

Fixpoint obeysb_c (kd : kind) (calls : list (@call_c N N)) (t : table N N) : bool :=
  match calls with
  | [] => true
  | (alloc, cmp, o) :: rest =>
      match o with
      | OInsert _ _ _ _ | OAssign _ _ _ _ | OErase _ _ _ | OFind _ _ _ | OContains _ _ _ | OSize _ _ =>
          match step_c N N idhash kd cmp alloc o t with
          | Ret t' _ | Throw t' => obeysb_c kd rest t'
          | Fail _ => true
          end
      | _ => false
      end
  end.

Lemma obeysb_c_ok kd calls : forall t, obeysb_c kd calls t = true ->
  obeys_c idhash kd (client_noshrink N N kd) calls t.
Proof.
  induction calls as [|[[alloc cmp] o] calls IH]; intros t H; cbn [obeys_c obeysb_c] in *; auto.
  destruct o; try discriminate; (split; [exact I|]);
    destruct (step_c _ _ _ _ _ _ _ _); auto.
Qed.

Lemma mixed_sane : Forall (fun c => sane (fst (fst c))) mixed_calls.
Proof.
  apply Forall_forall. intros c H. apply in_app_or in H. destruct H as [H|H].
  - apply in_map_iff in H. destruct H as (i & <- & _). exact roomy_sane.
  - cbn [In] in H. repeat (destruct H as [<-|H]; [exact roomy_sane|]). destruct H.
Qed.

Lemma mixed_obeys kd : group_kind kd -> obeys_c idhash kd (client_noshrink N N kd) mixed_calls (new_map N N kd).
Proof. intros [-> | ->]; apply obeysb_c_ok; vm_compute; reflexivity. Qed.

Definition mixed_table (kd : kind) : table N N := end_of (run_c idhash kd mixed_calls (new_map N N kd)).

Lemma mixed_reached kd : group_kind kd -> reached_c idhash kd (mixed_table kd).
Proof.
  intros H. exists mixed_calls, (outs_of (run_c idhash kd mixed_calls (new_map N N kd))).
  split; [exact mixed_sane|]. split; [now apply noshrink_obeys, mixed_obeys|].
  destruct H as [-> | ->]; vm_compute; reflexivity.
Qed.

Lemma nan_sane : Forall (fun c => sane (fst (fst c))) nan_calls.
Proof.
  apply Forall_forall. intros c H. apply in_app_or in H. destruct H as [H|H].
  - apply in_map_iff in H. destruct H as (i & <- & _). exact roomy_sane.
  - cbn [In] in H. repeat (destruct H as [<-|H]; [exact roomy_sane|]). destruct H.
Qed.

Lemma nan_obeys : obeys_c idhash k15 (client_noshrink N N k15) nan_calls (new_map N N k15).
Proof. apply obeysb_c_ok; vm_compute; reflexivity. Qed.
