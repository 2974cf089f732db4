(** The claims about the flat16 map with any key equality, and executions. *)
From Coq Require Import NArith List Bool Lia Permutation.
From Verif Require Import Base BaseFacts GroupModel TableModel TableInv WitnessModel Crc32Model
  Flat16Model Flat16Spec Flat16Ops Flat16Refine Flat16Calls Flat16Witness CompareModel CompareSpec CompareFacts
  CompareWitness Compare2Model Compare2Spec Compare2Facts Compare2Once.
Import ListNotations.
Open Scope N_scope.

Section Claims.

Context {K V : Type} (hash : K -> N) (mix : N -> N) (H64 : forall k, hash k < 2 ^ 64).

Lemma flat16_is_a_bag : forall trivial alloc n t0 (calls : list (@f_call_c K V)),
  f_sane alloc -> n <= 2 ^ 44 -> f_new K V alloc n = Ret t0 tt ->
  Forall (fun c => f_sane (fst (fst c))) calls -> f_obeys_c hash mix trivial calls t0 ->
  match f_run_c hash mix trivial calls t0 with
  | Ret t outs => exists l, f_traverse K V t = Ok l /\ bag_run hash calls outs [] l
                   /\ f_size _ _ t = N.of_nat (length l)
  | Throw _ => True
  | Fail _ => False
  end.
Proof.
  intros trivial alloc n t0 calls HA Hn E0 HAs Ho.
  destruct (new_spec hash mix alloc n t0 HA Hn E0) as (b & X & EC & _).
  pose proof (f_run_c_bag hash mix H64 trivial calls b t0 HAs X Ho) as H. rewrite EC in H.
  destruct (f_run_c hash mix trivial calls t0) as [t outs|t|e]; auto.
  destruct H as [(b' & X') HB]. exists (elems (f_slots _ _ t)).
  split; [eapply Flat16Calls.traverse_spec; eauto|]. split; [exact HB|]. apply (co_size _ _ _ _ X').
Qed.

(** An insertion that ends with an exception of the key equality. *)
Lemma flat16_insert_escapes : forall trivial (t : fmap K V), f_reached_c hash mix trivial t ->
  forall alloc cmp k v o t', f_sane alloc -> o = OInsert _ _ k v \/ o = OAssign _ _ k v -> f_client K V hash o t ->
  f_step_c K V hash mix cmp trivial alloc o t = Ret t' None ->
  exists l l', f_traverse K V t = Ok l /\ f_traverse K V t' = Ok l' /\ Permutation l l'
    /\ f_size _ _ t' = f_size _ _ t.
Proof.
  intros trivial t HR alloc cmp k v o t' HA Ho HC E.
  destruct (f_reached_core hash mix H64 trivial t HR) as (b & X).
  destruct (step_c_followed hash mix cmp H64 trivial alloc o b t HA X HC) as [(t1 & E1)|(b' & t1 & x & E1 & X' & HX)];
    [congruence|].
  rewrite E in E1. injection E1 as <- <-.
  exists (elems (f_slots _ _ t)), (elems (f_slots _ _ t')).
  split; [eapply Flat16Calls.traverse_spec; eauto|]. split; [eapply Flat16Calls.traverse_spec; eauto|].
  split; [symmetry; exact HX|]. rewrite (co_size _ _ _ _ X), (co_size _ _ _ _ X').
  f_equal. exact (Permutation_length HX).
Qed.

(** An erasure or look-up. *)
Lemma flat16_search_escapes : forall trivial (t : fmap K V), f_reached_c hash mix trivial t ->
  forall alloc cmp k o t', o = OErase _ _ k \/ o = OFind _ _ k \/ o = OContains _ _ k ->
  f_step_c K V hash mix cmp trivial alloc o t = Ret t' None ->
  t' = t /\ exists e seen, In e (elems (f_slots _ _ t)) /\ cmp seen k (fst e) = None.
Proof.
  intros trivial t HR alloc cmp k o t' Ho E.
  destruct (f_reached_core hash mix H64 trivial t HR) as (b & X).
  destruct (search_c_spec hash mix cmp b t k [] X) as (seen' & r & A & B).
  assert (Hth : r = CompareThrows /\ t' = t).
  { destruct Ho as [-> |[-> | ->]]; cbn [f_step_c] in E; unfold f_erase_c, f_lookup_c in E; rewrite A in E;
      destruct r as [[i|last m|]|]; unfold f_obs_c in E; cbn [obind] in E; try discriminate E.
    - destruct (f_erase_slot K V t i); discriminate E.
    - injection E as <-. auto.
    - destruct (f_deref K V t i); discriminate E.
    - injection E as <-. auto.
    - destruct (f_deref K V t i); discriminate E.
    - injection E as <-. auto. }
  destruct Hth as [-> ->]. split; [reflexivity|]. exact B.
Qed.

(** Maps of at least sixteen slots. *)
Lemma flat16_compared_once : forall trivial (t : fmap K V), f_reached_c hash mix trivial t ->
  16 <= f_cap K V t -> forall cmp k,
  exists compared r, f_search_c K V hash mix cmp t k [] = Ok (compared, r)
    /\ (exists rest, Permutation (compared ++ rest) (map fst (elems (f_slots _ _ t))))
    /\ N.of_nat (length compared) <= f_size _ _ t
    /\ Forall (fun k' => f_tag K hash mix k' = f_tag K hash mix k) compared.
Proof.
  intros trivial t HR HC cmp k. destruct (f_reached_core hash mix H64 trivial t HR) as (b & X).
  exact (search_c_once hash mix cmp b t k X HC).
Qed.

End Claims.

(** ** Executions *)

(** The fourth comparison of a call throws. *)
Definition fourth_cmp : comparison N := fun seen _ _ => if Nat.ltb (length seen) 3 then Some false else None.

(** The first three comparisons deny, the later ones are those of the keys. *)
Definition late_cmp : comparison N := fun seen a b => if Nat.ltb (length seen) 3 then Some false else Some (a =? b).

Definition fc_calls : list (@f_call_c N N) :=
  map (fun i => (f_some, nan_cmp, OInsert N N 7 i)) (seqN 12)
  ++ [(f_some, nan_cmp, OFind N N 7); (f_some, near_cmp, OErase N N 7); (f_some, odd_cmp, OErase N N 7);
      (f_some, near_cmp, OAssign N N 7 100); (f_some, odd_cmp, OInsert N N 7 9); (f_some, nan_cmp, OSize N N)].

(** A map with two elements in four slots: the next insertion grows it. *)
Definition fc_two : list (@f_call_c N N) :=
  [(f_some, nan_cmp, OInsert N N 7 0); (f_some, nan_cmp, OInsert N N 7 1)].

Definition fc_new : fmap N N := match f_new N N f_some 4 with Ret t _ => t | _ => f_blank N N end.
Definition fc_run (calls : list (@f_call_c N N)) : out (fmap N N) (list (option (obs N N))) :=
  f_run_c idhash crc false calls fc_new.
Definition fc_end (calls : list (@f_call_c N N)) : fmap N N :=
  match fc_run calls with Ret t _ => t | _ => fc_new end.
Definition fc_outs (calls : list (@f_call_c N N)) : list (option (obs N N)) :=
  match fc_run calls with Ret _ outs => outs | _ => [] end.

Fixpoint f_obeysb (calls : list (@f_call_c N N)) (t : fmap N N) : bool :=
  match calls with
  | [] => true
  | (alloc, cmp, o) :: rest =>
      f_clientb o t
      && match f_step_c N N idhash crc cmp false alloc o t with
         | Ret t' _ => f_obeysb rest t'
         | _ => true
         end
  end.

Lemma f_obeysb_ok calls : forall t, f_obeysb calls t = true -> f_obeys_c idhash crc false calls t.
Proof.
  induction calls as [|[[alloc cmp] o] calls IH]; intros t H; cbn [f_obeys_c f_obeysb] in *; auto.
  apply andb_prop in H. destruct H as [H1 H2]. split; [now apply f_clientb_ok|].
  destruct (f_step_c _ _ _ _ _ _ _ _ _); auto.
Qed.

Lemma fc_sane : Forall (fun c => f_sane (fst (fst c))) fc_calls.
Proof.
  apply Forall_forall. intros c H. apply in_app_or in H. destruct H as [H|H].
  - apply in_map_iff in H. destruct H as (i & <- & _). exact f_some_sane.
  - cbn [In] in H. repeat (destruct H as [<-|H]; [exact f_some_sane|]). destruct H.
Qed.

Lemma fc_obeys : f_obeys_c idhash crc false fc_calls fc_new.
Proof. apply f_obeysb_ok. vm_compute. reflexivity. Qed.

Lemma fc_new_eq : f_new N N f_some 4 = Ret fc_new tt.
Proof. vm_compute. reflexivity. Qed.

Lemma fc_two_reached : f_reached_c idhash crc false (fc_end fc_two).
Proof.
  exists f_some, 4, fc_new, fc_two, (fc_outs fc_two). split; [exact f_some_sane|]. split; [lia|].
  split; [exact fc_new_eq|]. split; [repeat constructor; exact f_some_sane|].
  split; [apply f_obeysb_ok; vm_compute; reflexivity|]. vm_compute. reflexivity.
Qed.

Lemma fc_two_client : f_client N N idhash (OInsert N N 7 2) (fc_end fc_two).
Proof. apply f_clientb_ok. vm_compute. reflexivity. Qed.

(** A key equality that is one. *)
Definition plain_cmp : comparison N := fun _ a b => Some (a =? b).

(** A map with one element in four slots. *)
Definition fc_one : list (@f_call_c N N) := [(f_some, plain_cmp, OInsert N N 7 0)].

Lemma fc_one_reached : f_reached_c idhash crc false (fc_end fc_one).
Proof.
  exists f_some, 4, fc_new, fc_one, (fc_outs fc_one). split; [exact f_some_sane|]. split; [lia|].
  split; [exact fc_new_eq|]. split; [repeat constructor; exact f_some_sane|].
  split; [apply f_obeysb_ok; vm_compute; reflexivity|]. vm_compute. reflexivity.
Qed.

(** Eight elements in sixteen slots. *)
Definition fc_eight : list (@f_call_c N N) :=
  map (fun i => (f_some, nan_cmp, OInsert N N 7 i)) (seqN 8).

Lemma fc_eight_reached : f_reached_c idhash crc false (fc_end fc_eight).
Proof.
  exists f_some, 4, fc_new, fc_eight, (fc_outs fc_eight). split; [exact f_some_sane|]. split; [lia|].
  split; [exact fc_new_eq|]. split; [repeat constructor; exact f_some_sane|].
  split; [apply f_obeysb_ok; vm_compute; reflexivity|]. vm_compute. reflexivity.
Qed.
