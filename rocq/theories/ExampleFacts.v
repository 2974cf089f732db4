(** Two maps with some history, for the examples beside the theorems. *)
From Coq Require Import NArith ZArith List Bool Lia.
From Coq Require Import ZifyBool ZifyNat ZifyN.
From Verif Require Import Base BaseFacts BitsModel GroupModel TableModel TableInv MapSpec RunModel IterModel
  CopyModel ReachModel ReachFacts MapProps MapProps2 WitnessModel WitnessFacts.
Import ListNotations.
Open Scope N_scope.

(** Forty insertions, half of them into one group; an allocation failure; five
    erasures; an assignment; a rehash. *)
Definition ex_calls : list (call N N) :=
  map ins (map K3 (from_to 0 20)) ++ map ins (from_to 1000 20)
  ++ [(no_alloc, ORehash N N 1000)]
  ++ map era (map K3 (from_to 3 5))
  ++ [(roomy_alloc, OAssign N N (K3 1) 7); (roomy_alloc, ORehash N N 200); (roomy_alloc, OFind N N (K3 1))].

Definition result (kd : kind) (calls : list (call N N)) (t : table N N) : table N N :=
  match run N N idhash N.eqb kd calls t with Ok (_, t') => t' | Err _ => t end.

Definition ex15 : table N N := Eval vm_compute in result k15 ex_calls new15.
Definition ex16 : table N N := Eval vm_compute in result k16 ex_calls new16.

Lemma run_built {K V} (hash : K -> N) keq kd calls : forall t outs t',
  built K V hash keq kd t ->
  Forall (fun c => sane (fst c)) calls ->
  obeys K V hash keq kd (client_ok K V kd) calls t ->
  run K V hash keq kd calls t = Ok (outs, t') -> built K V hash keq kd t'.
Proof.
  induction calls as [|[alloc o] calls IH]; intros t outs t' B HS Ho E; cbn [run obeys] in *.
  - injection E as _ <-. exact B.
  - inversion HS as [|x y HA HS' E1]; subst. cbn [fst] in HA. destruct Ho as [Hok Ho].
    destruct (step K V hash keq kd alloc o t) as [t1 r|t1|e] eqn:Es; [| |discriminate].
    + destruct (run K V hash keq kd calls t1) as [[rs t2]|] eqn:Er; [|discriminate].
      cbn [rbind] in E. injection E as _ <-. refine (IH t1 rs t2 _ HS' Ho Er). exact (built_ret _ _ _ _ _ _ _ _ _ _ B HA Hok Es).
    + destruct (run K V hash keq kd calls t1) as [[rs t2]|] eqn:Er; [|discriminate].
      cbn [rbind] in E. injection E as _ <-. refine (IH t1 rs t2 _ HS' Ho Er). exact (built_throw _ _ _ _ _ _ _ _ _ B HA Hok Es).
Qed.

Lemma new_built {K V} (hash : K -> N) keq kd : built K V hash keq kd (new_map K V kd).
Proof. apply (built_new K V hash keq kd no_alloc 0); [exact none_sane|reflexivity]. Qed.

Lemma run_built_new kd calls outs t :
  forallb (fun c => match snd c with OClear _ _ _ => false | OReserve _ _ n => negb (n =? 0)
                    | ORehash _ _ n => n <=? 2 ^ 63 | _ => true end) calls = true ->
  Forall (fun c => sane (fst c)) calls ->
  run N N idhash N.eqb kd calls (new_map N N kd) = Ok (outs, t) -> built N N idhash N.eqb kd t.
Proof.
  intros HB HS E. eapply run_built; eauto; [apply new_built|]. clear E HS.
  generalize (new_map N N kd). induction calls as [|[alloc o] calls IH]; intros t0; cbn [obeys]; auto.
  cbn [forallb snd] in HB. apply andb_prop in HB. destruct HB as [H1 H2]. split.
  - destruct o; cbn [client_ok]; auto; try discriminate; lia.
  - destruct (step N N idhash N.eqb kd alloc o t0); auto.
Qed.

Lemma ex_sane : Forall (fun c => sane (fst c)) ex_calls.
Proof.
  unfold ex_calls. repeat (apply Forall_app; split; try apply sane_ins; try apply sane_era).
  - apply Forall_cons; [exact none_sane|apply Forall_nil].
  - sane_calls.
Qed.

Definition outs_of (kd : kind) (calls : list (call N N)) (t : table N N) : list (option (obs N N)) :=
  match run N N idhash N.eqb kd calls t with Ok (o, _) => o | Err _ => [] end.
Definition ex15_outs := Eval vm_compute in outs_of k15 ex_calls new15.
Definition ex16_outs := Eval vm_compute in outs_of k16 ex_calls new16.

Lemma ex15_run : run N N idhash N.eqb k15 ex_calls (new_map N N k15) = Ok (ex15_outs, ex15).
Proof. vm_compute. reflexivity. Qed.
Lemma ex16_run : run N N idhash N.eqb k16 ex_calls (new_map N N k16) = Ok (ex16_outs, ex16).
Proof. vm_compute. reflexivity. Qed.

Lemma ex15_built : built N N idhash N.eqb k15 ex15.
Proof. exact (run_built_new k15 ex_calls ex15_outs ex15 eq_refl ex_sane ex15_run). Qed.
Lemma ex16_built : built N N idhash N.eqb k16 ex16.
Proof. exact (run_built_new k16 ex_calls ex16_outs ex16 eq_refl ex_sane ex16_run). Qed.

Lemma is15 : group_kind k15. Proof. now left. Qed.
Lemma is16 : group_kind k16. Proof. now right. Qed.

Lemma obeys_client kd calls t : obeysb kd (client_okb kd) calls t = true ->
  obeys N N idhash N.eqb kd (client_ok N N kd) calls t.
Proof. apply obeysb_ok, client_okb_ok. Qed.
Lemma obeys_noshrink kd calls t : obeysb kd (noshrinkb kd) calls t = true ->
  obeys N N idhash N.eqb kd (client_noshrink N N kd) calls t.
Proof. apply obeysb_ok, noshrinkb_ok. Qed.
Lemma obeys_erase_free kd calls t : obeysb kd (erase_freeb kd) calls t = true ->
  obeys N N idhash N.eqb kd (erase_free N N kd) calls t.
Proof. apply obeysb_ok, erase_freeb_ok. Qed.

Lemma ex15_obeys : obeys N N idhash N.eqb k15 (client_noshrink N N k15) ex_calls new15.
Proof. apply obeys_noshrink. vm_compute. reflexivity. Qed.
Lemma ex16_obeys : obeys N N idhash N.eqb k16 (client_ok N N k16) ex_calls new16.
Proof. apply obeys_client. vm_compute. reflexivity. Qed.
