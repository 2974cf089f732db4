(** Examples and refutations in the form in which PropertiesState.v states them. *)
From Coq Require Import NArith ZArith List Bool Lia Permutation.
From Coq Require Import ZifyBool ZifyNat ZifyN.
From Verif Require Import Base BaseFacts BitsModel GroupModel TableModel TableInv MapSpec RunModel IterModel CopyModel
  ReachModel TraceModel MapProps MapProps2 MapProps3 WitnessModel WitnessFacts WitnessFacts2 ExampleFacts.
Import ListNotations.
Open Scope N_scope.

Lemma ex_state_lemma :
  lawful idhash N.eqb /\ group_kind k15 /\ group_kind k16
  /\ built N N idhash N.eqb k15 ex15 /\ built N N idhash N.eqb k16 ex16
  /\ t_size _ _ ex15 = 35 /\ t_size _ _ ex16 = 35
  /\ capacity N N k15 ex15 = 239 /\ capacity N N k16 ex16 = 256.
Proof.
  split; [exact idlaw|]. split; [exact is15|]. split; [exact is16|]. split; [exact ex15_built|].
  split; [exact ex16_built|]. vm_compute. repeat split; reflexivity.
Qed.

(** *** C10, C11 *)

Definition c10_ops : list (op N N) :=
  [OReserve N N 500; ORehash N N 700; OMlf N N 131; OShrink N N false; OShrink N N true].

Definition returns (kd : kind) (t : table N N) (o : op N N) : bool :=
  match step N N idhash N.eqb kd roomy_alloc o t with Ret _ _ => true | _ => false end.

Definition new_capacity (kd : kind) (t : table N N) (o : op N N) : N :=
  match step N N idhash N.eqb kd roomy_alloc o t with Ret t' _ => capacity N N kd t' | _ => 0 end.

Lemma c10_example_lemma :
  sane roomy_alloc
  /\ Forall (fun o => resizing o = true /\ client_ok N N k15 o ex15 /\ client_ok N N k16 o ex16) c10_ops
  /\ map (new_capacity k15 ex15) c10_ops = [959; 959; 479; 59; 59]
  /\ map (new_capacity k16 ex16) c10_ops = [1024; 1024; 512; 64; 64].
Proof.
  split; [exact roomy_sane|]. split.
  - unfold c10_ops. repeat (constructor; [split; [reflexivity|split; cbn [client_ok]; try exact Logic.I; lia]|]).
    constructor.
  - split; vm_compute; reflexivity.
Qed.

(** *** C12 *)

Definition after_reserve (kd : kind) (n : N) (t : table N N) : table N N :=
  match step N N idhash N.eqb kd roomy_alloc (OReserve N N n) t with Ret t' _ => t' | _ => t end.

Lemma c12_example_lemma :
  (exists t r, step N N idhash N.eqb k16 roomy_alloc (OReserve N N 1000) new16 = Ret t r
     /\ capacity N N k16 t = 2048)
  /\ (exists t r, step N N idhash N.eqb k15 roomy_alloc (OReserve N N 1000) new15 = Ret t r
     /\ capacity N N k15 t = 1919)
  /\ 16 * (935 + 2) <= 15 * 1000.
Proof.
  split; [|split; [|lia]]; eexists; eexists; split; vm_compute; reflexivity.
Qed.

Lemma distinct_keys_K3 n : NoDup (map K3 (from_to 0 n)).
Proof.
  apply FinFun.Injective_map_NoDup.
  - intros a b. unfold K3, key. lia.
  - unfold from_to. apply FinFun.Injective_map_NoDup; [intros a b; lia|apply seqN_NoDup].
Qed.

Lemma c12_lemma15 :
  exists n t keys t' outs,
    step N N idhash N.eqb k15 roomy_alloc (OReserve N N n) new15 = Ret t (RUnit _ _)
    /\ NoDup keys /\ N.of_nat (length keys) = n
    /\ run15 (map ins keys) t = Ok (outs, t') /\ capacity N N k15 t' <> capacity N N k15 t.
Proof.
  exists 112, (after_reserve k15 112 new15), (map K3 (from_to 0 112)),
    (result k15 (map ins (map K3 (from_to 0 112))) (after_reserve k15 112 new15)),
    (outs_of k15 (map ins (map K3 (from_to 0 112))) (after_reserve k15 112 new15)).
  split; [vm_compute; reflexivity|]. split; [apply distinct_keys_K3|]. split; [reflexivity|].
  split; [vm_compute; reflexivity|]. vm_compute. discriminate.
Qed.

Definition mlf131 : table N N := Eval vm_compute in
  match step N N idhash N.eqb k16 roomy_alloc (OMlf N N 131) new16 with Ret t _ => t | _ => new16 end.

Lemma c12_lemma16 :
  exists m n t0 t keys t' outs,
    step N N idhash N.eqb k16 roomy_alloc (OMlf N N m) new16 = Ret t0 (RUnit _ _)
    /\ step N N idhash N.eqb k16 roomy_alloc (OReserve N N n) t0 = Ret t (RUnit _ _)
    /\ NoDup keys /\ N.of_nat (length keys) = n
    /\ run16 (map ins keys) t = Ok (outs, t') /\ capacity N N k16 t' <> capacity N N k16 t.
Proof.
  exists 131, 33, mlf131, (after_reserve k16 33 mlf131), (map K3 (from_to 0 33)),
    (result k16 (map ins (map K3 (from_to 0 33))) (after_reserve k16 33 mlf131)),
    (outs_of k16 (map ins (map K3 (from_to 0 33))) (after_reserve k16 33 mlf131)).
  split; [vm_compute; reflexivity|]. split; [vm_compute; reflexivity|]. split; [apply distinct_keys_K3|].
  split; [reflexivity|]. split; [vm_compute; reflexivity|]. vm_compute. discriminate.
Qed.

(** *** C17 *)

Lemma c17_example_lemma :
  sane no_alloc
  /\ step N N idhash N.eqb k15 no_alloc (OReserve N N 500) ex15 = Throw ex15
  /\ step N N idhash N.eqb k16 no_alloc (ORehash N N 500) ex16 = Throw ex16
  /\ step N N idhash N.eqb k15 no_alloc (OInsert N N 7 7) new15 = Throw new15
  /\ exists t', step N N idhash N.eqb k16 no_alloc (OMlf N N 200) ex16 = Throw t' /\ t_mlf _ _ t' = 200.
Proof.
  split; [exact none_sane|]. repeat (split; [vm_compute; reflexivity|]).
  eexists. split; [vm_compute; reflexivity|reflexivity].
Qed.

(** *** C18 *)

Lemma c18_example_lemma :
  exists t2 i, emplace_impl N N idhash N.eqb k16 roomy_alloc false true ex16 5 0 = Ret t2 (i, true)
  /\ exists u2 j, emplace_impl N N idhash N.eqb k15 roomy_alloc false true ex15 5 0 = Ret u2 (j, true).
Proof. eexists; eexists; split; [|eexists; eexists]; vm_compute; reflexivity. Qed.

Lemma c18_lemma : forall kd, group_kind kd ->
  exists t alloc k v t1, built N N idhash N.eqb kd t /\ sane alloc
    /\ emplace_impl N N idhash N.eqb kd alloc false false t k v = Throw t1
    /\ lookup N N idhash N.eqb kd t1 k = Err EUndef /\ destroy N N kd t1 = Err EUndef.
Proof.
  intros kd [-> | ->].
  - exists ex15, roomy_alloc, 5, 0, (after_throw k15 ex15 5). split; [exact ex15_built|].
    split; [exact roomy_sane|exact throw15].
  - exists ex16, roomy_alloc, 5, 0, (after_throw k16 ex16 5). split; [exact ex16_built|].
    split; [exact roomy_sane|exact throw16].
Qed.

(** *** C19 *)

Lemma c19_example_lemma :
  (exists t', copy_construct N N idhash k15 roomy_alloc 0 ex15 = Ret t' tt
     /\ capacity N N k15 t' = 59 /\ t_size _ _ t' = 35)
  /\ (exists t', copy_construct N N idhash k16 roomy_alloc 0 ex16 = Ret t' tt
     /\ capacity N N k16 t' = 64 /\ t_size _ _ t' = 35).
Proof. split; eexists; (split; [vm_compute; reflexivity|]); split; reflexivity. Qed.

Lemma c19_lemma : forall kd, group_kind kd ->
  exists t t', built N N idhash N.eqb kd t /\ t_size _ _ t = 10
    /\ copy_construct N N idhash kd roomy_alloc 0 t = Ret t' tt
    /\ t_size _ _ t' = 0 /\ traverse N N kd 0 t' = Ok [].
Proof.
  intros kd HK. destruct (small_copy kd HK) as (Hs & t' & H). exists (small kd), t'.
  split; [now apply small_built|]. split; auto.
Qed.

(** *** C20 *)

Lemma move_assign_lemma (K V : Type) (hash : K -> N) (keq : K -> K -> bool) (LW : lawful hash keq) kd
  (HK : group_kind kd) t1 t2 past : built K V hash keq kd t1 -> built K V hash keq kd t2 ->
  exists t1' t2', move_assign K V kd t1 t2 = Ok (t1', t2')
    /\ traverse K V kd past t1' = traverse K V kd past t2 /\ t_size _ _ t1' = t_size _ _ t2
    /\ t2' = new_map K V kd.
Proof.
  intros B1 B2. exists t2, (new_map K V kd).
  rewrite (built_move_assign_spec hash keq LW kd HK t1 t2 B1). auto.
Qed.

Lemma swap_lemma (K V : Type) kd (a b : table K V) past :
  traverse K V kd past (fst (swap_content K V a b)) = traverse K V kd past b
  /\ traverse K V kd past (snd (swap_content K V a b)) = traverse K V kd past a
  /\ t_size _ _ (fst (swap_content K V a b)) = t_size _ _ b
  /\ t_size _ _ (snd (swap_content K V a b)) = t_size _ _ a.
Proof. rewrite swap_spec. auto. Qed.

(** *** C21 *)

Lemma c21_example_lemma :
  exists t', range_insert N N idhash N.eqb k15 roomy_alloc [(500, 1); (501, 2)] ex15 = Ret t' tt
    /\ t_size _ _ t' = 36.
Proof. eexists; (split; [vm_compute; reflexivity|reflexivity]). Qed.

Lemma c21_lemma : forall kd, group_kind kd ->
  exists l t', range_insert N N idhash N.eqb kd roomy_alloc l (new_map N N kd) = Ret t' tt
    /\ NoDup (map fst l) /\ length l = 3%nat /\ exists e, traverse N N kd 0 t' = Ok [e].
Proof.
  intros kd HK. destruct (range_wrong kd HK) as (t' & E & Et).
  exists [(1, 10); (2, 20); (3, 30)], t'. split; [exact E|]. split; [|split; [reflexivity|eauto]].
  repeat constructor; cbn; intuition discriminate.
Qed.

(** *** C22 *)

Lemma c22_example_lemma :
  groups_read N N idhash N.eqb k15 100 ex15 5 = [0]
  /\ groups_read N N idhash N.eqb k15 100 (result k15 (map ins (map K3 (from_to 0 50))) new15) (K3 70)
     = [1; 2; 0; 3]
  /\ group_capacity N N (result k15 (map ins (map K3 (from_to 0 50))) new15) = 4.
Proof. vm_compute. repeat split; reflexivity. Qed.

(** *** C26 *)

Lemma c26_lemma h : 2 <= reduced_hash15 h < 256 /\ 1 <= reduced_hash16 h < 128.
Proof. split; [apply GroupFacts.reduced_hash15_range|apply GroupFacts.reduced_hash16_range]. Qed.

Lemma c26_example_lemma :
  reduced_hash15 (2 ^ 40) = 8 /\ reduced_hash15 (2 ^ 40 + 1) = 9 /\ reduced_hash15 (2 ^ 40 + 200) = 200
  /\ reduced_hash16 (2 ^ 40) = 8 /\ reduced_hash16 (2 ^ 40 + 1) = 1 /\ reduced_hash16 (2 ^ 40 + 200) = 72
  /\ exists i, geti (t_slots _ _ ex15) i = Some (Some (1010, 10)).
Proof. repeat (split; [vm_compute; reflexivity|]). exists 10. vm_compute. reflexivity. Qed.

(** *** C32 *)

Lemma c32_lemma : forall kd, group_kind kd ->
  exists t t', built N N idhash N.eqb kd t /\ t_size _ _ t = 35
    /\ step N N idhash N.eqb kd roomy_alloc (OReserve N N 0) t = Ret t' (RUnit _ _)
    /\ t_size _ _ t' = 0 /\ traverse N N kd 0 t' = Ok [].
Proof.
  intros kd [-> | ->]; [exists ex15|exists ex16]; eexists;
    (split; [first [exact ex15_built|exact ex16_built]|]); (split; [reflexivity|]);
    (split; [vm_compute; reflexivity|]); split; reflexivity.
Qed.

(** *** C33 *)

Lemma c33_lemma : forall kd, group_kind kd ->
  exists t t', built N N idhash N.eqb kd t
    /\ step N N idhash N.eqb kd roomy_alloc (OMlf N N (t_mlf _ _ t)) t = Ret t' (RUnit _ _)
    /\ capacity N N kd t < capacity N N kd t'.
Proof.
  intros kd [-> | ->]; [exists ex15|exists ex16]; eexists;
    (split; [first [exact ex15_built|exact ex16_built]|]);
    (split; [vm_compute; reflexivity|]); vm_compute; reflexivity.
Qed.

(** *** C34 *)

Lemma c34_lemma : forall kd, group_kind kd ->
  exists n t', n < 2 ^ 64
    /\ step N N idhash N.eqb kd roomy_alloc (OReserve N N n) (new_map N N kd) = Ret t' (RUnit _ _)
    /\ capacity N N kd t' < n.
Proof.
  intros kd HK. destruct (reserve_wraps kd HK) as (t' & E & Hc). exists (2 ^ 56), t'.
  split; [reflexivity|]. split; [exact E|]. eapply N.le_lt_trans; [exact Hc|reflexivity].
Qed.

(** *** C35, C40, C41 *)

Lemma c35_example_lemma :
  exists it kv, deref16 N N ex16 it = Ok kv
    /\ exists t' it', erase_iter16 N N k16 0 ex16 it = Ok (t', it') /\ t_size _ _ t' = 34.
Proof. exists 2, (1002, 2). split; [vm_compute; reflexivity|]. eexists; eexists. split; vm_compute; reflexivity. Qed.

Lemma c40_example_lemma :
  exists t', erase_if16 N N k16 0 (fun e => N.even (fst e)) ex16 = Ok t' /\ t_size _ _ t' = 10.
Proof. eexists. split; vm_compute; reflexivity. Qed.

Lemma c40_lemma :
  exists t, built N N idhash N.eqb k15 t
    /\ erase_if15 N N k15 (fun e => N.even (fst e)) t = Err EUndef.
Proof.
  exists ex15. split; [exact ex15_built|]. vm_compute. reflexivity.
Qed.

Lemma c41_example_lemma :
  client_iter15 N N k15 ex15 (begin15 N N k15 ex15) /\ begin15 N N k15 ex15 <> None
  /\ exists it, client_iter16 N N k16 0 ex16 it /\ it <> end16 N N k16 ex16.
Proof.
  split; [constructor|]. split; [vm_compute; discriminate|]. exists 0. split.
  - constructor. vm_compute. reflexivity.
  - vm_compute. discriminate.
Qed.

(** *** C36, C37, C38 *)

Lemma c36_example_lemma :
  (exists t' r, step N N idhash N.eqb k15 roomy_alloc (OInsert N N 500 1) ex15 = Ret t' r
     /\ capacity N N k15 t' = capacity N N k15 ex15)
  /\ exists t' r, step N N idhash N.eqb k16 roomy_alloc (OErase N N 1010) ex16 = Ret t' r /\ t_size _ _ t' = 34.
Proof. split; eexists; eexists; split; vm_compute; reflexivity. Qed.

Lemma c37_example_lemma :
  lookup N N idhash N.eqb k15 ex15 1010 = Ok (Some (1010, 10)) /\ lookup N N idhash N.eqb k16 ex16 1010 = Ok (Some (1010, 10)).
Proof. split; vm_compute; reflexivity. Qed.

Lemma c38_example_lemma :
  exists t, step N N idhash N.eqb k16 roomy_alloc (OClear N N true) ex16 = Ret t (RUnit _ _)
    /\ capacity N N k16 t = 0 /\ built N N idhash N.eqb k16 t.
Proof.
  eexists. split; [vm_compute; reflexivity|]. split; [reflexivity|].
  refine (built_ret N N idhash N.eqb k16 roomy_alloc (OClear N N true) ex16 _ (RUnit _ _) ex16_built roomy_sane _ _);
    [exact Logic.I|vm_compute; reflexivity].
Qed.

(** *** C42 *)

Definition worn : table N N := Eval vm_compute in result k15 worn_calls new15.
Definition unworn : table N N := Eval vm_compute in result k15 [ins 0; (roomy_alloc, OClear N N false)] new15.

Lemma c42_lemma :
  exists t u calls t' u',
    built N N idhash N.eqb k15 t /\ built N N idhash N.eqb k15 u
    /\ t_size _ _ t = 0 /\ t_size _ _ u = 0 /\ capacity N N k15 t = capacity N N k15 u
    /\ (exists t0, step N N idhash N.eqb k15 roomy_alloc (OClear N N false) t0 = Ret t (RUnit _ _))
    /\ (exists u0, step N N idhash N.eqb k15 roomy_alloc (OClear N N false) u0 = Ret u (RUnit _ _))
    /\ (exists outs, run15 calls t = Ok (outs, t')) /\ (exists outs, run15 calls u = Ok (outs, u'))
    /\ capacity N N k15 u' < capacity N N k15 t'.
Proof.
  exists worn, unworn, fill17, (result k15 fill17 worn), (result k15 fill17 unworn).
  split; [exact (run_built idhash N.eqb k15 worn_calls new15 (outs_of k15 worn_calls new15) worn
                  (new_built idhash N.eqb k15) worn_sane worn_obeys ltac:(vm_compute; reflexivity))|].
  split.
  { refine (run_built idhash N.eqb k15 [ins 0; (roomy_alloc, OClear N N false)] new15
             (outs_of k15 [ins 0; (roomy_alloc, OClear N N false)] new15) unworn (new_built idhash N.eqb k15) _ _ _);
      [repeat constructor; exact roomy_sane|apply obeys_client; vm_compute; reflexivity|vm_compute; reflexivity]. }
  split; [reflexivity|]. split; [reflexivity|]. split; [reflexivity|].
  split; [exists (result k15 (churn_calls 13) new15); vm_compute; reflexivity|].
  split; [exists (result k15 [ins 0] new15); vm_compute; reflexivity|].
  split; [exists (outs_of k15 fill17 worn); vm_compute; reflexivity|].
  split; [exists (outs_of k15 fill17 unworn); vm_compute; reflexivity|].
  vm_compute. reflexivity.
Qed.
