(** Example maps with function objects. *)
From Coq Require Import NArith ZArith List Bool Lia Permutation.
From Coq Require Import ZifyBool ZifyNat ZifyN.
From Verif Require Import Base BaseFacts GroupModel TableModel TableInv MapSpec MapFacts RunModel IterModel CopyModel
  ReachModel WitnessModel WitnessFacts ExampleFacts Crc32Model RobinModel RobinSpec RobinRefine RobinWitness
  Flat16Model Flat16Spec Flat16Runs Flat16Witness Robin16Model Robin16Spec Robin16Refine Robin16Client
  Robin16Witness Robin16Example FunctorModel.
Import ListNotations.
Open Scope N_scope.
Ltac Zify.zify_post_hook ::= Z.div_mod_to_equations.

(** The last digit of a key is its hash; keys with the same last digit are equal. *)
Definition digit (k : N) : N := k mod 10.
Definition same_digit (a b : N) : bool := a mod 10 =? b mod 10.

Lemma digit_law : lawful digit same_digit.
Proof.
  unfold digit, same_digit. split; intros; try lia.
  pose proof (N.mod_lt k 10 ltac:(lia)). unfold two64. lia.
Qed.

(** A hash function with a seed. *)
Definition seeded (s k : N) : N := w64 (N.lxor (w64 k) s).

Lemma seeded_law s : lawful (seeded s) N.eqb.
Proof.
  split; intros; try lia.
  - unfold seeded, w64. apply N.mod_lt. discriminate.
  - apply N.eqb_eq in H. now subst.
Qed.

(** ** flat16 *)

Notation crc := simple_int_hash_crc32.

Definition fxf_one : fm :=
  match fnew f_some 16 with
  | Ret t _ => match f_run N N digit same_digit crc true [f_add 3] t with Ok (_, t1) => t1 | Err _ => t end
  | _ => f_blank N N
  end.
Definition fxf_two : fm :=
  match fnew f_some 16 with
  | Ret t _ => match f_run N N idhash N.eqb crc true [f_add 3; f_add 13] t with Ok (_, t1) => t1 | Err _ => t end
  | _ => f_blank N N
  end.
Definition fxf_of (r : out (held N fm) unit) : held N fm :=
  match r with Ret x _ => x | Throw x => x | Fail _ => mkHeld idhash N.eqb (f_blank N N) end.

Lemma fxf_lost_lemma : forall trivial, exists hash keq hash0 keq0 t t1 x,
  lawful hash keq /\ lawful hash0 keq0 /\ f_new N N f_some 16 = Ret t tt
  /\ f_run N N hash keq crc trivial [f_add 3] t = Ok ([Some (RIns N N (3, 4) true)], t1)
  /\ f_copy_held N N crc hash0 keq0 f_some (mkHeld hash keq t1) = Ret x tt
  /\ f_run N N hash keq crc trivial [f_do (OContains N N 13)] t1 = Ok ([Some (RBool N N true)], t1)
  /\ f_run N N (h_hash x) (h_eq x) crc trivial [f_do (OContains N N 13)] (h_map x)
     = Ok ([Some (RBool N N false)], h_map x).
Proof.
  intros trivial. exists digit, same_digit, idhash, N.eqb.
  eexists _, fxf_one, (fxf_of (f_copy_held N N crc idhash N.eqb f_some (mkHeld digit same_digit fxf_one))).
  split; [exact digit_law|]. split; [exact idlaw|]. split; [vm_compute; reflexivity|].
  split; [destruct trivial; vm_compute; reflexivity|]. split; [vm_compute; reflexivity|].
  split; destruct trivial; vm_compute; reflexivity.
Qed.

Lemma fxf_twice_lemma : forall trivial, exists hash keq hash0 keq0 t t1 x t2,
  lawful hash keq /\ lawful hash0 keq0 /\ f_new N N f_some 16 = Ret t tt
  /\ f_run N N hash keq crc trivial [f_add 3; f_add 13] t
     = Ok ([Some (RIns N N (3, 4) true); Some (RIns N N (13, 14) true)], t1)
  /\ f_copy_held N N crc hash0 keq0 f_some (mkHeld hash keq t1) = Ret x tt
  /\ keq0 3 13 = true
  /\ f_run N N (h_hash x) (h_eq x) crc trivial
       [f_do (OSize N N); f_do (OErase N N 3); f_do (OContains N N 3)] (h_map x)
     = Ok ([Some (RNum N N 2); Some (RNum N N 1); Some (RBool N N true)], t2).
Proof.
  intros trivial. exists idhash, N.eqb, digit, same_digit.
  eexists _, fxf_two, (fxf_of (f_copy_held N N crc digit same_digit f_some (mkHeld idhash N.eqb fxf_two))), _.
  split; [exact idlaw|]. split; [exact digit_law|]. split; [vm_compute; reflexivity|].
  split; [destruct trivial; vm_compute; reflexivity|]. split; [vm_compute; reflexivity|].
  split; [reflexivity|]. destruct trivial; vm_compute; reflexivity.
Qed.

Lemma fxf_example_lemma :
  lawful idhash N.eqb /\ lawful (seeded 12345) N.eqb /\ f_built N N idhash N.eqb crc fx_busy fx_busy_map
  /\ f_sane f_some /\ distinct_keys N N N.eqb fx_busy_map
  /\ exists x, f_copy_held N N crc (seeded 12345) N.eqb f_some (mkHeld idhash N.eqb fx_busy) = Ret x tt
     /\ f_size _ _ (h_map x) = 40
     /\ f_ctrls _ _ (h_map x) <> f_ctrls _ _ fx_busy.
Proof.
  split; [exact idlaw|]. split; [apply seeded_law|].
  assert (B : f_built N N idhash N.eqb crc fx_busy fx_busy_map) by apply fx_example_lemma.
  split; [exact B|]. split; [exact f_some_sane|].
  split; [apply (Flat16Runs.built_inv idhash N.eqb crc idlaw fx_busy fx_busy_map B)|].
  exists (fxf_of (f_copy_held N N crc (seeded 12345) N.eqb f_some (mkHeld idhash N.eqb fx_busy))).
  split; [vm_compute; reflexivity|]. split; [vm_compute; reflexivity|]. vm_compute. discriminate.
Qed.

(** ** robin16 *)

Definition qxf_one (wide trivial : bool) : qm :=
  match q_run N N digit same_digit wide trivial [qput 3] (q_start 16) with Ok (_, t1) => t1 | Err _ => q_blank N N end.
Definition qxf_two (wide trivial : bool) : qm :=
  match q_run N N idhash N.eqb wide trivial [qput 1; qput 11] (q_start 16) with Ok (_, t1) => t1 | Err _ => q_blank N N end.
Definition qxf_of (r : out (held N qm) unit) : held N qm :=
  match r with Ret x _ => x | Throw x => x | Fail _ => mkHeld idhash N.eqb (q_blank N N) end.

Lemma qxf_lost_lemma : forall wide trivial, exists hash keq hash0 keq0 t t1 x,
  lawful hash keq /\ lawful hash0 keq0 /\ q_new N N qal 16 = Ret t tt
  /\ q_run N N hash keq wide trivial [qput 3] t = Ok ([qnew_ 3], t1)
  /\ q_copy_held N N wide trivial hash0 keq0 qal (mkHeld hash keq t1) = Ret x tt
  /\ q_run N N hash keq wide trivial [qask (OContains N N 13)] t1 = Ok ([qsays true], t1)
  /\ q_run N N (h_hash x) (h_eq x) wide trivial [qask (OContains N N 13)] (h_map x) = Ok ([qsays false], h_map x).
Proof.
  intros wide trivial. exists digit, same_digit, idhash, N.eqb, (q_start 16), (qxf_one wide trivial),
    (qxf_of (q_copy_held N N wide trivial idhash N.eqb qal (mkHeld digit same_digit (qxf_one wide trivial)))).
  split; [exact digit_law|]. split; [exact idlaw|]. split; [apply q_start_new|].
  split; [destruct wide, trivial; vm_compute; reflexivity|]. split; [destruct wide, trivial; vm_compute; reflexivity|].
  split; destruct wide, trivial; vm_compute; reflexivity.
Qed.

Lemma qxf_twice_lemma : forall wide trivial, exists hash keq hash0 keq0 t t1 x t2,
  lawful hash keq /\ lawful hash0 keq0 /\ q_new N N qal 16 = Ret t tt
  /\ q_run N N hash keq wide trivial [qput 1; qput 11] t = Ok ([qnew_ 1; qnew_ 11], t1)
  /\ q_copy_held N N wide trivial hash0 keq0 qal (mkHeld hash keq t1) = Ret x tt
  /\ keq0 1 11 = true
  /\ q_run N N (h_hash x) (h_eq x) wide trivial
       [qask (OSize N N); qask (OErase N N 1); qask (OContains N N 1)] (h_map x)
     = Ok ([Some (RNum N N 2); Some (RNum N N 1); qsays true], t2).
Proof.
  intros wide trivial.
  set (x := qxf_of (q_copy_held N N wide trivial digit same_digit qal (mkHeld idhash N.eqb (qxf_two wide trivial)))).
  exists idhash, N.eqb, digit, same_digit, (q_start 16), (qxf_two wide trivial), x,
    match q_run N N (h_hash x) (h_eq x) wide trivial
       [qask (OSize N N); qask (OErase N N 1); qask (OContains N N 1)] (h_map x) with Ok (_, t) => t | Err _ => q_blank N N end.
  split; [exact idlaw|]. split; [exact digit_law|]. split; [apply q_start_new|].
  split; [destruct wide, trivial; vm_compute; reflexivity|]. split; [destruct wide, trivial; vm_compute; reflexivity|].
  split; [reflexivity|]. destruct wide, trivial; vm_compute; reflexivity.
Qed.

Fixpoint freshb (m : list (N * N)) : bool :=
  match m with [] => true | e :: m' => negb (has N N N.eqb (fst e) m') && freshb m' end.

Lemma freshb_distinct m : freshb m = true -> distinct_keys N N N.eqb m.
Proof.
  induction m as [|e m IH]; cbn [freshb distinct_keys]; auto. rewrite andb_true_iff, negb_true_iff. tauto.
Qed.

Lemma qxf_example_lemma : forall wide trivial,
  lawful idhash N.eqb /\ lawful (seeded 12345) N.eqb
  /\ q_built N N idhash N.eqb wide trivial (qx_busy wide trivial) (qx_busy_map wide trivial)
  /\ f_sane qal /\ distinct_keys N N N.eqb (qx_busy_map wide trivial)
  /\ q_fine N N (seeded 12345) (qx_busy_map wide trivial)
  /\ exists x, q_copy_held N N wide trivial (seeded 12345) N.eqb qal (mkHeld idhash N.eqb (qx_busy wide trivial)) = Ret x tt
     /\ q_size _ _ (h_map x) = N.of_nat (length (qx_busy_map wide trivial))
     /\ 60 <= q_size _ _ (h_map x).
Proof.
  intros wide trivial. split; [exact idlaw|]. split; [apply seeded_law|]. split; [apply qx_busy_built|].
  split; [exact qal_sane|].
  split; [apply freshb_distinct; destruct wide, trivial; vm_compute; reflexivity|].
  split; [apply few_fine; destruct wide, trivial; vm_compute; discriminate|].
  exists (qxf_of (q_copy_held N N wide trivial (seeded 12345) N.eqb qal (mkHeld idhash N.eqb (qx_busy wide trivial)))).
  split; [destruct wide, trivial; vm_compute; reflexivity|]. split; [destruct wide, trivial; vm_compute; reflexivity|].
  destruct wide, trivial; vm_compute; discriminate.
Qed.

(** ** robin *)

Definition rxf_one : rmap N N :=
  match r_step N N digit same_digit some_alloc (OInsert N N 3 4) (rnew N N) with Ret t _ => t | _ => rnew N N end.

Lemma rxf_example_lemma :
  lawful digit same_digit
  /\ exists t y, r_step N N digit same_digit some_alloc (OInsert N N 3 4) (rnew N N) = Ret t (RIns N N (3, 4) true)
  /\ r_reach N N digit same_digit 2 t [(3, 4)] /\ sane some_alloc /\ spread_all N N digit 2 [(3, 4)]
  /\ r_copy_held N N some_alloc (mkHeld digit same_digit t) = Ret y tt
  /\ r_step N N (h_hash y) (h_eq y) some_alloc (OContains N N 13) (h_map y) = Ret (h_map y) (RBool N N true).
Proof.
  assert (SP : spread_all N N digit 2 [(3, 4)]) by (apply few_spread; cbn; lia).
  assert (E : r_step N N digit same_digit some_alloc (OInsert N N 3 4) (rnew N N) = Ret rxf_one (RIns N N (3, 4) true))
    by (vm_compute; reflexivity).
  split; [exact digit_law|]. exists rxf_one.
  eexists. split; [exact E|]. split; [|split; [exact some_sane|split; [exact SP|]]].
  - change [(3, 4)] with (fst (spec_step N N same_digit (OInsert N N 3 4) [])).
    eapply reach_step; [apply reach_new|exact some_sane|exact I|exact SP|exact E].
  - split; vm_compute; reflexivity.
Qed.

(** ** group15 and group16 *)

Definition gxf_one (kd : kind) : table N N :=
  match step N N digit same_digit kd roomy_alloc (OInsert N N 3 4) (new_map N N kd) with Ret t _ => t | Throw t => t | Fail _ => new_map N N kd end.

Lemma gxf_one_built kd : group_kind kd -> built N N digit same_digit kd (gxf_one kd).
Proof.
  intros HK. eapply built_ret with (t := new_map N N kd) (alloc := roomy_alloc) (o := OInsert N N 3 4).
  - eapply built_new with (alloc := roomy_alloc) (n := 0); [exact roomy_sane|]. destruct HK as [-> | ->]; reflexivity.
  - exact roomy_sane.
  - destruct HK as [-> | ->]; exact I.
  - unfold gxf_one. destruct HK as [-> | ->]; vm_compute; reflexivity.
Qed.

(** A map from number to number takes over the content and the functions of another. *)
Lemma gxf_example_lemma : forall kd, group_kind kd ->
  lawful idhash N.eqb /\ lawful digit same_digit /\ sane roomy_alloc
  /\ built N N digit same_digit kd (gxf_one kd)
  /\ (exists t, built N N idhash N.eqb kd t /\ t_size _ _ t = 35
      /\ exists z, assign_held N N kd roomy_alloc 0 (mkHeld idhash N.eqb t) (mkHeld digit same_digit (gxf_one kd)) = Ret z tt
         /\ t_size _ _ (h_map z) = 0
         /\ exists w, assign_held N N kd roomy_alloc 0 (mkHeld digit same_digit (gxf_one kd)) (mkHeld idhash N.eqb t) = Ret w tt
         /\ capacity N N kd (h_map w) <> capacity N N kd t /\ t_size _ _ (h_map w) = 35).
Proof.
  intros kd HK. split; [exact idlaw|]. split; [exact digit_law|]. split; [exact roomy_sane|].
  split; [now apply gxf_one_built|].
  destruct HK as [-> | ->]; [exists ex15|exists ex16].
  - split; [exact ex15_built|]. split; [vm_compute; reflexivity|].
    eexists. split; [vm_compute; reflexivity|]. split; [vm_compute; reflexivity|].
    eexists. split; [vm_compute; reflexivity|]. split; [|vm_compute; reflexivity]. vm_compute. discriminate.
  - split; [exact ex16_built|]. split; [vm_compute; reflexivity|].
    eexists. split; [vm_compute; reflexivity|]. split; [vm_compute; reflexivity|].
    eexists. split; [vm_compute; reflexivity|]. split; [|vm_compute; reflexivity]. vm_compute. discriminate.
Qed.
