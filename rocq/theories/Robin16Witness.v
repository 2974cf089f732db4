(** Example maps and counterexamples for the robin16 map.  Keys and values are numbers,
    the hash is the identity (std::hash<int> of libstdc++). *)
From Coq Require Import NArith ZArith List Bool Lia.
From Coq Require Import ZifyBool ZifyNat ZifyN.
From Verif Require Import Base BaseFacts GroupModel TableModel TableInv MapSpec WitnessModel
  Flat16Model Flat16Spec Robin16Model Robin16Spec.
Import ListNotations.
Open Scope N_scope.

Notation qm := (qmap N N).
Notation qrun := (q_run N N idhash N.eqb).

(** Up to a million groups or slots. *)
Definition qal (groups : bool) (n : N) : bool := n <=? 2 ^ 20.
(** No slots; no groups. *)
Definition q_no_slots (groups : bool) (n : N) : bool := groups.
Definition q_no_groups (groups : bool) (n : N) : bool := false.

Lemma qal_sane : f_sane qal.
Proof. intros n H. unfold qal in H. lia. Qed.

Lemma q_no_slots_sane : f_sane q_no_slots.
Proof. intros n H. discriminate. Qed.

Definition qput (k : N) : (bool -> N -> bool) * op N N := (qal, OInsert N N k (k + 1)).
Definition qask (o : op N N) : (bool -> N -> bool) * op N N := (qal, o).

(** What an insertion of [k] that finds the key absent, or present, returns. *)
Definition qnew_ (k : N) : option (obs N N) := Some (RIns N N (k, k + 1) true).
Definition qold_ (k : N) : option (obs N N) := Some (RIns N N (k, k + 1) false).
Definition qsays (b : bool) : option (obs N N) := Some (RBool N N b).

(** The map that [n] slots are requested for. *)
Definition q_start (n : N) : qm := match q_new N N qal n with Ret t _ => t | _ => q_blank N N end.

Lemma q_start_new : q_new N N qal 4 = Ret (q_start 4) tt /\ q_new N N qal 8 = Ret (q_start 8) tt
  /\ q_new N N qal 16 = Ret (q_start 16) tt.
Proof. vm_compute. auto. Qed.

(** ** C103 *)

Lemma qx_erase_lemma : forall wide trivial,
  exists t, q_new N N qal 16 = Ret t tt
    /\ qrun wide trivial [qput 15; qput 31; qask (OErase N N 15)] t = Err EUndef.
Proof. intros [] []; exists (q_start 16); split; vm_compute; reflexivity. Qed.

Lemma qx_erase_default_lemma : forall wide trivial,
  exists t, q_new N N qal 4 = Ret t tt
    /\ qrun wide trivial [qput 3; qput 7; qask (OErase N N 3)] t = Err EUndef
    /\ qrun wide trivial [qput 3; qput 7; qask (OErase N N 7)] t <> Err EUndef.
Proof. intros [] []; exists (q_start 4); split; [| split| | split| | split| | split]; vm_compute; congruence. Qed.

(** ** C104 *)

Lemma qx_ghost_lemma : forall wide,
  exists t rs t', q_new N N qal 8 = Ret t tt
    /\ qrun wide true (map qput [5; 13; 21; 2301] ++ [qask (OErase N N 2301); qask (OContains N N 2301)]) t
       = Ok (rs ++ [Some (RNum N N 1); qsays true], t')
    /\ q_size _ _ t' = 3.
Proof.
  intros []; exists (q_start 8), (map qnew_ [5; 13; 21; 2301]).
  all: eexists; split; [vm_compute; reflexivity|split; [vm_compute; reflexivity|reflexivity]].
Qed.

Lemma qx_ghost_read_lemma : forall wide,
  exists t, q_new N N qal 8 = Ret t tt
    /\ qrun wide false (map qput [5; 13; 21; 2301] ++ [qask (OErase N N 2301); qask (OContains N N 2301)]) t
       = Err EUndef.
Proof. intros []; exists (q_start 8); split; vm_compute; reflexivity. Qed.

Lemma qx_end_mark_lemma : forall wide trivial,
  exists t, q_new N N qal 4 = Ret t tt
    /\ qrun wide trivial [qput 4; qput 8; qask (OContains N N 2856)] t = Err EUndef.
Proof. intros [] []; exists (q_start 4); split; vm_compute; reflexivity. Qed.

(** ** C105 *)

Lemma qx_clear_lemma : forall wide,
  exists t t', q_new N N qal 16 = Ret t tt
    /\ qrun wide true (map qput [11; 27; 43; 59; 75; 91] ++ [qask (OClear N N false)]
                       ++ map qput [11; 27; 43; 59] ++ [qask (OContains N N 91); qput 91; qask (OSize N N)]) t
       = Ok (map qnew_ [11; 27; 43; 59; 75; 91] ++ [Some (RUnit N N)] ++ map qnew_ [11; 27; 43; 59]
             ++ [qsays true; qold_ 91; Some (RNum N N 4)], t').
Proof. intros []; exists (q_start 16); eexists; split; vm_compute; reflexivity. Qed.

Lemma qx_clear_read_lemma : forall wide,
  exists t, q_new N N qal 16 = Ret t tt
    /\ qrun wide false (map qput [11; 27; 43; 59; 75; 91] ++ [qask (OClear N N false)]
                        ++ map qput [11; 27; 43; 59] ++ [qask (OContains N N 91)]) t
       = Err EUndef.
Proof. intros []; exists (q_start 16); split; vm_compute; reflexivity. Qed.

(** ** C106 *)

Lemma qx_mlf_lemma : forall wide trivial,
  exists t rs t', q_new N N qal 16 = Ret t tt
    /\ qrun wide trivial (qask (OMlf N N 13421773) :: map qput [1; 2; 3; 4; 5; 6; 7; 8]) t = Ok (rs, t')
    /\ (q_size _ _ t', q_cap _ _ t', q_mlf _ _ t') = (8, 16, 13108)
    /\ q_mlf _ _ t' * q_cap _ _ t' < 2 * (qAmplify * q_size _ _ t').
Proof.
  intros [] []; exists (q_start 16); do 2 eexists.
  all: split; [vm_compute; reflexivity|split; [vm_compute; reflexivity|split; reflexivity]].
Qed.

(** ** C107 *)

Lemma qx_slots_refused_lemma : forall wide,
  exists t t', q_new N N qal 4 = Ret t tt
    /\ qrun wide true [qput 1; qput 2; (q_no_slots, OInsert N N 3 4); qask (OContains N N 1);
                       qask (OContains N N 2); qask (OSize N N)] t
       = Ok ([qnew_ 1; qnew_ 2; None; qsays false; qsays false; Some (RNum N N 2)], t').
Proof. intros []; exists (q_start 4); eexists; split; vm_compute; reflexivity. Qed.

Lemma qx_slots_refused_leak_lemma : forall wide,
  exists t t', q_new N N qal 4 = Ret t tt
    /\ qrun wide false [qput 1; qput 2; (q_no_slots, OInsert N N 3 4)] t = Ok ([qnew_ 1; qnew_ 2; None], t')
    /\ q_destroy N N false t' = Err ELeak.
Proof.
  intros []; exists (q_start 4); eexists.
  all: split; [vm_compute; reflexivity|split; vm_compute; reflexivity].
Qed.

Lemma qx_groups_refused_lemma : forall wide trivial,
  exists t t', q_new N N qal 4 = Ret t tt
    /\ qrun wide trivial [qput 1; qput 2; (q_no_groups, OInsert N N 3 4); qask (OContains N N 1);
                       qask (OContains N N 2); qask (OContains N N 3); qask (OSize N N)] t
       = Ok ([qnew_ 1; qnew_ 2; None; qsays true; qsays true; qsays false; Some (RNum N N 2)], t').
Proof. intros [] []; exists (q_start 4); eexists; split; vm_compute; reflexivity. Qed.

(** When the groups are refused, the map stays as it is. *)
Lemma q_groups_refused : forall (K V : Type) (hash : K -> N) keq wide trivial shrink always alloc t n,
  (forall m, alloc true m = false) ->
  match q_rehash_impl K V hash keq wide trivial shrink always alloc t n with
  | Ret t' _ | Throw t' => t' = t
  | Fail e => q_calc_capacity n = Err e
  end.
Proof.
  intros. unfold q_rehash_impl. destruct (q_calc_capacity n) eqn:E; [|reflexivity].
  destruct (_ || _); [|reflexivity]. unfold q_create. rewrite H. reflexivity.
Qed.

(** ** C108 *)

Lemma qx_moved_lemma : forall wide trivial,
  exists t, q_new N N qal 4 = Ret t tt
    /\ forall o, In o [OContains N N 1; OFind N N 1; OErase N N 1; OInsert N N 1 2; OReserve N N 4] ->
       q_step N N idhash N.eqb wide trivial qal o (snd (q_move N N t)) = Fail EUndef.
Proof.
  intros [] []; exists (q_start 4); (split; [vm_compute; reflexivity|]);
  intros o H; cbn [In] in H; decompose [or] H; try contradiction; subst o; vm_compute; reflexivity.
Qed.

Lemma qx_moved_walk_lemma : forall wide trivial,
  exists t, q_new N N qal 4 = Ret t tt
    /\ q_traverse N N wide (snd (q_move N N t)) = Err EUndef
    /\ q_copy N N idhash N.eqb wide trivial qal (snd (q_move N N t)) = Fail EUndef.
Proof. intros [] []; exists (q_start 4); (split; [|split]); vm_compute; reflexivity. Qed.

(** ** C109 *)

Definition q_far (n : N) : list N := map (fun i => 4096 * i) (seqN n).

Definition q_last {A} (r : res (list (option A) * qm)) : res (option A * N * N) :=
  match r with Ok (l, t) => Ok (last l None, q_size _ _ t, q_cap _ _ t) | Err e => Err e end.

Lemma qx_far_lemma : forall wide trivial,
  exists t, q_new N N qal 4 = Ret t tt
    /\ q_last (qrun wide trivial (map qput (q_far 255) ++ [qask (OContains N N (4096 * 254))]) t)
       = Ok (qsays true, 255, 512)
    /\ q_last (qrun wide trivial (map qput (q_far 256) ++ [qask (OContains N N (4096 * 255))]) t)
       = Ok (qsays false, 256, 512).
Proof. intros [] []; exists (q_start 4); (split; [|split]); vm_compute; reflexivity. Qed.

Lemma qx_far_grow_lemma : forall wide,
  exists t, q_new N N qal 4 = Ret t tt
    /\ q_last (qrun wide true (map qput (q_far 257) ++ [qask (OContains N N (4096 * 254))]) t)
       = Ok (qsays false, 255, 1024)
    /\ qrun wide false (map qput (q_far 257)) t = Err ELeak.
Proof. intros []; exists (q_start 4); (split; [|split]); vm_compute; reflexivity. Qed.
