(** Key equalities that answer, and key equalities that count (C222-C223).  The models of
    the calls are those of C186-C197, in which a key equality may answer anything and may
    throw. *)
From Coq Require Import NArith List Bool Permutation.
From Verif Require Import Base GroupModel TableModel ReachModel WitnessModel RobinModel RobinSpec RobinWitness
  Flat16Model Flat16Spec Robin16Model Robin16Witness CompareModel CompareSpec CompareWitness
  Compare2Model Compare3Model Compare3Spec Compare3Witness Compare4Model CompareAgree CompareTwice.
Import ListNotations.
Open Scope N_scope.

(** ** C222: with a key equality that always answers, and always the same, the calls with a
    key equality that may throw are the calls of the other properties, in every state of
    the map, reachable or not. *)

Theorem c222_group_maps_agree :
  forall (K V : Type) (hash : K -> N) (keq : K -> K -> bool) kd alloc o (t : table K V),
  step_c K V hash kd (fun _ k k' => Some (keq k k')) alloc o t = step K V hash keq kd alloc o t.
Proof. exact @group_agrees. Qed.
Print Assumptions c222_group_maps_agree.

Theorem c222_flat16_agrees :
  forall (K V : Type) (hash : K -> N) (keq : K -> K -> bool) mix trivial alloc o (t : fmap K V),
  f_step_c K V hash mix (fun _ k k' => Some (keq k' k)) trivial alloc o t
  = obind (f_step K V hash keq mix trivial alloc o t) (fun t' x => Ret t' (Some x)).
Proof. exact @flat16_agrees. Qed.
Print Assumptions c222_flat16_agrees.

Theorem c222_robin_agrees :
  forall (K V : Type) (hash : K -> N) (keq : K -> K -> bool) alloc o (t : rmap K V),
  r_step_c K V hash (fun _ k k' => Some (keq k' k)) alloc o t
  = obind (r_step K V hash keq alloc o t) (fun t' x => Ret t' (Some x)).
Proof. exact @robin_agrees. Qed.
Print Assumptions c222_robin_agrees.

Theorem c222_robin16_agrees :
  forall (K V : Type) (hash : K -> N) (keq : K -> K -> bool) wide trivial alloc o (t : qmap K V),
  q_step_c K V hash (fun _ k k' => Some (keq k' k)) wide trivial alloc o t
  = obind (q_step K V hash keq wide trivial alloc o t) (fun t' x => Ret t' (Some x)).
Proof. exact @robin16_agrees. Qed.
Print Assumptions c222_robin16_agrees.

(** Insertions that find no room and grow the map before they insert. *)
Example c222_example :
  (exists t', r_step_c N N idhash (fun _ k k' => Some (k' =? k)) some_alloc (OInsert N N 94 0) tw_full
     = Ret t' (Some (RIns N N (94, 0) true)) /\ r_slot_capacity _ _ t' = 64)
  /\ (exists t', q_step_c N N idhash (fun _ k k' => Some (k' =? k)) true false qal (OInsert N N tw16_key 0)
                   (tw16_full true false)
     = Ret t' (Some (RIns N N (tw16_key, 0) true)) /\ q_cap _ _ t' = 8192).
Proof. exact agree_examples. Qed.

(** ** C223: no call compares an element of the map twice, and an exception of the key
    equality leaves the map as it was. *)

(** False: [again_cmp] compares numbers and throws if it meets a stored key again.  After
    twelve insertions into a robin hood map another one displaces elements, finds no
    place, grows the map and compares with the key 30 again.  The exception leaves a map
    of twice the size without the new key, which is inserted if nothing throws. *)
Theorem c223_robin_compares_once_refuted :
  exists calls rs (t t' : rmap N N) l,
  Forall (fun c => sane (fst c) /\ exists k v, snd c = OInsert N N k v) calls
  /\ r_run N N idhash N.eqb calls (rnew N N) = Ok (rs, t)
  /\ (r_size _ _ t, r_slot_capacity _ _ t) = (12, 32)
  /\ r_step_c N N idhash again_cmp some_alloc (OInsert N N 94 0) t = Ret t' None
  /\ r_slot_capacity _ _ t' = 64 /\ r_traverse N N t' = Ok l /\ length l = 12%nat
  /\ match r_step N N idhash N.eqb some_alloc (OInsert N N 94 0) t with
     | Ret _ x => x = RIns N N (94, 0) true
     | _ => False
     end.
Proof. exact robin_twice. Qed.
Print Assumptions c223_robin_compares_once_refuted.

(** The same in a robin16 map with 130 elements in 512 slots.  If nothing throws, this one
    insertion grows the map four times, to 8192 slots. *)
Theorem c223_robin16_compares_once_refuted :
  forall wide trivial, exists n calls t0 rs (t t' : qmap N N),
  n <= 2 ^ 44 /\ q_new N N qal n = Ret t0 tt
  /\ Forall (fun c => f_sane (fst c) /\ exists k v, snd c = OInsert N N k v) calls
  /\ q_run N N idhash N.eqb wide trivial calls t0 = Ok (rs, t)
  /\ (q_size _ _ t, q_cap _ _ t) = (130, 512)
  /\ q_step_c N N idhash again_cmp wide trivial qal (OInsert N N tw16_key 0) t = Ret t' None
  /\ (q_size _ _ t', q_cap _ _ t') = (130, 1024)
  /\ match q_step N N idhash N.eqb wide trivial qal (OInsert N N tw16_key 0) t with
     | Ret t'' x => x = RIns N N (tw16_key, 0) true /\ q_cap _ _ t'' = 8192
     | _ => False
     end.
Proof. exact robin16_twice. Qed.
Print Assumptions c223_robin16_compares_once_refuted.

(** It holds in a robin hood map whose keys are spread (C43): when a comparison throws, the
    key that throws and those compared before in the same call belong to different
    elements of the map. *)
Theorem c223_spread_robin_compares_once_partial :
  forall (K V : Type) (hash : K -> N), (forall k, hash k < 2 ^ 64) ->
  forall cmp q (t : rmap K V), q = 1 \/ q = 2 -> r_reached_c hash q t ->
  forall alloc o t', sane alloc -> r_client_c hash q o t ->
  r_step_c K V hash cmp alloc o t = Ret t' None ->
  exists m k k' seen rest, r_traverse K V t = Ok m /\ concerns o k /\ cmp seen k k' = None
    /\ Permutation (k' :: seen ++ rest) (map fst m).
Proof. intros K V hash H64. exact (robin_compares_once hash H64). Qed.
Print Assumptions c223_spread_robin_compares_once_partial.

(** The second comparison throws: both elements have been compared. *)
Example c223_example :
  sane some_alloc /\ r_reached_c idhash 2 (rc_end (rc_same 2))
  /\ r_client_c idhash 2 (OInsert N N 31 2) (rc_end (rc_same 2))
  /\ (exists l, r_traverse N N (rc_end (rc_same 2)) = Ok l /\ map fst l = [31; 31])
  /\ r_step_c N N idhash second_cmp some_alloc (OInsert N N 31 2) (rc_end (rc_same 2))
     = Ret (rc_end (rc_same 2)) None.
Proof. exact robin_once_example. Qed.
