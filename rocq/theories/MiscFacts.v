(** Facts about HelperModel.v, ViewArrayModel.v and AnalyzerModel.v. *)
From Coq Require Import NArith ZArith List Bool Lia.
From Coq Require Import ZifyBool ZifyNat ZifyN.
From Verif Require Import Base BaseFacts BitsModel GroupModel TableModel TableInv MapSpec ReachModel
  HelperModel ViewArrayModel AnalyzerModel WitnessModel WitnessFacts2 PropertiesState.
Import ListNotations.
Open Scope N_scope.

(** ** string_helper *)

(** Writes by the owner of the characters. *)
Definition writes (l : list (N * N)) (mem : list N) : list N :=
  fold_left (fun m p => seti m (fst p) (snd p)) l mem.

Lemma writes_length l mem : length (writes l mem) = length mem.
Proof.
  revert mem. induction l as [|p l IH]; intros mem; [reflexivity|].
  unfold writes in *. cbn [fold_left]. now rewrite IH, seti_length.
Qed.

Lemma writes_seti l mem i x : Forall (fun p => fst p <> i) l ->
  writes l (seti mem i x) = seti (writes l mem) i x.
Proof.
  revert mem. induction l as [|p l IH]; intros mem H; [reflexivity|].
  inversion_clear H. unfold writes in *. cbn [fold_left]. rewrite <- IH by auto. f_equal.
  apply seti_comm. auto.
Qed.

Lemma writes_geti l mem i : Forall (fun p => fst p <> i) l -> geti (writes l mem) i = geti mem i.
Proof.
  revert mem. induction l as [|p l IH]; intros mem H; [reflexivity|].
  inversion_clear H. unfold writes in *. cbn [fold_left]. rewrite IH by auto.
  apply geti_seti_neq. auto.
Qed.

Lemma helper_round h mem d n : h_trunc h = false -> h_data h = Some d -> h_size h = n ->
  d + n < N.of_nat (length mem) ->
  exists mem1 h1, h_truncate mem h = Ok (mem1, h1)
    /\ geti mem1 (d + n) = Some 0 /\ (forall i, i <> d + n -> geti mem1 i = geti mem i)
    /\ forall l, Forall (fun p => fst p <> d + n) l ->
       (exists h2, h_recover (writes l mem1) h1 = Ok (writes l mem, h2) /\ h_trunc h2 = false)
       /\ (exists h2, h_detach (writes l mem1) h1 = Ok (writes l mem, h2) /\ h_data h2 = None).
Proof.
  intros HT HD HS HL. unfold h_truncate. rewrite HT, HD, HS.
  destruct (geti mem (d + n)) as [c|] eqn:E.
  2:{ exfalso. unfold geti in E. apply nth_error_None in E. lia. }
  eexists _, _. split; [reflexivity|].
  split; [now apply geti_seti_eq|]. split; [intros i Hi; apply geti_seti_neq; auto|].
  intros l Hl.
  assert (HR : exists h2, h_recover (writes l (seti mem (d + n) 0)) (mkHelper (Some d) n true c)
             = Ok (writes l mem, h2) /\ h_trunc h2 = false).
  { unfold h_recover. cbn [h_trunc h_data h_size h_save]. rewrite writes_length, seti_length.
    replace (_ <? _) with true by lia. exists (mkHelper (Some d) n false c).
    split; [|reflexivity]. f_equal. f_equal.
    rewrite writes_seti by auto. rewrite seti_seti. apply seti_same. now rewrite writes_geti. }
  destruct HR as (h2 & R & T). split; [eauto|].
  unfold h_detach. cbn [h_trunc]. rewrite R. cbn [rbind]. eexists. split; reflexivity.
Qed.

(** A truncated helper does not take another string, and after a move only the new helper
    writes. *)
Lemma helper_keeps h mem d n l d' n' : h_trunc h = false -> h_data h = Some d -> h_size h = n ->
  d + n < N.of_nat (length mem) -> Forall (fun p => fst p <> d + n) l ->
  exists mem1 h1, h_truncate mem h = Ok (mem1, h1)
    /\ snd (h_attach h1 d' n') = false
    /\ (exists h2, h_detach (writes l mem1) (fst (h_attach h1 d' n')) = Ok (writes l mem, h2))
    /\ (exists h2, h_detach (writes l mem1) (snd (h_move h1)) = Ok (writes l mem1, h2))
    /\ (exists h2, h_detach (writes l mem1) (fst (h_move h1)) = Ok (writes l mem, h2)).
Proof.
  intros HT HD HS HL HW. destruct (helper_round h mem d n HT HD HS HL) as (mem1 & h1 & E & _ & _ & R).
  exists mem1, h1. destruct (R l HW) as [_ (h2 & R2 & _)].
  assert (T : h_trunc h1 = true).
  { unfold h_truncate in E. rewrite HT, HD in E. destruct (geti mem _); [|discriminate]. injection E as _ <-. reflexivity. }
  unfold h_attach. rewrite T. cbn [fst snd h_move]. split; [exact E|]. split; [reflexivity|]. split; [eauto|].
  split; [|eauto]. exists h_new. reflexivity.
Qed.

(** Truncations at many places, undone in the reverse order. *)
Fixpoint truncate_all (mem : list N) (l : list (N * N)) : res (list N * list helper) :=
  match l with
  | [] => Ok (mem, [])
  | (d, n) :: r =>
      rbind (h_truncate mem (fst (h_attach h_new d n))) (fun '(mem1, h) =>
      rbind (truncate_all mem1 r) (fun '(mem2, hs) => Ok (mem2, hs ++ [h])))
  end.

Fixpoint recover_all (mem : list N) (hs : list helper) : res (list N) :=
  match hs with
  | [] => Ok mem
  | h :: r => rbind (h_recover mem h) (fun '(mem1, _) => recover_all mem1 r)
  end.

Lemma recover_all_app mem a b :
  recover_all mem (a ++ b) = rbind (recover_all mem a) (fun m => recover_all m b).
Proof.
  revert mem. induction a as [|h a IH]; intros mem; [reflexivity|].
  cbn [app recover_all]. destruct (h_recover mem h) as [[m1 h1]|e]; [apply IH|reflexivity].
Qed.

Lemma helper_nested l mem : Forall (fun p => fst p + snd p < N.of_nat (length mem)) l ->
  exists mem' hs, truncate_all mem l = Ok (mem', hs) /\ recover_all mem' hs = Ok mem.
Proof.
  revert mem. induction l as [|[d n] l IH]; intros mem H.
  - exists mem, []. auto.
  - inversion_clear H as [|? ? H1 H2]. cbn [fst snd] in H1.
    destruct (helper_round (fst (h_attach h_new d n)) mem d n eq_refl eq_refl eq_refl H1)
      as (mem1 & h & E & _ & _ & R).
    destruct (R [] (Forall_nil _)) as [(h2 & RR & _) _].
    destruct (IH mem1) as (mem' & hs & E2 & R2).
    { unfold h_truncate, h_attach in E. cbn in E. destruct (geti mem (d + n)); [|discriminate].
      injection E as <- _. now rewrite seti_length. }
    exists mem', (hs ++ [h]). cbn [truncate_all]. rewrite E. cbn [rbind]. rewrite E2. cbn [rbind].
    split; [reflexivity|]. rewrite recover_all_app, R2. cbn [rbind recover_all]. cbn [writes fold_left] in RR.
    now rewrite RR.
Qed.

Lemma helper_crossed : exists mem l mem' hs, Forall (fun p => fst p + snd p < N.of_nat (length mem)) l
  /\ truncate_all mem l = Ok (mem', hs) /\ length hs = 2%nat
  /\ exists mem2, recover_all mem' (rev hs) = Ok mem2 /\ mem2 <> mem.
Proof.
  exists [97; 98; 99], [(0, 2); (1, 1)]. eexists _, _.
  split; [repeat constructor; vm_compute; reflexivity|]. split; [vm_compute; reflexivity|].
  split; [reflexivity|]. eexists. split; [vm_compute; reflexivity|]. discriminate.
Qed.

(** The helper recovers, its owner writes there, and the copy is destroyed. *)
Lemma helper_copied : exists mem h mem1 h1 mem2 h2 i x mem3 h3,
  h_truncate mem h = Ok (mem1, h1) /\ h_recover mem1 h1 = Ok (mem2, h2) /\ mem2 = mem
  /\ h_detach (writes [(i, x)] mem2) (h_copy h1) = Ok (mem3, h3) /\ mem3 <> writes [(i, x)] mem2.
Proof.
  exists [97; 98; 99], (fst (h_attach h_new 0 2)). eexists _, _, _, _. exists 2, 120. eexists _, _.
  split; [vm_compute; reflexivity|]. split; [vm_compute; reflexivity|]. split; [reflexivity|].
  split; [vm_compute; reflexivity|]. discriminate.
Qed.

Lemma helper_kept : exists mem h, h_data h = Some 0 /\ h_trunc h = false
  /\ h_detach mem h = Ok (mem, h).
Proof. exists [97; 98], (fst (h_attach h_new 0 1)). auto. Qed.

Lemma helper_null mem : h_truncate mem h_new = Err EUndef.
Proof. reflexivity. Qed.

Lemma helper_example : Forall (fun p => fst p + snd p < N.of_nat (length [97; 98; 99])) [(0, 2); (1, 1); (0, 0)].
Proof. repeat constructor; vm_compute; reflexivity. Qed.

(** ** string_view_array *)

Definition ptrs_in (l : list (option N)) : list N := flat_map (fun p => match p with Some x => [x] | None => [] end) l.

Record va_ok (a : varray) : Prop := {
  va_nd : NoDup (ptrs_in (va_ptrs a));
  va_ndl : NoDup (va_live a);
  va_in : forall p, In p (ptrs_in (va_ptrs a)) -> In p (va_live a);
  va_lt : forall p, In p (va_live a) -> p < va_next a;
  va_cnt : N.of_nat (length (va_live a)) = va_next a
}.

Lemma ptrs_app a b : ptrs_in (a ++ b) = ptrs_in a ++ ptrs_in b.
Proof. unfold ptrs_in. apply flat_map_app. Qed.

Lemma ptrs_none n : ptrs_in (repeat None n) = [].
Proof. induction n; auto. Qed.

Lemma ptrs_firstn n l : exists r, ptrs_in l = ptrs_in (firstn n l) ++ r.
Proof. exists (ptrs_in (skipn n l)). rewrite <- ptrs_app, firstn_skipn. reflexivity. Qed.

Lemma NoDup_left {A} (a b : list A) : NoDup (a ++ b) -> NoDup a.
Proof. induction a; cbn; intros H; constructor; inversion_clear H; auto. intros X. apply H0. apply in_app_iff. auto. Qed.

Lemma va_cut a l : va_ok a -> (exists n, l = firstn n (va_ptrs a) ++ repeat None (length l - Nat.min n (length (va_ptrs a)))) ->
  va_ok (mkVA l (va_live a) (va_next a)).
Proof.
  intros [A B C D E] [n Hl].
  assert (HP : ptrs_in l = ptrs_in (firstn n (va_ptrs a))) by (rewrite Hl, ptrs_app, ptrs_none, app_nil_r; reflexivity).
  destruct (ptrs_firstn n (va_ptrs a)) as [r Hr].
  split; cbn [va_ptrs va_live va_next]; auto; rewrite HP.
  - rewrite Hr in A. eapply NoDup_left; eauto.
  - intros p Hp. apply C. rewrite Hr. apply in_app_iff. auto.
Qed.

Lemma va_step_ok o a a' : va_ok a -> va_step o a = Ok a' -> va_ok a'.
Proof.
  intros H E. destruct o; cbn [va_step] in E.
  - injection E as <-. destruct H as [A B C D F].
    assert (HN : ~ In (va_next a) (va_live a)) by (intros X; specialize (D _ X); lia).
    split; cbn [va_ptrs va_live va_next].
    + rewrite ptrs_app. cbn.
      assert (forall l, NoDup l -> ~ In (va_next a) l -> NoDup (l ++ [va_next a])) as X.
      { induction l as [|x l IH]; cbn; intros N1 N2; constructor; inversion_clear N1.
        - auto.
        - constructor.
        - rewrite in_app_iff. cbn. intros [X|[X|[]]]; [auto|]. apply N2. auto.
        - apply IH; auto. }
      apply X; auto.
    + constructor; auto.
    + intros p. rewrite ptrs_app, in_app_iff. cbn. intros [X|[X|[]]]; auto.
    + intros p [<-|X]; [lia|]. specialize (D _ X). lia.
    + cbn [length]. lia.
  - destruct (va_ptrs a) as [|x l] eqn:HP; [discriminate|]. injection E as <-.
    apply va_cut; auto. exists (length l). rewrite HP.
    change (match l with [] => [] | _ :: _ => x :: removelast l end) with (removelast (x :: l)).
    assert (HR : forall (y : option N) m, removelast (y :: m) = firstn (length m) (y :: m)).
    { intros y m. rewrite removelast_firstn_len. reflexivity. }
    rewrite (HR x l), firstn_length. cbn [length].
    replace (Nat.min (length l) (S (length l)) - _)%nat with 0%nat by lia.
    cbn [repeat]. now rewrite app_nil_r.
  - injection E as <-. apply va_cut; auto. exists 0%nat. reflexivity.
  - injection E as <-. apply va_cut; auto. exists n. f_equal.
    rewrite app_length, firstn_length, repeat_length. f_equal. lia.
Qed.

Lemma va_run_ok l a a' : va_ok a -> va_run l a = Ok a' -> va_ok a'.
Proof.
  revert a. induction l as [|o l IH]; cbn [va_run]; intros a H E.
  - injection E as <-. auto.
  - destruct (va_step o a) as [a1|] eqn:S1; [|discriminate]. cbn [rbind] in E.
    eapply IH; [|exact E]. eapply va_step_ok; eauto.
Qed.

Lemma va_new_ok : va_ok va_new.
Proof. split; cbn; try constructor; intros; contradiction. Qed.

Lemma va_destroy_spec ptrs live : NoDup (ptrs_in ptrs) -> NoDup live -> (forall p, In p (ptrs_in ptrs) -> In p live) ->
  exists live', va_destroy ptrs live = Ok live' /\ NoDup live'
    /\ (forall p, In p live' <-> In p live /\ ~ In p (ptrs_in ptrs))
    /\ (length live' + length (ptrs_in ptrs) = length live)%nat.
Proof.
  revert live. induction ptrs as [|[p|] ptrs IH]; intros live ND NL HI.
  - exists live. cbn. split; [reflexivity|]. split; [auto|]. split; [tauto|lia].
  - cbn [va_destroy]. change (ptrs_in (Some p :: ptrs)) with (p :: ptrs_in ptrs) in *.
    inversion_clear ND as [|? ? N1 N2].
    assert (HP : existsb (N.eqb p) live = true).
    { apply existsb_exists. exists p. split; [apply HI; left; auto|apply N.eqb_refl]. }
    unfold va_delete. rewrite HP. cbn [rbind].
    set (live1 := filter (fun x => negb (x =? p)) live).
    assert (HF : forall x, In x live1 <-> In x live /\ x <> p).
    { intros x. unfold live1. rewrite filter_In. split; intros [X Y]; split; auto; lia. }
    assert (HLen : (length live1 + 1 = length live)%nat).
    { assert (In p live) as Hin by (apply HI; left; auto). unfold live1. clear - NL Hin.
      induction live as [|x live IH]; [contradiction|]. inversion_clear NL as [|? ? M1 M2].
      cbn [filter length]. destruct (N.eqb_spec x p) as [->|D]; cbn [negb].
      - assert (filter (fun x => negb (x =? p)) live = live) as ->; [|lia].
        clear - M1. induction live as [|y live IH]; [reflexivity|]. cbn [filter].
        destruct (N.eqb_spec y p) as [->|D]; [exfalso; apply M1; left; auto|]. cbn [negb]. f_equal. apply IH.
        intros X. apply M1. right. auto.
      - cbn [length]. destruct Hin as [X|Hin]; [congruence|]. specialize (IH M2 Hin). lia. }
    destruct (IH live1 N2) as (live' & E & ND' & HI' & HL').
    + apply NoDup_filter. auto.
    + intros x Hx. apply HF. split; [apply HI; right; auto|]. intros ->. contradiction.
    + exists live'. split; [exact E|]. split; [auto|]. split; [|cbn [length]; lia].
      intros x. rewrite HI', HF. cbn [In]. split.
      * intros ((X & Y) & Z). split; auto. intros [W|W]; [congruence|contradiction].
      * intros (X & Y). split; [split; auto|]; intros W; apply Y; auto.
  - cbn [va_destroy]. change (ptrs_in (None :: ptrs)) with (ptrs_in ptrs) in *. apply IH; auto.
Qed.

(** What the destructor leaves: the elements that the array does not hold any more. *)
Lemma va_destroyed l a : va_run l va_new = Ok a ->
  exists live', va_destroy (va_ptrs a) (va_live a) = Ok live'
    /\ (forall p, In p live' <-> p < va_next a /\ ~ In (Some p) (va_ptrs a)).
Proof.
  intros E. pose proof (va_run_ok _ _ _ va_new_ok E) as [A B C D F].
  destruct (va_destroy_spec _ _ A B C) as (live' & E1 & _ & HI & _).
  exists live'. split; [exact E1|]. intros p. rewrite HI.
  assert (HP : In p (ptrs_in (va_ptrs a)) <-> In (Some p) (va_ptrs a)).
  { unfold ptrs_in. rewrite in_flat_map. split.
    - intros ([x|] & X & Y); [destruct Y as [->|[]]; auto|destruct Y].
    - intros X. exists (Some p). split; auto. left. auto. }
  assert (HL : In p (va_live a) <-> p < va_next a).
  { split; [apply D|]. intros Hp.
    assert (HI2 : incl (va_live a) (seqN (va_next a))) by (intros x Hx; apply seqN_In; auto).
    assert (HS : length (seqN (va_next a)) = N.to_nat (va_next a)) by apply seqN_length.
    pose proof (NoDup_length_incl B (l' := seqN (va_next a))) as X.
    apply X; [lia|auto|]. now apply seqN_In. }
  rewrite HL, HP. tauto.
Qed.

(** Calls that take nothing out. *)
Definition va_keeps (o : vop) (a : varray) : Prop :=
  match o with VPush => True | VResize n => (length (va_ptrs a) <= n)%nat | _ => False end.

Fixpoint va_keeping (l : list vop) (a : varray) : Prop :=
  match l with
  | [] => True
  | o :: r => va_keeps o a /\ match va_step o a with Ok a' => va_keeping r a' | Err _ => False end
  end.

Lemma va_keeping_live l a a' : va_ok a -> (forall p, p < va_next a -> In (Some p) (va_ptrs a)) ->
  va_keeping l a -> va_run l a = Ok a' -> forall p, p < va_next a' -> In (Some p) (va_ptrs a').
Proof.
  revert a. induction l as [|o l IH]; intros a O H HK E.
  - injection E as <-. auto.
  - cbn [va_keeping va_run] in *. destruct HK as [K1 K2].
    destruct (va_step o a) as [a1|] eqn:S1; [|contradiction]. cbn [rbind] in E.
    apply (IH a1); auto; [eapply va_step_ok; eauto|].
    destruct o; cbn [va_keeps] in K1; try contradiction; cbn [va_step] in S1; injection S1 as <-; cbn [va_next va_ptrs].
    + intros p Hp. apply in_app_iff. destruct (N.eq_dec p (va_next a)) as [->|D]; [right; left; auto|].
      left. apply H. lia.
    + intros p Hp. apply in_app_iff. left. rewrite firstn_all2 by auto. auto.
Qed.

Lemma va_nothing_lost l a : va_keeping l va_new -> va_run l va_new = Ok a ->
  va_destroy (va_ptrs a) (va_live a) = Ok [].
Proof.
  intros HK E. destruct (va_destroyed l a E) as (live' & D & HI). rewrite D. f_equal.
  destruct live' as [|p r]; [reflexivity|]. exfalso.
  destruct (proj1 (HI p) (or_introl eq_refl)) as [P1 P2]. apply P2.
  apply (va_keeping_live l va_new a va_new_ok); auto. cbn. intros; lia.
Qed.

Lemma va_lost : 
  (exists a, va_run [VPush; VPush; VClear] va_new = Ok a /\ va_destroy (va_ptrs a) (va_live a) = Ok [1; 0])
  /\ (exists a, va_run [VPush; VPush; VPop] va_new = Ok a /\ va_destroy (va_ptrs a) (va_live a) = Ok [1])
  /\ (exists a, va_run [VPush; VPush; VResize 1] va_new = Ok a /\ va_destroy (va_ptrs a) (va_live a) = Ok [1]).
Proof. repeat split; eexists; split; vm_compute; reflexivity. Qed.

Lemma va_example : va_keeping [VPush; VResize 3; VPush] va_new
  /\ exists a, va_run [VPush; VResize 3; VPush] va_new = Ok a /\ va_ptrs a = [Some 0; None; None; Some 1]
    /\ va_get a 1 = Some None /\ va_at a 1 = Err EUndef /\ va_at a 3 = Ok 1.
Proof. split; [cbn; repeat split; lia|]. eexists. split; [vm_compute; reflexivity|]. vm_compute. auto. Qed.

(** ** The analyzer *)

Definition sumN (l : list N) : N := fold_right N.add 0 l.

Lemma total_sum l : sumN l < 2 ^ 64 -> an_total l = sumN l.
Proof.
  unfold an_total. enough (forall a, a + sumN l < 2 ^ 64 -> fold_left wadd l a = a + sumN l) as H by (intros; rewrite H; lia).
  induction l as [|x l IH]; intros a Ha; cbn [fold_left sumN fold_right] in *; [lia|].
  fold (sumN l) in *. rewrite wadd_small by (unfold two64; lia). rewrite IH; lia.
Qed.

Definition countb (p : N -> bool) (l : list N) : N := N.of_nat (length (filter p l)).

Lemma count_filter p l : N.of_nat (length l) < 2 ^ 64 -> an_count p l = countb p l.
Proof.
  unfold an_count, countb.
  enough (forall a, a + N.of_nat (length l) < 2 ^ 64 ->
    fold_left (fun n c => if p c then wadd n 1 else n) l a = a + N.of_nat (length (filter p l))) as H
    by (intros; rewrite H; lia).
  induction l as [|x l IH]; intros a Ha; cbn [fold_left filter length] in *; [lia|].
  destruct (p x); cbn [length].
  - rewrite wadd_small by (unfold two64; lia). rewrite IH; lia.
  - rewrite IH; lia.
Qed.

Lemma max_spec l : (forall c, In c l -> c <= an_max l) /\ (l <> [] -> In (an_max l) l \/ an_max l = 0).
Proof.
  unfold an_max.
  enough (forall a, let m := fold_left (fun m c => if m <? c then c else m) l a in
    a <= m /\ (forall c, In c l -> c <= m) /\ (m = a \/ In m l)) as H.
  { destruct (H 0) as (_ & A & B). split; auto. intros _. tauto. }
  induction l as [|x l IH]; intros a; cbn [fold_left].
  - cbn. split; [lia|]. split; [contradiction|auto].
  - cbv zeta. destruct (IH (if a <? x then x else a)) as (A & B & C).
    destruct (N.ltb_spec a x); (split; [lia|]); (split; [intros c [<-|Hc]; [lia|auto]|]);
      destruct C as [C|C]; [right; left; auto|right; right; auto|left; auto|right; right; auto].
Qed.

Lemma usage_sum l : countb (fun c => 0 <? c) l <= sumN l.
Proof.
  unfold countb. induction l as [|x l IH]; cbn [filter length sumN fold_right]; [lia|]. fold (sumN l).
  destruct (N.ltb_spec 0 x); cbn [length]; lia.
Qed.

Lemma usage_split l : countb (fun c => 0 <? c) l = countb (fun c => 1 <? c) l + countb (fun c => c =? 1) l.
Proof.
  unfold countb. induction l as [|x l IH]; cbn [filter length]; [reflexivity|].
  destruct (N.ltb_spec 0 x), (N.ltb_spec 1 x), (N.eqb_spec x 1); cbn [length]; lia.
Qed.

Lemma analyzer_sound l size : N.of_nat (length l) < 2 ^ 64 -> size < 2 ^ 64 -> sumN l = size ->
  an_total l = size /\ an_start l = (0 <? size)
  /\ an_usage l = an_conflict l + an_perfect l /\ an_usage l <= size
  /\ an_unused size l + an_usage l = size
  /\ (forall c, In c l -> c <= an_max l) /\ (l <> [] -> In (an_max l) l \/ an_max l = 0).
Proof.
  intros HL HS E. pose proof (total_sum l ltac:(lia)) as T.
  pose proof (usage_sum l) as U.
  unfold an_start, an_unused, an_usage, an_conflict, an_perfect. rewrite !count_filter by auto. rewrite T, E.
  split; [reflexivity|]. split; [reflexivity|]. split; [apply usage_split|]. split; [lia|].
  split; [|apply max_spec]. rewrite wsub_small by (unfold two64; lia). lia.
Qed.

Section Tables.

Variables K V : Type.

Lemma ones_sum n : sumN (map (fun _ => 1) (seqN n)) = n.
Proof.
  assert (H : forall l : list N, sumN (map (fun _ => 1) l) = N.of_nat (length l)).
  { induction l as [|x l IH]; [reflexivity|]. cbn [map sumN fold_right length]. fold (sumN (map (fun _ : N => 1) l)). lia. }
  rewrite H, seqN_length. lia.
Qed.

Lemma wsub_under a b : a < b -> b < 2 ^ 64 -> wsub a b = 2 ^ 64 - (b - a).
Proof.
  intros. unfold wsub, w64, two64. change (2 ^ 64) with 18446744073709551616 in *.
  rewrite (N.mod_small b) by lia. rewrite N.mod_small; lia.
Qed.

(** Every bucket counts as one element, also the empty ones. *)
Lemma analyzer_of_table kd t : capacity K V kd t < 2 ^ 64 ->
  t_size _ _ t < capacity K V kd t ->
  let l := an_counts (bucket_size K V t) (bucket_count K V kd t) in
  an_total l = capacity K V kd t /\ an_total l <> t_size _ _ t
  /\ an_unused (t_size _ _ t) l = 2 ^ 64 - (capacity K V kd t - t_size _ _ t)
  /\ an_conflict l = 0 /\ an_max l = 1.
Proof.
  intros HC HS. cbv zeta. unfold an_counts, bucket_size, bucket_count.
  set (c := capacity K V kd t) in *. set (l := map (fun _ : N => 1) (seqN c)).
  assert (HL : N.of_nat (length l) = c) by (unfold l; rewrite map_length, seqN_length; lia).
  assert (H1 : forall x, In x l -> x = 1) by (unfold l; intros x Hx; apply in_map_iff in Hx; destruct Hx as (? & <- & _); auto).
  pose proof (ones_sum c) as HO. fold l in HO.
  assert (HT : an_total l = c) by (rewrite total_sum; lia).
  assert (HU : countb (fun c => 0 <? c) l = c /\ countb (fun c => 1 <? c) l = 0).
  { clear - HL H1. rewrite <- HL. unfold countb. clear HL. induction l as [|x l IH]; [auto|].
    cbn [filter length]. rewrite (H1 x) by (left; auto). cbn [N.ltb N.compare Pos.compare Pos.compare_cont length].
    destruct IH as [A Bq]; [intros y Hy; apply H1; right; auto|]. split; [lia|exact Bq]. }
  split; [exact HT|]. split; [lia|]. unfold an_unused, an_usage, an_conflict.
  rewrite !count_filter by lia. destruct HU as [-> ->].
  split; [apply wsub_under; auto|]. split; [reflexivity|].
  destruct (max_spec l) as [A Bq]. assert (HNE : l <> []) by (intros E; rewrite E in HL; cbn in HL; lia).
  destruct (Bq HNE) as [X|X]; [auto|]. clearbody l. destruct l as [|x l']; [congruence|].
  specialize (A x (or_introl eq_refl)). specialize (H1 x (or_introl eq_refl)). lia.
Qed.

End Tables.

Lemma small_facts kd : group_kind kd ->
  capacity N N kd (small kd) < 2 ^ 64 /\ t_size _ _ (small kd) < capacity N N kd (small kd).
Proof. intros [-> | ->]; vm_compute; auto. Qed.

Lemma buckets_wrong kd : group_kind kd ->
  exists t, built N N idhash N.eqb kd t /\ t_size _ _ t = 10
    /\ sumN (map (bucket_size N N t) (seqN (bucket_count N N kd t))) <> t_size _ _ t.
Proof.
  intros Hk. exists (small kd). split; [now apply small_built|].
  destruct Hk as [-> | ->]; vm_compute; (split; [reflexivity|discriminate]).
Qed.

Lemma analyzer_wrong kd : group_kind kd ->
  exists t, built N N idhash N.eqb kd t /\ t_size _ _ t = 10
    /\ an_total (an_counts (bucket_size N N t) (bucket_count N N kd t)) <> t_size _ _ t.
Proof.
  intros Hk. exists (small kd). split; [now apply small_built|].
  destruct Hk as [-> | ->]; vm_compute; (split; [reflexivity|discriminate]).
Qed.

Lemma analyzer_example :
  (forall kd, group_kind kd ->
   capacity N N kd (small kd) < 2 ^ 64 /\ t_size _ _ (small kd) < capacity N N kd (small kd))
  /\ sumN [3; 0; 1; 2] = 6 /\ an_usage [3; 0; 1; 2] = 3 /\ an_unused 6 [3; 0; 1; 2] = 3.
Proof. split; [exact small_facts|]. vm_compute. auto. Qed.

Lemma buckets_sum K V kd t :
  sumN (map (bucket_size K V t) (seqN (bucket_count K V kd t))) = capacity K V kd t.
Proof. exact (ones_sum _). Qed.
