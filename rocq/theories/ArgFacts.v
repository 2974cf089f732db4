(** What insertions leave of their arguments. *)
From Coq Require Import NArith ZArith List Bool Lia Permutation.
From Coq Require Import ZifyBool ZifyNat ZifyN.
From Verif Require Import Base BaseFacts BitsModel BitsFacts GroupModel GroupFacts
  TableModel TableInv TableFind TableInsert TableLoops TableCap TableOps IterModel IterFacts
  CopyModel CopyFacts MapSpec MapFacts RunModel Refine Progress ReachModel ReachFacts MapProps
  MapProps2 ArgModel ArgSpec.
Import ListNotations.
Open Scope N_scope.
Ltac Zify.zify_post_hook ::= Z.div_mod_to_equations.

Section Args.

Context {K V : Type} (hash : K -> N) (keq : K -> K -> bool).
Context (LW : lawful hash keq).
Context (gone_key : K -> K) (gone_value : V -> V).

Notation table := (table K V).
Notation content t := (elems (t_slots _ _ t)).
Notation has := (has K V keq).
Notation put_new := (put_new K V keq).
Notation left_pair := (left_pair K V gone_key gone_value).

Section Generic.

Context (kd : kind) (L : klaws kd).
Notation Inv0 := (@TableInv.Inv0 K V hash keq kd L).
Notation kof := (@TableCap.kof K V kd).
Notation w := (kl_w kd L).
Notation sidx := (slot_index kd).
Notation emplace_impl := (emplace_impl K V hash keq kd).
Notation emplace_pair := (emplace_pair K V hash keq kd gone_key gone_value).
Notation emplace_two := (emplace_two K V hash keq kd gone_key gone_value).
Notation emplace_ref := (emplace_ref K V hash keq kd).
Notation range_rounds := (range_rounds K V hash keq kd gone_key gone_value).
Notation find := (TableModel.find K V hash keq kd).

(** ** The outcome does not depend on the category *)

Lemma pair_outcome alloc c ck t kv :
  fst (emplace_pair alloc c ck t kv) = emplace_impl alloc false true t (fst kv) (snd kv).
Proof.
  unfold ArgModel.emplace_pair, TableModel.emplace_impl.
  destruct (find_or_insert K V hash keq kd alloc t (fst kv)) as [t1 [[gi p] b]|t1|e];
    cbn [obind fst]; auto.
  destruct b; auto. rewrite <- surjective_pairing.
  destruct (construct_at K V t1 (sidx gi p) kv); auto.
Qed.

Lemma pair_left alloc c ck t kv :
  snd (emplace_pair alloc c ck t kv)
  = match emplace_impl alloc false true t (fst kv) (snd kv) with
    | Ret _ (_, true) => match c with CConst => kv | _ => left_pair ck kv end
    | _ => kv
    end.
Proof.
  unfold ArgModel.emplace_pair, TableModel.emplace_impl.
  destruct (find_or_insert K V hash keq kd alloc t (fst kv)) as [t1 [[gi p] b]|t1|e];
    cbn [obind snd]; auto.
  destruct b; auto. rewrite <- surjective_pairing.
  destruct (construct_at K V t1 (sidx gi p) kv); auto.
Qed.

Lemma two_outcome alloc upd ck cv t k v :
  fst (emplace_two alloc upd ck cv t k v) = emplace_impl alloc upd true t k v.
Proof.
  unfold ArgModel.emplace_two, TableModel.emplace_impl.
  destruct (find_or_insert K V hash keq kd alloc t k) as [t1 [[gi p] b]|t1|e];
    cbn [obind fst]; auto.
  destruct b; [destruct (construct_at K V t1 (sidx gi p) (k, v)); auto|].
  destruct upd; auto. destruct (geti (t_slots _ _ t1) (sidx gi p)) as [[[k' v']|]|]; auto.
Qed.

Lemma two_left alloc upd ck cv t k v :
  snd (emplace_two alloc upd ck cv t k v)
  = match emplace_impl alloc upd true t k v with
    | Ret _ (_, true) => (left_of gone_key ck k, left_of gone_value cv v)
    | Ret _ (_, false) => (k, if upd then left_of gone_value cv v else v)
    | _ => (k, v)
    end.
Proof.
  unfold ArgModel.emplace_two, TableModel.emplace_impl.
  destruct (find_or_insert K V hash keq kd alloc t k) as [t1 [[gi p] b]|t1|e];
    cbn [obind snd]; auto.
  destruct b; [destruct (construct_at K V t1 (sidx gi p) (k, v)); auto|].
  destruct upd; auto. destruct (geti (t_slots _ _ t1) (sidx gi p)) as [[[k' v']|]|]; auto.
Qed.

Lemma two_left_stated alloc upd ck cv t k v :
  let rvalue c := match c with CRvalue => true | _ => false end in
  snd (emplace_two alloc upd ck cv t k v)
  = match emplace_impl alloc upd true t k v with
    | Ret _ (_, inserted) =>
        (if rvalue ck && inserted then gone_key k else k,
         if rvalue cv && (inserted || upd) then gone_value v else v)
    | _ => (k, v)
    end.
Proof.
  cbv zeta. rewrite two_left. destruct (emplace_impl alloc upd true t k v) as [t1 [i b]|t1|e]; auto.
  unfold left_of. destruct b, upd, ck, cv; reflexivity.
Qed.

Lemma pair_eq alloc c ck t kv :
  emplace_pair alloc c ck t kv =
  (emplace_impl alloc false true t (fst kv) (snd kv),
   match emplace_impl alloc false true t (fst kv) (snd kv) with
   | Ret _ (_, true) => match c with CConst => kv | _ => left_pair ck kv end
   | _ => kv
   end).
Proof.
  rewrite (surjective_pairing (emplace_pair alloc c ck t kv)).
  now rewrite pair_outcome, pair_left.
Qed.

(** One insertion, as the abstract map sees it. *)
Lemma emplace_step alloc t k v : alloc_ok alloc -> Inv0 t ->
  match emplace_impl alloc false true t k v with
  | Ret t' (i, b) => Inv0 t' /\ Permutation (content t') (put_new k v (content t))
                     /\ b = negb (has k (content t)) /\ (b = false -> t' = t)
  | Throw t' => t' = t /\ has k (content t) = false
  | Fail e => e = ELoop
  end.
Proof.
  intros HA I.
  pose proof (insert_ok hash keq kd L LW alloc false t k v HA I) as HI.
  cbv zeta in HI. cbn [step] in HI. unfold observe_ins in HI.
  destruct (emplace_spec hash keq kd L LW alloc false t k v HA I)
    as [(gi & p & kv & Ef & Hp & Ha & Hs & Hk & E)|(Habs & Ef & H)].
  - rewrite E. assert (Hh : has k (content t) = true).
    { apply has_true. exists kv. split; auto. apply In_elems. eauto. }
    split; auto. unfold MapSpec.put_new. rewrite Hh. auto.
  - pose proof (absent_has keq _ _ Habs) as Hh.
    destruct H as [(Hn & E)|(t1 & kk & HR & Hk & I1 & [(E & _)|(t2 & i & E & Hin)])]; rewrite E in *; auto.
    cbn [obind fst snd] in HI. destruct Hin as (I2 & SG & Hi & Hsl & _).
    unfold entry_at in HI. rewrite Hsl, geti_seti_eq in HI by (eapply geti_Some_lt; eauto).
    cbn [step_ok] in HI. destruct HI as (_ & HP & _). cbn [spec_step fst] in HP.
    rewrite Hh. split; auto. split; auto. split; auto. discriminate.
Qed.

Lemma find_has t k : Inv0 t -> (exists loc, find t k = Ok (Some loc)) <-> has k (content t) = true.
Proof.
  intros I. destruct (find_spec hash keq kd L LW t k I) as [(gi & p & kv & E & Ha & Hp & Hs & Hk)|[E Hab]];
    rewrite E.
  - split; [intros _|eauto]. apply has_true. exists kv. split; auto. apply In_elems. eauto.
  - split; [intros [loc [=]]|]. rewrite (absent_has keq _ _ Hab). discriminate.
Qed.

(** ** Ranges *)

Lemma rounds_present alloc ck n : alloc_ok alloc -> forall first t, Inv0 t ->
  has (fst first) (content t) = true ->
  range_rounds alloc ck n first t = (Ret t tt, first).
Proof.
  intros HA. induction n as [|n IH]; intros first t I Hh; cbn [ArgModel.range_rounds]; auto.
  rewrite pair_eq.
  destruct (emplace_present hash keq kd L LW alloc t (fst first) (snd first) HA I Hh) as [i ->].
  now apply IH.
Qed.

Lemma rounds_spec alloc ck n first t : alloc_ok alloc -> Inv0 t ->
  (forall k, gone_key (gone_key k) = gone_key k) -> (forall v, gone_value (gone_value v) = gone_value v) ->
  has (fst first) (content t) = false ->
  match range_rounds alloc ck (S n) first t with
  | (Ret t' _, first') =>
      first' = left_pair ck first /\ Inv0 t' /\
      Permutation (content t')
        (match n with
         | O => put_new (fst first) (snd first) (content t)
         | S _ => if ck then put_new (fst first) (snd first) (content t)
                  else put_new (gone_key (fst first)) (gone_value (snd first))
                         (put_new (fst first) (snd first) (content t))
         end)
  | (Throw _, _) => True
  | (Fail e, _) => e = ELoop
  end.
Proof.
  intros HA I GK GV Hh. cbn [ArgModel.range_rounds]. rewrite pair_eq.
  pose proof (emplace_step alloc t (fst first) (snd first) HA I) as H.
  destruct (emplace_impl alloc false true t (fst first) (snd first)) as [t1 [i b]|t1|e]; auto.
  destruct H as (I1 & P1 & -> & _). rewrite Hh. cbn [negb].
  assert (Hk1 : has (fst first) (content t1) = true).
  { rewrite (has_perm keq _ _ _ P1). unfold MapSpec.put_new. rewrite Hh.
    cbn. now rewrite (lw_refl _ _ LW). }
  destruct n as [|n]; [cbn [ArgModel.range_rounds]; auto|].
  destruct ck.
  - rewrite rounds_present; auto.
  - cbn [ArgModel.range_rounds]. rewrite pair_eq. cbn [ArgModel.left_pair fst snd].
    pose proof (emplace_step alloc t1 (gone_key (fst first)) (gone_value (snd first)) HA I1) as H2.
    destruct (emplace_impl alloc false true t1 (gone_key (fst first)) (gone_value (snd first)))
      as [t2 [j b]|t2|e]; auto.
    destruct H2 as (I2 & P2 & Hb & _).
    assert (Ef : (if b then left_pair false (gone_key (fst first), gone_value (snd first))
                  else (gone_key (fst first), gone_value (snd first)))
                 = (gone_key (fst first), gone_value (snd first))).
    { destruct b; auto. unfold ArgModel.left_pair. cbn [fst snd]. now rewrite GK, GV. }
    unfold ArgModel.left_pair in Ef. cbn [fst snd] in Ef. unfold ArgModel.left_pair. cbn [fst snd].
    rewrite Ef. rewrite rounds_present; auto.
    + split; auto. split; auto. rewrite P2. unfold MapSpec.put_new at 1 2.
      rewrite (has_perm keq _ _ _ P1).
      destruct (has (gone_key (fst first)) (put_new (fst first) (snd first) (content t))); auto.
    + cbn [fst]. rewrite (has_perm keq _ _ _ P2). unfold MapSpec.put_new.
      destruct (has (gone_key (fst first)) (content t1)) eqn:E; auto.
      cbn. now rewrite (lw_refl _ _ LW).
Qed.

(** The table's own insert(first, last). *)

Lemma put_new_perm k v m m' : Permutation m m' -> Permutation (put_new k v m) (put_new k v m').
Proof.
  intros P. unfold MapSpec.put_new. rewrite (has_perm keq _ _ _ P). destruct (has k m'); auto.
Qed.

Lemma put_all_perm l : forall m m', Permutation m m' ->
  Permutation (put_all K V keq l m) (put_all K V keq l m').
Proof. induction l as [|[k v] l IH]; intros m m' P; cbn [put_all]; auto. apply IH. now apply put_new_perm. Qed.

Lemma left_range_perm ck l : forall m m', Permutation m m' ->
  left_range K V keq gone_key gone_value ck m l = left_range K V keq gone_key gone_value ck m' l.
Proof.
  induction l as [|[k v] l IH]; intros m m' P; cbn [left_range]; auto.
  rewrite (has_perm keq _ _ _ P). f_equal. apply IH. now apply put_new_perm.
Qed.

Lemma table_range_spec alloc c ck l : alloc_ok alloc -> forall t, Inv0 t ->
  match table_range_insert K V hash keq kd gone_key gone_value alloc c ck l t with
  | (Ret t' _, l') =>
      Inv0 t' /\ Permutation (content t') (put_all K V keq l (content t))
      /\ l' = match c with CConst => l | _ => left_range K V keq gone_key gone_value ck (content t) l end
  | (Throw _, _) => True
  | (Fail e, _) => e = ELoop
  end.
Proof.
  intros HA. induction l as [|[k v] l IH]; intros t I; cbn [table_range_insert].
  - split; auto. split; auto. destruct c; auto.
  - rewrite pair_eq. cbn [fst snd].
    pose proof (emplace_step alloc t k v HA I) as H.
    destruct (emplace_impl alloc false true t k v) as [t1 [i b]|t1|e]; auto.
    destruct H as (I1 & P1 & -> & _). specialize (IH t1 I1).
    destruct (table_range_insert K V hash keq kd gone_key gone_value alloc c ck l t1)
      as [[t' u|t'|e] l']; auto.
    destruct IH as (I' & P' & ->). split; auto. cbn [put_all left_range]. split.
    + rewrite P'. now apply put_all_perm.
    + rewrite (left_range_perm ck l _ _ P1).
      destruct c; auto; destruct (has k (content t)); auto.
Qed.

(** ** References into the map *)

Lemma empty_slot_kept check t h t1 loc : find_empty_to_insert K V kd check t h = Ok (t1, loc) ->
  t_slots _ _ t1 = t_slots _ _ t /\ ctrl_capacity K V kd t1 = ctrl_capacity K V kd t.
Proof.
  unfold find_empty_to_insert. destruct (negb (t_alloc K V t)); [discriminate|].
  destruct (find_empty_loop kd _ _ _ _ _) as [[gs [gi p]]|e]; [|discriminate].
  intros [= <- <-]. cbn. split; reflexivity.
Qed.

Lemma ref_quiet alloc upd t k j k0 v0 : Inv0 t ->
  geti (t_slots _ _ t) j = Some (Some (k0, v0)) ->
  has k (content t) = true \/ need_grow K V t = false ->
  emplace_ref alloc upd t k j = emplace_impl alloc upd true t k v0.
Proof.
  intros I Hj H. unfold ArgModel.emplace_ref, TableModel.emplace_impl, find_or_insert.
  destruct (find t k) as [[[gi p]|]|e] eqn:Ef; cbn [obind]; auto.
  - rewrite N.eqb_refl, Hj. destruct upd; auto.
  - destruct H as [H|H].
    + apply (find_has t k I) in H. destruct H as [loc H]. congruence.
    + rewrite H. cbn [obind].
      destruct (find_empty_to_insert K V kd true t (hash k)) as [[t1 [gi p]]|e] eqn:Ee; cbn [obind]; auto.
      apply empty_slot_kept in Ee. destruct Ee as [Es Ec]. rewrite Ec, N.eqb_refl, Es, Hj. auto.
Qed.

Lemma ref_grow alloc upd t k j k0 v0 : alloc_ok alloc -> Inv0 t ->
  geti (t_slots _ _ t) j = Some (Some (k0, v0)) ->
  has k (content t) = false -> need_grow K V t = true ->
  emplace_ref alloc upd t k j =
  match emplace_impl alloc upd true t k v0 with Ret _ _ => Fail EUndef | r => r end.
Proof.
  intros HA I Hj Hh Hg. unfold ArgModel.emplace_ref, TableModel.emplace_impl, find_or_insert.
  destruct (find_spec hash keq kd L LW t k I) as [(gi & p & kv & E & Ha & Hp & Hs & Hk)|[E Hab]].
  { assert (has k (content t) = true); [|congruence].
    apply has_true. exists kv. split; auto. apply In_elems. eauto. }
  rewrite E, Hg.
  destruct (grow_spec hash keq kd L LW alloc t HA I) as [Eg|(nt & c & Eg & R & Hc & Hkc & _ & Hsz & _)];
    rewrite Eg; cbn [obind]; auto.
  assert (Ha : t_alloc _ _ t = true).
  { destruct (t_alloc _ _ t) eqn:Ea; auto. rewrite (iv_unalloc _ _ _ _ _ I Ea) in Hj.
    unfold geti in Hj. cbn in Hj. destruct (N.to_nat j); discriminate. }
  destruct (Inv0_kof hash keq kd L t I Ha) as [kk Hk]. pose proof (Hkc _ Hk) as ->.
  pose proof R as (In' & Hk' & _).
  destruct (find_empty_to_insert K V kd true nt (hash k)) as [[t1 [gi p]]|e] eqn:Ee; cbn [obind]; auto.
  apply empty_slot_kept in Ee. destruct Ee as [Es Ec].
  replace (ctrl_capacity K V kd t =? ctrl_capacity K V kd t1) with false.
  - unfold construct_at. destruct (geti (t_slots _ _ t1) (sidx gi p)) as [[e|]|]; reflexivity.
  - symmetry. apply N.eqb_neq. rewrite Ec, (ctrl_capacity_kof kd L t kk Hk).
    rewrite (ctrl_capacity_kof kd L nt _ Hk').
    intros Heq. apply N.pow_inj_r in Heq; lia.
Qed.

(** ** Assignment of a list *)

Lemma clear_stored t : Inv0 t -> t_alloc _ _ t = true \/ kd_sent kd = false ->
  exists t', clear K V kd false t = Ret t' tt /\ Inv0 t' /\ content t' = [].
Proof.
  intros I H. unfold clear. destruct (t_alloc _ _ t) eqn:Ea.
  - destruct (clear_data_alloc hash keq kd L t I Ea) as (t' & E & I' & _ & Hs & _).
    exists t'. rewrite E. split; auto. split; auto. now rewrite Hs, elems_repeat_None.
  - destruct H as [[=]|H]. rewrite (clear_data_unalloc hash keq kd L t I Ea), H.
    exists t. split; auto. split; auto. rewrite (iv_unalloc _ _ _ _ _ I Ea). reflexivity.
Qed.

End Generic.

(** ** Built maps *)

Context (kd : kind) (HK : group_kind kd).
Notation built := (built K V hash keq kd).
Notation traverse := (traverse K V kd).
Notation lookup := (lookup K V hash keq kd).
Notation emplace_pair := (emplace_pair K V hash keq kd gone_key gone_value).
Notation emplace_two := (emplace_two K V hash keq kd gone_key gone_value).
Notation idem f := (forall x, f (f x) = f x).

Lemma get_has k m : has k m = match get K V keq k m with Some _ => true | None => false end.
Proof.
  induction m as [|e m IH]; auto. cbn. unfold MapSpec.get in *. cbn.
  destruct (keq k (fst e)); auto.
Qed.

Lemma lookup_has (L : klaws kd) t k r : TableInv.Inv0 hash keq kd L t -> lookup t k = Ok r ->
  has k (content t) = match r with Some _ => true | None => false end.
Proof.
  intros I E. rewrite (lookup_correct hash keq kd L LW t k I) in E. injection E as <-.
  apply get_has.
Qed.

Lemma built_pair_present t e alloc c ck kv : built t -> sane alloc -> lookup t (fst kv) = Ok (Some e) ->
  exists i, emplace_pair alloc c ck t kv = (Ret t (i, false), kv).
Proof.
  intros B HA El. destruct (kind_laws kd HK) as [L R].
  pose proof (built_Inv0 hash keq kd L LW t R B) as I.
  apply (lookup_has L) in El; auto.
  destruct (emplace_present hash keq kd L LW alloc t (fst kv) (snd kv) HA I El) as [i E].
  exists i. rewrite pair_eq, E. reflexivity.
Qed.

Lemma built_pair_absent t t' r kv' alloc c ck kv : built t -> sane alloc -> lookup t (fst kv) = Ok None ->
  emplace_pair alloc c ck t kv = (Ret t' r, kv') ->
  kv' = match c with
        | CConst => kv
        | _ => (if ck then fst kv else gone_key (fst kv), gone_value (snd kv))
        end.
Proof.
  intros B HA El. destruct (kind_laws kd HK) as [L R].
  pose proof (built_Inv0 hash keq kd L LW t R B) as I.
  apply (lookup_has L) in El; auto.
  rewrite pair_eq. intros [= E <-].
  pose proof (emplace_step kd L alloc t (fst kv) (snd kv) HA I) as H. rewrite E in *.
  destruct r as [i b]. destruct H as (_ & _ & -> & _). rewrite El. reflexivity.
Qed.

Lemma built_pair_not_returned t alloc c ck kv :
  (forall t' r, fst (emplace_pair alloc c ck t kv) <> Ret t' r) -> snd (emplace_pair alloc c ck t kv) = kv.
Proof.
  rewrite pair_eq. cbn [fst snd].
  destruct (emplace_impl K V hash keq kd alloc false true t (fst kv) (snd kv)) as [t1 [i b]|t1|e]; auto.
  intros H. exfalso. eapply H. reflexivity.
Qed.

Lemma built_range_mut t t' e l l' alloc ck past : built t -> sane alloc -> idem gone_key -> idem gone_value ->
  range_insert_mut K V hash keq kd gone_key gone_value alloc ck (e :: l) t = (Ret t' tt, l') ->
  exists m m', traverse past t = Ok m /\ traverse past t' = Ok m' /\
    if has (fst e) m then m' = m /\ l' = e :: l
    else l' = (if ck then fst e else gone_key (fst e), gone_value (snd e)) :: l
      /\ Permutation m'
           (match l with
            | [] => put_new (fst e) (snd e) m
            | _ :: _ => if ck then put_new (fst e) (snd e) m
                        else put_new (gone_key (fst e)) (gone_value (snd e)) (put_new (fst e) (snd e) m)
            end).
Proof.
  intros B HA GK GV. destruct (kind_laws kd HK) as [L R].
  pose proof (built_Inv0 hash keq kd L LW t R B) as I. unfold range_insert_mut.
  destruct (has (fst e) (content t)) eqn:Eh.
  - rewrite (rounds_present kd L) by auto. intros [= <- <-].
    exists (content t), (content t). rewrite (traverse_spec hash keq kd L past t R I), Eh. auto.
  - cbn [length]. pose proof (rounds_spec kd L alloc ck (length l) e t HA I GK GV Eh) as H.
    destruct (range_rounds K V hash keq kd gone_key gone_value alloc ck (S (length l)) e t)
      as [[t1 u|t1|er] f]; try discriminate.
    intros [= <- _ <-]. destruct H as (-> & I' & P). exists (content t), (content t1).
    rewrite (traverse_spec hash keq kd L past t R I), (traverse_spec hash keq kd L past t1 R I'), Eh.
    split; auto. split; auto. split; auto. destruct l; exact P.
Qed.

Lemma built_table_range t t' l l' alloc c ck past : built t -> sane alloc ->
  table_range_insert K V hash keq kd gone_key gone_value alloc c ck l t = (Ret t' tt, l') ->
  exists m m', traverse past t = Ok m /\ traverse past t' = Ok m'
    /\ Permutation m' (put_all K V keq l m)
    /\ l' = match c with CConst => l | _ => left_range K V keq gone_key gone_value ck m l end.
Proof.
  intros B HA E. destruct (kind_laws kd HK) as [L R].
  pose proof (built_Inv0 hash keq kd L LW t R B) as I.
  pose proof (table_range_spec kd L alloc c ck l HA t I) as H. rewrite E in H.
  destruct H as (I' & P & H). exists (content t), (content t').
  rewrite (traverse_spec hash keq kd L past t R I), (traverse_spec hash keq kd L past t' R I'). auto.
Qed.

Lemma built_from_map src src' t t' i k v n alloc : built src -> built t -> sane alloc -> idem gone_value ->
  geti (t_slots _ _ src) i = Some (Some (k, v)) -> lookup t k = Ok None ->
  insert_from_map K V hash keq kd gone_key gone_value alloc (S n) src i t = (Ret t' tt, src') ->
  lookup src k = Ok (Some (k, v)) /\ lookup src' k = Ok (Some (k, gone_value v))
  /\ lookup t' k = Ok (Some (k, v)).
Proof.
  intros Bs B HA GV Hi El. destruct (kind_laws kd HK) as [L R].
  pose proof (built_Inv0 hash keq kd L LW t R B) as I.
  pose proof (built_Inv0 hash keq kd L LW src R Bs) as Is.
  apply (lookup_has L) in El; auto. unfold insert_from_map. rewrite Hi.
  cbn [ArgModel.range_rounds]. rewrite pair_eq. cbn [fst snd].
  pose proof (emplace_step kd L alloc t k v HA I) as H.
  destruct (emplace_impl K V hash keq kd alloc false true t k v) as [t1 [j b]|t1|e]; try discriminate.
  destruct H as (I1 & P1 & -> & _). rewrite El. cbn [negb]. unfold ArgModel.left_pair. cbn [fst snd].
  unfold MapSpec.put_new in P1. rewrite El in P1.
  rewrite (rounds_present kd L) by
    (auto; cbn [fst]; rewrite (has_perm keq _ _ _ P1); cbn; now rewrite (lw_refl _ _ LW)).
  intros [= <- <-].
  pose proof (set_slot_Inv0 hash keq kd L src i (k, v) (gone_value v) Is Hi) as Is'.
  unfold set_slot in Is'. cbn [fst] in Is'.
  rewrite (lookup_correct hash keq kd L LW src k Is), (lookup_correct hash keq kd L LW _ k Is'),
    (lookup_correct hash keq kd L LW _ k I1).
  split; [|split]; f_equal.
  - apply (slot_lookup hash keq kd L LW src i); auto. apply (lw_refl _ _ LW).
  - apply (slot_lookup hash keq kd L LW _ i); auto; [|apply (lw_refl _ _ LW)].
    cbn [t_slots]. apply geti_seti_eq. eapply geti_Some_lt; eauto.
  - assert (Hin : In (k, v) (content t1)) by (eapply Permutation_in; [symmetry; exact P1|left; auto]).
    apply In_elems in Hin. destruct Hin as [s Hs].
    apply (slot_lookup hash keq kd L LW t1 s); auto. apply (lw_refl _ _ LW).
Qed.

Lemma need_grow_full (t : table) : need_grow K V t = true <-> t_thr _ _ t <= t_size _ _ t.
Proof. unfold need_grow. apply N.leb_le. Qed.

Lemma built_ref_quiet t alloc upd k j k0 v0 : built t ->
  geti (t_slots _ _ t) j = Some (Some (k0, v0)) ->
  (exists e, lookup t k = Ok (Some e)) \/ t_size _ _ t < t_thr _ _ t ->
  emplace_ref K V hash keq kd alloc upd t k j = emplace_impl K V hash keq kd alloc upd true t k v0.
Proof.
  intros B Hj H. destruct (kind_laws kd HK) as [L R].
  pose proof (built_Inv0 hash keq kd L LW t R B) as I.
  apply (ref_quiet kd L) with (k0 := k0); auto. destruct H as [[e H]|H].
  - left. apply (lookup_has L) in H; auto.
  - right. destruct (need_grow K V t) eqn:E; auto. apply need_grow_full in E. lia.
Qed.

Lemma built_ref_grow t t' r alloc upd k j k0 v0 : built t -> sane alloc ->
  geti (t_slots _ _ t) j = Some (Some (k0, v0)) ->
  lookup t k = Ok None -> t_thr _ _ t <= t_size _ _ t ->
  emplace_impl K V hash keq kd alloc upd true t k v0 = Ret t' r ->
  emplace_ref K V hash keq kd alloc upd t k j = Fail EUndef.
Proof.
  intros B HA Hj El Hs E. destruct (kind_laws kd HK) as [L R].
  pose proof (built_Inv0 hash keq kd L LW t R B) as I.
  apply (lookup_has L) in El; auto. apply need_grow_full in Hs.
  rewrite (ref_grow kd L alloc upd t k j k0 v0 HA I Hj El Hs), E. reflexivity.
Qed.

Lemma built_assign_list t t' alloc e l past : built t -> sane alloc ->
  assign_list K V hash keq kd alloc (e :: l) t = Ret t' tt -> traverse past t' = Ok [e].
Proof.
  intros B HA. destruct (kind_laws kd HK) as [L R].
  pose proof (built_Inv0 hash keq kd L LW t R B) as I. unfold assign_list.
  assert (H : exists r, clear K V kd false t = r) by eauto. destruct H as [r Er]. rewrite Er.
  destruct (t_alloc _ _ t || negb (kd_sent kd)) eqn:Ea.
  - destruct (clear_stored kd L t I) as (t1 & E1 & I1 & Hc).
    { apply orb_prop in Ea. destruct Ea as [Ea|Ea]; auto. apply negb_true_iff in Ea. auto. }
    rewrite E1 in Er. subst r. cbn [obind]. intros E2.
    pose proof (range_insert_spec hash keq kd L LW alloc e l t1 HA I1) as H. rewrite E2 in H.
    destruct H as [I' P]. rewrite Hc in P. cbn in P.
    rewrite (traverse_spec hash keq kd L past t' R I').
    symmetry in P. apply Permutation_length_1_inv in P. rewrite P. now rewrite <- surjective_pairing.
  - apply orb_false_elim in Ea. destruct Ea as [Ea Es]. apply negb_false_iff in Es.
    unfold clear in Er. rewrite (clear_data_unalloc hash keq kd L t I Ea), Es in Er. cbn in Er.
    subst r. discriminate.
Qed.

End Args.

Lemma assign_list_nostorage K V (hash : K -> N) keq alloc (t : table K V) l :
  lawful hash keq -> built K V hash keq k15 t -> capacity K V k15 t = 0 ->
  assign_list K V hash keq k15 alloc l t = Fail EUndef.
Proof.
  intros LW B Hc. destruct (kind_laws k15 (or_introl eq_refl)) as [L R].
  pose proof (built_Inv0 hash keq k15 L LW t R B) as I.
  assert (Ea : t_alloc _ _ t = false).
  { destruct (t_alloc _ _ t) eqn:E; auto. exfalso.
    rewrite (capacity_slots hash keq k15 L t I) in Hc.
    destruct (Inv0_kof hash keq k15 L t I E) as (k & Hk). destruct Hk as (_ & _ & Hk1 & Hb & Hs).
    rewrite Hc in Hs. unfold TableInv.scap in Hs. cbn in Hs. pose proof (pow2_pos k). 
    assert (2 ^ 1 <= 2 ^ k) by (apply pow2_le; lia). change (2 ^ 1) with 2 in *. lia. }
  unfold assign_list, clear. rewrite (clear_data_unalloc hash keq k15 L t I Ea). reflexivity.
Qed.

Lemma ref_quiet_built K V (hash : K -> N) keq : lawful hash keq -> forall kd, group_kind kd ->
  forall (t : table K V) alloc upd k j k0 v0, built K V hash keq kd t ->
  geti (t_slots _ _ t) j = Some (Some (k0, v0)) ->
  (exists e, lookup K V hash keq kd t k = Ok (Some e)) \/ t_size _ _ t < t_thr _ _ t ->
  emplace_ref K V hash keq kd alloc upd t k j = emplace_impl K V hash keq kd alloc upd true t k v0.
Proof. intros LW kd HK. exact (built_ref_quiet hash keq LW (fun k => k) (fun v => v) kd HK). Qed.

Lemma ref_grow_built K V (hash : K -> N) keq : lawful hash keq -> forall kd, group_kind kd ->
  forall (t : table K V) t' r alloc upd k j k0 v0, built K V hash keq kd t -> sane alloc ->
  geti (t_slots _ _ t) j = Some (Some (k0, v0)) ->
  lookup K V hash keq kd t k = Ok None -> t_thr _ _ t <= t_size _ _ t ->
  emplace_impl K V hash keq kd alloc upd true t k v0 = Ret t' r ->
  emplace_ref K V hash keq kd alloc upd t k j = Fail EUndef.
Proof. intros LW kd HK. exact (built_ref_grow hash keq LW (fun k => k) (fun v => v) kd HK). Qed.
