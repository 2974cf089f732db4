(** Proofs about the sprintf functions of FormatModel.v. *)
From Coq Require Import NArith ZArith List Bool Lia ZifyBool ZifyNat ZifyN.
From Verif Require Import Base BitsModel FormatModel FormatSpec FormatFacts.
Import ListNotations.
Open Scope N_scope.

Definition show (i : item) : list N :=
  match i with
  | Text c => [c] | Percent => [37] | Dec _ z | Uns _ z => decimalZ z
  end.
Definition shown (l : list item) : list N := flat_map show l.

Lemma prints_shown : forall l, prints l (shown l).
Proof.
  intros l. exists (map show l). split.
  - induction l as [|i l IH]; cbn [map]; constructor; [|exact IH].
    destruct i; cbn [item_prints show]; try reflexivity; apply decimalZ_numeral.
  - unfold shown. apply flat_map_concat_map.
Qed.

Lemma prints_only : forall l s, prints l s -> s = shown l.
Proof.
  intros l s (parts & F & ->). unfold shown. induction F as [|i p l parts H F IH]; [reflexivity|].
  cbn [concat flat_map]. rewrite IH. f_equal.
  destruct i; cbn [item_prints show] in *; try exact H; apply numeralZ_decimal; exact H.
Qed.

Lemma to_s32_id : forall z, (- 2 ^ 31 < z < 2 ^ 31)%Z -> to_s32 z = z.
Proof.
  intros z H. unfold to_s32. change (2 ^ 32)%Z with 4294967296%Z.
  change (2 ^ 31)%Z with 2147483648%Z in *. rewrite Z.mod_small by lia. lia.
Qed.

Lemma to_u32_id : forall z, (0 <= z < 2 ^ 32)%Z -> to_u32 z = Z.to_N z.
Proof. intros z H. unfold to_u32. rewrite Z.mod_small by exact H. reflexivity. Qed.

Lemma not_float : forall t, t <> A_float -> is_float t = false.
Proof. intros [] H; try reflexivity. congruence. Qed.

Lemma handle_text_dec : forall str t z fmt, t <> A_float -> (- 2 ^ 31 < z < 2 ^ 31)%Z ->
  handle_text 1 str (Arg t z) (100 :: fmt) = Ok (str ++ decimalZ z, CDone fmt tt).
Proof.
  intros str t z fmt T H. unfold handle_text. cbn [spec_kind taken a_type a_val].
  rewrite (not_float t T). cbn [negb]. rewrite to_s32_id by exact H. rewrite itoa_i32_ok by exact H.
  reflexivity.
Qed.

Lemma decimalZ_nonneg : forall z, (0 <= z)%Z -> decimalZ z = decimal (Z.to_N z).
Proof. intros z H. unfold decimalZ. replace (0 <=? z)%Z with true by lia. reflexivity. Qed.

Lemma handle_text_uns : forall str t z fmt, t <> A_float -> (0 <= z < 2 ^ 32)%Z ->
  handle_text 1 str (Arg t z) (117 :: fmt) = Ok (str ++ decimalZ z, CDone fmt tt).
Proof.
  intros str t z fmt T H. unfold handle_text. cbn [spec_kind taken a_type a_val].
  rewrite (not_float t T). cbn [negb]. rewrite to_u32_id by exact H.
  rewrite itoa_u32_ok by (change (2 ^ 32)%Z with 4294967296%Z in H; change (2 ^ 32) with 4294967296; lia).
  cbn [rbind]. rewrite decimalZ_nonneg by lia. reflexivity.
Qed.

(** * sprintf_no_prepare *)

Definition plain_at (csz : N) (args : list arg) (str fmt seg : list N) : out (list N) unit :=
  match args with
  | [] => plain0 str fmt seg
  | a :: args' => plain1 csz a (plain csz args') str fmt seg
  end.

Lemma plain_at_start : forall csz args str fmt, plain csz args str fmt = plain_at csz args str fmt [].
Proof. intros csz [|a args] str fmt; reflexivity. Qed.

Lemma plain_at_text : forall csz args str c fmt seg, c <> 37 ->
  plain_at csz args str (c :: fmt) seg = plain_at csz args str fmt (seg ++ [c]).
Proof.
  intros csz args str c fmt seg H. destruct args; cbn [plain_at plain0 plain1];
    replace (c =? pct) with false by (unfold pct; lia); reflexivity.
Qed.

Lemma plain_at_percent : forall csz args str fmt seg,
  plain_at csz args str (37 :: 37 :: fmt) seg = plain_at csz args (str ++ seg ++ [37]) fmt [].
Proof. intros csz args str fmt seg. destruct args; reflexivity. Qed.

Lemma plain_at_spec : forall csz a args str sp fmt seg s fmt3, sp <> 37 ->
  handle_text csz (str ++ seg) a (sp :: fmt) = Ok (s, CDone fmt3 tt) ->
  plain_at csz (a :: args) str (37 :: sp :: fmt) seg = plain_at csz args s fmt3 [].
Proof.
  intros csz a args str sp fmt seg s fmt3 H E. cbn [plain_at plain1].
  change (37 =? pct) with true. cbv iota. replace (sp =? pct) with false by (unfold pct; lia).
  rewrite E. apply plain_at_start.
Qed.

Lemma plain_items : forall l extra str seg, Forall item_ok l ->
  plain_at 1 (args_of l ++ extra) str (format_of l) seg = Ret (str ++ seg ++ shown l) tt.
Proof.
  unfold args_of, format_of, shown.
  induction l as [|i l IH]; intros extra str seg F.
  - cbn [flat_map app]. rewrite app_nil_r. destruct extra; reflexivity.
  - inversion F as [|? ? Hi Hl]; subst. cbn [flat_map].
    destruct i as [c| |t z|t z]; cbn [item_args item_format show app item_ok] in *.
    + rewrite plain_at_text by tauto. rewrite IH by exact Hl. rewrite <- !app_assoc. reflexivity.
    + rewrite plain_at_percent. rewrite IH by exact Hl. rewrite <- !app_assoc. reflexivity.
    + rewrite (plain_at_spec 1 _ _ _ 100 _ seg ((str ++ seg) ++ decimalZ z) (flat_map item_format l)).
      * rewrite IH by exact Hl. rewrite <- !app_assoc. reflexivity.
      * discriminate.
      * apply handle_text_dec; tauto.
    + rewrite (plain_at_spec 1 _ _ _ 117 _ seg ((str ++ seg) ++ decimalZ z) (flat_map item_format l)).
      * rewrite IH by exact Hl. rewrite <- !app_assoc. reflexivity.
      * discriminate.
      * apply handle_text_uns; tauto.
Qed.

Lemma wsub_app : forall a b, wsub (a + b) a = b mod 2 ^ 64.
Proof.
  intros a b. unfold wsub, w64. change two64 with (2 ^ 64).
  assert (a mod 2 ^ 64 < 2 ^ 64) as B by (apply N.mod_lt; discriminate).
  pose proof (N.div_mod a (2 ^ 64) ltac:(discriminate)) as D.
  remember (a mod 2 ^ 64) as r. remember (a / 2 ^ 64) as q. remember (2 ^ 64) as m.
  replace (a + b + (m - r)) with (b + (q + 1) * m) by (rewrite D; clear - B; nia).
  apply N.mod_add. lia.
Qed.

Lemma no_prepare_ok : forall l extra str s, Forall item_ok l -> prints l s ->
  sprintf_no_prepare 1 str (Some (format_of l)) (args_of l ++ extra)
  = Ret (str ++ s) (N.of_nat (length s) mod 2 ^ 64).
Proof.
  intros l extra str s F P. apply prints_only in P. subst s. unfold sprintf_no_prepare.
  rewrite plain_at_start, plain_items by exact F. cbn [obind app].
  rewrite app_length, Nat2N.inj_add, wsub_app. reflexivity.
Qed.

(** * The length before printing *)

Lemma zsize_add : forall a b, zsize (a + Z.of_N (zsize b)) = zsize (a + b).
Proof.
  intros a b. unfold zsize. rewrite Z2N.id by (apply Z.mod_pos_bound; reflexivity).
  rewrite Z.add_mod_idemp_r by discriminate. reflexivity.
Qed.

Lemma handle_size_dec : forall t z fmt, t <> A_float -> (- 2 ^ 31 < z < 2 ^ 31)%Z ->
  handle_size (Arg t z) (100 :: fmt) = Ok (CDone fmt (N.of_nat (length (decimalZ z)))).
Proof.
  intros t z fmt T H. unfold handle_size. cbn [spec_kind taken a_type a_val].
  rewrite (not_float t T). cbn [negb]. rewrite to_s32_id by exact H. rewrite count_digits_i32_ok by exact H.
  cbn [rbind]. do 2 f_equal.
  assert (Z.to_N (Z.abs z) < 2 ^ 32) as B
    by (change (2 ^ 31)%Z with 2147483648%Z in H; change (2 ^ 32) with 4294967296; lia).
  pose proof (digits_u32 _ B) as D. pose proof (decimalZ_length z) as L. unfold zlen, neg1 in *.
  rewrite zsize_small; [lia|]. change (2 ^ 64)%Z with 18446744073709551616%Z.
  destruct (z <? 0)%Z; lia.
Qed.

Lemma handle_size_uns : forall t z fmt, t <> A_float -> (0 <= z < 2 ^ 32)%Z ->
  handle_size (Arg t z) (117 :: fmt) = Ok (CDone fmt (N.of_nat (length (decimalZ z)))).
Proof.
  intros t z fmt T H. unfold handle_size. cbn [spec_kind taken a_type a_val].
  rewrite (not_float t T). cbn [negb]. rewrite to_u32_id by exact H.
  assert (Z.to_N z < 2 ^ 32) as B
    by (change (2 ^ 32)%Z with 4294967296%Z in H; change (2 ^ 32) with 4294967296; lia).
  rewrite count_digits_u32_ok by exact B. cbn [rbind]. rewrite decimalZ_nonneg by lia.
  pose proof (digits_u32 _ B) as D. unfold zlen. rewrite zsize_small; [do 2 f_equal; lia|].
  change (2 ^ 64)%Z with 18446744073709551616%Z. lia.
Qed.

Definition calc_at (args : list arg) (fmt : list N) (scan rest : Z) : res (option N) :=
  match args with
  | [] => Ok (calc0 fmt scan rest)
  | a :: args' => calc1 a (calc_space args') fmt scan rest
  end.

Lemma calc_at_start : forall args fmt, calc_space args fmt = calc_at args fmt 0 0.
Proof. intros [|a args] fmt; reflexivity. Qed.

Lemma calc_at_text : forall args c fmt scan rest, c <> 37 ->
  calc_at args (c :: fmt) scan rest = calc_at args fmt (scan + 1) rest.
Proof.
  intros args c fmt scan rest H. destruct args; cbn [calc_at calc0 calc1];
    replace (c =? pct) with false by (unfold pct; lia); reflexivity.
Qed.

Lemma calc_at_percent : forall args fmt scan rest,
  calc_at args (37 :: 37 :: fmt) scan rest = calc_at args fmt (scan + 2) (rest - 1).
Proof. intros args fmt scan rest. destruct args; reflexivity. Qed.

Lemma calc_at_spec : forall a args sp fmt scan rest n m, sp <> 37 ->
  handle_size a (sp :: fmt) = Ok (CDone fmt n) -> calc_at args fmt 0 0 = Ok (Some (zsize m)) ->
  calc_at (a :: args) (37 :: sp :: fmt) scan rest = Ok (Some (zsize (scan + rest + Z.of_N n + m))).
Proof.
  intros a args sp fmt scan rest n m H E R. cbn [calc_at calc1].
  change (37 =? pct) with true. cbv iota. replace (sp =? pct) with false by (unfold pct; lia).
  rewrite E. cbn [rbind]. rewrite calc_at_start, R. cbn [rbind]. do 2 f_equal.
  rewrite Z.add_assoc. rewrite zsize_add. f_equal. lia.
Qed.

Lemma calc_items : forall l extra scan rest, Forall item_ok l ->
  calc_at (args_of l ++ extra) (format_of l) scan rest = Ok (Some (zsize (scan + rest + zlen (shown l)))).
Proof.
  unfold args_of, format_of, shown.
  induction l as [|i l IH]; intros extra scan rest F.
  - cbn [flat_map app]. unfold zlen. cbn [length Z.of_nat]. rewrite Z.add_0_r. destruct extra; reflexivity.
  - inversion F as [|? ? Hi Hl]; subst. cbn [flat_map].
    destruct i as [c| |t z|t z]; cbn [item_args item_format show app item_ok] in *.
    + rewrite calc_at_text by tauto. rewrite IH by exact Hl. do 3 f_equal. unfold zlen. cbn [length]. lia.
    + rewrite calc_at_percent. rewrite IH by exact Hl. do 3 f_equal. unfold zlen. cbn [length]. lia.
    + rewrite (calc_at_spec _ _ 100 _ scan rest (N.of_nat (length (decimalZ z))) (0 + 0 + zlen (flat_map show l))).
      * do 3 f_equal. rewrite zlen_app. unfold zlen. lia.
      * discriminate.
      * apply handle_size_dec; tauto.
      * apply IH. exact Hl.
    + rewrite (calc_at_spec _ _ 117 _ scan rest (N.of_nat (length (decimalZ z))) (0 + 0 + zlen (flat_map show l))).
      * do 3 f_equal. rewrite zlen_app. unfold zlen. lia.
      * discriminate.
      * apply handle_size_uns; tauto.
      * apply IH. exact Hl.
Qed.

Lemma zsize_len : forall A (s : list A), zsize (zlen s) = N.of_nat (length s) mod 2 ^ 64.
Proof.
  intros A s. unfold zsize, zlen. rewrite Z2N.inj_mod by lia.
  rewrite <- nat_N_Z, N2Z.id. reflexivity.
Qed.

Lemma calc_space_ok : forall l extra s, Forall item_ok l -> prints l s ->
  calc_space (args_of l ++ extra) (format_of l) = Ok (Some (N.of_nat (length s) mod 2 ^ 64)).
Proof.
  intros l extra s F P. apply prints_only in P. subst s. rewrite calc_at_start, calc_items by exact F.
  do 2 f_equal. rewrite <- zsize_len. reflexivity.
Qed.

(** * sprintf_direct *)

Definition prep_at (args : list arg) (fmt seg : list N) (rest : Z) (nodes : list node)
  : res (list node * option N) :=
  match args with
  | [] => Ok (prep0 fmt seg rest nodes)
  | a :: args' => prep1 a (prepare_space args') fmt seg rest nodes
  end.

Lemma prep_at_start : forall args fmt nodes, prepare_space args fmt nodes = prep_at args fmt [] 0 nodes.
Proof. intros [|a args] fmt nodes; reflexivity. Qed.

Lemma prep_at_text : forall args c fmt seg rest nodes, c <> 37 ->
  prep_at args (c :: fmt) seg rest nodes = prep_at args fmt (seg ++ [c]) rest nodes.
Proof.
  intros args c fmt seg rest nodes H. destruct args; cbn [prep_at prep0 prep1];
    replace (c =? pct) with false by (unfold pct; lia); reflexivity.
Qed.

Lemma prep_at_spec : forall a args sp fmt seg rest nodes n m nodes2, sp <> 37 ->
  handle_size a (sp :: fmt) = Ok (CDone fmt n) ->
  prep_at args fmt [] 0 (nodes ++ [Node seg true n]) = Ok (nodes2, Some (zsize m)) ->
  prep_at (a :: args) (37 :: sp :: fmt) seg rest nodes
  = Ok (nodes2, Some (zsize (zlen seg + rest + Z.of_N n + m))).
Proof.
  intros a args sp fmt seg rest nodes n m nodes2 H E R. cbn [prep_at prep1].
  change (37 =? pct) with true. cbv iota. replace (sp =? pct) with false by (unfold pct; lia).
  rewrite E. cbn [rbind]. rewrite prep_at_start, R. cbn [rbind]. do 3 f_equal.
  rewrite Z.add_assoc. rewrite zsize_add. f_equal. lia.
Qed.

Fixpoint nodes_of (seg : list N) (l : list item) : list node :=
  match l with
  | [] => match seg with [] => [] | _ => [Node seg false 0] end
  | Text c :: l' => nodes_of (seg ++ [c]) l'
  | Percent :: l' => nodes_of (seg ++ [37]) l'
  | Dec _ z :: l' | Uns _ z :: l' => Node seg true (N.of_nat (length (decimalZ z))) :: nodes_of [] l'
  end.

Lemma prep_items : forall l seg rest nodes, Forall item_plain l ->
  prep_at (args_of l) (format_of l) seg rest nodes
  = Ok (nodes ++ nodes_of seg l, Some (zsize (zlen seg + rest + zlen (shown l)))).
Proof.
  unfold args_of, format_of, shown.
  induction l as [|i l IH]; intros seg rest nodes F.
  - cbn [flat_map app prep_at prep0 nodes_of]. unfold zlen. cbn [length Z.of_nat]. rewrite Z.add_0_r.
    destruct seg; [rewrite app_nil_r|]; reflexivity.
  - inversion F as [|? ? Hi Hl]; subst. cbn [flat_map].
    destruct i as [c| |t z|t z]; unfold item_plain in Hi;
      cbn [item_args item_format show app item_ok nodes_of] in *.
    + rewrite prep_at_text by tauto. rewrite IH by exact Hl. do 4 f_equal.
      rewrite zlen_app. unfold zlen. cbn [length]. lia.
    + tauto.
    + rewrite (prep_at_spec _ _ 100 _ seg rest nodes (N.of_nat (length (decimalZ z)))
                 (zlen (@nil N) + 0 + zlen (flat_map show l))
                 ((nodes ++ [Node seg true (N.of_nat (length (decimalZ z)))]) ++ nodes_of [] l)).
      * rewrite <- app_assoc. cbn [app]. do 4 f_equal. rewrite zlen_app. unfold zlen. cbn [length]. lia.
      * discriminate.
      * apply handle_size_dec; tauto.
      * apply IH. exact Hl.
    + rewrite (prep_at_spec _ _ 117 _ seg rest nodes (N.of_nat (length (decimalZ z)))
                 (zlen (@nil N) + 0 + zlen (flat_map show l))
                 ((nodes ++ [Node seg true (N.of_nat (length (decimalZ z)))]) ++ nodes_of [] l)).
      * rewrite <- app_assoc. cbn [app]. do 4 f_equal. rewrite zlen_app. unfold zlen. cbn [length]. lia.
      * discriminate.
      * apply handle_size_uns; tauto.
      * apply IH. exact Hl.
Qed.

Lemma direct_items : forall l seg str, Forall item_plain l ->
  exists n, direct_output 1 str (nodes_of seg l) (args_of l) = Ret (str ++ seg ++ shown l) n.
Proof.
  unfold args_of, shown.
  induction l as [|i l IH]; intros seg str F.
  - cbn [flat_map nodes_of]. destruct seg as [|c seg].
    + exists 0. cbn [direct_output app]. rewrite app_nil_r. reflexivity.
    + exists (N.of_nat (length (c :: seg))). rewrite app_nil_r. reflexivity.
  - inversion F as [|? ? Hi Hl]; subst.
    destruct i as [c| |t z|t z]; unfold item_plain in Hi;
      cbn [flat_map item_args show app item_ok nodes_of] in *.
    + destruct (IH (seg ++ [c]) str Hl) as [n E]. exists n. rewrite E. rewrite <- !app_assoc. reflexivity.
    + tauto.
    + destruct Hi as [Hi ->]. cbn [direct_output n_arg n_text n_size itoad a_type a_val].
      unfold itoad. cbn [a_type a_val].
      rewrite itoad_i32_ok by tauto. cbn [obind].
      destruct (IH [] ((str ++ seg) ++ decimalZ z) Hl) as [n E]. rewrite E. cbn [obind]. eexists.
      f_equal. rewrite <- !app_assoc. reflexivity.
    + destruct Hi as [Hi ->]. cbn [direct_output n_arg n_text n_size].
      unfold itoad. cbn [a_type a_val]. rewrite decimalZ_nonneg by tauto.
      rewrite itoad_u32_ok by (destruct Hi as [_ Hi]; change (2 ^ 32)%Z with 4294967296%Z in Hi;
                               change (2 ^ 32) with 4294967296; lia).
      cbn [obind].
      destruct (IH [] ((str ++ seg) ++ decimal (Z.to_N z)) Hl) as [n E]. rewrite E. cbn [obind]. eexists.
      f_equal. rewrite <- !app_assoc. reflexivity.
Qed.

Lemma direct_ok : forall l str s, Forall item_plain l -> prints l s ->
  sprintf_direct 1 str (Some (format_of l)) (args_of l) = Ret (str ++ s) (N.of_nat (length s) mod 2 ^ 64).
Proof.
  intros l str s F P. apply prints_only in P. subst s. unfold sprintf_direct.
  rewrite prep_at_start, prep_items by exact F. cbn [app].
  destruct (direct_items l [] str F) as [n E]. rewrite E. cbn [obind app].
  f_equal. unfold zlen at 1. cbn [length Z.of_nat Z.add]. apply zsize_len.
Qed.

(** * sprintf *)

Definition no_zero (t : list N) : Prop := Forall (fun c => c <> 0) t.
Definition node_good (n : node) : Prop := no_zero (n_text n) /\ (n_arg n = false -> n_text n <> []).

Lemma handle_size_suffix : forall a fmt fmt3 n, handle_size a fmt = Ok (CDone fmt3 n) ->
  no_zero fmt -> no_zero fmt3.
Proof.
  intros a fmt fmt3 n E Z. destruct fmt as [|sp rest]; [discriminate|].
  assert (fmt3 = rest \/ fmt3 = sp :: rest) as [->| ->]; [|inversion Z; assumption|assumption].
  unfold handle_size in E.
  destruct (spec_kind sp); try discriminate; destruct (taken _ (a_type a)) eqn:T;
    try (injection E as <- <-; auto; fail); try discriminate T.
  - left. destruct (count_digits_i32 0 (to_s32 (a_val a))); cbn [rbind] in E; [|discriminate].
    injection E as <- <-. reflexivity.
  - left. destruct (count_digits_u32 0 (to_u32 (a_val a))); cbn [rbind] in E; [|discriminate].
    injection E as <- <-. reflexivity.
Qed.

Lemma good_snoc : forall nodes n, Forall node_good nodes -> node_good n -> Forall node_good (nodes ++ [n]).
Proof. intros. apply Forall_app. split; [assumption|]. constructor; [assumption|constructor]. Qed.

Lemma no_zero_snoc : forall t c, no_zero t -> c <> 0 -> no_zero (t ++ [c]).
Proof. intros. apply Forall_app. split; [assumption|]. constructor; [assumption|constructor]. Qed.

Lemma good_text : forall seg, no_zero seg -> seg <> [] -> node_good (Node seg false 0).
Proof. intros. split; [assumption|]. intros _. assumption. Qed.

Lemma app_snoc_nil : forall A (s : list A) x, s ++ [x] <> [].
Proof. intros A s x. destruct s; discriminate. Qed.

Lemma prep0_good : forall k fmt, (length fmt <= k)%nat -> forall seg rest nodes nodes2 r,
  no_zero fmt -> no_zero seg -> Forall node_good nodes ->
  prep0 fmt seg rest nodes = (nodes2, r) -> Forall node_good nodes2.
Proof.
  induction k as [|k IH]; intros fmt Lk seg rest nodes nodes2 r Zf Zs G E.
  - destruct fmt; [|cbn [length] in Lk; lia]. cbn [prep0] in E. injection E as <- <-.
    destruct seg; [exact G|]. apply good_snoc; [exact G|]. apply good_text; [exact Zs|discriminate].
  - destruct fmt as [|c fmt1].
    + cbn [prep0] in E. injection E as <- <-.
      destruct seg; [exact G|]. apply good_snoc; [exact G|]. apply good_text; [exact Zs|discriminate].
    + cbn [prep0] in E. inversion Zf as [|? ? Zc Zf1]; subst. cbn [length] in Lk.
      destruct (c =? pct).
      * destruct fmt1 as [|c2 fmt2]; [injection E as <- <-; exact G|].
        inversion Zf1; subst. cbn [length] in Lk.
        destruct (c2 =? pct); [|injection E as <- <-; exact G].
        eapply (IH fmt2); [lia|assumption|constructor| |exact E].
        apply good_snoc; [exact G|]. apply good_text; [|apply app_snoc_nil].
        apply no_zero_snoc; [exact Zs|discriminate].
      * eapply (IH fmt1); [lia|assumption| |exact G|exact E]. apply no_zero_snoc; assumption.
Qed.

Lemma prep1_good : forall a next,
  (forall fmt nodes nodes2 r, no_zero fmt -> Forall node_good nodes ->
     next fmt nodes = Ok (nodes2, r) -> Forall node_good nodes2) ->
  forall k fmt, (length fmt <= k)%nat -> forall seg rest nodes nodes2 r,
  no_zero fmt -> no_zero seg -> Forall node_good nodes ->
  prep1 a next fmt seg rest nodes = Ok (nodes2, r) -> Forall node_good nodes2.
Proof.
  intros a next NX. induction k as [|k IH]; intros fmt Lk seg rest nodes nodes2 r Zf Zs G E.
  - destruct fmt; [|cbn [length] in Lk; lia]. cbn [prep1] in E. injection E as <- <-.
    destruct seg; [exact G|]. apply good_snoc; [exact G|]. apply good_text; [exact Zs|discriminate].
  - destruct fmt as [|c fmt1].
    + cbn [prep1] in E. injection E as <- <-.
      destruct seg; [exact G|]. apply good_snoc; [exact G|]. apply good_text; [exact Zs|discriminate].
    + cbn [prep1] in E. inversion Zf as [|? ? Zc Zf1]; subst. cbn [length] in Lk.
      assert (node_good (Node [pct] false 0)) as GP.
      { apply good_text; [|discriminate]. constructor; [discriminate|constructor]. }
      destruct (c =? pct).
      * destruct fmt1 as [|c2 fmt2].
        { cbn [handle_size rbind] in E. injection E as <- <-. apply good_snoc; assumption. }
        inversion Zf1; subst. cbn [length] in Lk.
        destruct (c2 =? pct).
        { eapply (IH fmt2); [lia|assumption|constructor| |exact E].
          apply good_snoc; [exact G|]. apply good_text; [|apply app_snoc_nil].
          apply no_zero_snoc; [exact Zs|discriminate]. }
        destruct (handle_size a (c2 :: fmt2)) as [cd|e] eqn:Hs; cbn [rbind] in E; [|discriminate].
        destruct cd as [fmt3 n| |].
        { destruct (next fmt3 (nodes ++ [Node seg true n])) as [[nodes3 r3]|e] eqn:En;
            cbn [rbind] in E; [|discriminate].
          assert (nodes3 = nodes2) as <- by (destruct r3; congruence).
          eapply NX; [|  |exact En].
          - eapply handle_size_suffix; [exact Hs|exact Zf1].
          - apply good_snoc; [exact G|]. split; [exact Zs|]. cbn [n_arg]. discriminate. }
        { injection E as <- <-. apply good_snoc; assumption. }
        { injection E as <- <-. exact G. }
      * eapply (IH fmt1); [lia|assumption| |exact G|exact E]. apply no_zero_snoc; assumption.
Qed.

Lemma prepare_good : forall args fmt nodes nodes2 r, no_zero fmt -> Forall node_good nodes ->
  prepare_space args fmt nodes = Ok (nodes2, r) -> Forall node_good nodes2.
Proof.
  induction args as [|a args IH]; intros fmt nodes nodes2 r Z G E; cbn [prepare_space] in E.
  - assert (prep0 fmt [] 0 nodes = (nodes2, r)) as E0 by congruence.
    eapply prep0_good; [apply Nat.le_refl| | | |exact E0]; [assumption|constructor|assumption].
  - eapply prep1_good; [exact IH|apply Nat.le_refl| | | |exact E]; [assumption|constructor|assumption].
Qed.

(** The end of a view is never inside the string. *)
Definition beyond (w : window) : Prop := N.of_nat (length (w_mem w)) <= w_data w + w_size w.

Lemma upd_length : forall A (l : list A) n x, length (upd l n x) = length l.
Proof. induction l as [|a l IH]; intros [|n] x; cbn [upd length]; try reflexivity. rewrite IH. reflexivity. Qed.

Lemma w_store_same : forall w i c w', w_store w i c = Ok w' ->
  length (w_mem w') = length (w_mem w) /\ w_data w' = w_data w /\ w_size w' = w_size w.
Proof.
  intros w i c w' E. unfold w_store in E.
  destruct ((0 <=? i)%Z && (i <? Z.of_nat (length (w_mem w)))%Z).
  - injection E as <-. cbn [w_mem w_data w_size]. rewrite upd_length. auto.
  - destruct ((i =? Z.of_nat (length (w_mem w)))%Z && (c =? 0)); [|discriminate]. injection E as <-. auto.
Qed.

Lemma w_push_bad : forall w c, beyond w -> c <> 0 -> w_push w c = Err EUndef.
Proof.
  intros w c B C. unfold w_push, w_store, beyond in *.
  replace ((0 <=? Z.of_N (w_data w + w_size w))%Z && (Z.of_N (w_data w + w_size w) <? Z.of_nat (length (w_mem w)))%Z)
    with false by lia.
  replace (c =? 0) with false by lia. rewrite andb_false_r. reflexivity.
Qed.

Lemma w_append_bad : forall w t, beyond w -> no_zero t -> t <> [] -> w_append w t = Err EUndef.
Proof.
  intros w [|c t] B Z H; [congruence|]. inversion Z; subst. cbn [w_append].
  rewrite w_push_bad by assumption. reflexivity.
Qed.

Lemma w_push_back_bad : forall w c, beyond w -> c <> 0 -> w_push_back w c = Err EUndef.
Proof.
  intros w c B C. unfold w_push_back, w_store, beyond in *.
  replace ((0 <=? Z.of_N (w_data w + w_size w))%Z && (Z.of_N (w_data w + w_size w) <? Z.of_nat (length (w_mem w)))%Z)
    with false by lia.
  replace (c =? 0) with false by lia. rewrite andb_false_r. reflexivity.
Qed.

Lemma w_fall_same : forall csz k u w last w', w_fall csz k u w last = Ok w' ->
  length (w_mem w') = length (w_mem w) /\ w_data w' = w_data w /\ w_size w' = w_size w.
Proof.
  intros csz k. induction k as [|k IH]; intros u w last w' E.
  - cbn [w_fall] in E. injection E as <-. auto.
  - destruct k as [|k].
    + cbn [w_fall] in E. eapply w_store_same. exact E.
    + rewrite w_fall_step in E. destruct (w_store w last (chr0 csz (u mod 10))) as [w1|e] eqn:E1;
        cbn [rbind] in E; [|discriminate].
      apply w_store_same in E1. apply IH in E. destruct E1 as (A & B & C), E as (A' & B' & C').
      split; [congruence|]. split; congruence.
Qed.

Lemma itoav_u_beyond : forall most csz w u d w' n, beyond w -> itoav_u most csz w u d = Ret w' n -> beyond w'.
Proof.
  intros most csz w u d w' n B E. unfold itoav_u in E.
  destruct ((d =? 0) || (most <? d)); [discriminate|].
  destruct (w_fall csz (N.to_nat d) u w (Z.of_N (w_data w + d) - 1)) as [w1|e] eqn:E1; cbn [rbind wlift] in E;
    [|discriminate].
  assert (w' = w_commit w1 d) as -> by congruence. apply w_fall_same in E1. destruct E1 as (H1 & H2 & H3).
  unfold beyond, w_commit in *. cbn [w_mem w_data w_size]. rewrite H1, H2, H3. lia.
Qed.

Lemma itoav_i_beyond : forall bits most csz w z d w' n, beyond w -> itoav_i bits most csz w z d = Ret w' n -> beyond w'.
Proof.
  intros bits most csz w z d w' n B E. unfold itoav_i in E. destruct (0 <=? z)%Z.
  - eapply itoav_u_beyond; eauto.
  - rewrite w_push_back_bad in E by (assumption || discriminate). discriminate.
Qed.

Lemma itoav_beyond : forall csz w a d w' n, beyond w -> itoav csz w a d = Ret w' n -> beyond w'.
Proof.
  intros csz w a d w' n B E. unfold itoav in E.
  assert (forall k, itoav_any w k = Ret w' n -> beyond w') as Any.
  { intros k Ek. unfold itoav_any in Ek. destruct (N.to_nat k) as [|m].
    - cbn [repeat w_append] in Ek. unfold w_null in Ek.
      destruct (w_store w (Z.of_N (w_data w + w_size w)) 0) as [w1|e] eqn:E1; cbn [wlift] in Ek; [|discriminate].
      assert (w' = w1) as -> by congruence. apply w_store_same in E1. destruct E1 as (H1 & H2 & H3).
      unfold beyond in *. rewrite H1, H2, H3. exact B.
    - rewrite w_append_bad in Ek; [discriminate|exact B| |discriminate].
      apply Forall_forall. intros c I. apply repeat_spec in I. subst c. discriminate. }
  destruct (a_type a); try (eapply Any; exact E).
  - eapply itoav_i_beyond; eauto.
  - eapply itoav_u_beyond; eauto.
  - eapply itoav_i_beyond; eauto.
  - eapply itoav_u_beyond; eauto.
Qed.

Lemma prepare_output_never : forall csz nodes w args w' n, Forall node_good nodes -> beyond w ->
  prepare_output csz w nodes args <> Ret w' n.
Proof.
  intros csz nodes. induction nodes as [|nd nodes IH]; intros w args w' n G B.
  - discriminate.
  - inversion G as [|? ? [Gz Gn] G']; subst. cbn [prepare_output].
    destruct (n_text nd) as [|c t] eqn:T.
    + cbn [w_text]. destruct (n_arg nd) eqn:A; [|exfalso; apply Gn; reflexivity].
      destruct args as [|a args]; [discriminate|].
      destruct (itoav csz w a (n_size nd)) as [w2 d|w2|e] eqn:E; cbn [obind]; try discriminate.
      apply itoav_beyond in E; [|exact B].
      destruct (prepare_output csz w2 nodes args) as [w3 r|w3|e] eqn:E3; cbn [obind]; try discriminate.
      exfalso. apply (IH w2 args w3 r G' E E3).
    + unfold w_text. rewrite w_append_bad; [discriminate|exact B|exact Gz|discriminate].
Qed.

Lemma sprintf_never_returns : forall csz str fmt args s n, Forall (fun c => c <> 0) fmt ->
  sprintf csz str (Some fmt) args <> Ret s n.
Proof.
  intros csz str fmt args s n Z. unfold sprintf.
  destruct (prepare_space args fmt []) as [[nodes [p|]]|e] eqn:P; try discriminate.
  destruct (2 ^ 62 <=? wadd (N.of_nat (length str)) p); [discriminate|]. cbv zeta.
  apply prepare_good in P; [|exact Z|constructor].
  destruct (prepare_output csz _ nodes args) as [w r|w|e] eqn:E; try discriminate.
  exfalso. eapply prepare_output_never; [exact P| |exact E].
  unfold beyond. cbn [w_mem w_data w_size]. rewrite app_length, firstn_length, repeat_length. lia.
Qed.
