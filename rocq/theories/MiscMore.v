(** Small complements: null pointers as keys, detached helpers, the size of repeated numbers. *)
From Coq Require Import NArith ZArith List Bool Lia.
From Verif Require Import Base BaseFacts HashModel StrModel HashKeyModel BitVecModel BitVecFacts HelperModel.
Import ListNotations.
Open Scope N_scope.

Lemma null_hash : forall f ct, cstr_getHashCode f ct None = Ok 0
  /\ chars_getHashCode f ct None 0 = Ok 0 /\ str_getHashCode f ct None 0 = Ok 0.
Proof. intros f ct. repeat split; destruct f; reflexivity. Qed.

Lemma detached : forall h mem mem' h', h_trunc h = true -> h_detach mem h = Ok (mem', h') ->
  h_data h' = None /\ h_size h' = 0 /\ length mem' = length mem.
Proof.
  intros h mem mem' h' T E. unfold h_detach in E. rewrite T in E. unfold h_recover in E. rewrite T in E.
  destruct (h_data h) as [d|]; cbn [rbind] in E; [|try discriminate; injection E as <- <-; auto].
  destruct (_ <? _); cbn [rbind] in E; [|discriminate]. injection E as <- <-.
  split; [reflexivity|]. split; [reflexivity|]. apply seti_length.
Qed.

Lemma set1_vec : forall x, is_vec 16 (set1_32 x) /\ is_vec 16 (set1_64 x).
Proof.
  intros x. split; (split; [reflexivity|]).
  all: cbn -[N.div N.modulo]; repeat (constructor; [apply N.mod_lt; discriminate|]); constructor.
Qed.
