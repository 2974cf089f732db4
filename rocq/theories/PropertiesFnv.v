(** Properties of fnv1a.h (C88-C90, C178).  The model is FnvModel.v; [byte_sensitive] is in
    HashSpec.v.  The memory is the key itself, so a read outside it is an error. *)
From Coq Require Import Arith NArith ZArith List Bool.
From Verif Require Import Base HashModel HashSpec FnvModel FnvFacts FnvWitness.
Import ListNotations.
Open Scope N_scope.

(** ** C88 *)

Theorem c88_yoshimura_reads_only_the_key :
  forall data : list N, N.of_nat (length data) < 2 ^ 64 ->
  exists h, FNV1A_Yoshimura data 0 (N.of_nat (length data)) = Ok h.
Proof. exact yoshimura_defined. Qed.
Print Assumptions c88_yoshimura_reads_only_the_key.

Theorem c88_triad_reads_only_the_key :
  forall a (data : list N), N.of_nat (length data) < 2 ^ 64 ->
  exists h, FNV1A_TRIADii a data 0 (N.of_nat (length data)) = Ok h.
Proof. exact TRIADii_defined. Qed.
Print Assumptions c88_triad_reads_only_the_key.

Theorem c88_penumbra_reads_only_the_key :
  forall a (data : list N), N.of_nat (length data) < 2 ^ 64 ->
  exists h, FNV1A_penumbra a data 0 (N.of_nat (length data)) = Ok h.
Proof. exact penumbra_defined. Qed.
Print Assumptions c88_penumbra_reads_only_the_key.

(** Lengths that are not a multiple of the step: the last round overlaps. *)
Example c88_example : FNV1A_Yoshimura (repeat 7 17) 0 17 = Ok 1014486898
  /\ FNV1A_Yoshimura (repeat 7 17) 0 18 = Err EUndef
  /\ FNV1A_TRIADii ArchSSE41 (repeat 7 100) 0 100 = Ok 3031469872.
Proof. vm_compute. auto. Qed.

(** ** C89 *)

(** Both halves of the key overlap if its length is not a multiple of the step, and a byte in
    the overlap enters twice. *)
Theorem c89_yoshimura_notices_every_byte_refuted :
  ~ byte_sensitive (fun data len => defined (FNV1A_Yoshimura data 0 len)).
Proof. exact yoshimura_not_sensitive. Qed.
Print Assumptions c89_yoshimura_notices_every_byte_refuted.

Theorem c89_triad_notices_every_byte_refuted :
  forall a g, (0 < g)%nat ->
  ~ byte_sensitive (fun data len => defined (fnv_xmm g a data 0 len)).
Proof. exact triad_not_sensitive. Qed.
Print Assumptions c89_triad_notices_every_byte_refuted.

(** The collisions behind it. *)
Example c89_yoshimura_collision :
  FNV1A_Yoshimura [0;0;0;0;0;0;0;0;53;174;225;125; 0;0;0;0;121;247;24;9] 0 20 = Ok 2173983996 /\
  FNV1A_Yoshimura [0;0;0;0;0;0;0;0;53;174;225;125;15;0;0;0;121;247;24;9] 0 20 = Ok 2173983996.
Proof. vm_compute. auto. Qed.

(** Without an overlap every byte is noticed. *)
Theorem c89_yoshimura_notices_every_byte_partial :
  byte_sensitive_for (fun n => n < 16 \/ n mod 16 = 0)%nat
    (fun data len => defined (FNV1A_Yoshimura data 0 len)).
Proof. exact yoshimura_byte_sensitive. Qed.
Print Assumptions c89_yoshimura_notices_every_byte_partial.

Theorem c89_triad_notices_every_byte_partial :
  forall g a, (0 < g)%nat ->
  byte_sensitive_for
    (fun n => n < 24 \/ n mod 24 = 0 /\ (a = ArchNone \/ n < 96 * g))%nat
    (fun data len => defined (fnv_xmm g a data 0 len)).
Proof. exact triad_byte_sensitive. Qed.
Print Assumptions c89_triad_notices_every_byte_partial.

(** The last byte of a key of odd length is extended with its sign. *)
Theorem c89_last_byte_is_signed :
  forall c, c < 256 ->
  Z.of_N (schar32 c) = ((if (Z.of_N c <? 128)%Z then Z.of_N c else Z.of_N c - 256) mod 2 ^ 32)%Z.
Proof. exact schar32_signed. Qed.
Print Assumptions c89_last_byte_is_signed.

Example c89_example : FNV1A_Yoshimura (repeat 0 31 ++ [1]) 0 32 <> FNV1A_Yoshimura (repeat 0 32) 0 32
  /\ FNV1A_TRIADii ArchSSE2 (repeat 0 71 ++ [1]) 0 72 <> FNV1A_TRIADii ArchSSE2 (repeat 0 72) 0 72.
Proof. vm_compute. split; discriminate. Qed.

(** ** C90 *)

Theorem c90_xmm_uses_every_byte_refuted :
  forall a g, a <> ArchNone -> (g = 1 \/ g = 2)%nat ->
  ~ byte_sensitive_for (fun n => n = 96 * g)%nat
      (fun data len => defined (fnv_xmm g a data 0 len)).
Proof. exact xmm_not_sensitive. Qed.
Print Assumptions c90_xmm_uses_every_byte_refuted.

(** _rotl_twise128 with 5 shifts by five bytes and brings nothing back: five bytes are dropped. *)
Theorem c90_triad_xmm_drops_five_bytes :
  forall a pre mid mid' post, a <> ArchNone ->
  length pre = 11%nat -> length mid = 5%nat -> length mid' = 5%nat -> length post = 80%nat ->
  FNV1A_TRIADii a (pre ++ mid ++ post) 0 96 = FNV1A_TRIADii a (pre ++ mid' ++ post) 0 96.
Proof. exact TRIADii_ignores. Qed.
Print Assumptions c90_triad_xmm_drops_five_bytes.

Theorem c90_penumbra_xmm_drops_five_bytes :
  forall a pre mid mid' post, a <> ArchNone ->
  length pre = 11%nat -> length mid = 5%nat -> length mid' = 5%nat -> length post = 176%nat ->
  FNV1A_penumbra a (pre ++ mid ++ post) 0 192 = FNV1A_penumbra a (pre ++ mid' ++ post) 0 192.
Proof. exact penumbra_ignores. Qed.
Print Assumptions c90_penumbra_xmm_drops_five_bytes.

(** Zeros and the letters "abcde" there, with and without the instructions. *)
Example c90_example :
  FNV1A_TRIADii ArchSSE41 (repeat 1 11 ++ [97; 98; 99; 100; 101] ++ repeat 2 80) 0 96 =
  FNV1A_TRIADii ArchSSE41 (repeat 1 11 ++ [0; 0; 0; 0; 0] ++ repeat 2 80) 0 96
  /\ FNV1A_TRIADii ArchNone (repeat 1 11 ++ [97; 98; 99; 100; 101] ++ repeat 2 80) 0 96 <>
     FNV1A_TRIADii ArchNone (repeat 1 11 ++ [0; 0; 0; 0; 0] ++ repeat 2 80) 0 96.
Proof. vm_compute. split; [reflexivity|discriminate]. Qed.

(** ** C178 *)

(** Below the size of a step of the vector loop every build computes the same hash. *)
Theorem c178_short_keys_hash_alike_partial :
  forall g a a' mem p len, len < 96 * N.of_nat g ->
  fnv_xmm g a mem p len = fnv_xmm g a' mem p len.
Proof. exact xmm_short_same. Qed.
Print Assumptions c178_short_keys_hash_alike_partial.

(** From there on any two builds disagree: without the vector loop, with lanes of 16 bits and
    with lanes of 32 bits. *)
Theorem c178_hash_does_not_depend_on_the_build_refuted :
  forall a a' g, a <> a' -> (g = 1 \/ g = 2)%nat ->
  exists data, is_bytes data /\ length data = (96 * g)%nat /\
  exists h h', fnv_xmm g a data 0 (N.of_nat (length data)) = Ok h
               /\ fnv_xmm g a' data 0 (N.of_nat (length data)) = Ok h' /\ h <> h'.
Proof. exact xmm_arch_differs. Qed.
Print Assumptions c178_hash_does_not_depend_on_the_build_refuted.

(** 95 letters "a". *)
Example c178_example :
  95 < 96 * N.of_nat 1
  /\ FNV1A_TRIADii ArchSSE2 (repeat 97 95) 0 95 = FNV1A_TRIADii ArchSSE41 (repeat 97 95) 0 95
  /\ exists h, FNV1A_TRIADii ArchNone (repeat 97 95) 0 95 = Ok h.
Proof.
  split; [reflexivity|split; [vm_compute; reflexivity|eexists; vm_compute; reflexivity]].
Qed.
