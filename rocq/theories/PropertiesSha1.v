(** Properties of sha1.h (C91-C94).  The model is Sha1Model.v; the compression function of
    SHA-1 is in Sha1Spec.v.  The memory is what may be read, so a read outside it is an error. *)
From Coq Require Import Arith NArith List Bool.
From Verif Require Import Base HashSpec Sha1Spec Sha1Model Sha1Data Sha1Msg2 Sha1Witness.
Import ListNotations.
Open Scope N_scope.

(** ** C91 *)

Theorem c91_sha1_x86_is_the_compression_function :
  forall x64 h data, is_bytes data -> N.of_nat (length data) < 2 ^ 63 ->
  sha1_x86 x64 h data 0 (N.of_nat (length data)) =
  Ok (let '(a, b, _, _, _) :=
        compress_blocks (length (zero_pad 64 data) / 64) h (zero_pad 64 data) in
      if x64 then N.lxor b a else a).
Proof. exact sha1_x86_correct. Qed.
Print Assumptions c91_sha1_x86_is_the_compression_function.

Theorem c91_sha1_x86_from_the_initial_state :
  forall x64 data, is_bytes data -> N.of_nat (length data) < 2 ^ 63 ->
  sha1_x86_key x64 data 0 (N.of_nat (length data)) =
  Ok (let '(a, b, _, _, _) :=
        compress_blocks (length (zero_pad 64 data) / 64) sha1_start (zero_pad 64 data) in
      if x64 then N.lxor b a else a).
Proof. exact x86_key_correct. Qed.
Print Assumptions c91_sha1_x86_from_the_initial_state.

(** "abc" with the padding of SHA-1; its digest starts with a9993e36 4706816a.  A second key
    needs two blocks, and one byte more than the key is not there to be read. *)
Example c91_example :
  sha1_x86_key false ([97; 98; 99; 128] ++ repeat 0 59 ++ [24]) 0 64 = Ok 0xa9993e36
  /\ sha1_x86_key true ([97; 98; 99; 128] ++ repeat 0 59 ++ [24]) 0 64
     = Ok (N.lxor 0x4706816a 0xa9993e36)
  /\ (exists r, sha1_x86_key true (repeat 7 65) 0 65 = Ok r)
  /\ sha1_x86_key true (repeat 7 65) 0 66 = Err EUndef.
Proof. vm_compute. repeat split. eexists. reflexivity. Qed.

(** ** C92 *)

Theorem c92_sha1_x86_notices_a_trailing_zero_refuted :
  forall x64 h, exists data r, is_bytes data /\
  sha1_x86 x64 h data 0 (N.of_nat (length data)) = Ok r /\
  sha1_x86 x64 h (data ++ [0]) 0 (N.of_nat (length data) + 1) = Ok r.
Proof. exact x86_length_collides. Qed.
Print Assumptions c92_sha1_x86_notices_a_trailing_zero_refuted.

(** Unless the key fills its last block, a zero behind it changes nothing. *)
Theorem c92_sha1_x86_ignores_a_trailing_zero :
  forall x64 h data, is_bytes data -> N.of_nat (length data) + 1 < 2 ^ 63 ->
  (length data mod 64 <> 0)%nat ->
  sha1_x86 x64 h (data ++ [0]) 0 (N.of_nat (length data) + 1) =
  sha1_x86 x64 h data 0 (N.of_nat (length data)).
Proof. exact x86_trailing_zero. Qed.
Print Assumptions c92_sha1_x86_ignores_a_trailing_zero.

(** Behind a full block it starts another one. *)
Example c92_example :
  sha1_x86_key true [97; 98; 99; 0] 0 4 = sha1_x86_key true [97; 98; 99] 0 3
  /\ sha1_x86_key true (repeat 7 64 ++ [0]) 0 65 <> sha1_x86_key true (repeat 7 64) 0 64.
Proof. vm_compute. split; [reflexivity|discriminate]. Qed.

(** ** C93 *)

Theorem c93_sha1_msg2_reads_only_the_key_refuted :
  forall x64, exists data, is_bytes data /\
  sha1_msg2 x64 data 0 (N.of_nat (length data)) = Err EUndef.
Proof. exact msg2_over_reads. Qed.
Print Assumptions c93_sha1_msg2_reads_only_the_key_refuted.

(** It reads exactly up to the next multiple of 16. *)
Theorem c93_sha1_msg2_reads_whole_registers :
  forall x64 data e, is_bytes data -> is_bytes e -> data <> [] ->
  (exists h, sha1_msg2 x64 (data ++ e) 0 (N.of_nat (length data)) = Ok h) <->
  (exists k, length data <= 16 * k <= length (data ++ e))%nat.
Proof. exact msg2_defined_iff. Qed.
Print Assumptions c93_sha1_msg2_reads_whole_registers.

(** What it reads behind the key does not matter. *)
Theorem c93_sha1_msg2_depends_only_on_the_key_partial :
  forall x64 data e e', is_bytes data -> is_bytes e -> is_bytes e' ->
  (15 <= length e)%nat -> (15 <= length e')%nat ->
  sha1_msg2 x64 (data ++ e) 0 (N.of_nat (length data)) =
  sha1_msg2 x64 (data ++ e') 0 (N.of_nat (length data)) /\
  exists h, sha1_msg2 x64 (data ++ e) 0 (N.of_nat (length data)) = Ok h.
Proof. exact msg2_ignores_behind. Qed.
Print Assumptions c93_sha1_msg2_depends_only_on_the_key_partial.

Example c93_example :
  sha1_msg2 true ([97; 98; 99] ++ repeat 0 12) 0 3 = Err EUndef
  /\ (exists h, sha1_msg2 true ([97; 98; 99] ++ repeat 0 13) 0 3 = Ok h)
  /\ sha1_msg2 true (repeat 7 21 ++ repeat 1 15) 0 21 = sha1_msg2 true (repeat 7 21 ++ repeat 2 15) 0 21
  /\ sha1_msg2 true (repeat 7 21 ++ repeat 1 15) 0 21 <> sha1_msg2 true (repeat 7 22 ++ repeat 1 15) 0 22.
Proof. vm_compute. repeat split; try discriminate. eexists. reflexivity. Qed.

(** ** C94 *)

Theorem c94_sha1_msg2_notices_two_bits_refuted :
  forall x64, exists pre a mid b post i j r,
  let data := pre ++ a :: mid ++ b :: post in
  let data' := pre ++ N.lxor a (2 ^ i) :: mid ++ N.lxor b (2 ^ j) :: post in
  is_bytes data /\ i < 8 /\ j < 8 /\
  sha1_msg2 x64 data 0 (N.of_nat (length data)) = Ok r /\
  sha1_msg2 x64 data' 0 (N.of_nat (length data')) = Ok r.
Proof. exact msg2_collides. Qed.
Print Assumptions c94_sha1_msg2_notices_two_bits_refuted.

(** The same two bits of any key of 64 bytes: bit 0 of byte 0 and bit 1 of byte 36. *)
Theorem c94_sha1_msg2_two_bits_cancel :
  forall x64 b0 mid b36 post,
  is_bytes (b0 :: mid ++ b36 :: post) -> length mid = 35%nat -> length post = 27%nat ->
  sha1_msg2 x64 (N.lxor b0 1 :: mid ++ N.lxor b36 2 :: post) 0 64 =
  sha1_msg2 x64 (b0 :: mid ++ b36 :: post) 0 64.
Proof. exact msg2_two_bits. Qed.
Print Assumptions c94_sha1_msg2_two_bits_cancel.

(** A zero behind the key is not noticed either. *)
Theorem c94_sha1_msg2_ignores_a_trailing_zero :
  forall x64 data e, is_bytes data -> is_bytes e ->
  (length data mod 16 <> 0)%nat -> (15 <= length e)%nat ->
  sha1_msg2 x64 (data ++ [0] ++ e) 0 (N.of_nat (length data) + 1) =
  sha1_msg2 x64 (data ++ [0] ++ e) 0 (N.of_nat (length data)).
Proof. exact msg2_trailing_zero. Qed.
Print Assumptions c94_sha1_msg2_ignores_a_trailing_zero.

(** Either bit alone is noticed. *)
Example c94_example :
  sha1_msg2 true (98 :: repeat 97 35 ++ 97 :: repeat 97 27) 0 64
    <> sha1_msg2 true (99 :: repeat 97 35 ++ 97 :: repeat 97 27) 0 64
  /\ sha1_msg2 true (98 :: repeat 97 35 ++ 97 :: repeat 97 27) 0 64
    = sha1_msg2 true (99 :: repeat 97 35 ++ 99 :: repeat 97 27) 0 64.
Proof. vm_compute. split; [discriminate|reflexivity]. Qed.
