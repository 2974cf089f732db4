(** SHA-1 as in FIPS 180-4, without its padding, written without reference to the model. *)
From Coq Require Import Arith NArith List Bool.
Import ListNotations.
Open Scope N_scope.

(** 2.2.2: ROTL. *)
Definition ROTL (n x : N) : N := N.lor (N.shiftl x n mod 2 ^ 32) (N.shiftr x (32 - n)).

(** 4.1.1: the functions of the four stages; the complement is of 32 bits. *)
Definition Ch (x y z : N) : N := N.lxor (N.land x y) (N.land (N.lxor x (2 ^ 32 - 1)) z).
Definition Parity (x y z : N) : N := N.lxor (N.lxor x y) z.
Definition Maj (x y z : N) : N := N.lxor (N.lxor (N.land x y) (N.land x z)) (N.land y z).

Definition f_t (t : nat) : N -> N -> N -> N :=
  if (t <? 20)%nat then Ch else if (t <? 40)%nat then Parity
  else if (t <? 60)%nat then Maj else Parity.

(** 4.2.1 *)
Definition K_t (t : nat) : N :=
  if (t <? 20)%nat then 0x5a827999 else if (t <? 40)%nat then 0x6ed9eba1
  else if (t <? 60)%nat then 0x8f1bbcdc else 0xca62c1d6.

(** 5.2.1: the words of a block are big-endian. *)
Definition be_word (b : list N) : N := fold_left (fun x c => 256 * x + c) b 0.

Fixpoint words (n : nat) (block : list N) : list N :=
  match n with
  | O => []
  | S n' => be_word (firstn 4 block) :: words n' (skipn 4 block)
  end.

(** 6.1.2, step 1: the schedule, with the last word first. *)
Definition next_word (ws : list N) : N :=
  ROTL 1 (N.lxor (N.lxor (N.lxor (nth 2 ws 0) (nth 7 ws 0)) (nth 13 ws 0)) (nth 15 ws 0)).

Definition schedule (block : list N) : list N :=
  rev (Nat.iter 64 (fun ws => next_word ws :: ws) (rev (words 16 block))).

(** Step 3. *)
Definition sha1_round (s : N * N * N * N * N) (tw : nat * N) : N * N * N * N * N :=
  let '(a, b, c, d, e) := s in
  let '(t, w) := tw in
  ((ROTL 5 a + f_t t b c d + e + K_t t + w) mod 2 ^ 32, a, ROTL 30 b, c, d).

(** The hash value of a block, 6.1.2. *)
Definition compress (h : N * N * N * N * N) (block : list N) : N * N * N * N * N :=
  let '(a, b, c, d, e) := fold_left sha1_round (combine (seq 0 80) (schedule block)) h in
  let '(h0, h1, h2, h3, h4) := h in
  ((a + h0) mod 2 ^ 32, (b + h1) mod 2 ^ 32, (c + h2) mod 2 ^ 32, (d + h3) mod 2 ^ 32,
   (e + h4) mod 2 ^ 32).

(** [n] blocks of 64 bytes. *)
Fixpoint compress_blocks (n : nat) (h : N * N * N * N * N) (data : list N)
  : N * N * N * N * N :=
  match n with
  | O => h
  | S n' => compress_blocks n' (compress h (firstn 64 data)) (skipn 64 data)
  end.

(** 5.3.1 *)
Definition sha1_start : N * N * N * N * N :=
  (0x67452301, 0xefcdab89, 0x98badcfe, 0x10325476, 0xc3d2e1f0).

(** 5.1.1, for keys that leave room for the length in the last block: "abc". *)
Example compress_abc :
  compress_blocks 1 sha1_start ([97; 98; 99; 128] ++ repeat 0 59 ++ [24]) =
  (0xa9993e36, 0x4706816a, 0xba3e2571, 0x7850c26c, 0x9cd0d89d).
Proof. vm_compute. reflexivity. Qed.
