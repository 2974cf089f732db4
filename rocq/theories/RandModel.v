(** Model of system/MT19937_32.h, MT19937_64.h, LibcRand.h and of the integer
    functions of RandomGen.h.  The two Mersenne Twister files differ only in
    constants, which the record [mt] holds. *)
From Coq Require Import NArith ZArith List Bool.
From Verif Require Import Base.
Import ListNotations.
Open Scope N_scope.

Notation "'do' x <- a ; b" := (rbind a (fun x => b)) (at level 200, x name, a at level 100, b at level 200).

(** The points where MT19937_32.h and MT19937_64.h differ: the word width
    (line 140), [N] and [M] (146), the factor of init (183), the last
    assignment of init_keys (237), the masks of mixbits (257), the constant of
    twist (261) and the tempering (292-295). *)
Record mt := MT {
  mt_w : N; mt_n : N; mt_m : N; mt_f : N; mt_msb : N;
  mt_up : N; mt_low : N; mt_a : N;
  mt_u : N; mt_d : N; mt_s : N; mt_b : N; mt_t : N; mt_c : N; mt_l : N }.

(** MT19937_32.h:140-146, 183, 237, 257, 261, 292-295.  Line 292 has no mask,
    which is the mask of ones. *)
Definition p32 : mt :=
  MT 32 624 397 1812433253 0x80000000 0x80000000 0x7FFFFFFF 2567483615
     11 0xFFFFFFFF 7 0x9d2c5680 15 0xefc60000 18.

(** MT19937_64.h: the same lines. *)
Definition p64 : mt :=
  MT 64 312 156 6364136223846793005 0x8000000000000000 0x8000000000000000 0x7FFFFFFFFFFFFFFF 0xB5026F5AA96619E9
     29 0x5555555555555555 17 0x71D67FFFEDA60000 37 0xFFF7EEE000000000 43.

(** Conversion to value_type (MT19937_32.h:140, 188). *)
Definition word (p : mt) (x : N) : N := x mod 2 ^ mt_w p.

(** MT19937_32.h:149-151: the members [next] ([None] is the null pointer,
    [Some i] the address of state[i]), [left] and [state]. *)
Record gen := Gen { g_next : option N; g_left : N; g_state : list N }.

(** A read of state (MT19937_32.h:151): outside the array undefined. *)
Definition rd (st : list N) (i : N) : res N :=
  match geti st i with Some x => Ok x | None => Err EUndef end.

(** A write to state. *)
Definition wr (st : list N) (i : N) (x : N) : res (list N) :=
  match geti st i with Some _ => Ok (seti st i x) | None => Err EUndef end.

(** MT19937_32.h:183: the words from index [j] on, after the word [prev]; the
    shift by 30 is the same in both files. *)
Fixpoint init_from (p : mt) (cnt : nat) (j prev : N) : list N :=
  match cnt with
  | O => []
  | S cnt' =>
      let x := word p (mt_f p * N.lxor prev (N.shiftr prev 30) + j) in
      x :: init_from p cnt' (j + 1) x
  end.

(** MT19937_32.h:175-190, init(initSeed); [now] is the result of time().
    Simplified: the array is built in one go, as every word is overwritten. *)
Definition init (p : mt) (now seed : N) : list N :=
  let s := word p (if seed =? 0 then now else seed) in
  s :: init_from p (N.to_nat (mt_n p) - 1) 1 s.

(** MT19937_32.h:154-156, the constructor. *)
Definition construct (p : mt) (now seed : N) : gen := Gen None 1 (init p now seed).

(** MT19937_32.h:218-221 and 231-234: the wrap-around of [i]. *)
Definition key_wrap (p : mt) (i : N) (st : list N) : res (N * list N) :=
  if mt_n p <=? i then
    do x <- rd st (mt_n p - 1) ;
    do st' <- wr st 0 x ;
    Ok (1, st')
  else Ok (i, st).

(** MT19937_32.h:210-224, the first loop of init_keys.  [key_len] is the
    argument; [key] the array pointed at. *)
Fixpoint keys_loop1 (p : mt) (key : list N) (key_len : N) (k : nat) (i j : N) (st : list N) : res (N * list N) :=
  match k with
  | O => Ok (i, st)
  | S k' =>
      do a <- rd st i ;
      do b <- rd st (i - 1) ;
      do c <- rd key j ;
      do st1 <- wr st i (word p (N.lxor a (word p (N.lxor b (N.shiftr b 30) * 1664525)) + c + j)) ;
      do r <- key_wrap p (i + 1) st1 ;
      let j' := if key_len <=? j + 1 then 0 else j + 1 in
      keys_loop1 p key key_len k' (fst r) j' (snd r)
  end.

(** MT19937_32.h:226-235, the second loop. *)
Fixpoint keys_loop2 (p : mt) (k : nat) (i : N) (st : list N) : res (N * list N) :=
  match k with
  | O => Ok (i, st)
  | S k' =>
      do a <- rd st i ;
      do b <- rd st (i - 1) ;
      do st1 <- wr st i (word p (N.lxor a (word p (N.lxor b (N.shiftr b 30) * 1566083941)) + (2 ^ mt_w p - word p i))) ;
      do r <- key_wrap p (i + 1) st1 ;
      keys_loop2 p k' (fst r) (snd r)
  end.

(** MT19937_32.h:207-238, init_keys. *)
Definition init_keys (p : mt) (key : list N) (key_len : N) (st : list N) : res (list N) :=
  do r <- keys_loop1 p key key_len (N.to_nat (N.max (mt_n p) key_len)) 1 0 st ;
  do r2 <- keys_loop2 p (N.to_nat (mt_n p) - 1) (fst r) (snd r) ;
  wr (snd r2) 0 (mt_msb p).

(** MT19937_32.h:158-166, the constructors that take keys (192-200). *)
Definition construct_keys (p : mt) (now seed : N) (key : list N) : res gen :=
  do st <- init_keys p key (N.of_nat (length key)) (init p now seed) ;
  Ok (Gen None 1 st).

(** MT19937_32.h:256-258. *)
Definition mixbits (p : mt) (u v : N) : N := N.lor (N.land u (mt_up p)) (N.land v (mt_low p)).

(** MT19937_32.h:260-262. *)
Definition twist (p : mt) (u v : N) : N :=
  N.lxor (N.shiftr (mixbits p u v) 1) (if N.land v 1 =? 0 then 0 else mt_a p).

(** MT19937_32.h:243-245 and 247-249: [cnt] rounds of the loop from index [q]
    on; [off] is the index of p[...] in the loop: [M] in the first and [N - M]
    in the second loop. *)
Fixpoint twist_loop (p : mt) (off : N) (cnt : nat) (q : N) (st : list N) : res (list N) :=
  match cnt with
  | O => Ok st
  | S cnt' =>
      do x <- rd st (q + off) ;
      do a <- rd st q ;
      do b <- rd st (q + 1) ;
      do st' <- wr st q (N.lxor x (twist p a b)) ;
      twist_loop p off cnt' (q + 1) st'
  end.

(** MT19937_32.h:240-254, next_state, the new array. *)
Definition next_state (p : mt) (st : list N) : res (list N) :=
  do st1 <- twist_loop p (mt_m p) (N.to_nat (mt_n p - mt_m p)) 0 st ;
  do st2 <- twist_loop p (mt_n p - mt_m p) (N.to_nat (mt_m p) - 1) (mt_n p - mt_m p) st1 ;
  do x <- rd st2 (mt_n p - 1 + (mt_n p - mt_m p)) ;
  do a <- rd st2 (mt_n p - 1) ;
  do b <- rd st2 0 ;
  wr st2 (mt_n p - 1) (N.lxor x (twist p a b)).

(** MT19937_32.h:252-253: next_state with [left] and [next]. *)
Definition regenerate (p : mt) (g : gen) : res gen :=
  do st <- next_state p (g_state g) ;
  Ok (Gen (Some 0) (mt_n p) st).

(** MT19937_32.h:265-268, srand(seed). *)
Definition srand (p : mt) (now seed : N) (g : gen) : res gen :=
  regenerate p (Gen (g_next g) (g_left g) (init p now seed)).

(** MT19937_32.h:270-278, srand with keys. *)
Definition srand_keys (p : mt) (now seed : N) (key : list N) (g : gen) : res gen :=
  do st <- init_keys p key (N.of_nat (length key)) (init p now seed) ;
  regenerate p (Gen (g_next g) (g_left g) st).

(** MT19937_32.h:291-296. *)
Definition temper (p : mt) (y : N) : N :=
  let y1 := N.lxor y (N.land (N.shiftr y (mt_u p)) (mt_d p)) in
  let y2 := N.lxor y1 (N.land (word p (N.shiftl y1 (mt_s p))) (mt_b p)) in
  let y3 := N.lxor y2 (N.land (word p (N.shiftl y2 (mt_t p))) (mt_c p)) in
  N.lxor y3 (N.shiftr y3 (mt_l p)).

(** MT19937_32.h:280-297, rand(); [libc] is the word LibcRand would give. *)
Definition rand (p : mt) (libc : N) (g : gen) : res (gen * N) :=
  let left := word p (g_left g + (2 ^ mt_w p - 1)) in
  let g1 := Gen (g_next g) left (g_state g) in
  do g2 <- (if left =? 0 then regenerate p g1 else Ok g1) ;
  match g_next g2 with
  | Some i =>
      do y <- rd (g_state g2) i ;
      Ok (Gen (Some (i + 1)) (g_left g2) (g_state g2), temper p y)
  | None => Ok (g2, temper p libc)
  end.

(** LibcRand.h:102-108, rand32() where RAND_MAX is 0x7FFF; the arguments are the
    results of rand() from left to right. *)
Definition rand32_15 (a b c : N) : N :=
  N.lor (N.lor (w32 (N.shiftl (N.land a 0x7FFF) 30)) (w32 (N.shiftl (N.land b 0x7FFF) 15))) (N.land c 0x7FFF).

(** LibcRand.h:109-113, rand32() where RAND_MAX is at least 0xFFFF. *)
Definition rand32_big (rmax a b : N) : N :=
  N.lor (w32 (N.shiftl (N.land a rmax) 16)) (N.land b rmax).

(** LibcRand.h:133-139, rand64() where RAND_MAX is at least 0xFFFF. *)
Definition rand64_big (rmax a b c d : N) : N :=
  N.lor (N.lor (N.lor (w64 (N.shiftl (N.land a rmax) 48)) (w64 (N.shiftl (N.land b rmax) 32)))
               (w64 (N.shiftl (N.land c rmax) 16))) (N.land d rmax).

(** A w-bit word read as a signed number. *)
Definition to_signed (w : N) (x : N) : Z :=
  if x <? 2 ^ (w - 1) then Z.of_N x else (Z.of_N x - 2 ^ Z.of_N w)%Z.

(** RandomGen.h:240-253, nextInteger(minValue, maxValue) for a signed type of
    [w] bits and its unsigned type; [draw] is the random word.  The difference
    and the sum are computed in the signed type, the remainder and the last
    sum in the unsigned one. *)
Definition next_signed (w draw : N) (minv maxv : Z) : res Z :=
  let lo := Z.min minv maxv in
  let hi := Z.max minv maxv in
  if (hi - lo + 1 <? 2 ^ (Z.of_N w - 1))%Z then
    Ok (to_signed w (Z.to_N ((lo + Z.of_N (draw mod Z.to_N (hi - lo + 1))) mod 2 ^ Z.of_N w)))
  else Err EUndef.

(** The same for an unsigned type: the range may wrap around to 0, and the
    remainder by 0 is undefined. *)
Definition next_unsigned (w draw minv maxv : N) : res N :=
  let lo := N.min minv maxv in
  let hi := N.max minv maxv in
  let range := (hi - lo + 1) mod 2 ^ w in
  if range =? 0 then Err EUndef else Ok ((lo + draw mod range) mod 2 ^ w).

(** RandomGen.h:121-128, nextInt32(minValue, maxValue) and nextInt32(maxValue). *)
Definition nextInt32_max (draw : N) (maxv : Z) : res Z := next_signed 32 draw 0 maxv.

(** RandomGen.h:162-164, nextInt(maxValue): calls nextUInt (166-169) with 0 and
    the converted bound, and converts the result back. *)
Definition nextInt_max (draw : N) (maxv : Z) : res Z :=
  do x <- next_unsigned 64 draw 0 (Z.to_N (maxv mod 2 ^ 64)) ;
  Ok (to_signed 64 x).

(** RandomGen.h:183-187, nextDouble53(): the numerator over 2^53.  The product
    and the sum are below 2^53 and therefore exact in double (C138). *)
Definition double53 (x y : N) : N := N.shiftr x 5 * 67108864 + N.shiftr y 6.
