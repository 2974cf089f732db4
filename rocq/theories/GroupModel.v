(** Model of the control-byte groups,
    /repo/src/jstd/hashmap/flat_map_group15.hpp and flat_map_group16.hpp.
    A group is the list of its control bytes ([ctrls], kGroupWidth of them). *)
From Coq Require Import NArith ZArith List Bool.
From Verif Require Import Base BitsModel.
Import ListNotations.
Open Scope N_scope.

Definition group := list N.

(** flat_map_group15.hpp:486-492, flat_map_group16.hpp:537-543 [at(pos)]: one control byte. *)
Definition byte (g : group) (p : N) : N := nth (N.to_nat p) g 0.

(** jstd::narrow_cast<std::uint8_t>. *)
Definition u8 (x : N) : N := x mod 256.

(** ** SSE2 intrinsics on a list of bytes *)

(** _mm_movemask_epi8: bit i of the result is the top bit of byte i, here the
    i-th boolean of a comparison. *)
Fixpoint movemask (l : list bool) : N :=
  match l with
  | [] => 0
  | b :: l' => N.b2n b + 2 * movemask l'
  end.

(** _mm_set1_epi32(d), the first [n] bytes (little endian). *)
Definition set1_epi32 (n : nat) (d : N) : list N :=
  map (fun i => u8 (N.shiftr d (8 * (N.of_nat i mod 4)))) (seq 0 n).

Fixpoint map2 {A B C} (f : A -> B -> C) (la : list A) (lb : list B) : list C :=
  match la, lb with
  | a :: la', b :: lb' => f a b :: map2 f la' lb'
  | _, _ => []
  end.

(** _mm_cmpeq_epi8. *)
Definition cmpeq_epi8 (a b : list N) : list bool := map2 N.eqb a b.

(** A byte read as a signed char. *)
Definition s8 (x : N) : Z := if x <? 128 then Z.of_N x else (Z.of_N x - 256)%Z.

(** _mm_cmplt_epi8 (signed). *)
Definition cmplt_epi8 (a b : list N) : list bool := map2 (fun x y => (s8 x <? s8 y)%Z) a b.

(** _mm_and_si128. *)
Definition and_si128 (a b : list N) : list N := map2 N.land a b.

(** ** Look-up tables *)

(** flat_map_group15.hpp:90-158 (kEmptyHash32 = 0x08080808, kSentinelHash32 = 0x09090909), in decimal. *)
Definition dword_hashs15 : list N := [
  134744072; 151587081; 33686018; 50529027; 67372036; 84215045; 101058054; 117901063;
  134744072; 151587081; 168430090; 185273099; 202116108; 218959117; 235802126; 252645135;
  269488144; 286331153; 303174162; 320017171; 336860180; 353703189; 370546198; 387389207;
  404232216; 421075225; 437918234; 454761243; 471604252; 488447261; 505290270; 522133279;
  538976288; 555819297; 572662306; 589505315; 606348324; 623191333; 640034342; 656877351;
  673720360; 690563369; 707406378; 724249387; 741092396; 757935405; 774778414; 791621423;
  808464432; 825307441; 842150450; 858993459; 875836468; 892679477; 909522486; 926365495;
  943208504; 960051513; 976894522; 993737531; 1010580540; 1027423549; 1044266558; 1061109567;
  1077952576; 1094795585; 1111638594; 1128481603; 1145324612; 1162167621; 1179010630; 1195853639;
  1212696648; 1229539657; 1246382666; 1263225675; 1280068684; 1296911693; 1313754702; 1330597711;
  1347440720; 1364283729; 1381126738; 1397969747; 1414812756; 1431655765; 1448498774; 1465341783;
  1482184792; 1499027801; 1515870810; 1532713819; 1549556828; 1566399837; 1583242846; 1600085855;
  1616928864; 1633771873; 1650614882; 1667457891; 1684300900; 1701143909; 1717986918; 1734829927;
  1751672936; 1768515945; 1785358954; 1802201963; 1819044972; 1835887981; 1852730990; 1869573999;
  1886417008; 1903260017; 1920103026; 1936946035; 1953789044; 1970632053; 1987475062; 2004318071;
  2021161080; 2038004089; 2054847098; 2071690107; 2088533116; 2105376125; 2122219134; 2139062143;
  2155905152; 2172748161; 2189591170; 2206434179; 2223277188; 2240120197; 2256963206; 2273806215;
  2290649224; 2307492233; 2324335242; 2341178251; 2358021260; 2374864269; 2391707278; 2408550287;
  2425393296; 2442236305; 2459079314; 2475922323; 2492765332; 2509608341; 2526451350; 2543294359;
  2560137368; 2576980377; 2593823386; 2610666395; 2627509404; 2644352413; 2661195422; 2678038431;
  2694881440; 2711724449; 2728567458; 2745410467; 2762253476; 2779096485; 2795939494; 2812782503;
  2829625512; 2846468521; 2863311530; 2880154539; 2896997548; 2913840557; 2930683566; 2947526575;
  2964369584; 2981212593; 2998055602; 3014898611; 3031741620; 3048584629; 3065427638; 3082270647;
  3099113656; 3115956665; 3132799674; 3149642683; 3166485692; 3183328701; 3200171710; 3217014719;
  3233857728; 3250700737; 3267543746; 3284386755; 3301229764; 3318072773; 3334915782; 3351758791;
  3368601800; 3385444809; 3402287818; 3419130827; 3435973836; 3452816845; 3469659854; 3486502863;
  3503345872; 3520188881; 3537031890; 3553874899; 3570717908; 3587560917; 3604403926; 3621246935;
  3638089944; 3654932953; 3671775962; 3688618971; 3705461980; 3722304989; 3739147998; 3755991007;
  3772834016; 3789677025; 3806520034; 3823363043; 3840206052; 3857049061; 3873892070; 3890735079;
  3907578088; 3924421097; 3941264106; 3958107115; 3974950124; 3991793133; 4008636142; 4025479151;
  4042322160; 4059165169; 4076008178; 4092851187; 4109694196; 4126537205; 4143380214; 4160223223;
  4177066232; 4193909241; 4210752250; 4227595259; 4244438268; 4261281277; 4278124286; 4294967295
].

(** flat_map_group16.hpp:88-157 (kEmptyHash32 = 0x08080808), in decimal. *)
Definition dword_hashs16 : list N := [
  134744072; 16843009; 33686018; 50529027; 67372036; 84215045; 101058054; 117901063;
  134744072; 151587081; 168430090; 185273099; 202116108; 218959117; 235802126; 252645135;
  269488144; 286331153; 303174162; 320017171; 336860180; 353703189; 370546198; 387389207;
  404232216; 421075225; 437918234; 454761243; 471604252; 488447261; 505290270; 522133279;
  538976288; 555819297; 572662306; 589505315; 606348324; 623191333; 640034342; 656877351;
  673720360; 690563369; 707406378; 724249387; 741092396; 757935405; 774778414; 791621423;
  808464432; 825307441; 842150450; 858993459; 875836468; 892679477; 909522486; 926365495;
  943208504; 960051513; 976894522; 993737531; 1010580540; 1027423549; 1044266558; 1061109567;
  1077952576; 1094795585; 1111638594; 1128481603; 1145324612; 1162167621; 1179010630; 1195853639;
  1212696648; 1229539657; 1246382666; 1263225675; 1280068684; 1296911693; 1313754702; 1330597711;
  1347440720; 1364283729; 1381126738; 1397969747; 1414812756; 1431655765; 1448498774; 1465341783;
  1482184792; 1499027801; 1515870810; 1532713819; 1549556828; 1566399837; 1583242846; 1600085855;
  1616928864; 1633771873; 1650614882; 1667457891; 1684300900; 1701143909; 1717986918; 1734829927;
  1751672936; 1768515945; 1785358954; 1802201963; 1819044972; 1835887981; 1852730990; 1869573999;
  1886417008; 1903260017; 1920103026; 1936946035; 1953789044; 1970632053; 1987475062; 2004318071;
  2021161080; 2038004089; 2054847098; 2071690107; 2088533116; 2105376125; 2122219134; 2139062143;
  134744072; 16843009; 33686018; 50529027; 67372036; 84215045; 101058054; 117901063;
  134744072; 151587081; 168430090; 185273099; 202116108; 218959117; 235802126; 252645135;
  269488144; 286331153; 303174162; 320017171; 336860180; 353703189; 370546198; 387389207;
  404232216; 421075225; 437918234; 454761243; 471604252; 488447261; 505290270; 522133279;
  538976288; 555819297; 572662306; 589505315; 606348324; 623191333; 640034342; 656877351;
  673720360; 690563369; 707406378; 724249387; 741092396; 757935405; 774778414; 791621423;
  808464432; 825307441; 842150450; 858993459; 875836468; 892679477; 909522486; 926365495;
  943208504; 960051513; 976894522; 993737531; 1010580540; 1027423549; 1044266558; 1061109567;
  1077952576; 1094795585; 1111638594; 1128481603; 1145324612; 1162167621; 1179010630; 1195853639;
  1212696648; 1229539657; 1246382666; 1263225675; 1280068684; 1296911693; 1313754702; 1330597711;
  1347440720; 1364283729; 1381126738; 1397969747; 1414812756; 1431655765; 1448498774; 1465341783;
  1482184792; 1499027801; 1515870810; 1532713819; 1549556828; 1566399837; 1583242846; 1600085855;
  1616928864; 1633771873; 1650614882; 1667457891; 1684300900; 1701143909; 1717986918; 1734829927;
  1751672936; 1768515945; 1785358954; 1802201963; 1819044972; 1835887981; 1852730990; 1869573999;
  1886417008; 1903260017; 1920103026; 1936946035; 1953789044; 1970632053; 1987475062; 2004318071;
  2021161080; 2038004089; 2054847098; 2071690107; 2088533116; 2105376125; 2122219134; 2139062143
].


(** ** group15: 15 slots and one overflow byte per group *)

(** flat_map_group15.hpp:88-161 repeated_hash. *)
Definition repeated_hash15 (h : N) : N := nth (N.to_nat (u8 h)) dword_hashs15 0.
(** flat_map_group15.hpp:163-166 reduced_hash. *)
Definition reduced_hash15 (h : N) : N := u8 (repeated_hash15 h).
(** flat_map_group15.hpp:424-434 make_hash_bits. *)
Definition make_hash_bits15 (h : N) : list N := set1_epi32 16 (repeated_hash15 h).

(** flat_map_group15.hpp:436-453 match_empty (kEmptySlot = 0: compare with zeros). *)
Definition match_empty15 (g : group) : N :=
  N.land (movemask (cmpeq_epi8 (set1_epi32 16 0) g)) 32767.
(** flat_map_group15.hpp:455-459 match_used: (~mask) & 0x7FFF on 32 bits. *)
Definition match_used15 (g : group) : N :=
  N.land (N.lxor (match_empty15 g) (two32 - 1)) 32767.
(** flat_map_group15.hpp:474-483 match_hash. *)
Definition match_hash15 (g : group) (h : N) : N :=
  N.land (movemask (cmpeq_epi8 (make_hash_bits15 h) g)) 32767.

(** flat_map_group15.hpp:86 shift_mask. *)
Definition shift_mask15 (p : N) : N := nth (N.to_nat p) [1; 2; 4; 8; 16; 32; 64; 128] 0.
(** flat_map_group15.hpp:238-250 and 369-372 is_not_overflow (overflow byte ctrls[15],
    494-500), and 365-367 is_overflow, its negation. *)
Definition is_overflow15 (g : group) (h : N) : bool :=
  negb (N.land (byte g 15) (shift_mask15 (h mod 8)) =? 0).
(** flat_map_group15.hpp:252-263, 414-417 set_overflow. *)
Definition set_overflow15 (g : group) (h : N) : group :=
  seti g 15 (N.lor (byte g 15) (shift_mask15 (h mod 8))).

(** flat_map_group15.hpp:190-193, 347-351 is_sentinel (kSentinelSlot = 1). *)
Definition is_sentinel15 (g : group) (p : N) : bool := byte g p =? 1.
(** flat_map_group15.hpp:223-226, 402-406 set_used. *)
Definition set_used15 (g : group) (p h : N) : group := seti g p (u8 h).
(** flat_map_group15.hpp:215-217, 391-395 set_empty. *)
Definition set_empty15 (g : group) (p : N) : group := seti g p 0.
(** flat_map_group15.hpp:219-221, 397-400 set_sentinel (at position kGroupSize - 1). *)
Definition set_sentinel15 (g : group) : group := seti g 14 1.
(** flat_map_group15.hpp:300-316 init (kEmptySlot = 0: all sixteen bytes zero). *)
Definition init15 : group := repeat 0 16.

(** ** group16: 16 slots per group, overflow flags in the top bits *)

(** flat_map_group16.hpp:86-160 repeated_hash. *)
Definition repeated_hash16 (h : N) : N := nth (N.to_nat (u8 h)) dword_hashs16 0.
(** flat_map_group16.hpp:162-165 reduced_hash. *)
Definition reduced_hash16 (h : N) : N := u8 (repeated_hash16 h).
(** flat_map_group16.hpp:398-409 make_hash_bits. *)
Definition make_hash_bits16 (h : N) : list N := set1_epi32 16 (repeated_hash16 h).
(** flat_map_group16.hpp:390-396 make_mask_bits (kHashMask32 = 0x7F7F7F7F). *)
Definition make_mask_bits16 : list N := set1_epi32 16 2139062143.

(** flat_map_group16.hpp:411-435 match_empty (branch kEmptySlot = 0). *)
Definition match_empty16 (g : group) : N :=
  movemask (cmpeq_epi8 (set1_epi32 16 0) (and_si128 g make_mask_bits16)).
(** flat_map_group16.hpp:442-478 match_used (branch kEmptySlot = 0: signed 0 < byte). *)
Definition match_used16 (g : group) : N :=
  movemask (cmplt_epi8 (set1_epi32 16 0) (and_si128 g make_mask_bits16)).
(** flat_map_group16.hpp:498-507 match_hash. *)
Definition match_hash16 (g : group) (h : N) : N :=
  movemask (cmpeq_epi8 (and_si128 g make_mask_bits16) (make_hash_bits16 h)).

(** flat_map_group16.hpp:208-216, 329-339 is_overflow: top bit of byte hash % 16. *)
Definition is_overflow16 (g : group) (h : N) : bool :=
  negb (N.land (byte g (h mod 16)) 128 =? 0).
(** flat_map_group16.hpp:244-247, 384-388 set_overflow. *)
Definition set_overflow16 (g : group) (h : N) : group :=
  seti g (h mod 16) (N.lor (byte g (h mod 16)) 128).
(** flat_map_group16.hpp:230-235, 372-376 set_used: overflow_bits | hash8. *)
Definition set_used16 (g : group) (p h : N) : group :=
  seti g p (N.lor (N.land (byte g p) 128) (u8 h)).
(** flat_map_group16.hpp:226-228, 366-370 set_empty: keeps the overflow bit. *)
Definition set_empty16 (g : group) (p : N) : group :=
  seti g p (N.lor (N.land (byte g p) 128) 0).
(** flat_map_group16.hpp:288-305 init. *)
Definition init16 : group := repeat 0 16.

(** ** What the tables need to know about a kind of group

    group15_flat_table.hpp and group16_flat_table.hpp are copies of each other up
    to the items of this record. *)
Record kind := mkKind {
  kd_S : N;                 (* slots per group: kGroupSize of group15, kGroupWidth of group16 *)
  kd_W : N;                 (* control bytes per group: kGroupWidth *)
  kd_sent : bool;           (* the last control byte of the table is a sentinel *)
  kd_count_deleted : bool;  (* GROUPxx_USE_NEW_OVERFLOW: insertion may raise the threshold *)
  kd_empty_cap : N;         (* ctrl_capacity() of a table without storage *)
  kd_rehash_shrinks : bool; (* rehash(n) calls rehash_impl<true> *)
  kd_static : list group;   (* default_empty_groups() *)
  kd_init : group;
  kd_reduce : N -> N;
  kd_match_empty : group -> N;
  kd_match_used : group -> N;
  kd_match_hash : group -> N -> N;
  kd_is_sentinel : group -> N -> bool;
  kd_is_overflow : group -> N -> bool;
  kd_set_overflow : group -> N -> group;
  kd_set_used : group -> N -> N -> group;
  kd_set_empty : group -> N -> group;
  kd_set_sentinel : group -> group
}.

(** group15_flat_table.hpp: kGroupWidth/kGroupSize from flat_map_group15.hpp:286-287,
    GROUP15_USE_NEW_OVERFLOW = 0 (line 95), ctrl_capacity 546-548 with group_mask_ = 0,
    rehash 750-758, default_empty_groups 1190-1206. *)
Definition k15 : kind := {|
  kd_S := 15; kd_W := 16; kd_sent := true; kd_count_deleted := false;
  kd_empty_cap := 16; kd_rehash_shrinks := false;
  kd_static := [set_sentinel15 init15; set_sentinel15 init15];
  kd_init := init15; kd_reduce := reduced_hash15;
  kd_match_empty := match_empty15; kd_match_used := match_used15;
  kd_match_hash := match_hash15; kd_is_sentinel := is_sentinel15;
  kd_is_overflow := is_overflow15; kd_set_overflow := set_overflow15;
  kd_set_used := set_used15; kd_set_empty := set_empty15;
  kd_set_sentinel := set_sentinel15
|}.

(** group16_flat_table.hpp: no sentinel, GROUP16_USE_NEW_OVERFLOW = 1 (line 95),
    slot_capacity 531-534 with slot_mask_ = -1, rehash 696-704,
    default_empty_groups 1138-1154. *)
Definition k16 : kind := {|
  kd_S := 16; kd_W := 16; kd_sent := false; kd_count_deleted := true;
  kd_empty_cap := 0; kd_rehash_shrinks := true;
  kd_static := [init16; init16];
  kd_init := init16; kd_reduce := reduced_hash16;
  kd_match_empty := match_empty16; kd_match_used := match_used16;
  kd_match_hash := match_hash16; kd_is_sentinel := fun _ _ => false;
  kd_is_overflow := is_overflow16; kd_set_overflow := set_overflow16;
  kd_set_used := set_used16; kd_set_empty := set_empty16;
  kd_set_sentinel := fun g => g
|}.
