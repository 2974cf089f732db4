(** Addresses and sizes of the arrays of a table.
    [T15] = /repo/src/jstd/hashmap/group15_flat_table.hpp,
    [T16] = /repo/src/jstd/hashmap/group16_flat_table.hpp.
    A pointer is its address; everything is computed in size_t. *)
From Coq Require Import NArith.
From Verif Require Import Base.
Open Scope N_scope.

(** sizeof(group_type): sixteen control bytes (flat_map_group15.hpp:286,
    flat_map_group16.hpp:282). *)
Definition sizeof_group : N := 16.
(** kGroupAlignment, T15:207-210, T16:206-209: the maximum of sizeof and alignof. *)
Definition kGroupAlignment : N := 16.

(** ~(GroupAlignment - 1) in size_t. *)
Definition align_mask : N := two64 - kGroupAlignment.

(** AlignedGroups, T15:1975-1987, T16:1867-1879 (same text). *)
Definition aligned_groups (groups_alloc : N) : N :=
  N.land (wsub (wadd groups_alloc kGroupAlignment) 1) align_mask.

(** AlignedSlotsAndGroups, T15:1996-2009, T16:1888-1901 (same text). *)
Definition aligned_slots_and_groups (sizeof_slot slots slot_capacity : N) : N :=
  let last_slot := wadd slots (wmul slot_capacity sizeof_slot) in
  N.land (wsub (wadd last_slot kGroupAlignment) 1) align_mask.

(** TotalGroupAllocCount, T15:2017-2022, T16:1909-1914 (same text). *)
Definition total_group_alloc_count (group_capacity : N) : N :=
  let num_group_bytes := wmul group_capacity sizeof_group in
  let total_bytes := wadd num_group_bytes kGroupAlignment in
  wsub (wadd total_bytes sizeof_group) 1 / sizeof_group.

(** TotalSlotAllocCount, T15:2030-2036, T16:1922-1928 (same text). *)
Definition total_slot_alloc_count (sizeof_slot group_capacity slot_capacity : N) : N :=
  let num_group_bytes := wmul group_capacity sizeof_group in
  let num_slot_bytes := wmul slot_capacity sizeof_slot in
  let total_bytes := wadd (wadd num_slot_bytes kGroupAlignment) num_group_bytes in
  wsub (wadd total_bytes sizeof_slot) 1 / sizeof_slot.
