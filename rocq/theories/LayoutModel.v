(** * Model of the superblock layout of a physical device.
    Source: src/lib/device/hs_super_blk.h 165-225, device_manager.cpp 700-722 and 843-848,
    physical_dev.cpp 120-132 and 443-445.  Offsets are unbounded; [max_chunks] is converted
    to 32 bits as in the code.  sisl::round_up is rounding up to a multiple. *)
From Coq Require Import NArith List Bool.
Import ListNotations.
Local Open Scope N_scope.

(** hs_super_blk.h: device type and device size, physical page size, mirrored (HDD). *)
Record dev := Dev { dv_fast : bool; dv_size : N; dv_page : N; dv_mirror : bool }.

Definition round_up (x m : N) : N := (x + m - 1) / m * m.

(** hs_super_blk.h:214-217 *)
Definition min_chunk_size (d : dev) : N := if dv_fast d then 33554432 else 16777216.
(** :208-213, returned as uint32_t *)
Definition max_chunks (d : dev) : N := (dv_size d / min_chunk_size d) mod 2 ^ 32.
(** :184 and 198 *)
Definition first_block_size : N := 4096.
Definition vdev_sb_offset : N := first_block_size.
(** device_manager.cpp:844 *)
Definition vdev_sb_size : N := 1024 * 512.
(** hs_super_blk.h:199 *)
Definition chunk_sb_offset : N := vdev_sb_offset + vdev_sb_size.
(** :187-192 *)
Definition chunk_bitmap_size (d : dev) : N := round_up (round_up (max_chunks d) 8 / 8 + 4096) 4096.
(** device_manager.cpp:846-848 *)
Definition chunk_sb_size (d : dev) : N := chunk_bitmap_size d + max_chunks d * 512.
(** hs_super_blk.h:194-197 and 201-203 *)
Definition padding (d : dev) : N := if dv_fast d then 1048576 else 8388608.
Definition total_size (d : dev) : N := first_block_size + vdev_sb_size + chunk_sb_size d + padding d.
(** device_manager.cpp:708-712 *)
Definition data_offset (d : dev) : N := round_up (0 + total_size d) (dv_page d).
(** physical_dev.hpp:227-230, 64 bit subtraction *)
Definition data_end (d : dev) : N :=
  if dv_mirror d then (dv_size d + 2 ^ 64 - data_offset d) mod 2 ^ 64 else dv_size d.
(** physical_dev.cpp:443-445; device_manager.cpp:648, vdev slot *)
Definition chunk_slot_offset (d : dev) (slot : N) : N := chunk_sb_offset + chunk_bitmap_size d + slot * 512.
Definition vdev_slot_offset (v : N) : N := vdev_sb_offset + v * 512.
(** physical_dev.cpp:252: number of slots of the slot bitmap *)
Definition num_slots (d : dev) : N := N.max 1 (max_chunks d).
(** physical_dev.cpp:120-132: where [write_super_block] writes. *)
Definition writes_at (d : dev) (off : N) : list N := off :: if dv_mirror d then [data_end d + off] else [].
