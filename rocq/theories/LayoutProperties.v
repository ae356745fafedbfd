(** * C14: superblock regions do not overlap. *)
From Coq Require Import NArith List Lia Bool ZifyBool ZifyNat ZifyN.
From Verif Require Import Base ExtSpec ExtFacts LayoutModel.
Import ListNotations.
Local Open Scope N_scope.

(** What is written to the superblock. *)
Inductive item := FirstBlock | VdevInfo (v : N) | ChunkBitmap (bytes : N) | ChunkInfo (slot : N).
Definition item_ext (d : dev) (i : item) : ext :=
  match i with
  | FirstBlock => (0, first_block_size)
  | VdevInfo v => (vdev_slot_offset v, 512)
  | ChunkBitmap n => (chunk_sb_offset, n)
  | ChunkInfo s => (chunk_slot_offset d s, 512)
  end.
(** 1024 vdevs; the serialized bitmap has a header of at most a page and is padded to
    the page; slots are those of the slot bitmap. *)
Definition item_ok (d : dev) (i : item) : Prop :=
  match i with
  | FirstBlock => True
  | VdevInfo v => v < 1024
  | ChunkBitmap n => exists hdr, hdr <= 4096 /\ n = round_up (hdr + (max_chunks d + 7) / 8) 4096
  | ChunkInfo s => s < num_slots d
  end.
Definition same_item (i j : item) : Prop :=
  match i, j with ChunkBitmap _, ChunkBitmap _ => True | _, _ => i = j end.

Lemma round_up_le : forall x m, 0 < m -> x <= round_up x m.
Proof. intros x m H. unfold round_up. assert (A := N.div_mod (x + m - 1) m). assert (B := N.mod_lt (x + m - 1) m). nia. Qed.
Lemma round_up_mono : forall x y m, 0 < m -> x <= y -> round_up x m <= round_up y m.
Proof. intros x y m H L. unfold round_up. apply N.mul_le_mono_r. apply N.div_le_mono; lia. Qed.
Lemma bytes8 : forall n, round_up n 8 / 8 = (n + 7) / 8.
Proof. intros n. unfold round_up. rewrite N.div_mul by lia. f_equal. lia. Qed.

Lemma item_bounds : forall d i, item_ok d i -> fst (item_ext d i) + snd (item_ext d i) <= total_size d /\
  match i with
  | FirstBlock => fst (item_ext d i) + snd (item_ext d i) <= vdev_sb_offset
  | VdevInfo v => vdev_sb_offset <= fst (item_ext d i) /\ fst (item_ext d i) + snd (item_ext d i) <= chunk_sb_offset
  | ChunkBitmap n => fst (item_ext d i) + snd (item_ext d i) <= chunk_slot_offset d 0
  | ChunkInfo s => chunk_slot_offset d 0 <= fst (item_ext d i)
  end.
Proof.
  intros d i H.
  assert (B : 4096 <= chunk_bitmap_size d).
  { unfold chunk_bitmap_size. etransitivity; [|apply round_up_le; lia]. lia. }
  assert (P : 512 <= padding d) by (unfold padding; destruct (dv_fast d); lia).
  destruct i as [|v|n|s]; cbn [item_ext item_ok fst snd] in *;
    unfold total_size, chunk_sb_size, chunk_slot_offset, vdev_slot_offset, chunk_sb_offset, vdev_sb_offset, vdev_sb_size, first_block_size in *.
  - lia.
  - lia.
  - destruct H as [hdr [H1 ->]].
    assert (L : round_up (hdr + (max_chunks d + 7) / 8) 4096 <= chunk_bitmap_size d).
    { unfold chunk_bitmap_size. rewrite bytes8. apply round_up_mono; lia. }
    lia.
  - unfold num_slots in H. lia.
Qed.

(** Different items occupy different bytes, below the data area. *)
Theorem c14_items_disjoint : forall d i j, item_ok d i -> item_ok d j -> ~ same_item i j ->
  ~ overlap (item_ext d i) (item_ext d j).
Proof.
  intros d i j Hi Hj Hs Ho. apply overlap_iff in Ho.
  destruct (item_bounds d i Hi) as [A1 A2]. destruct (item_bounds d j Hj) as [B1 B2].
  destruct i as [|v|n|s], j as [|v'|n'|s']; cbn [same_item] in Hs; try tauto;
    cbn [item_ext fst snd item_ok] in *; unfold chunk_slot_offset, vdev_slot_offset, chunk_sb_offset, vdev_sb_offset, first_block_size in *;
    try lia.
  - assert (v <> v') by congruence. lia.
  - assert (s <> s') by congruence. lia.
Qed.

Theorem c14_below_data : forall d i, 0 < dv_page d -> item_ok d i ->
  fst (item_ext d i) + snd (item_ext d i) <= data_offset d /\ data_offset d mod dv_page d = 0.
Proof.
  intros d i Hp H. split.
  - destruct (item_bounds d i H) as [A _]. unfold data_offset. rewrite N.add_0_l. etransitivity; [exact A|]. now apply round_up_le.
  - unfold data_offset, round_up. apply N.mod_mul. lia.
Qed.

(** Every write of an item stays inside the device and outside the data area, also the
    copy in the footer, when the device holds both superblocks. *)
Theorem c14_writes_outside_data : forall d i off, 0 < dv_page d -> item_ok d i ->
  dv_size d < 2 ^ 64 -> (if dv_mirror d then 2 else 1) * data_offset d <= dv_size d ->
  In off (writes_at d (fst (item_ext d i))) ->
  off + snd (item_ext d i) <= dv_size d /\
  (off + snd (item_ext d i) <= data_offset d \/ data_end d <= off) /\ data_offset d <= data_end d <= dv_size d.
Proof.
  intros d i off Hp H Hs Hd Ho. destruct (c14_below_data d i Hp H) as [A _].
  unfold writes_at in Ho. cbn [In] in Ho. unfold data_end in *.
  destruct (dv_mirror d).
  - assert (E : (dv_size d + 2 ^ 64 - data_offset d) mod 2 ^ 64 = dv_size d - data_offset d).
    { replace (dv_size d + 2 ^ 64 - data_offset d) with (dv_size d - data_offset d + 1 * 2 ^ 64) by lia.
      rewrite N.mod_add by discriminate. apply N.mod_small. lia. }
    rewrite E in *. cbn [In] in Ho. destruct Ho as [<-|[<-|[]]]; ands; try lia.
  - cbn [In] in Ho. destruct Ho as [<-|[]]. ands; try lia.
Qed.

(** Any area of chunks is covered: a device holds at most [max_chunks] chunks of the
    minimum size, and there is a slot for each. *)
Theorem c14_enough_slots : forall d n size, dv_size d < 2 ^ 56 -> min_chunk_size d <= size ->
  n * size <= dv_size d -> n <= max_chunks d /\ n <= num_slots d.
Proof.
  intros d n size Hs Hm Hn.
  assert (H : n <= max_chunks d).
  { unfold max_chunks. rewrite N.mod_small.
    - apply N.div_le_lower_bound; [unfold min_chunk_size; destruct (dv_fast d); lia|]. nia.
    - apply N.div_lt_upper_bound; [unfold min_chunk_size; destruct (dv_fast d); lia|].
      unfold min_chunk_size; destruct (dv_fast d); lia. }
  split; [exact H|]. unfold num_slots. lia.
Qed.

Definition ex_dev : dev := Dev false 1000000000 4096 true.
Example c14_example : item_ok ex_dev (ChunkInfo 58) /\ item_ok ex_dev (ChunkBitmap 8192) /\ item_ok ex_dev (VdevInfo 1023) /\
  max_chunks ex_dev = 59 /\ 2 * data_offset ex_dev <= dv_size ex_dev.
Proof. ands; try (vm_compute; congruence). exists 4096. split; vm_compute; congruence. Qed.

(** The size precondition is needed: on a mirrored device smaller than its superblock area the end of the data area
    wraps around, and the first chunk is placed outside the device. *)
Theorem c14_mirror_precondition_needed : exists d, 0 < dv_page d /\ 0 < dv_size d < 2 ^ 64 /\ dv_size d < data_offset d /\ dv_size d < data_end d.
Proof. exists (Dev false 8000000 4096 true). ands; vm_compute; reflexivity. Qed.

Print Assumptions c14_items_disjoint.
Print Assumptions c14_below_data.
Print Assumptions c14_writes_outside_data.
Print Assumptions c14_enough_slots.
Print Assumptions c14_mirror_precondition_needed.
