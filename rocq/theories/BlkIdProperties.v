(** Properties C01-C04: block identifiers. *)
From Coq Require Import NArith List.
From Verif Require Import BlkIdModel BlkIdSpec BlkIdProofs.
Import ListNotations.
Local Open Scope N_scope.

(** C01: id -> integer -> id. *)
Theorem c01_integer_roundtrip : forall (f : bool) (e : extent), fits e ->
  names (of_integer (to_integer (id_of f e))) = e /\ flag_of (of_integer (to_integer (id_of f e))) = f
  /\ to_integer (id_of f e) < 18446744073709551616.
Proof. exact c01_roundtrip_lemma. Qed.
Print Assumptions c01_integer_roundtrip.

Example c01_integer_roundtrip_ex : fits (Extent 65535 2147483647 65535) /\
  to_integer (id_of true (Extent 3 9 2)) = 1 + 2 * 9 + 2 ^ 32 * 2 + 2 ^ 48 * 3.
Proof. repeat split; vm_compute; reflexivity. Qed.

(** C01: integer -> id -> integer. *)
Theorem c01_id_roundtrip : forall i : N, i < 18446744073709551616 -> to_integer (of_integer i) = i.
Proof. exact to_of_integer. Qed.
Print Assumptions c01_id_roundtrip.

Example c01_id_roundtrip_ex : to_integer (of_integer 18446744073709551615) = 18446744073709551615.
Proof. reflexivity. Qed.

(** C01: no two extents share an integer. *)
Theorem c01_integer_injective : forall f1 e1 f2 e2, fits e1 -> fits e2 ->
  to_integer (id_of f1 e1) = to_integer (id_of f2 e2) -> e1 = e2 /\ f1 = f2.
Proof. exact c01_injective_lemma. Qed.
Print Assumptions c01_integer_injective.

Example c01_integer_injective_ex : fits (Extent 1 2 3) /\ fits (Extent 1 3 2) /\
  to_integer (id_of false (Extent 1 2 3)) <> to_integer (id_of false (Extent 1 3 2)).
Proof. repeat split; vm_compute; congruence. Qed.

(** C01: the API type allows 32-bit block numbers (and [max_blks_per_chunk] is
    2^32, blk.h:41) but two different ones can give the same id. *)
Theorem c01_wide_block_number_refuted : exists b1 b2, b1 < 4294967296 /\ b2 < 4294967296 /\ b1 <> b2 /\
  mk_blkid b1 1 0 = mk_blkid b2 1 0.
Proof. exact c01_overflow_lemma. Qed.
Print Assumptions c01_wide_block_number_refuted.

(** C02: serialize then deserialize restores the id; sizes are as advertised. *)
Theorem c02_serialize_roundtrip : forall c ps m, scattered c ps -> (1 <= length ps)%nat ->
  build multi_empty ps = Some m ->
  multi_deserialize (multi_serialize m) = Some m /\
  length (multi_serialize m) = serialized_size m /\
  serialized_size m = expected_serialized_size (length ps).
Proof. exact c02_lemma. Qed.
Print Assumptions c02_serialize_roundtrip.

(** C02: the deserialized id names exactly the original extents, in order. *)
Theorem c02_pieces_survive : forall c ps m, scattered c ps -> build multi_empty ps = Some m ->
  exists m', multi_deserialize (multi_serialize m) = Some m' /\ map names (iterate m') = ps.
Proof. exact c02_pieces_lemma. Qed.
Print Assumptions c02_pieces_survive.

Example c02_ex : exists m, scattered 7 [Extent 7 10 4; Extent 7 0 65535; Extent 7 99 1] /\
  build multi_empty [Extent 7 10 4; Extent 7 0 65535; Extent 7 99 1] = Some m /\
  length (multi_serialize m) = 22%nat.
Proof.
  eexists. split; [|split; [reflexivity|reflexivity]].
  split; [reflexivity|]. repeat constructor.
Qed.

(** C03: up to six extents are accepted and iterate back exactly. *)
Theorem c03_iterate_exact : forall c ps, scattered c ps -> (length ps <= 6)%nat ->
  exists m, build multi_empty ps = Some m /\
    map names (iterate m) = ps /\ num_pieces m = length ps /\
    multi_blk_count m = total ps mod 65536.
Proof. exact c03_lemma. Qed.
Print Assumptions c03_iterate_exact.

(** C03: the block count is exact below 65536. *)
Theorem c03_blk_count : forall c ps m, scattered c ps -> (length ps <= 6)%nat ->
  build multi_empty ps = Some m -> total ps < 65536 -> multi_blk_count m = total ps.
Proof. exact c03_count_lemma. Qed.
Print Assumptions c03_blk_count.

(** C03: a seventh extent is refused (the process stops on a release assertion). *)
Theorem c03_seventh_refused : forall c ps, scattered c ps -> (6 < length ps)%nat -> build multi_empty ps = None.
Proof. exact c03_full_lemma. Qed.
Print Assumptions c03_seventh_refused.

(** C03: beyond the 16-bit limit the reported count is wrong. *)
Theorem c03_blk_count_wraps_refuted : exists c ps m, scattered c ps /\ build multi_empty ps = Some m /\
  total ps = 65536 /\ multi_blk_count m = 0.
Proof. exact c03_wrap_lemma. Qed.
Print Assumptions c03_blk_count_wraps_refuted.

Example c03_ex : scattered 1 [Extent 1 5 2; Extent 1 9 3] /\
  exists m, build multi_empty [Extent 1 5 2; Extent 1 9 3] = Some m /\ multi_blk_count m = 5.
Proof.
  split; [split; [reflexivity|repeat constructor]|].
  eexists. split; [reflexivity|reflexivity].
Qed.

(** C04: comparison is a total order on extents. *)
Theorem c04_compare_eq : forall a b, compare a b = Eq <-> names a = names b.
Proof. exact c04_eq_lemma. Qed.
Print Assumptions c04_compare_eq.

Theorem c04_compare_antisym : forall a b, compare b a = CompOpp (compare a b).
Proof. exact c04_antisym_lemma. Qed.
Print Assumptions c04_compare_antisym.

Theorem c04_compare_trans : forall a b c, compare a b = Lt -> compare b c = Lt -> compare a c = Lt.
Proof. exact c04_trans_lemma. Qed.
Print Assumptions c04_compare_trans.

Example c04_ex : compare (mk_blkid 5 1 0) (mk_blkid 4 1 1) = Lt /\ compare (mk_blkid 4 1 1) (mk_blkid 4 2 1) = Lt.
Proof. split; reflexivity. Qed.
