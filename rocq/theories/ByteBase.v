(** * Byte strings: little-endian fields, slices and overwrites. *)
From Coq Require Import NArith ZArith List Lia Bool Arith.
From Verif Require Import Base.
Import ListNotations.

Notation le := le_bytes (only parsing).
Notation unle := le_val (only parsing).
(** 64-bit two's complement. *)
Definition z64 (z : Z) : N := Z.to_N (z mod 2 ^ 64).
Definition unz64 (n : N) : Z := if (n <? 2 ^ 63)%N then Z.of_N n else (Z.of_N n - 2 ^ 64)%Z.

(** The [len] bytes at [off]; and overwriting at [pos]. *)
Definition sub (off len : nat) (l : list N) : list N := firstn len (skipn off l).
Definition put (pos : nat) (bs l : list N) : list N := firstn pos l ++ bs ++ skipn (pos + length bs) l.
Definition get (off len : nat) (l : list N) : N := unle (sub off len l).

Definition round_up (x m : nat) : nat := (x + m - 1) / m * m.
Definition round_down (x m : nat) : nat := x / m * m.

Lemma le_length : forall k n, length (le k n) = k.
Proof. exact le_bytes_length. Qed.
Lemma unle_le : forall k n, (n < 256 ^ N.of_nat k)%N -> unle (le k n) = n.
Proof. exact le_val_bytes_small. Qed.

Lemma unz64_z64 : forall z, (- 2 ^ 63 <= z < 2 ^ 63)%Z -> unz64 (z64 z) = z.
Proof.
  intros z H. unfold unz64, z64.
  assert (E : (z mod 2 ^ 64 = if z <? 0 then z + 2 ^ 64 else z)%Z).
  { destruct (Z.ltb_spec z 0).
    - symmetry. apply (Z.mod_unique _ _ (-1)); [left; lia|lia].
    - apply Z.mod_small. lia. }
  rewrite E. destruct (Z.ltb_spec z 0).
  - destruct (N.ltb_spec (Z.to_N (z + 2 ^ 64)) (2 ^ 63)); lia.
  - destruct (N.ltb_spec (Z.to_N z) (2 ^ 63)); lia.
Qed.

Lemma z64_lt : forall z, (z64 z < 256 ^ N.of_nat 8)%N.
Proof. intro z. unfold z64. assert (H := Z.mod_pos_bound z (2 ^ 64) ltac:(lia)). change (256 ^ N.of_nat 8)%N with (2 ^ 64)%N. lia. Qed.

Lemma put_length : forall pos bs l, (pos + length bs <= length l)%nat -> length (put pos bs l) = length l.
Proof. intros pos bs l H. unfold put. rewrite !app_length, firstn_length, skipn_length. lia. Qed.

Lemma sub_length : forall off len l, (off + len <= length l)%nat -> length (sub off len l) = len.
Proof. intros off len l H. unfold sub. rewrite firstn_length, skipn_length. lia. Qed.

Lemma skipn_skipn : forall {A} a b (l : list A), skipn a (skipn b l) = skipn (b + a) l.
Proof. induction b as [|b IH]; intros l; [reflexivity|]. destruct l; cbn; [apply skipn_nil|apply IH]. Qed.

Lemma sub_app_l : forall off len a b, (off + len <= length a)%nat -> sub off len (a ++ b) = sub off len a.
Proof.
  intros off len a b H. unfold sub. rewrite skipn_app, firstn_app, skipn_length.
  replace (len - (length a - off))%nat with 0%nat by lia. replace (off - length a)%nat with 0%nat by lia. cbn [skipn firstn].
  apply app_nil_r.
Qed.

Lemma sub_app_r : forall off len a b, (length a <= off)%nat -> sub off len (a ++ b) = sub (off - length a) len b.
Proof.
  intros off len a b H. unfold sub. rewrite skipn_app, (skipn_all2 a) by lia. reflexivity.
Qed.

Lemma sub_all : forall l len, (length l <= len)%nat -> sub 0 len l = l.
Proof. intros l len H. unfold sub. cbn [skipn]. now apply firstn_all2. Qed.

Lemma sub_firstn : forall off len m l, (off + len <= m)%nat -> sub off len (firstn m l) = sub off len l.
Proof.
  intros off len m l H. unfold sub. rewrite skipn_firstn_comm, firstn_firstn. f_equal. lia.
Qed.

Lemma sub_skipn : forall off len m l, sub off len (skipn m l) = sub (m + off) len l.
Proof. intros. unfold sub. now rewrite skipn_skipn. Qed.

Lemma sub_sub : forall o1 l1 o2 l2 l, (o2 + l2 <= l1)%nat -> sub o2 l2 (sub o1 l1 l) = sub (o1 + o2) l2 l.
Proof. intros. unfold sub at 2. rewrite sub_firstn by lia. apply sub_skipn. Qed.

Lemma sub_put_same : forall pos bs l, (pos + length bs <= length l)%nat -> sub pos (length bs) (put pos bs l) = bs.
Proof.
  intros pos bs l H. unfold put. assert (E : length (firstn pos l) = pos) by (rewrite firstn_length; lia).
  rewrite sub_app_r by lia. rewrite E, Nat.sub_diag. rewrite sub_app_l by lia. apply sub_all. lia.
Qed.

Lemma sub_put_before : forall off len pos bs l, (pos + length bs <= length l)%nat -> (off + len <= pos)%nat ->
  sub off len (put pos bs l) = sub off len l.
Proof.
  intros off len pos bs l H H1. unfold put. assert (E : length (firstn pos l) = pos) by (rewrite firstn_length; lia).
  rewrite sub_app_l by lia. apply sub_firstn. lia.
Qed.

Lemma sub_put_after : forall off len pos bs l, (pos + length bs <= length l)%nat -> (pos + length bs <= off)%nat ->
  sub off len (put pos bs l) = sub off len l.
Proof.
  intros off len pos bs l H H1. unfold put. assert (E : length (firstn pos l) = pos) by (rewrite firstn_length; lia).
  rewrite sub_app_r by lia. rewrite sub_app_r by lia. rewrite sub_skipn. f_equal. lia.
Qed.

(** Within an overwrite. *)
Lemma sub_put_in : forall off len pos bs l, (pos + length bs <= length l)%nat -> (pos <= off)%nat -> (off + len <= pos + length bs)%nat ->
  sub off len (put pos bs l) = sub (off - pos) len bs.
Proof.
  intros off len pos bs l H H1 H2. unfold put. assert (E : length (firstn pos l) = pos) by (rewrite firstn_length; lia).
  rewrite sub_app_r by lia. rewrite E. apply sub_app_l. lia.
Qed.

Lemma skipn_put_after : forall n pos bs l, (pos + length bs <= n)%nat -> (pos + length bs <= length l)%nat ->
  skipn n (put pos bs l) = skipn n l.
Proof.
  intros n pos bs l H H1. unfold put. assert (E : length (firstn pos l) = pos) by (rewrite firstn_length; lia).
  rewrite app_assoc, skipn_app. rewrite skipn_all2 by (rewrite app_length; lia). cbn [app].
  rewrite skipn_skipn, app_length, E. f_equal. lia.
Qed.

Lemma round_up_le : forall x m, (0 < m)%nat -> (x <= round_up x m < x + m)%nat.
Proof.
  intros x m H. unfold round_up. assert (D := Nat.div_mod (x + m - 1) m ltac:(lia)).
  assert (M := Nat.mod_upper_bound (x + m - 1) m ltac:(lia)). rewrite Nat.mul_comm. lia.
Qed.

Lemma round_up_div : forall x m, exists k, round_up x m = (k * m)%nat.
Proof. intros. exists ((x + m - 1) / m)%nat. reflexivity. Qed.

Lemma round_up_mono : forall x m k, (0 < m)%nat -> (x <= k * m)%nat -> (round_up x m <= k * m)%nat.
Proof.
  intros x m k H H1. assert (R := round_up_le x m H). destruct (round_up_div x m) as [j E]. rewrite E in *.
  apply Nat.mul_le_mono_r. nia.
Qed.

Lemma round_down_le : forall x m, (0 < m)%nat -> (round_down x m <= x)%nat.
Proof.
  intros x m H. unfold round_down. assert (D := Nat.div_mod x m ltac:(lia)). rewrite Nat.mul_comm. lia.
Qed.
