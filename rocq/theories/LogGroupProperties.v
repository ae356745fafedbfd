(** * C17, C18 and the refuted variants C58, C59. *)
From Coq Require Import NArith ZArith List Bool Arith Lia.
From Verif Require Import Base ByteBase LogGroupModel LogGroupSpec LogGroupProofs.
Import ListNotations.

(** ** C17: a group reads back, whatever its records, the buffers' old content, the growth of
    the buffer and the bytes that follow it on the device. *)
Theorem c17_round_trip : forall cf junk buf0 fbuf max_records rs idx logdev prev_crc,
  config_ok cf -> group_ok cf buf0 fbuf max_records rs idx logdev prev_crc ->
  exists b, make_group cf junk buf0 fbuf max_records rs idx logdev prev_crc = Some (b, taken max_records rs) /\
    (exists k, length b = k * c_mult cf) /\
    (forall last t pc, pc = prev_crc \/ pc = 0%N -> next_group cf logdev pc last (b ++ t) = NGroup b) /\
    h_start b = idx /\ h_prev_crc b = prev_crc /\
    deliver b = map entry (firstn (taken max_records rs) rs).
Proof.
  intros cf junk buf0 fbuf max_records rs idx logdev prev_crc K G.
  destruct (make_group_image cf junk buf0 fbuf max_records rs idx logdev prev_crc K G) as (b & E & I).
  exists b. split; [exact E|].
  assert (Hn : firstn (taken max_records rs) rs <> []).
  { assert (0 < max_records) by apply (go_max _ _ _ _ _ _ _ _ G). assert (rs <> []) by apply (go_some _ _ _ _ _ _ _ _ G).
    unfold taken. destruct rs; [contradiction|]. rewrite in_batch. cbn [length].
    destruct (Nat.min (S (length rs)) (Nat.min max_records 202)) eqn:Em; [lia|discriminate]. }
  split; [apply (im_len _ _ _ _ _ _ I)|].
  split; [intros; eapply next_image; eauto|].
  split; [apply (im_start _ _ _ _ _ _ I)|]. split; [apply (im_prev _ _ _ _ _ _ I)|]. eapply deliver_image; eauto.
Qed.

(** Each of its records can be read by index, wherever its data lies. *)
Theorem c17_read : forall cf junk buf0 fbuf max_records rs idx logdev prev_crc b n t align i r,
  config_ok cf -> group_ok cf buf0 fbuf max_records rs idx logdev prev_crc ->
  make_group cf junk buf0 fbuf max_records rs idx logdev prev_crc = Some (b, n) ->
  0 < align -> i < n -> nth_error rs i = Some r ->
  read cf align (b ++ t) (idx + Z.of_nat i) = Some (r_data r).
Proof.
  intros cf junk buf0 fbuf max_records rs idx logdev prev_crc b n t align i r K G E A Hi Hr.
  destruct (make_group_image cf junk buf0 fbuf max_records rs idx logdev prev_crc K G) as (b' & E' & I).
  rewrite E in E'. injection E' as -> ->. eapply read_image; [exact K|exact I| |exact A|].
  - rewrite firstn_length. unfold taken. lia.
  - now rewrite nth_error_firstn_lt.
Qed.

(** ** C18: groups written one after the other and then anything at all: all their records
    are handed out first, in order and with their indexes. *)
Theorem c18_complete : forall cf ld lastp gs c idx c' idx' fuel pos first lc t prev l i2 p2 c2 e,
  config_ok cf -> chain cf ld c idx gs c' idx' -> prev = c \/ prev = 0%N ->
  do_load cf ld lastp (length gs + fuel) prev pos first idx lc (stream_of gs ++ t) = (l, i2, p2, c2, e) ->
  exists l', l = log_of gs ++ l'.
Proof.
  intros cf ld lastp gs c idx c' idx' fuel pos first lc t prev l i2 p2 c2 e K C Hp H.
  rewrite (load_chain cf ld lastp gs c idx c' idx' fuel pos first lc t K C prev Hp) in H.
  destruct (do_load cf ld lastp fuel _ _ _ idx' _ t) as [[[[l' ?] ?] ?] ?]. injection H as <- _ _ _ _. eauto.
Qed.

(** Nothing is handed out that is not part of an intact group with the next index and, after
    the first one, the CRC of the group before. *)
Theorem c18_intact : forall cf ld lastp fuel pc pos first idx lc stream l i2 p2 c2 e,
  do_load cf ld lastp fuel pc pos first idx lc stream = (l, i2, p2, c2, e) ->
  exists bs rest, stream = concat bs ++ rest /\ sealed_from cf ld pc idx bs /\ p2 = pos + length (concat bs) /\
    l = concat (map (fun b => number (h_start b) (deliver b)) bs) /\ i2 = (idx + Z.of_nat (length l))%Z.
Proof. exact load_sealed. Qed.

(** Power fails while a group is written and only the first [k] units reached the device:
    recovery succeeds and the new group is handed out if and only if all of it is there. *)
Theorem c18_torn : forall cf ld lastp gs g c idx c' idx' c'' idx'' k old pos first lc fuel prev,
  config_ok cf -> chain cf ld c idx gs c' idx' -> chain cf ld c' idx' [g] c'' idx'' -> prev = c \/ prev = 0%N ->
  (forall q, pos + length (stream_of gs) <= q -> lastp q = true) ->
  length (w_bytes g) <= length old -> k * c_mult cf <= length (w_bytes g) ->
  stale ld (seen gs prev c') old -> stale ld c'' (skipn (length (w_bytes g)) old) ->
  footer_whole cf (w_bytes g) -> no_old_footer (w_bytes g) old idx' ->
  let '(l, i2, p2, c2, e) := do_load cf ld lastp (length gs + S (S fuel)) prev pos first idx lc (stream_of gs ++ torn (k * c_mult cf) (w_bytes g) old) in
  e = Loaded /\
  ((k * c_mult cf < length (w_bytes g) /\ l = log_of gs /\ i2 = idx' /\ p2 = pos + length (stream_of gs)) \/
   (k * c_mult cf = length (w_bytes g) /\ l = log_of (gs ++ [g]) /\ i2 = idx'' /\ p2 = pos + length (stream_of (gs ++ [g])))).
Proof. exact load_torn. Qed.

(** ** Examples.  crc.cpp:27-41, one byte of [crc32_ieee] (the constant also clears bit 32,
    which the code leaves set and drops at the end); homestore_decl.hpp:132. *)
Fixpoint crc_bits (n : nat) (rem : N) : N :=
  match n with
  | O => rem
  | S n' => crc_bits n' (let r := N.shiftl rem 1 in if N.testbit r 32 then N.lxor r 4374732215 else r)
  end.
Definition not32 (x : N) : N := 2 ^ 32 - 1 - x mod 2 ^ 32.
Definition crc32_ieee (c b : N) : N := not32 (crc_bits 8 (N.lxor (not32 c) (N.shiftl b 24))).
Definition ex_cf : config := Config 512 512 crc32_ieee 305419896.

Lemma ex_cf_ok : config_ok ex_cf.
Proof.
  constructor; [apply Nat.leb_le; vm_compute; reflexivity|reflexivity|].
  intros c b. unfold ex_cf, c_crc, crc32_ieee, not32. lia.
Qed.

(** A checker for [group_ok]. *)
Definition record_okb (r : record) : bool := (r_store r <? 2 ^ 32)%N && (- 2 ^ 63 <=? r_seq r)%Z && (r_seq r <? 2 ^ 63)%Z.
Definition group_okb (cf : config) (buf0 fbuf : list N) (max_records : nat) (rs : list record) (idx : Z) (logdev prev_crc : N) : bool :=
  (length buf0 =? buf_len cf) && (length fbuf =? round_up ftr_size (c_mult cf)) && (0 <? max_records) && negb (length rs =? 0) &&
  forallb record_okb rs && (- 2 ^ 63 <=? idx)%Z && (idx <? 2 ^ 63)%Z && (logdev <? 2 ^ 32)%N && (prev_crc <? 2 ^ 32)%N &&
  (N.of_nat (96 + 20 * max_records + data_size rs + 2 * c_mult cf) <? 2 ^ 31)%N.
Lemma group_okb_ok : forall cf buf0 fbuf m rs idx ld pc, group_okb cf buf0 fbuf m rs idx ld pc = true -> group_ok cf buf0 fbuf m rs idx ld pc.
Proof.
  intros cf buf0 fbuf m rs idx ld pc H. unfold group_okb in H. rewrite !andb_true_iff in H.
  destruct H as (((((((((H1 & H2) & H3) & H4) & H5) & H6) & H7) & H8) & H9) & H10).
  apply Nat.eqb_eq in H1, H2. apply Nat.ltb_lt in H3. apply negb_true_iff, Nat.eqb_neq in H4. apply Z.leb_le in H6. apply Z.ltb_lt in H7.
  apply N.ltb_lt in H8, H9, H10. constructor; auto.
  - intros ->. now apply H4.
  - apply Forall_forall. intros r Hr. rewrite forallb_forall in H5. specialize (H5 r Hr). unfold record_okb in H5.
    rewrite !andb_true_iff in H5. destruct H5 as ((A & B) & C). split; [now apply N.ltb_lt|]. split; [now apply Z.leb_le|now apply Z.ltb_lt].
Qed.

Definition ex_buf : list N := repeat 7%N (buf_len ex_cf).
Definition ex_fbuf : list N := repeat 9%N 512.
(** Small, out of band, unaligned in memory, and large enough to outgrow the buffer. *)
Definition ex_rs : list record :=
  [Rec 1 10 (repeat 1%N 5) true; Rec 2 77 (repeat 2%N 1024) true; Rec 1 11 (repeat 3%N 512) false; Rec 3 (-1) [] true;
   Rec 2 78 (repeat 4%N (9 * 1000)) true].
Definition ex_rs2 : list record := [Rec 1 12 (repeat 5%N 100) true].

Example ex_group_ok : group_ok ex_cf ex_buf ex_fbuf 9 ex_rs 40 3 0.
Proof. apply group_okb_ok. vm_compute. reflexivity. Qed.
Example ex_group_bytes :
  match make_group ex_cf (fun _ => 0%N) ex_buf ex_fbuf 9 ex_rs 40 3 0 with
  | Some (b, n) => n = 5 /\ h_size b = N.to_nat 11776 /\ h_oob b = N.to_nat 10240 /\ h_footer b = N.to_nat 11264
  | None => False
  end.
Proof. vm_compute. ands; reflexivity. Qed.

Definition ex_w (junk : N) (m : nat) (rs : list record) (idx : Z) (pc : N) : wgroup :=
  match make_group ex_cf (fun _ => junk) ex_buf ex_fbuf m rs idx 3 pc with
  | Some (b, n) => WG b (firstn n rs) idx
  | None => WG [] [] 0
  end.
Lemma ex_w_chain : forall g junk m rs idx pc next gs c' idx', g = ex_w junk m rs idx pc ->
  group_okb ex_cf ex_buf ex_fbuf m rs idx 3 pc = true -> (idx + Z.of_nat (taken m rs))%Z = next ->
  chain ex_cf 3 (h_crc (w_bytes g)) next gs c' idx' -> chain ex_cf 3 pc idx (g :: gs) c' idx'.
Proof.
  intros g junk m rs idx pc next gs c' idx' -> G <- C. apply group_okb_ok in G.
  destruct (make_group_image ex_cf (fun _ => junk) ex_buf ex_fbuf m rs idx 3 pc ex_cf_ok G) as (b & E & I).
  unfold ex_w in *. rewrite E in *. econstructor; eauto.
Qed.
Definition ex_g1 : wgroup := ex_w 0 9 ex_rs 40 0.
Definition ex_g2 : wgroup := ex_w 0 5 ex_rs2 45 (h_crc (w_bytes ex_g1)).
Definition ex_g3 : wgroup := ex_w 0 6 (ex_rs2 ++ ex_rs2) 46 (h_crc (w_bytes ex_g2)).
Example ex_chain : exists c', chain ex_cf 3 0 40 [ex_g1; ex_g2] c' 46 /\ exists c'', chain ex_cf 3 c' 46 [ex_g3] c'' 48.
Proof.
  exists (h_crc (w_bytes ex_g2)). split; [|exists (h_crc (w_bytes ex_g3))].
  - apply (ex_w_chain ex_g1 0 9 ex_rs 40 0 45); [reflexivity|vm_compute; reflexivity|reflexivity|].
    apply (ex_w_chain ex_g2 0 5 ex_rs2 45 (h_crc (w_bytes ex_g1)) 46); [reflexivity|vm_compute; reflexivity|reflexivity|constructor].
  - apply (ex_w_chain ex_g3 0 6 (ex_rs2 ++ ex_rs2) 46 (h_crc (w_bytes ex_g2)) 48); [reflexivity|vm_compute; reflexivity|reflexivity|constructor].
Qed.
(** The other hypotheses of [c18_torn], for the group above over a device full of an old
    group of another log; and what is found when nothing or everything was written. *)
Definition ex_old : list N := repeat 0%N 2048.
Example ex_torn :
  stale 3 (seen [ex_g1; ex_g2] 0 (h_crc (w_bytes ex_g2))) ex_old /\
  stale 3 (h_crc (w_bytes ex_g3)) (skipn (length (w_bytes ex_g3)) ex_old) /\
  footer_whole ex_cf (w_bytes ex_g3) /\ no_old_footer (w_bytes ex_g3) ex_old 46 /\ length (w_bytes ex_g3) = 512.
Proof.
  assert (E : h_footer (w_bytes ex_g3) = 368) by (vm_compute; reflexivity). unfold h_footer in E.
  ands.
  - left. vm_compute. discriminate.
  - left. vm_compute. discriminate.
  - intro k. rewrite E. cbn [c_mult ex_cf]. destruct k; lia.
  - unfold no_old_footer. rewrite E. intros [H _]. vm_compute in H. discriminate.
  - vm_compute. reflexivity.
Qed.

(** ** C58: the same without the condition on the footer.  The group is written by one
    request; its first 512-byte unit reached the device and the second did not.  The
    footer's magic and index are in the first unit, the rest of the footer is not: the CRC
    differs and recovery asserts, on every restart. *)
Definition ex_cut : wgroup := ex_w 0 5 [Rec 1 10 (repeat 1%N 352) true] 40 0.
Theorem c58_prefix_tear_asserts_refuted : exists cf ld lastp g c'' idx'' k old,
  config_ok cf /\ chain cf ld 0 40 [g] c'' idx'' /\ (forall q, lastp q = true) /\
  length (w_bytes g) <= length old /\ k * c_mult cf < length (w_bytes g) /\
  stale ld 0 old /\ stale ld c'' (skipn (length (w_bytes g)) old) /\ no_old_footer (w_bytes g) old 40 /\
  forall fuel, snd (do_load cf ld lastp (S fuel) 0 0 true 40 0 (torn (k * c_mult cf) (w_bytes g) old)) = Died.
Proof.
  exists ex_cf, 3%N, (fun _ => true), ex_cut, (h_crc (w_bytes ex_cut)), 41%Z, 1, ex_old.
  assert (E : h_footer (w_bytes ex_cut) = 500) by (vm_compute; reflexivity). unfold h_footer in E.
  assert (L : length (w_bytes ex_cut) = 1024) by (vm_compute; reflexivity).
  split; [exact ex_cf_ok|]. split.
  { apply (ex_w_chain ex_cut 0 5 [Rec 1 10 (repeat 1%N 352) true] 40 0 41); [reflexivity|vm_compute; reflexivity|reflexivity|constructor]. }
  split; [reflexivity|].
  rewrite L. split; [apply Nat.leb_le; vm_compute; reflexivity|]. split; [cbn [c_mult ex_cf]; lia|].
  split; [left; vm_compute; discriminate|]. split; [left; vm_compute; discriminate|].
  split; [unfold no_old_footer; rewrite E; intros [H _]; vm_compute in H; discriminate|].
  intro fuel. cbn [do_load].
  assert (X : next_group ex_cf 3 0 true (torn (1 * c_mult ex_cf) (w_bytes ex_cut) ex_old) = NAssert) by (vm_compute; reflexivity).
  rewrite X. reflexivity.
Qed.

(** Nor if the device writes the units of one request in any order: a group whose footer
    arrived and whose middle did not also stops every restart. *)
Theorem c58_missing_middle_asserts_refuted : exists cf ld lastp g c'' idx'' a z old,
  config_ok cf /\ chain cf ld 0 40 [g] c'' idx'' /\ (forall q, lastp q = true) /\ footer_whole cf (w_bytes g) /\
  a < z /\ z * c_mult cf < length (w_bytes g) <= length old /\
  forall fuel, snd (do_load cf ld lastp (S fuel) 0 0 true 40 0
                      (torn (a * c_mult cf) (w_bytes g) (torn (z * c_mult cf) old (w_bytes g)))) = Died.
Proof.
  exists ex_cf, 3%N, (fun _ => true), ex_g1, (h_crc (w_bytes ex_g1)), 45%Z, 1, 2, (repeat 0%N (length (w_bytes ex_g1))).
  assert (E : get 32 4 (w_bytes ex_g1) = 11264%N) by (vm_compute; reflexivity).
  assert (L : N.of_nat (length (w_bytes ex_g1)) = 11776%N) by (vm_compute; reflexivity).
  split; [exact ex_cf_ok|]. split.
  { apply (ex_w_chain ex_g1 0 9 ex_rs 40 0 45); [reflexivity|vm_compute; reflexivity|reflexivity|constructor]. }
  split; [reflexivity|].
  split. { intro k. rewrite E. cbn [c_mult ex_cf]. lia. }
  split; [lia|]. split. { rewrite repeat_length. cbn [c_mult ex_cf]. lia. }
  intro fuel. cbn [do_load].
  assert (X : next_group ex_cf 3 0 true (torn (1 * c_mult ex_cf) (w_bytes ex_g1)
                (torn (2 * c_mult ex_cf) (repeat 0%N (length (w_bytes ex_g1))) (w_bytes ex_g1))) = NAssert) by (vm_compute; reflexivity).
  rewrite X. reflexivity.
Qed.

(** ** C59: a flush that finds no record ready.  [prepare_flush] finishes the group all the
    same; with more than 407 records reserved its first iovec is longer than the buffer, and
    the CRC reads past it. *)
Theorem c59_empty_flush_overread_refuted : exists cf junk buf0 fbuf max_records idx logdev prev_crc,
  config_ok cf /\ length buf0 = buf_len cf /\ length fbuf = round_up ftr_size (c_mult cf) /\
  make_group cf junk buf0 fbuf max_records [] idx logdev prev_crc = None.
Proof.
  exists ex_cf, (fun _ => 0%N), ex_buf, ex_fbuf, 408, 0%Z, 3%N, 0%N. split; [exact ex_cf_ok|].
  ands; [apply repeat_length|apply repeat_length|vm_compute; reflexivity].
Qed.

Print Assumptions c17_round_trip.
Print Assumptions c17_read.
Print Assumptions c18_complete.
Print Assumptions c18_intact.
Print Assumptions c18_torn.
Print Assumptions c58_prefix_tear_asserts_refuted.
Print Assumptions c58_missing_middle_asserts_refuted.
Print Assumptions c59_empty_flush_overread_refuted.
