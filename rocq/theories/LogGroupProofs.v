(** * Proofs about log groups. *)
From Coq Require Import NArith ZArith List Bool Arith Lia.
From Verif Require Import Base ByteBase LogGroupModel LogGroupSpec.
Import ListNotations.

Local Opaque inline_log_buf_size.

Lemma write_ok : forall pos bs buf, pos + length bs <= length buf -> write pos bs buf = Some (put pos bs buf).
Proof. intros. unfold write. destruct (Nat.ltb_spec (length buf) (pos + length bs)); [lia|reflexivity]. Qed.

Lemma enc_rec_length : forall a b c d e, length (enc_rec a b c d e) = 20.
Proof. intros. unfold enc_rec. rewrite !app_length, !le_length. reflexivity. Qed.
Lemma enc_footer_length : forall s, length (enc_footer s) = 12.
Proof. intros. unfold enc_footer. rewrite !app_length, !le_length. reflexivity. Qed.

(** Where a record of the group under construction is. *)
Definition placed (cf : config) (lo inl : nat) (buf oob : list N) (i : nat) (r : record) : Prop :=
  exists off, sub (hdr_size + rec_size * i) rec_size buf = enc_rec (length (r_data r)) off (is_inlineable cf r) (r_seq r) (r_store r) /\
    if is_inlineable cf r then lo <= off /\ off + length (r_data r) <= inl /\ sub off (length (r_data r)) buf = r_data r
    else off + length (r_data r) <= length oob /\ sub off (length (r_data r)) oob = r_data r.

Record ginv (cf : config) (max0 : nat) (idx0 : Z) (done : list record) (g : group) : Prop := {
  gi_n : g_n g = length done;
  gi_max : g_max g = Nat.min max0 max_records_in_a_batch;
  gi_le : g_n g <= g_max g;
  gi_len : exists k, length (g_buf g) = k * c_mult cf;
  gi_inl : done <> [] -> g_inl g <= length (g_buf g);
  gi_sum : hdr_size + rec_size * max0 <= g_inl g /\ g_inl g + g_oobp g = hdr_size + rec_size * max0 + data_size done;
  gi_oobp : g_oobp g = length (concat (g_oob g));
  gi_oobm : exists k, g_oobp g = k * c_mult cf;
  gi_start : done <> [] -> sub 12 8 (g_buf g) = le 8 (z64 idx0);
  gi_recs : forall i r, nth_error done i = Some r -> placed cf (hdr_size + rec_size * max0) (g_inl g) (g_buf g) (concat (g_oob g)) i r }.

Lemma data_size_app : forall a b, data_size (a ++ b) = data_size a + data_size b.
Proof. intros. unfold data_size. now rewrite map_app, list_sum_app. Qed.

Lemma overflow_len : forall cf junk buf needed, 48 <= c_mult cf -> (exists k, length buf = k * c_mult cf) ->
  let nb := create_overflow cf junk buf needed in
  (exists k, length nb = k * c_mult cf) /\ needed <= length nb /\ length buf <= length nb /\ firstn (length buf) nb = buf.
Proof.
  intros cf junk buf needed M [k K]. unfold create_overflow. set (nl := round_up _ _).
  assert (R : Nat.max needed (length buf * 2) <= nl) by (apply round_up_le; lia).
  destruct (round_up_div (Nat.max needed (length buf * 2)) (c_mult cf)) as [j J]. fold nl in J.
  assert (E : length (buf ++ map junk (seq 0 (nl - length buf))) = nl) by (rewrite app_length, map_length, seq_length; lia).
  cbv zeta. rewrite E. ands; [now exists j|lia|lia|].
  now apply firstn_app_exact.
Qed.

(** A longer buffer with the same beginning. *)
Lemma sub_longer : forall off len a b, firstn (length a) b = a -> off + len <= length a -> sub off len b = sub off len a.
Proof. intros off len a b H L. transitivity (sub off len (firstn (length a) b)); [symmetry; now apply sub_firstn|now rewrite H]. Qed.

Lemma in_batch : max_records_in_a_batch = 202.
Proof. reflexivity. Qed.

Lemma placed_keep : forall cf lo inl buf oob inl' buf' oob' i r n,
  placed cf lo inl buf oob i r -> i < n -> hdr_size + rec_size * n <= lo -> inl <= inl' ->
  sub (hdr_size + rec_size * i) rec_size buf' = sub (hdr_size + rec_size * i) rec_size buf ->
  (forall off len, lo <= off -> off + len <= inl -> sub off len buf' = sub off len buf) ->
  firstn (length oob) oob' = oob ->
  placed cf lo inl' buf' oob' i r.
Proof.
  intros cf lo inl buf oob inl' buf' oob' i r n (off & E & P) L HN I S D O. exists off. split; [now rewrite S|].
  destruct (is_inlineable cf r).
  - destruct P as (P1 & P2 & P3). ands; [lia|lia|]. now rewrite D by lia.
  - destruct P as (P1 & P2). assert (length oob <= length oob').
    { assert (X := f_equal (@length N) O). rewrite firstn_length in X. lia. }
    split; [lia|]. rewrite (sub_longer _ _ oob) by (auto; lia). exact P2.
Qed.

Lemma add_record_inv : forall cf junk max0 idx0 done g r idx,
  48 <= c_mult cf -> ginv cf max0 idx0 done g -> (done = [] -> idx = idx0) ->
  (g_n g = Nat.min max0 max_records_in_a_batch /\ add_record cf junk g r idx = Some None) \/
  (g_n g < Nat.min max0 max_records_in_a_batch /\ exists g', add_record cf junk g r idx = Some (Some g') /\ ginv cf max0 idx0 (done ++ [r]) g').
Proof.
  intros cf junk max0 idx0 done g r idx M I F. destruct I as [In Imax Ile [k Ilen] Iinl [Ilo Isum] Ioob Ioobm Ist Irec].
  unfold add_record. rewrite Imax. destruct (Nat.leb_spec (Nat.min max0 max_records_in_a_batch) (g_n g)) as [L|L].
  { left. split; [|reflexivity]. lia. }
  right. split; [exact L|].
  set (size := length (r_data r)).
  set (buf := if length (g_buf g) <=? g_inl g + size then _ else _).
  assert (B : (exists k, length buf = k * c_mult cf) /\ g_inl g + size <= length buf /\
              (done <> [] -> firstn (length (g_buf g)) buf = g_buf g)).
  { subst buf. destruct (Nat.leb_spec (length (g_buf g)) (g_inl g + size)) as [X|X].
    - destruct (overflow_len cf junk (g_buf g) (g_inl g + size) M (ex_intro _ k Ilen)) as (A1 & A2 & A3 & A4). ands; auto.
    - ands; [eauto|lia|intros _; apply firstn_all]. }
  clearbody buf. destruct B as ((k' & B1) & B2 & B3).
  unfold hdr_size, rec_size in *.
  set (buf2 := if g_n g =? 0 then put 12 (le 8 (z64 idx)) buf else buf).
  assert (L2 : length buf2 = length buf).
  { subst buf2. destruct (g_n g =? 0); [apply put_length; rewrite le_length; lia|reflexivity]. }
  assert (W : (if g_n g =? 0 then write 12 (le 8 (z64 idx)) buf else Some buf) = Some buf2).
  { subst buf2. destruct (g_n g =? 0); [apply write_ok; rewrite le_length; lia|reflexivity]. }
  rewrite W. clear W.
  assert (S2 : sub 12 8 buf2 = le 8 (z64 idx0)).
  { subst buf2. destruct (Nat.eqb_spec (g_n g) 0) as [Z|Z].
    - destruct done; [|cbn in In; lia]. rewrite F by reflexivity.
      assert (X := sub_put_same 12 (le 8 (z64 idx0)) buf). rewrite le_length in X. apply X. lia.
    - destruct done as [|d0 dn]; [cbn in In; lia|].
      rewrite (sub_longer 12 8 (g_buf g)); [apply Ist; discriminate|apply B3; discriminate|].
      assert (g_inl g <= length (g_buf g)) by (apply Iinl; discriminate). lia. }
  assert (K2 : forall off len, 48 <= off -> off + len <= g_inl g -> done <> [] -> sub off len buf2 = sub off len (g_buf g)).
  { intros off len H1 H2 H3. subst buf2. destruct (Nat.eqb_spec (g_n g) 0) as [Z|Z].
    - destruct done; [contradiction|cbn in In; lia].
    - apply sub_longer; [auto|]. specialize (Iinl H3). lia. }
  clearbody buf2.
  assert (Hlast : forall i (x : record), nth_error (done ++ [r]) i = Some x -> (i < g_n g /\ nth_error done i = Some x /\ done <> []) \/ (i = g_n g /\ x = r)).
  { intros i x E. destruct (Nat.lt_ge_cases i (length done)) as [X|X].
    - left. rewrite nth_error_app1 in E by lia. ands; auto; [lia|]. intro; subst done; cbn in X; lia.
    - right. rewrite nth_error_app2 in E by lia. destruct (i - length done) eqn:D; cbn in E; [|destruct n; discriminate].
      injection E as <-. split; [lia|reflexivity]. }
  destruct (is_inlineable cf r) eqn:Inl.
  - set (e := enc_rec size (g_inl g) true (r_seq r) (r_store r)).
    assert (Le : length e = 20) by apply enc_rec_length.
    rewrite write_ok by lia. set (buf3 := put (48 + 20 * g_n g) e buf2).
    assert (L3 : length buf3 = length buf2) by (apply put_length; lia).
    rewrite write_ok by (fold size; lia). set (buf4 := put (g_inl g) (r_data r) buf3).
    assert (L4 : length buf4 = length buf3) by (apply put_length; fold size; lia).
    eexists. split; [reflexivity|]. constructor; cbn [g_n g_max g_buf g_inl g_oobp g_oob].
    + rewrite app_length. cbn. lia.
    + reflexivity.
    + lia.
    + exists k'. lia.
    + intros _. lia.
    + rewrite data_size_app. cbn. fold size. unfold hdr_size, rec_size. lia.
    + exact Ioob.
    + exact Ioobm.
    + intros _. subst buf4 buf3. rewrite sub_put_before by (fold size; lia). rewrite sub_put_before by lia. exact S2.
    + intros i x E. destruct (Hlast i x E) as [(X1 & X2 & X3)|(-> & ->)].
      * eapply placed_keep with (n := g_n g); [apply Irec; exact X2|exact X1|unfold hdr_size, rec_size; lia|lia| | |apply firstn_all].
        { unfold hdr_size, rec_size. subst buf4 buf3. rewrite sub_put_before by (fold size; lia). rewrite sub_put_before by lia. apply K2; [lia|lia|auto]. }
        { intros off len H1 H2. unfold hdr_size, rec_size in *. subst buf4 buf3. rewrite sub_put_before by (fold size; lia). rewrite sub_put_after by lia. apply K2; [lia|lia|auto]. }
      * exists (g_inl g). rewrite Inl. fold size. unfold hdr_size, rec_size. subst buf4 buf3. ands; [|lia|lia|].
        { rewrite sub_put_before by (fold size; lia). assert (X := sub_put_same (48 + 20 * g_n g) e buf2). rewrite Le in X. apply X. lia. }
        { apply sub_put_same. fold size. lia. }
  - set (e := enc_rec size (g_oobp g) false (r_seq r) (r_store r)).
    assert (Le : length e = 20) by apply enc_rec_length.
    rewrite write_ok by lia. set (buf3 := put (48 + 20 * g_n g) e buf2).
    assert (L3 : length buf3 = length buf2) by (apply put_length; lia).
    assert (Co : concat (g_oob g ++ [r_data r]) = concat (g_oob g) ++ r_data r) by (rewrite concat_app; cbn; now rewrite app_nil_r).
    eexists. split; [reflexivity|]. constructor; cbn [g_n g_max g_buf g_inl g_oobp g_oob].
    + rewrite app_length. cbn. lia.
    + reflexivity.
    + lia.
    + exists k'. lia.
    + intros _. lia.
    + rewrite data_size_app. cbn. fold size. unfold hdr_size, rec_size. lia.
    + rewrite Co, app_length. fold size. lia.
    + destruct Ioobm as [ko Eo]. unfold is_inlineable in Inl. apply orb_false_elim in Inl. destruct Inl as [Inl _].
      apply orb_false_elim in Inl. destruct Inl as [_ Inl]. apply negb_false_iff, Nat.eqb_eq in Inl. fold size in Inl.
      exists (ko + size / c_mult cf). assert (D := Nat.div_mod size (c_mult cf) ltac:(lia)). rewrite Inl in D. lia.
    + intros _. subst buf3. rewrite sub_put_before by lia. exact S2.
    + intros i x E. rewrite Co. destruct (Hlast i x E) as [(X1 & X2 & X3)|(-> & ->)].
      * eapply placed_keep with (n := g_n g); [apply Irec; exact X2|exact X1|unfold hdr_size, rec_size; lia|lia| | |now apply firstn_app_exact].
        { unfold hdr_size, rec_size. subst buf3. rewrite sub_put_before by lia. apply K2; [lia|lia|auto]. }
        { intros off len H1 H2. unfold hdr_size, rec_size in *. subst buf3. rewrite sub_put_after by lia. apply K2; [lia|lia|auto]. }
      * exists (g_oobp g). rewrite Inl. fold size. unfold hdr_size, rec_size. subst buf3. ands.
        { assert (X := sub_put_same (48 + 20 * g_n g) e buf2). rewrite Le in X. apply X. lia. }
        { rewrite app_length. fold size. lia. }
        { rewrite sub_app_r by lia. rewrite Ioob, Nat.sub_diag. apply sub_all. fold size. lia. }
Qed.

Lemma add_all_inv : forall cf junk max0 idx0 rs done g, 48 <= c_mult cf -> ginv cf max0 idx0 done g ->
  exists g', let m := Nat.min (length rs) (Nat.min max0 max_records_in_a_batch - length done) in
    add_all cf junk g rs (idx0 + Z.of_nat (length done)) = Some (g', m) /\ ginv cf max0 idx0 (done ++ firstn m rs) g'.
Proof.
  intros cf junk max0 idx0 rs. induction rs as [|r rs IH]; intros done g M I.
  { exists g. cbn. rewrite app_nil_r. auto. }
  cbn [add_all]. destruct (add_record_inv cf junk max0 idx0 done g r (idx0 + Z.of_nat (length done)) M I) as [(A & E)|(A & g' & E & I')].
  { intros ->. cbn. lia. }
  - exists g. rewrite E. rewrite (gi_n _ _ _ _ _ I) in A. rewrite A, Nat.sub_diag, Nat.min_0_r. cbn. rewrite app_nil_r. auto.
  - rewrite E. destruct (IH _ _ M I') as (g'' & E2 & I2). rewrite (gi_n _ _ _ _ _ I) in A.
    rewrite app_length in E2, I2. cbn [length] in E2, I2.
    replace (idx0 + Z.of_nat (length done) + 1)%Z with (idx0 + Z.of_nat (length done + 1))%Z by lia.
    exists g''. cbv zeta in *. rewrite E2. cbn [length].
    replace (Nat.min (S (length rs)) (Nat.min max0 max_records_in_a_batch - length done))
      with (S (Nat.min (length rs) (Nat.min max0 max_records_in_a_batch - (length done + 1)))) by lia.
    split; [reflexivity|]. cbn [firstn]. rewrite <- app_assoc in I2. exact I2.
Qed.

(** ** Reading the header back. *)
Ltac field_step :=
  match goal with |- context [sub ?o ?k (le_bytes ?n ?v ++ ?t)] =>
    tryif (assert (o < n) by lia)
    then (rewrite (sub_app_l o k (le_bytes n v) t) by (rewrite le_length; lia))
    else (rewrite (sub_app_r o k (le_bytes n v) t) by (rewrite le_length; lia); rewrite le_length; cbn [Nat.sub]; rewrite ?Nat.sub_0_r)
  end.
Ltac field := unfold get; repeat field_step; rewrite sub_all by (rewrite le_length; lia); rewrite unle_le; [|try (cbn; lia)].

Lemma enc_header_length : forall n st sz io oo fo pc c ld, length (enc_header n st sz io oo fo pc c ld) = 48.
Proof. intros. unfold enc_header. rewrite !app_length, !le_length. reflexivity. Qed.

Lemma header_fields : forall n st sz io oo fo pc c ld body,
  (N.of_nat n < 2 ^ 32)%N -> (st < 2 ^ 64)%N -> (N.of_nat sz < 2 ^ 32)%N -> (N.of_nat oo < 2 ^ 32)%N -> (N.of_nat fo < 2 ^ 32)%N ->
  (pc < 2 ^ 32)%N -> (c < 2 ^ 32)%N -> (ld < 2 ^ 32)%N ->
  let b := enc_header n st sz io oo fo pc c ld ++ body in
  h_magic b = hdr_magic /\ h_version b = 0%N /\ h_nrec b = n /\ h_start b = unz64 st /\ h_size b = sz /\ h_oob b = oo /\
  h_footer b = fo /\ h_prev_crc b = pc /\ h_crc b = c /\ h_logdev b = ld.
Proof.
  intros n st sz io oo fo pc c ld body B1 B2 B3 B4 B5 B6 B7 B8. unfold enc_header. rewrite <- !app_assoc. cbv zeta.
  change (2 ^ 32)%N with (256 ^ N.of_nat 4)%N in *. change (2 ^ 64)%N with (256 ^ N.of_nat 8)%N in *.
  unfold h_magic, h_version, h_nrec, h_start, h_size, h_oob, h_footer, h_prev_crc, h_crc, h_logdev.
  ands; field; auto; try (rewrite Nat2N.id; reflexivity). reflexivity.
Qed.

Lemma rec_fields : forall size off inl sq st,
  (N.of_nat size < 2 ^ 32)%N -> (N.of_nat off < 2 ^ 31)%N -> (- 2 ^ 63 <= sq < 2 ^ 63)%Z -> (st < 2 ^ 32)%N ->
  let s := enc_rec size off inl sq st in
  N.to_nat (get 0 4 s) = size /\ N.to_nat (get 4 4 s mod 2 ^ 31) = off /\ (get 4 4 s / 2 ^ 31 =? 1)%N = inl /\
  unz64 (get 8 8 s) = sq /\ get 16 4 s = st.
Proof.
  intros size off inl sq st B1 B2 B3 B4. unfold enc_rec. cbv zeta.
  assert (E4 : get 4 4 (le_bytes 4 (N.of_nat size) ++ le_bytes 4 (N.of_nat off mod 2 ^ 31 + (if inl then 2 ^ 31 else 0)) ++ le_bytes 8 (z64 sq) ++ le_bytes 4 st) =
               (N.of_nat off + (if inl then 2 ^ 31 else 0))%N).
  { field; rewrite (N.mod_small (N.of_nat off)) by lia; [reflexivity|]. change (256 ^ N.of_nat 4)%N with (2 ^ 32)%N. destruct inl; lia. }
  rewrite E4. ands.
  - field. lia.
  - destruct inl; [rewrite N.add_mod, N.mod_same, N.add_0_r, N.mod_mod by lia|]; rewrite ?N.add_0_r, !N.mod_small by lia; lia.
  - destruct inl; [|rewrite N.add_0_r, N.div_small by lia; reflexivity].
    replace (N.of_nat off + 2 ^ 31)%N with (N.of_nat off + 1 * 2 ^ 31)%N by lia. rewrite N.div_add, N.div_small by lia. reflexivity.
  - field; [now apply unz64_z64|apply z64_lt].
  - unfold get. repeat field_step. rewrite sub_all by (rewrite le_length; lia). apply unle_le. exact B4.
Qed.

Lemma crc_bound : forall cf bs c, config_ok cf -> (c < 2 ^ 32)%N -> (crc_of cf c bs < 2 ^ 32)%N.
Proof.
  intros cf bs. induction bs as [|b bs IH]; intros c K H; [exact H|]. cbn. apply IH; [exact K|]. now apply co_crc.
Qed.

(** ** A finished group. *)
Record image (cf : config) (logdev prev_crc : N) (idx : Z) (rs : list record) (b : list N) : Prop := {
  im_len : exists k, length b = k * c_mult cf;
  im_magic : h_magic b = hdr_magic;
  im_version : h_version b = 0%N;
  im_n : h_nrec b = length rs;
  im_start : h_start b = idx;
  im_start_raw : get 12 8 b = z64 idx;
  im_size : h_size b = length b;
  im_prev : h_prev_crc b = prev_crc;
  im_crc : h_crc b = crc_of cf (c_init cf) (skipn hdr_size b);
  im_logdev : h_logdev b = logdev;
  im_ftr_len : h_footer b + 24 <= length b;
  im_ftr : sub (h_footer b) 12 b = enc_footer (z64 idx);
  im_end : length b = round_up (h_footer b + 24) (c_mult cf);
  im_recs : forall i r, nth_error rs i = Some r ->
    hdr_size + rec_size * i + rec_size <= h_footer b /\
    exists off, rec_at b i = (length (r_data r), off, r_seq r, r_store r) /\ off + length (r_data r) <= length b /\
                sub off (length (r_data r)) b = r_data r }.

Lemma round_up_multiple : forall k m, 0 < m -> round_up (k * m) m = k * m.
Proof. intros k m H. assert (A := round_up_le (k * m) m H). assert (B := round_up_mono (k * m) m k H). lia. Qed.

Lemma round_up_fits : forall x m len, 0 < m -> (exists k, len = k * m) -> x <= len -> round_up x m <= len.
Proof. intros x m len H [k ->] L. now apply round_up_mono. Qed.

Lemma finish_image : forall cf max0 idx0 done g fbuf logdev prev_crc,
  config_ok cf -> ginv cf max0 idx0 done g -> done <> [] -> length fbuf = round_up ftr_size (c_mult cf) ->
  Forall record_ok done -> (- 2 ^ 63 <= idx0 < 2 ^ 63)%Z -> (logdev < 2 ^ 32)%N -> (prev_crc < 2 ^ 32)%N ->
  (N.of_nat (96 + 20 * max0 + data_size done + 2 * c_mult cf) < 2 ^ 31)%N ->
  exists b, finish cf fbuf g logdev prev_crc = Some b /\ image cf logdev prev_crc idx0 done b.
Proof.
  intros cf max0 idx0 done g fbuf logdev prev_crc K I Hd Hf Hr Hi Hl Hp Hs.
  destruct I as [In Imax Ile Ilen Iinl [Ilo Isum] Ioob Ioobm Ist Irec]. specialize (Iinl Hd). specialize (Ist Hd).
  assert (M := co_mult cf K). unfold finish.
  set (own := new_iovec_for_footer g).
  assert (St : get 12 8 (g_buf g) = z64 idx0) by (unfold get; rewrite Ist; apply unle_le, z64_lt). rewrite St.
  set (buf1 := if own then g_buf g else put (g_inl g) (enc_footer (z64 idx0)) (g_buf g)).
  set (fb := if own then put 0 (enc_footer (z64 idx0)) fbuf else []).
  assert (Fl : 24 <= length fbuf /\ length fbuf < 24 + c_mult cf).
  { rewrite Hf. apply (round_up_le ftr_size). lia. }
  assert (Hown : own = false -> g_inl g + 24 < length (g_buf g) /\ g_oobp g = 0).
  { subst own. unfold new_iovec_for_footer, ftr_size. intro E. apply orb_false_elim in E. destruct E as [E1 E2].
    apply Nat.leb_gt in E1. apply negb_false_iff, Nat.eqb_eq in E2. lia. }
  clearbody own.
  assert (W1 : (if own then Some (g_buf g) else write (g_inl g) (enc_footer (z64 idx0)) (g_buf g)) = Some buf1).
  { subst buf1. destruct own; [reflexivity|]. apply write_ok. rewrite enc_footer_length. destruct (Hown eq_refl). lia. }
  assert (W2 : (if own then write 0 (enc_footer (z64 idx0)) fbuf else Some []) = Some fb).
  { subst fb. destruct own; [|reflexivity]. apply write_ok. rewrite enc_footer_length. lia. }
  rewrite W1, W2. clear W1 W2.
  assert (L1 : length buf1 = length (g_buf g)).
  { subst buf1. destruct own; [reflexivity|]. apply put_length. rewrite enc_footer_length. destruct (Hown eq_refl). lia. }
  assert (K1 : forall off len, off + len <= g_inl g -> sub off len buf1 = sub off len (g_buf g)).
  { intros off len H. subst buf1. destruct own; [reflexivity|]. apply sub_put_before; [|lia]. rewrite enc_footer_length. destruct (Hown eq_refl). lia. }
  set (want := if own then g_inl g else g_inl g + ftr_size).
  assert (Hw : g_inl g <= want <= g_inl g + 24 /\ want <= length (g_buf g)).
  { subst want. unfold ftr_size. destruct own; [lia|]. destruct (Hown eq_refl). lia. }
  set (iov0 := round_up want (c_mult cf)).
  assert (Hv : want <= iov0 < want + c_mult cf) by (apply round_up_le; lia).
  assert (Hv2 : iov0 <= length buf1).
  { rewrite L1. apply round_up_fits; [lia|exact Ilen|lia]. }
  assert (Hv3 : exists k, iov0 = k * c_mult cf) by apply round_up_div.
  destruct (Nat.ltb_spec (length buf1) iov0) as [X|_]; [lia|].
  set (fo := if own then iov0 + g_oobp g else g_inl g).
  set (sz := if own then fo + length fbuf else iov0).
  set (body := skipn hdr_size (firstn iov0 buf1) ++ concat (g_oob g) ++ fb).
  unfold hdr_size, rec_size in *.
  assert (Hfo : g_inl g <= fo <= iov0 + g_oobp g) by (subst fo; destruct own; lia).
  assert (Hsz : fo + 24 <= sz < 96 + 20 * max0 + data_size done + 2 * c_mult cf).
  { subst sz fo. unfold ftr_size in *. destruct own; [lia|]. destruct (Hown eq_refl). subst want. lia. }
  assert (Lfb : length fb = if own then length fbuf else 0).
  { subst fb. destruct own; [|reflexivity]. apply put_length. rewrite enc_footer_length. lia. }
  assert (Lb : 48 + length body = sz).
  { subst body. rewrite !app_length, skipn_length, firstn_length, <- Ioob, Lfb. subst sz fo. destruct own; [lia|]. destruct (Hown eq_refl). lia. }
  assert (Cb : (crc_of cf (c_init cf) body < 2 ^ 32)%N) by (apply crc_bound; [exact K|apply (co_init cf K)]).
  assert (Z64 := z64_lt idx0). change (256 ^ N.of_nat 8)%N with (2 ^ 64)%N in Z64.
  assert (Nn : length done <= max0) by lia.
  destruct (header_fields (g_n g) (z64 idx0) sz (48 + g_max g * 20) iov0 fo prev_crc (crc_of cf (c_init cf) body) logdev body)
    as (F1 & F2 & F3 & F4 & F5 & F6 & F7 & F8 & F9 & F10); try assumption; try lia.
  assert (Fraw : get 12 8 (enc_header (g_n g) (z64 idx0) sz (48 + g_max g * 20) iov0 fo prev_crc (crc_of cf (c_init cf) body) logdev ++ body) = z64 idx0).
  { unfold enc_header. rewrite <- !app_assoc. field. reflexivity. }
  assert (Hh := enc_header_length (g_n g) (z64 idx0) sz (48 + g_max g * 20) iov0 fo prev_crc (crc_of cf (c_init cf) body) logdev).
  set (hdr := enc_header (g_n g) (z64 idx0) sz (48 + g_max g * 20) iov0 fo prev_crc (crc_of cf (c_init cf) body) logdev) in *.
  clearbody hdr.
  (* the part of the image that comes from the buffer, and the rest *)
  assert (P1 : forall off len, 48 <= off -> off + len <= iov0 -> sub off len (hdr ++ body) = sub off len buf1).
  { intros off len H1 H2. rewrite sub_app_r by lia. rewrite Hh. subst body.
    rewrite sub_app_l by (rewrite skipn_length, firstn_length; lia). rewrite sub_skipn.
    replace (48 + (off - 48)) with off by lia. apply sub_firstn. lia. }
  assert (P2 : forall off len, sub (iov0 + off) len (hdr ++ body) = sub off len (concat (g_oob g) ++ fb)).
  { intros off len. rewrite sub_app_r by lia. rewrite Hh. subst body.
    rewrite sub_app_r by (rewrite skipn_length, firstn_length; lia). f_equal. rewrite skipn_length, firstn_length. lia. }
  assert (Lt : length (hdr ++ body) = sz) by (rewrite app_length; lia).
  exists (hdr ++ body). split; [reflexivity|]. constructor; auto.
  - rewrite Lt. subst sz fo. destruct own; [|exact Hv3]. destruct Hv3 as [k3 E3]. destruct (round_up_div ftr_size (c_mult cf)) as [kf Ef].
    rewrite <- Hf in Ef.
    destruct Ioobm as [ko Eo]. exists (k3 + ko + kf). lia.
  - rewrite F3. exact In.
  - rewrite F4. now apply unz64_z64.
  - rewrite F5. now symmetry.
  - rewrite F9. f_equal. symmetry. apply skipn_app_exact. now symmetry.
  - rewrite F7, Lt. lia.
  - rewrite F7. subst fo. destruct own.
    + rewrite P2. rewrite sub_app_r by lia. rewrite Ioob, Nat.sub_diag. subst fb.
      assert (X := sub_put_same 0 (enc_footer (z64 idx0)) fbuf). rewrite enc_footer_length in X. apply X. lia.
    + destruct (Hown eq_refl). rewrite P1 by (subst want; unfold ftr_size in *; lia). subst buf1.
      assert (X := sub_put_same (g_inl g) (enc_footer (z64 idx0)) (g_buf g)). rewrite enc_footer_length in X. apply X. lia.
  - rewrite Lt, F7. subst sz fo. destruct own; [|reflexivity]. rewrite Hf. destruct Hv3 as [k3 ->]. destruct Ioobm as [ko ->].
    rewrite <- Nat.mul_add_distr_r. unfold ftr_size, round_up.
    replace ((k3 + ko) * c_mult cf + 24 + c_mult cf - 1) with (24 + c_mult cf - 1 + (k3 + ko) * c_mult cf) by lia.
    rewrite Nat.div_add by lia. lia.
  - intros i r E. destruct (Irec i r E) as (off & Es & Hp2).
    assert (Hin : i < length done) by (apply nth_error_Some; congruence).
    assert (Hr' : record_ok r) by (rewrite Forall_forall in Hr; apply Hr; eapply nth_error_In; eauto).
    destruct Hr' as [R1 R2]. unfold hdr_size, rec_size in *.
    rewrite F7. split; [lia|].
    assert (Hsize : length (r_data r) <= data_size done).
    { clear - E. revert i E. induction done as [|d ds IH]; intros [|i] E; cbn in E; try discriminate.
      - injection E as ->. unfold data_size. cbn. lia.
      - specialize (IH i E). change (data_size (d :: ds)) with (length (r_data d) + data_size ds). lia. }
    assert (Hoff : (N.of_nat off < 2 ^ 31)%N).
    { destruct (is_inlineable cf r); [destruct Hp2 as (Hp2 & Hp3 & Hp4)|destruct Hp2 as (Hp2 & Hp3)]; lia. }
    destruct (rec_fields (length (r_data r)) off (is_inlineable cf r) (r_seq r) (r_store r)) as (G1 & G2 & G3 & G4 & G5); try assumption; try lia.
    assert (Eslot : sub (48 + 20 * i) 20 (hdr ++ body) = enc_rec (length (r_data r)) off (is_inlineable cf r) (r_seq r) (r_store r)).
    { rewrite P1 by lia. rewrite K1 by lia. exact Es. }
    unfold rec_at, hdr_size, rec_size. rewrite Eslot, G1, G2, G3, G4, G5, F6. cbv zeta.
    destruct (is_inlineable cf r); [destruct Hp2 as (Q1 & Q2 & Q3)|destruct Hp2 as (Q2 & Q3)].
    + exists off. rewrite Nat.add_0_r. ands; [reflexivity|rewrite Lt; lia|]. rewrite P1 by lia. rewrite K1 by lia. exact Q3.
    + exists (off + iov0). ands; [reflexivity| |].
      * rewrite Lt. subst sz fo. destruct own; [lia|]. destruct (Hown eq_refl). lia.
      * replace (off + iov0) with (iov0 + off) by lia. rewrite P2. rewrite sub_app_l by lia. exact Q3.
Qed.

Lemma nth_error_firstn_lt : forall {A} n i (l : list A), i < n -> nth_error (firstn n l) i = nth_error l i.
Proof. intros A. induction n as [|n IH]; intros [|i] [|x l] H; try lia; try reflexivity. cbn. apply IH. lia. Qed.

Lemma data_size_firstn : forall n rs, data_size (firstn n rs) <= data_size rs.
Proof. intros n rs. rewrite <- (firstn_skipn n rs) at 2. rewrite data_size_app. lia. Qed.

Lemma reset_inv : forall cf buf0 max0 idx0, 48 <= c_mult cf -> length buf0 = buf_len cf -> ginv cf max0 idx0 [] (reset cf buf0 max0).
Proof.
  intros cf buf0 max0 idx0 M H. unfold reset. constructor; cbn [g_n g_max g_buf g_inl g_oobp g_oob]; auto; try contradiction.
  - cbn [length data_size]. unfold data_size. cbn [map list_sum fold_right]. lia.
  - rewrite H. apply round_up_div.
  - now exists 0.
  - intros i r E. destruct i; discriminate.
Qed.

Theorem make_group_image : forall cf junk buf0 fbuf max0 rs idx logdev prev_crc,
  config_ok cf -> group_ok cf buf0 fbuf max0 rs idx logdev prev_crc ->
  exists b, make_group cf junk buf0 fbuf max0 rs idx logdev prev_crc = Some (b, taken max0 rs) /\
            image cf logdev prev_crc idx (firstn (taken max0 rs) rs) b.
Proof.
  intros cf junk buf0 fbuf max0 rs idx logdev prev_crc K G. assert (M := co_mult cf K). destruct G as [go_buf0 go_fbuf0 go_max0 go_some0 go_recs0 go_idx0 go_logdev0 go_crc0 go_size0].
  destruct (add_all_inv cf junk max0 idx rs [] (reset cf buf0 max0) M (reset_inv cf buf0 max0 idx M go_buf0)) as (g & E & I).
  cbv zeta in *. cbn [length] in *. rewrite Z.add_0_r in E. rewrite Nat.sub_0_r in *. cbn [app] in I. fold (taken max0 rs) in *.
  unfold make_group. rewrite E.
  assert (T : 0 < taken max0 rs).
  { unfold taken. destruct rs; [contradiction|]. rewrite in_batch. cbn [length]. lia. }
  assert (H1 : firstn (taken max0 rs) rs <> []).
  { destruct rs; [contradiction|]. destruct (taken max0 (r :: rs)); [lia|discriminate]. }
  assert (H2 : Forall record_ok (firstn (taken max0 rs) rs)).
  { rewrite Forall_forall in *. intros x Hx. apply go_recs0. rewrite <- (firstn_skipn (taken max0 rs) rs). apply in_or_app. now left. }
  assert (H3 : (N.of_nat (96 + 20 * max0 + data_size (firstn (taken max0 rs) rs) + 2 * c_mult cf) < 2 ^ 31)%N).
  { assert (X := data_size_firstn (taken max0 rs) rs). lia. }
  destruct (finish_image cf max0 idx _ g fbuf logdev prev_crc K I H1 go_fbuf0 H2 go_idx0 go_logdev0 go_crc0 H3) as (b & Eb & Ib).
  exists b. rewrite Eb. split; [reflexivity|exact Ib].
Qed.

(** ** Reading an image followed by anything. *)
Lemma image_min : forall cf ld pc idx rs b, image cf ld pc idx rs b -> rs <> [] -> 92 <= length b.
Proof.
  intros cf ld pc idx rs b I H. destruct rs as [|r rs]; [contradiction|].
  destruct (im_recs _ _ _ _ _ _ I 0 r eq_refl) as [A _]. unfold hdr_size, rec_size in A. assert (B := im_ftr_len _ _ _ _ _ _ I). lia.
Qed.

Lemma get_app_l : forall o k a b, o + k <= length a -> get o k (a ++ b) = get o k a.
Proof. intros. unfold get. now rewrite sub_app_l. Qed.

Lemma fields_app : forall b t, 48 <= length b ->
  h_magic (b ++ t) = h_magic b /\ h_version (b ++ t) = h_version b /\ h_nrec (b ++ t) = h_nrec b /\ h_start (b ++ t) = h_start b /\
  h_size (b ++ t) = h_size b /\ h_oob (b ++ t) = h_oob b /\ h_footer (b ++ t) = h_footer b /\ h_prev_crc (b ++ t) = h_prev_crc b /\
  h_crc (b ++ t) = h_crc b /\ h_logdev (b ++ t) = h_logdev b.
Proof.
  intros b t H. unfold h_magic, h_version, h_nrec, h_start, h_size, h_oob, h_footer, h_prev_crc, h_crc, h_logdev.
  rewrite !get_app_l by lia. ands; reflexivity.
Qed.

Lemma footer_fields : forall i, get 0 3 (enc_footer (z64 i)) = ftr_magic /\ get 4 8 (enc_footer (z64 i)) = z64 i.
Proof.
  intro i. split; [reflexivity|]. unfold enc_footer. unfold get. rewrite sub_app_r by (rewrite le_length; lia). rewrite le_length. cbn [Nat.sub].
  rewrite sub_all by (rewrite le_length; lia). apply unle_le, z64_lt.
Qed.

Lemma next_image : forall cf ld pc idx rs b last t,
  config_ok cf -> image cf ld pc idx rs b -> rs <> [] ->
  forall pc', pc' = pc \/ pc' = 0%N -> next_group cf ld pc' last (b ++ t) = NGroup b.
Proof.
  intros cf ld pc idx rs b last t K I H pc' Hp. assert (M := co_mult cf K). assert (Lb := image_min _ _ _ _ _ _ I H).
  destruct (fields_app b t) as (F1 & F2 & F3 & F4 & F5 & F6 & F7 & F8 & F9 & F10); [lia|].
  assert (Lm : c_mult cf <= length b). { destruct (im_len _ _ _ _ _ _ I) as [k E]. destruct k; [lia|]. nia. }
  unfold next_group. rewrite F1, F4, F5, F7, F8, F9, F10, app_length.
  assert (FL := im_ftr_len _ _ _ _ _ _ I). assert (FE := im_ftr _ _ _ _ _ _ I).
  destruct (Nat.ltb_spec (length b + length t) (c_mult cf)) as [X|_]; [lia|].
  rewrite (im_magic _ _ _ _ _ _ I), N.eqb_refl. cbn [negb].
  rewrite (im_logdev _ _ _ _ _ _ I), N.eqb_refl. cbn [negb].
  rewrite (im_prev _ _ _ _ _ _ I). replace (negb (pc' =? 0)%N && negb (pc' =? pc)%N) with false
    by (destruct Hp as [-> | ->]; rewrite N.eqb_refl; [now rewrite andb_false_r|reflexivity]).
  rewrite (im_size _ _ _ _ _ _ I). destruct (Nat.ltb_spec (length b + length t) (length b)) as [X|_]; [lia|].
  destruct (Nat.ltb_spec (length b + length t) (h_footer b + 12)) as [X|_]; [lia|].
  destruct (footer_fields idx) as [G1 G2].
  assert (E1 : get (h_footer b) 3 (b ++ t) = ftr_magic).
  { unfold get. rewrite sub_app_l by lia.     replace (h_footer b) with (h_footer b + 0) by lia. rewrite <- (sub_sub (h_footer b) 12 0 3) by lia. rewrite FE. exact G1. }
  assert (E2 : get (h_footer b + 4) 8 (b ++ t) = z64 idx).
  { unfold get. rewrite sub_app_l by lia. rewrite <- (sub_sub (h_footer b) 12 4 8) by lia. rewrite FE. exact G2. }
  rewrite E1, E2, N.eqb_refl. assert (ES := im_start _ _ _ _ _ _ I). unfold h_start in *. rewrite (im_start_raw _ _ _ _ _ _ I), Z.eqb_refl.
  cbn [negb orb]. unfold hdr_size. destruct (Nat.ltb_spec (length b) 48) as [X|_]; [lia|]. rewrite (im_crc _ _ _ _ _ _ I). unfold hdr_size. rewrite sub_app_l by lia.
  assert (E3 : sub 48 (length b - 48) b = skipn 48 b) by (unfold sub; apply firstn_all2; rewrite skipn_length; lia).
  rewrite E3, N.eqb_refl. cbn [negb]. now rewrite firstn_app_exact.
Qed.

Lemma deliver_image : forall cf ld pc idx rs b, image cf ld pc idx rs b -> deliver b = map entry rs.
Proof.
  intros cf ld pc idx rs b I. unfold deliver. rewrite (im_n _ _ _ _ _ _ I).
  assert (G : forall l s, (forall i r, nth_error l i = Some r -> nth_error rs (s + i) = Some r) ->
    map (fun i => let '(size, off, sq, store) := rec_at b i in (store, sq, sub off size b)) (seq s (length l)) = map entry l).
  { induction l as [|r l IH]; intros s Hs; [reflexivity|]. cbn [length seq map].
    assert (E0 := Hs 0 r eq_refl). rewrite Nat.add_0_r in E0.
    destruct (im_recs _ _ _ _ _ _ I s r E0) as (_ & off & E & _ & D). rewrite E, D. f_equal.
    apply IH. intros i x Hx. rewrite Nat.add_succ_comm. apply Hs. exact Hx. }
  apply G. auto.
Qed.

(** ** Loading a log. *)
Lemma chain_split : forall cf ld c idx g gs c' idx', config_ok cf -> chain cf ld c idx (g :: gs) c' idx' ->
  image cf ld c idx (w_recs g) (w_bytes g) /\ w_recs g <> [] /\ w_idx g = idx /\
  chain cf ld (h_crc (w_bytes g)) (idx + Z.of_nat (length (w_recs g))) gs c' idx'.
Proof.
  intros cf ld c idx g gs c' idx' K H. inversion H as [|? ? junk buf0 fbuf max0 rs bytes n gs0 ? ? G E C]; subst. cbn [w_bytes w_recs w_idx].
  destruct (make_group_image cf junk buf0 fbuf max0 rs idx ld c K G) as (b & E2 & I). rewrite E in E2. injection E2 as -> ->.
  assert (T : 0 < taken max0 rs <= length rs).
  { unfold taken. assert (0 < max0) by apply (go_max _ _ _ _ _ _ _ _ G). assert (rs <> []) by apply (go_some _ _ _ _ _ _ _ _ G).
    destruct rs; [contradiction|]. rewrite in_batch. cbn [length]. lia. }
  assert (L : length (firstn (taken max0 rs) rs) = taken max0 rs) by (rewrite firstn_length; lia).
  ands; auto.
  - intro X. rewrite X in L. cbn in L. lia.
  - rewrite L. exact C.
Qed.

Theorem load_chain : forall cf ld lastp gs c idx c' idx' fuel pos first lc t,
  config_ok cf -> chain cf ld c idx gs c' idx' ->
  forall prev, prev = c \/ prev = 0%N ->
  do_load cf ld lastp (length gs + fuel) prev pos first idx lc (stream_of gs ++ t) =
  let '(l, i2, p2, c2, e) := do_load cf ld lastp fuel (match gs with [] => prev | _ => c' end) (pos + length (stream_of gs))
                                     (match gs with [] => first | _ => false end) idx'
                                     (match gs with [] => lc | _ => c' end) t in
  (log_of gs ++ l, i2, p2, c2, e).
Proof.
  intros cf ld lastp gs. induction gs as [|g gs IH]; intros c idx c' idx' fuel pos first lc t K H prev Hp.
  - inversion H; subst. cbn [length stream_of map concat app log_of Nat.add]. rewrite Nat.add_0_r.
    destruct (do_load cf ld lastp fuel prev pos first idx' lc t) as [[[[l i2] p2] c2] e]. reflexivity.
  - destruct (chain_split _ _ _ _ _ _ _ _ K H) as (I & Hn & Hi & C).
    cbn [length Nat.add do_load]. unfold stream_of. cbn [map concat]. rewrite <- app_assoc. fold (stream_of gs).
    rewrite (next_image _ _ _ _ _ _ _ _ K I Hn prev Hp).
    rewrite (im_start _ _ _ _ _ _ I), Z.ltb_irrefl, andb_false_r, Z.eqb_refl, (im_n _ _ _ _ _ _ I). cbn [negb orb].
    destruct (Nat.eqb_spec (length (w_recs g)) 0) as [X|_]; [destruct (w_recs g); [contradiction|discriminate]|].
    rewrite (im_size _ _ _ _ _ _ I). rewrite skipn_app_exact by reflexivity.
    specialize (IH _ _ _ _ fuel (pos + length (w_bytes g)) false (h_crc (w_bytes g)) t K C (h_crc (w_bytes g)) (or_introl eq_refl)).
    rewrite IH. clear IH.
    assert (Ec : match gs with [] => h_crc (w_bytes g) | _ => c' end = c') by (destruct gs; [inversion C; reflexivity|reflexivity]).
    assert (Ef : match gs with [] => false | _ => false end = false) by now destruct gs.
    rewrite Ec, Ef. rewrite app_length, Nat.add_assoc.
    destruct (do_load cf ld lastp fuel c' (pos + length (w_bytes g) + length (stream_of gs)) false idx' c' t) as [[[[l i2] p2] c2] e].
    unfold log_of. cbn [map concat]. rewrite Hi, <- app_assoc. rewrite (deliver_image _ _ _ _ _ _ I). reflexivity.
Qed.

(** ** Torn writes. *)
Lemma torn_length : forall p new old, p <= length new -> length new <= length old -> length (torn p new old) = length old.
Proof. intros. unfold torn. rewrite app_length, firstn_length, skipn_length. lia. Qed.

Lemma get_torn_l : forall o k p new old, p <= length new -> o + k <= p -> get o k (torn p new old) = get o k new.
Proof. intros. unfold get, torn. rewrite sub_app_l by (rewrite firstn_length; lia). now rewrite sub_firstn. Qed.
Lemma get_torn_r : forall o k p new old, p <= length new -> p <= o -> get o k (torn p new old) = get o k old.
Proof.
  intros o k p new old H H1. unfold get, torn. assert (L : length (firstn p new) = p) by (rewrite firstn_length; lia).
  rewrite sub_app_r by lia. rewrite L, sub_skipn. do 2 f_equal. lia.
Qed.

Lemma next_torn : forall cf ld pc idx rs b p old,
  config_ok cf -> image cf ld pc idx rs b -> rs <> [] -> 48 <= p <= h_footer b -> length b <= length old ->
  ~ (get (h_footer b) 3 old = ftr_magic /\ unz64 (get (h_footer b + 4) 8 old) = idx) ->
  forall pc', pc' = pc \/ pc' = 0%N -> next_group cf ld pc' true (torn p b old) = NEnd.
Proof.
  intros cf ld pc idx rs b p old K I Hn Hp Lo Hf pc' Hc. assert (FL := im_ftr_len _ _ _ _ _ _ I).
  assert (Lm : c_mult cf <= length b). { assert (Lb := image_min _ _ _ _ _ _ I Hn). destruct (im_len _ _ _ _ _ _ I) as [k E]. destruct k; [lia|]. nia. }
  unfold next_group. rewrite torn_length by lia.
  assert (F : forall o k, o + k <= 48 -> get o k (torn p b old) = get o k b) by (intros; apply get_torn_l; lia).
  assert (I' := I). destruct I'. unfold h_magic, h_logdev, h_prev_crc, h_size, h_footer, h_start, h_crc in *.
  rewrite (F 0 4), (F 44 4), (F 36 4), (F 20 4), (F 32 4), (F 12 8) by lia.
  destruct (Nat.ltb_spec (length old) (c_mult cf)) as [X|_]; [lia|].
  rewrite im_magic0, N.eqb_refl, im_logdev0, N.eqb_refl, im_prev0. cbn [negb].
  replace (negb (pc' =? 0)%N && negb (pc' =? pc)%N) with false
    by (destruct Hc as [-> | ->]; rewrite N.eqb_refl; [now rewrite andb_false_r|reflexivity]).
  rewrite im_size0. destruct (Nat.ltb_spec (length old) (length b)) as [X|_]; [lia|].
  destruct (Nat.ltb_spec (length old) (N.to_nat (get 32 4 b) + 12)) as [X|_]; [lia|].
  rewrite (get_torn_r (N.to_nat (get 32 4 b)) 3), (get_torn_r (N.to_nat (get 32 4 b) + 4) 8) by lia. rewrite im_start0.
  destruct (N.eqb_spec (get (N.to_nat (get 32 4 b)) 3 old) ftr_magic) as [E|E]; [|reflexivity].
  destruct (Z.eqb_spec (unz64 (get (N.to_nat (get 32 4 b) + 4) 8 old)) idx) as [E2|E2]; [|reflexivity].
  exfalso. auto.
Qed.

Lemma next_stale : forall cf ld pc old, stale ld pc old -> next_group cf ld pc true old = NEnd.
Proof.
  intros cf ld pc old H. unfold next_group, h_magic, h_logdev, h_prev_crc. destruct (Nat.ltb (length old) (c_mult cf)); [reflexivity|].
  destruct (N.eqb_spec (get 0 4 old) hdr_magic) as [E1|E1]; [|reflexivity]. cbn [negb].
  destruct (N.eqb_spec (get 44 4 old) ld) as [E2|E2]; [|reflexivity]. cbn [negb].
  destruct H as [H|[H|[H1 H2]]]; [contradiction|contradiction|].
  destruct (N.eqb_spec pc 0) as [E3|E3]; [contradiction|]. cbn [negb andb].
  destruct (N.eqb_spec pc (get 36 4 old)) as [E4|E4]; [congruence|reflexivity].
Qed.

(** ** Reading one record. *)
Lemma irs : 4088 <= initial_read_size.
Proof. unfold initial_read_size. lia. Qed.

Lemma get_first : forall o k l, o + k <= 4088 -> get o k (firstn initial_read_size l) = get o k l.
Proof. intros. unfold get. rewrite sub_firstn; [reflexivity|]. assert (X := irs). lia. Qed.

Theorem read_image : forall cf ld pc idx rs b t align i r,
  config_ok cf -> image cf ld pc idx rs b -> length rs <= max_records_in_a_batch -> 0 < align -> nth_error rs i = Some r ->
  read cf align (b ++ t) (idx + Z.of_nat i) = Some (r_data r).
Proof.
  intros cf ld pc idx rs b t align i r K I Lr Ha Hr.
  assert (Hi : i < length rs) by (apply nth_error_Some; congruence).
  assert (Hn : rs <> []) by (intros ->; cbn in Hi; lia).
  assert (Lb := image_min _ _ _ _ _ _ I Hn). assert (IR := irs).
  destruct (fields_app b t) as (F1 & F2 & F3 & F4 & F5 & F6 & F7 & F8 & F9 & F10); [lia|].
  set (buf := firstn initial_read_size (b ++ t)).
  assert (B : h_magic buf = hdr_magic /\ h_version buf = 0%N /\ h_nrec buf = length rs /\ h_start buf = idx /\ h_size buf = length b /\
              h_oob buf = h_oob b /\ h_crc buf = h_crc b).
  { subst buf. unfold h_magic, h_version, h_nrec, h_start, h_size, h_oob, h_crc in *. rewrite !get_first by lia.
    destruct I. unfold h_magic, h_version, h_nrec, h_start, h_size, h_oob, h_crc in *.
    rewrite F1, F2, F3, F4, F5, F6, F9. auto 10. }
  destruct B as (B1 & B2 & B3 & B4 & B5 & B6 & B7).
  destruct (im_recs _ _ _ _ _ _ I i r Hr) as (Hs & off & Er & Lo & Ed).
  assert (Er2 : rec_at buf i = rec_at b i).
  { unfold rec_at. rewrite B6. assert (E : sub (hdr_size + rec_size * i) rec_size buf = sub (hdr_size + rec_size * i) rec_size b).
    { subst buf. rewrite in_batch in Lr. unfold hdr_size, rec_size in *. rewrite sub_firstn by lia. apply sub_app_l.
      assert (X := im_ftr_len _ _ _ _ _ _ I). lia. }
    now rewrite E. }
  unfold read. fold buf. rewrite B1, B2, B3, B4, B5, N.eqb_refl. cbn [negb orb N.eqb].
  replace (idx + Z.of_nat i <? idx)%Z with false by lia. replace (idx + Z.of_nat (length rs) <=? idx + Z.of_nat i)%Z with false by lia. cbn [orb].
  replace ((length b <=? initial_read_size) && negb (h_crc buf =? crc_of cf (c_init cf) (sub hdr_size (length b - hdr_size) buf))%N) with false.
  2: { destruct (Nat.leb_spec (length b) initial_read_size) as [X|X]; [|reflexivity]. cbn [andb]. rewrite B7, (im_crc _ _ _ _ _ _ I).
       subst buf. unfold hdr_size. rewrite sub_firstn by lia. rewrite sub_app_l by lia.
       assert (E3 : sub 48 (length b - 48) b = skipn 48 b) by (unfold sub; apply firstn_all2; rewrite skipn_length; lia).
       now rewrite E3, N.eqb_refl. }
  replace (Z.to_nat (idx + Z.of_nat i - idx)) with i by lia. rewrite Er2, Er.
  destruct (Nat.ltb_spec (off + length (r_data r)) initial_read_size) as [X|X].
  - subst buf. rewrite sub_firstn by lia. rewrite sub_app_l by lia. now rewrite Ed.
  - assert (R1 := round_down_le off align Ha). set (ro := round_down off align) in *.
    assert (R2 := round_up_le (length (r_data r) + off - ro) align Ha). rewrite sub_sub by lia.
    replace (ro + (off - ro)) with off by lia. rewrite sub_app_l by lia. now rewrite Ed.
Qed.

(** ** Whatever is on the device. *)
Lemma next_group_inv : forall cf ld pc last rest b, next_group cf ld pc last rest = NGroup b ->
  b = firstn (h_size rest) rest /\ 48 <= h_size rest <= length rest /\ h_magic rest = hdr_magic /\ h_logdev rest = ld /\
  (pc = 0%N \/ h_prev_crc rest = pc) /\ h_crc rest = crc_of cf (c_init cf) (sub 48 (h_size rest - 48) rest).
Proof.
  intros cf ld pc last rest b H. unfold next_group, hdr_size in H.
  repeat match type of H with
         | (if ?c then _ else _) = _ => let E := fresh "E" in destruct c eqn:E; try discriminate
         end.
  injection H as <-.
  repeat match goal with
         | E : negb _ = false |- _ => apply negb_false_iff in E
         | E : (_ <? _) = false |- _ => apply Nat.ltb_ge in E
         | E : (_ =? _)%N = true |- _ => apply N.eqb_eq in E
         | E : _ || _ = false |- _ => apply orb_false_elim in E; destruct E
         end.
  ands; auto; try lia.
Qed.

Theorem load_sealed : forall cf ld lastp fuel pc pos first idx lc stream l i2 p2 c2 e,
  do_load cf ld lastp fuel pc pos first idx lc stream = (l, i2, p2, c2, e) ->
  exists bs rest, stream = concat bs ++ rest /\ sealed_from cf ld pc idx bs /\ p2 = pos + length (concat bs) /\
    l = concat (map (fun b => number (h_start b) (deliver b)) bs) /\
    i2 = (idx + Z.of_nat (length l))%Z.
Proof.
  intros cf ld lastp fuel. induction fuel as [|fuel IH]; intros pc pos first idx lc stream l i2 p2 c2 e H.
  - cbn in H. injection H as <- <- <- <- <-. exists [], stream. cbn. ands; auto; lia.
  - cbn [do_load] in H.
    assert (Stop : forall e', ([], idx, pos, lc, e') = (l, i2, p2, c2, e) ->
      exists bs rest, stream = concat bs ++ rest /\ sealed_from cf ld pc idx bs /\ p2 = pos + length (concat bs) /\
        l = concat (map (fun b => number (h_start b) (deliver b)) bs) /\ i2 = (idx + Z.of_nat (length l))%Z).
    { intros e' X. injection X as <- <- <- <- <-. exists [], stream. cbn. ands; auto; lia. }
    destruct (next_group cf ld pc (lastp pos) stream) as [| | |b] eqn:E; try (eapply Stop; exact H).
    destruct (first && (h_start b <? idx)%Z); [eapply Stop; exact H|].
    destruct (negb (h_start b =? idx)%Z || (h_nrec b =? 0)) eqn:Ck; [eapply Stop; exact H|].
    apply orb_false_elim in Ck. destruct Ck as [C1 C2]. apply negb_false_iff, Z.eqb_eq in C1. apply Nat.eqb_neq in C2.
    destruct (next_group_inv _ _ _ _ _ _ E) as (Eb & Ls & Em & El & Ep & Ec).
    assert (F : forall o k, o + k <= 48 -> get o k b = get o k stream).
    { intros o k Ho. subst b. unfold get. now rewrite sub_firstn by lia. }
    assert (Lb : length b = h_size stream) by (subst b; rewrite firstn_length; lia).
    assert (Sz : h_size b = h_size stream) by (unfold h_size; now rewrite F by lia).
    rewrite Sz in H.
    destruct (do_load cf ld lastp fuel (h_crc b) (pos + h_size stream) false (idx + Z.of_nat (h_nrec b)) (h_crc b) (skipn (h_size stream) stream))
      as [[[[l' i'] p'] c'] e'] eqn:E2.
    destruct (IH _ _ _ _ _ _ _ _ _ _ _ E2) as (bs & rest & X1 & X2 & X3 & X4 & X5).
    injection H as <- <- <- <- <-. exists (b :: bs), rest. cbn [concat map sealed_from].
    assert (Ln : length (number (h_start b) (deliver b)) = h_nrec b).
    { unfold number, deliver. rewrite combine_length, !map_length, !seq_length. lia. }
    ands.
    + rewrite <- app_assoc, <- X1. rewrite Eb. symmetry. apply firstn_skipn.
    + constructor.
      * rewrite F by lia. exact Em.
      * rewrite F by lia. exact El.
      * rewrite Lb. exact Sz.
      * exact C1.
      * rewrite F by lia. unfold h_crc in Ec. rewrite Ec. unfold crc_of. f_equal. subst b. unfold sub. rewrite skipn_firstn_comm. reflexivity.
    + rewrite F by lia. exact Ep.
    + unfold h_nrec in C2. lia.
    + exact X2.
    + rewrite app_length, Lb, X3. lia.
    + now rewrite <- X4.
    + rewrite app_length, Ln, X5. lia.
Qed.

Theorem load_torn : forall cf ld lastp gs g c idx c' idx' c'' idx'' k old pos first lc fuel prev,
  config_ok cf -> chain cf ld c idx gs c' idx' -> chain cf ld c' idx' [g] c'' idx'' -> prev = c \/ prev = 0%N ->
  (forall q, pos + length (stream_of gs) <= q -> lastp q = true) ->
  length (w_bytes g) <= length old -> k * c_mult cf <= length (w_bytes g) ->
  stale ld (seen gs prev c') old -> stale ld c'' (skipn (length (w_bytes g)) old) ->
  footer_whole cf (w_bytes g) -> no_old_footer (w_bytes g) old idx' ->
  let '(l, i2, p2, c2, e) := do_load cf ld lastp (length gs + S (S fuel)) prev pos first idx lc (stream_of gs ++ torn (k * c_mult cf) (w_bytes g) old) in
  e = Loaded /\
  ((k * c_mult cf < length (w_bytes g) /\ l = log_of gs /\ i2 = idx' /\ p2 = pos + length (stream_of gs)) \/
   (k * c_mult cf = length (w_bytes g) /\ l = log_of (gs ++ [g]) /\ i2 = idx'' /\ p2 = pos + length (stream_of (gs ++ [g])))).
Proof.
  intros cf ld lastp gs g c idx c' idx' c'' idx'' k old pos first lc fuel prev K C C1 Hp Hl Lo Lk S1 S2 Fw Fo.
  destruct (chain_split _ _ _ _ _ _ _ _ K C1) as (I & Hn & Hi & C2). inversion C2 as [? ? E1 E2|]. subst c'' idx''.
  set (b := w_bytes g) in *.
  rewrite (load_chain cf ld lastp gs c idx c' idx' (S (S fuel)) pos first lc (torn (k * c_mult cf) b old) K C prev Hp). fold (seen gs prev c').
  assert (Hs : seen gs prev c' = c' \/ seen gs prev c' = 0%N).
  { destruct gs; cbn; [|auto]. inversion C; subst. exact Hp. }
  destruct (Nat.lt_ge_cases (k * c_mult cf) (length b)) as [L|L].
  - assert (E : next_group cf ld (seen gs prev c') (lastp (pos + length (stream_of gs))) (torn (k * c_mult cf) b old) = NEnd).
    { rewrite Hl by lia. destruct (Fw k) as [X|X].
      - destruct (Nat.eq_dec k 0) as [-> |Hk].
        + cbn [Nat.mul]. unfold torn. cbn [firstn skipn app]. now apply next_stale.
        + assert (M := co_mult cf K). eapply next_torn; [exact K|exact I|exact Hn| |exact Lo|exact Fo|exact Hs]. unfold h_footer. nia.
      - exfalso. assert (E := im_end _ _ _ _ _ _ I). assert (M := co_mult cf K).
        assert (R := round_up_mono (h_footer b + 24) (c_mult cf) k ltac:(lia) X). lia. }
    cbn [do_load]. rewrite E. split; [reflexivity|]. left. rewrite app_nil_r. auto.
  - assert (Et : torn (k * c_mult cf) b old = b ++ skipn (length b) old).
    { unfold torn. rewrite firstn_all2 by lia. do 2 f_equal. lia. }
    rewrite Et. clear Et.
    assert (N1 := next_image cf ld c' idx' (w_recs g) b (lastp (pos + length (stream_of gs))) (skipn (length b) old) K I Hn _ Hs).
    cbn [do_load]. rewrite N1, (im_start _ _ _ _ _ _ I), Z.ltb_irrefl, andb_false_r, Z.eqb_refl, (im_n _ _ _ _ _ _ I). cbn [negb orb].
    destruct (Nat.eqb_spec (length (w_recs g)) 0) as [X|_]; [destruct (w_recs g); [contradiction|discriminate]|].
    rewrite (im_size _ _ _ _ _ _ I). rewrite skipn_app_exact by reflexivity.
    rewrite (Hl (pos + length (stream_of gs) + length b)) by lia. rewrite next_stale by exact S2.
    split; [reflexivity|]. right. unfold log_of, stream_of. rewrite !map_app, !concat_app, !app_length. cbn [map concat].
    rewrite (deliver_image _ _ _ _ _ _ I), Hi, !app_nil_r. fold b. ands; auto; lia.
Qed.
