(** * Proofs about the index transaction journal. *)
From Coq Require Import ZArith NArith List Bool Arith Lia ZifyBool ZifyNat ZifyN.
From Verif Require Import ByteBase Base TxnModel TxnSpec.
Import ListNotations.
Local Open Scope nat_scope.

(** ** Bytes *)

Lemma byte_put : forall b pos bs i, pos + length bs <= length b ->
  byte (put pos bs b) i =
  if (pos <=? i) && (i <? pos + length bs) then nth (i - pos) bs 0%N else byte b i.
Proof.
  intros b pos bs i H. unfold byte, put.
  destruct (pos <=? i) eqn:E1; cbn [andb].
  - rewrite app_nth2; rewrite firstn_length; [|lia].
    replace (Nat.min pos (length b)) with pos by lia.
    destruct (i <? pos + length bs) eqn:E2.
    + rewrite app_nth1 by lia. reflexivity.
    + rewrite app_nth2 by lia.
      rewrite <- (firstn_skipn (pos + length bs) b) at 2.
      rewrite app_nth2; rewrite firstn_length; [|lia].
      f_equal. lia.
  - rewrite app_nth1; [|rewrite firstn_length; lia].
    rewrite <- (firstn_skipn pos b) at 2. rewrite app_nth1; [reflexivity|rewrite firstn_length; lia].
Qed.

Definition agree (lo hi : nat) (b b' : list N) : Prop :=
  forall i, lo <= i < hi -> byte b i = byte b' i.

Lemma sub_bytes : forall len off b, off + len <= length b ->
  sub off len b = map (byte b) (seq off len).
Proof.
  intros len. induction len as [|len IH]; intros off b H.
  - unfold sub. reflexivity.
  - unfold sub in *. cbn [seq map]. rewrite <- IH by lia.
    destruct (skipn off b) as [|x t] eqn:E.
    + apply (f_equal (@length N)) in E. rewrite skipn_length in E. cbn in E. lia.
    + cbn [firstn]. f_equal.
      * unfold byte. rewrite <- (firstn_skipn off b), E.
        rewrite app_nth2; rewrite firstn_length; [|lia].
        replace (off - Nat.min off (length b)) with 0 by lia. reflexivity.
      * f_equal. replace (S off) with (off + 1) by lia.
        rewrite <- (skipn_skipn 1 off). rewrite E. reflexivity.
Qed.

Lemma get_agree : forall lo hi b b' off len, agree lo hi b b' -> lo <= off -> off + len <= hi ->
  hi <= length b -> hi <= length b' -> get off len b = get off len b'.
Proof.
  intros lo hi b b' off len H H1 H2 H3 H4. unfold get. rewrite !sub_bytes by lia. f_equal.
  apply map_ext_in. intros i Hi. apply in_seq in Hi. apply H. lia.
Qed.

Lemma wr_some : forall b off bs, off + length bs <= length b -> wr b off bs = Some (put off bs b).
Proof. intros. unfold wr. destruct (off + length bs <=? length b) eqn:E; [reflexivity|lia]. Qed.

Lemma get_put_out : forall off len pos bs b, pos + length bs <= length b ->
  off + len <= pos \/ pos + length bs <= off -> get off len (put pos bs b) = get off len b.
Proof.
  intros off len pos bs b H [H1|H1]; unfold get; f_equal.
  - apply sub_put_before; lia.
  - apply sub_put_after; lia.
Qed.

Lemma get_put_le : forall pos k n b, pos + k <= length b -> (n < 256 ^ N.of_nat k)%N ->
  get pos k (put pos (le k n) b) = n.
Proof.
  intros pos k n b H Hn. unfold get.
  pose proof (sub_put_same pos (le k n) b) as E. rewrite le_length in E. rewrite E by lia.
  now apply unle_le.
Qed.

Lemma agree_put : forall lo hi pos bs b, pos + length bs <= length b ->
  hi <= pos \/ pos + length bs <= lo -> agree lo hi (put pos bs b) b.
Proof.
  intros lo hi pos bs b H Ho i Hi. rewrite byte_put by assumption.
  destruct ((pos <=? i) && (i <? pos + length bs)) eqn:E; [lia|reflexivity].
Qed.

Lemma agree_trans : forall lo hi a b c, agree lo hi a b -> agree lo hi b c -> agree lo hi a c.
Proof. intros lo hi a b c H1 H2 i Hi. rewrite H1 by assumption. now apply H2. Qed.

Lemma agree_sub : forall lo hi lo' hi' a b, agree lo hi a b -> lo <= lo' -> hi' <= hi -> agree lo' hi' a b.
Proof. intros lo hi lo' hi' a b H H1 H2 i Hi. apply H. lia. Qed.

(** ** The bits of the first byte *)

Definition lev (f : N) : N := N.land (N.shiftr f 3) 15.

Lemma bits_clear : forall f, let f' := N.land f 128 in
  N.testbit f' 0 = false /\ N.testbit f' 1 = false /\ N.testbit f' 2 = false /\ lev f' = 0%N.
Proof.
  intros f f'. unfold f', lev. rewrite !N.land_spec. ands; try (cbn; now rewrite andb_false_r).
  apply N.bits_inj_iff. intros n. rewrite N.land_spec, N.shiftr_spec by lia.
  rewrite N.land_spec, N.bits_0.
  destruct (N.eq_dec n 4) as [->|Hn]; [cbn; apply andb_false_r|].
  destruct (N.eq_dec n 0) as [->|]; [cbn; now rewrite andb_false_r|].
  destruct (N.eq_dec n 1) as [->|]; [cbn; now rewrite andb_false_r|].
  destruct (N.eq_dec n 2) as [->|]; [cbn; now rewrite andb_false_r|].
  destruct (N.eq_dec n 3) as [->|]; [cbn; now rewrite andb_false_r|].
  replace (N.testbit 15 n) with false; [apply andb_false_r|].
  symmetry. change 15%N with (N.ones 4). apply N.ones_spec_high. lia.
Qed.

Lemma bits_set : forall f k i, (i <> k)%N -> N.testbit (N.setbit f k) i = N.testbit f i.
Proof. intros f k i H. rewrite N.setbit_eqb. destruct (N.eqb_spec k i); [congruence|reflexivity]. Qed.

Lemma bits_set_same : forall f k, N.testbit (N.setbit f k) k = true.
Proof. intros f k. rewrite N.setbit_eqb, N.eqb_refl. reflexivity. Qed.

Lemma lev_set : forall f k, (k < 3)%N -> lev (N.setbit f k) = lev f.
Proof.
  intros f k Hk. unfold lev. f_equal. apply N.bits_inj_iff. intros n.
  rewrite !N.shiftr_spec by lia. apply bits_set. lia.
Qed.

Lemma bits_level : forall f l, (l < 16)%N -> let f' := N.lor (N.ldiff f 120) (N.shiftl (l mod 16) 3) in
  (forall i, (i < 3)%N -> N.testbit f' i = N.testbit f i) /\ lev f' = l.
Proof.
  intros f l Hl f'. unfold f'. rewrite N.mod_small by assumption. split.
  - intros i Hi. rewrite N.lor_spec, N.ldiff_spec, N.shiftl_spec_low by assumption.
    rewrite orb_false_r. replace (N.testbit 120 i) with false; [apply andb_true_r|].
    change 120%N with (N.shiftl 15 3). now rewrite N.shiftl_spec_low.
  - unfold lev. apply N.bits_inj_iff. intros n.
    rewrite N.land_spec, N.shiftr_spec by lia.
    rewrite N.lor_spec, N.ldiff_spec.
    rewrite N.shiftl_spec_high by lia. replace (n + 3 - 3)%N with n by lia.
    change 120%N with (N.shiftl 15 3). rewrite N.shiftl_spec_high by lia.
    replace (n + 3 - 3)%N with n by lia.
    destruct (N.ltb_spec n 4) as [Hn|Hn].
    + change 15%N with (N.ones 4). rewrite N.ones_spec_low by assumption. cbn.
      rewrite andb_false_r. cbn. apply andb_true_r.
    + change 15%N with (N.ones 4). rewrite N.ones_spec_high by assumption. rewrite andb_false_r.
      symmetry. destruct (N.eq_dec l 0) as [->|]; [apply N.bits_0|].
      apply N.bits_above_log2. apply N.log2_lt_pow2; [lia|].
      assert (16 <= 2 ^ n)%N by (change 16%N with (2 ^ 4)%N; apply N.pow_le_mono_r; lia). lia.
Qed.

(** ** One record *)

Definition b2n (b : bool) : nat := if b then 1 else 0.

Definition RecAt (b : list N) (r : nat) (par chi meta : bool) (lvl : N) (nn nf : nat)
  (ids : list (N * N)) (ord : N) : Prop :=
  r + 8 + 8 * length ids <= length b /\
  has_par b r = par /\ has_chi b r = chi /\ is_meta b r = meta /\ level b r = lvl /\
  num_new b r = N.of_nat nn /\ num_freed b r = N.of_nat nf /\ ordinal b r = ord /\
  length ids = nn + nf + b2n par + b2n chi /\
  forall i x, nth_error ids i = Some x ->
    get (r + 8 + 8 * i) 4 b = fst x /\ get (r + 8 + 8 * i + 4) 2 b = snd x.

Lemma recat_agree : forall b b' r par chi meta lvl nn nf ids ord,
  RecAt b r par chi meta lvl nn nf ids ord ->
  agree r (r + 8 + 8 * length ids) b b' -> r + 8 + 8 * length ids <= length b' ->
  RecAt b' r par chi meta lvl nn nf ids ord.
Proof.
  intros b b' r par chi meta lvl nn nf ids ord [H0 [H1 [H2 [H3 [H4 [H5 [H6 [H7 [H8 H9]]]]]]]]] HA HL.
  unfold RecAt, has_par, has_chi, is_meta, level, num_new, num_freed, ordinal in *.
  rewrite <- !(HA r), <- (HA (r + 1)), <- (HA (r + 2)) by lia. ands; auto.
  - rewrite <- H7. symmetry. apply (get_agree r (r + 8 + 8 * length ids)); auto; lia.
  - intros i x Hi. assert (i < length ids) by (apply nth_error_Some; congruence).
    destruct (H9 i x Hi) as [G1 G2]. rewrite <- G1, <- G2.
    split; symmetry; apply (get_agree r (r + 8 + 8 * length ids)); auto; lia.
Qed.

Lemma recat_total : forall b r par chi meta lvl nn nf ids ord,
  RecAt b r par chi meta lvl nn nf ids ord -> total_ids b r = length ids.
Proof.
  intros b r par chi meta lvl nn nf ids ord [H0 [H1 [H2 [H3 [H4 [H5 [H6 [H7 [H8 H9]]]]]]]]].
  unfold total_ids. rewrite H1, H2, H5, H6, H8, !Nat2N.id. unfold b2n. lia.
Qed.

(** A write to one of the first three bytes leaves ids and ordinal. *)
Lemma recat_head : forall b r par chi meta lvl nn nf ids ord k v,
  RecAt b r par chi meta lvl nn nf ids ord -> k < 3 ->
  let b' := put (r + k) [v] b in
  length b' = length b /\ byte b' (r + k) = v /\
  (forall j, j <> r + k -> byte b' j = byte b j) /\ ordinal b' r = ord /\
  (forall i x, nth_error ids i = Some x ->
     get (r + 8 + 8 * i) 4 b' = fst x /\ get (r + 8 + 8 * i + 4) 2 b' = snd x).
Proof.
  intros b r par chi meta lvl nn nf ids ord k v
    [H0 [H1 [H2 [H3 [H4 [H5 [H6 [H7 [H8 H9]]]]]]]]] Hk b'.
  assert (HL : r + k + length [v] <= length b) by (cbn [length]; lia).
  unfold b'. ands.
  - now apply put_length.
  - rewrite byte_put by assumption. cbn [length].
    replace ((r + k <=? r + k) && (r + k <? r + k + 1)) with true by lia.
    now rewrite Nat.sub_diag.
  - intros j Hj. rewrite byte_put by assumption. cbn [length].
    destruct ((r + k <=? j) && (j <? r + k + 1)) eqn:E; [lia|reflexivity].
  - rewrite <- H7. apply get_put_out; [assumption|cbn [length]; lia].
  - intros i x Hi. destruct (H9 i x Hi) as [G1 G2]. rewrite <- G1, <- G2.
    split; apply get_put_out; try assumption; cbn [length]; lia.
Qed.

Lemma le6 : forall x y, length (le 4 x ++ le 2 y) = 6.
Proof. intros. rewrite app_length, !le_length. reflexivity. Qed.

(** Adding an id after the counters were adjusted. *)
Lemma recat_id : forall b r par chi meta lvl nn nf ids ord x,
  r + 8 + 8 * S (length ids) <= length b ->
  has_par b r = par -> has_chi b r = chi -> is_meta b r = meta -> level b r = lvl ->
  num_new b r = N.of_nat nn -> num_freed b r = N.of_nat nf -> ordinal b r = ord ->
  S (length ids) = nn + nf + b2n par + b2n chi ->
  (forall i x, nth_error ids i = Some x ->
    get (r + 8 + 8 * i) 4 b = fst x /\ get (r + 8 + 8 * i + 4) 2 b = snd x) ->
  bp_ok x = true ->
  let b' := put (r + 8 + 8 * length ids) (le 4 (bp_blk x) ++ le 2 (bp_chunk x)) b in
  RecAt b' r par chi meta lvl nn nf (ids ++ [pos x]) ord /\ length b' = length b /\ agree 0 r b' b.
Proof.
  intros b r par chi meta lvl nn nf ids ord x HL H1 H2 H3 H4 H5 H6 H7 H8 H9 Hx b'.
  unfold bp_ok in Hx. rewrite !andb_true_iff in Hx. destruct Hx as [[X1 X2] _].
  apply N.ltb_lt in X1, X2.
  assert (HB : r + 8 + 8 * length ids + length (le 4 (bp_blk x) ++ le 2 (bp_chunk x)) <= length b)
    by (rewrite le6; lia).
  assert (HH : agree r (r + 8) b' b) by (apply agree_put; [assumption|lia]).
  assert (HLn : length b' = length b) by (now apply put_length).
  ands; [|assumption|apply agree_put; [assumption|lia]].
  unfold RecAt, has_par, has_chi, is_meta, level, num_new, num_freed, ordinal in *.
  rewrite !(HH r), (HH (r + 1)), (HH (r + 2)) by lia.
  rewrite app_length. cbn [length]. ands; auto; try lia.
  - rewrite <- H7. apply get_put_out; [assumption|lia].
  - intros i y Hi. destruct (Nat.lt_ge_cases i (length ids)) as [Hl|Hl].
    + rewrite nth_error_app1 in Hi by assumption. destruct (H9 i y Hi) as [G1 G2].
      rewrite <- G1, <- G2. split; apply get_put_out; try assumption; lia.
    + rewrite nth_error_app2 in Hi by assumption.
      assert (i = length ids) as ->.
      { destruct (i - length ids) as [|k] eqn:E; [lia|]. destruct k; discriminate. }
      rewrite Nat.sub_diag in Hi. injection Hi as <-. unfold b', get. cbn [fst snd pos]. split.
      * rewrite sub_put_in by (rewrite ?le6; lia).
        rewrite Nat.sub_diag. rewrite sub_app_l by (rewrite le_length; lia).
        rewrite sub_all by (rewrite le_length; lia). apply unle_le. exact X1.
      * rewrite sub_put_in by (rewrite ?le6; lia).
        rewrite sub_app_r by (rewrite le_length; lia). rewrite le_length.
        replace (r + 8 + 8 * length ids + 4 - (r + 8 + 8 * length ids) - 4) with 0 by lia.
        rewrite sub_all by (rewrite le_length; lia). apply unle_le. exact X2.
Qed.

(** [append] for the four kinds of nodes. *)
Lemma append_spec : forall op b r par chi meta lvl nn nf ids ord x,
  RecAt b r par chi meta lvl nn nf ids ord -> r + 8 + 8 * S (length ids) <= length b ->
  S (length ids) <= 255 -> bp_ok x = true ->
  match op with AParent => par = false | AChild => chi = false | _ => True end ->
  exists b', append b r op x = Some b' /\ length b' = length b /\ agree 0 r b' b /\
    RecAt b' r (match op with AParent => true | _ => par end)
             (match op with AChild => true | _ => chi end) meta lvl
             (match op with ANew => S nn | _ => nn end)
             (match op with AFreed => S nf | _ => nf end) (ids ++ [pos x]) ord.
Proof.
  intros op b r par chi meta lvl nn nf ids ord x H HR HN Hx Hop.
  pose proof (recat_total _ _ _ _ _ _ _ _ _ _ H) as HT.
  pose proof H as [H0 [H1 [H2 [H3 [H4 [H5 [H6 [H7 [H8 H9]]]]]]]]].
  unfold append. rewrite HT.
  assert (HK : forall k v, k < 3 -> wr b (r + k) [v] = Some (put (r + k) [v] b))
    by (intros k v Hk; apply wr_some; cbn [length]; lia).
  assert (HW : forall b1 y z, length b1 = length b ->
     wr b1 (r + 8 + 8 * length ids) (le 4 y ++ le 2 z) =
     Some (put (r + 8 + 8 * length ids) (le 4 y ++ le 2 z) b1))
    by (intros; apply wr_some; rewrite le6; lia).
  assert (HA : forall k v, k < 3 -> agree 0 r (put (r + k) [v] b) b)
    by (intros k v Hk; apply agree_put; cbn [length]; lia).
  destruct op.
  - subst par. pose proof (HK 0 (N.setbit (byte b r) 0) ltac:(lia)) as E. rewrite Nat.add_0_r in E.
    rewrite E. cbn [bind].
    destruct (recat_head _ _ _ _ _ _ _ _ _ _ 0 (N.setbit (byte b r) 0) H ltac:(lia))
      as [G1 [G2 [G3 [G4 G5]]]]. pose proof (HA 0 (N.setbit (byte b r) 0) ltac:(lia)) as G6.
    rewrite Nat.add_0_r in *. set (b1 := put r [N.setbit (byte b r) 0] b) in *. clearbody b1.
    rewrite HW by assumption. eexists. split; [reflexivity|].
    destruct (recat_id b1 r true chi meta lvl nn nf ids ord x) as [R1 [R2 R3]]; auto; try lia.
    + unfold has_par. rewrite G2. apply bits_set_same.
    + unfold has_chi in *. rewrite G2, bits_set by lia. assumption.
    + unfold is_meta in *. rewrite G2, bits_set by lia. assumption.
    + unfold level in *. rewrite G2. fold (lev (N.setbit (byte b r) 0)). rewrite lev_set by lia. assumption.
    + unfold num_new in *. rewrite G3 by lia. assumption.
    + unfold num_freed in *. rewrite G3 by lia. assumption.
    + cbn [b2n] in *. lia.
    + ands; [lia| |exact R1]. eapply agree_trans; eassumption.
  - subst chi. pose proof (HK 0 (N.setbit (byte b r) 1) ltac:(lia)) as E. rewrite Nat.add_0_r in E.
    rewrite E. cbn [bind].
    destruct (recat_head _ _ _ _ _ _ _ _ _ _ 0 (N.setbit (byte b r) 1) H ltac:(lia))
      as [G1 [G2 [G3 [G4 G5]]]]. pose proof (HA 0 (N.setbit (byte b r) 1) ltac:(lia)) as G6.
    rewrite Nat.add_0_r in *. set (b1 := put r [N.setbit (byte b r) 1] b) in *. clearbody b1.
    rewrite HW by assumption. eexists. split; [reflexivity|].
    destruct (recat_id b1 r par true meta lvl nn nf ids ord x) as [R1 [R2 R3]]; auto; try lia.
    + unfold has_par in *. rewrite G2, bits_set by lia. assumption.
    + unfold has_chi in *. rewrite G2. apply bits_set_same.
    + unfold is_meta in *. rewrite G2, bits_set by lia. assumption.
    + unfold level in *. rewrite G2. fold (lev (N.setbit (byte b r) 1)). rewrite lev_set by lia. assumption.
    + unfold num_new in *. rewrite G3 by lia. assumption.
    + unfold num_freed in *. rewrite G3 by lia. assumption.
    + cbn [b2n] in *. lia.
    + ands; [lia| |exact R1]. eapply agree_trans; eassumption.
  - rewrite HK by lia. cbn [bind].
    set (v := ((num_new b r + 1) mod 256)%N) in *.
    assert (Hv : v = N.of_nat (S nn)).
    { unfold v. rewrite H5, N.mod_small; lia. }
    destruct (recat_head _ _ _ _ _ _ _ _ _ _ 1 v H ltac:(lia)) as [G1 [G2 [G3 [G4 G5]]]].
    pose proof (HA 1 v ltac:(lia)) as G6. set (b1 := put (r + 1) [v] b) in *. clearbody b1.
    rewrite HW by assumption. eexists. split; [reflexivity|].
    destruct (recat_id b1 r par chi meta lvl (S nn) nf ids ord x) as [R1 [R2 R3]]; auto; try lia.
    + unfold has_par in *. rewrite G3 by lia. assumption.
    + unfold has_chi in *. rewrite G3 by lia. assumption.
    + unfold is_meta in *. rewrite G3 by lia. assumption.
    + unfold level in *. rewrite G3 by lia. assumption.
    + unfold num_new in *. congruence.
    + unfold num_freed in *. rewrite G3 by lia. assumption.
    + ands; [lia| |exact R1]. eapply agree_trans; eassumption.
  - rewrite HK by lia. cbn [bind].
    set (v := ((num_freed b r + 1) mod 256)%N) in *.
    assert (Hv : v = N.of_nat (S nf)).
    { unfold v. rewrite H6, N.mod_small; lia. }
    destruct (recat_head _ _ _ _ _ _ _ _ _ _ 2 v H ltac:(lia)) as [G1 [G2 [G3 [G4 G5]]]].
    pose proof (HA 2 v ltac:(lia)) as G6. set (b1 := put (r + 2) [v] b) in *. clearbody b1.
    rewrite HW by assumption. eexists. split; [reflexivity|].
    destruct (recat_id b1 r par chi meta lvl nn (S nf) ids ord x) as [R1 [R2 R3]]; auto; try lia.
    + unfold has_par in *. rewrite G3 by lia. assumption.
    + unfold has_chi in *. rewrite G3 by lia. assumption.
    + unfold is_meta in *. rewrite G3 by lia. assumption.
    + unfold level in *. rewrite G3 by lia. assumption.
    + unfold num_new in *. rewrite G3 by lia. assumption.
    + unfold num_freed in *. congruence.
    + ands; [lia| |exact R1]. eapply agree_trans; eassumption.
Qed.

(** The two writes that only touch the first byte. *)
Lemma set_meta_spec : forall b r par chi meta lvl nn nf ids ord,
  RecAt b r par chi meta lvl nn nf ids ord ->
  exists b', set_meta b r = Some b' /\ length b' = length b /\ agree 0 r b' b /\
    RecAt b' r par chi true lvl nn nf ids ord.
Proof.
  intros b r par chi meta lvl nn nf ids ord H.
  pose proof H as [H0 [H1 [H2 [H3 [H4 [H5 [H6 [H7 [H8 H9]]]]]]]]].
  unfold set_meta. rewrite wr_some by (cbn [length]; lia). eexists. split; [reflexivity|].
  destruct (recat_head _ _ _ _ _ _ _ _ _ _ 0 (N.setbit (byte b r) 2) H ltac:(lia))
      as [G1 [G2 [G3 [G4 G5]]]]. rewrite Nat.add_0_r in *.
  assert (G6 : agree 0 r (put r [N.setbit (byte b r) 2] b) b) by (apply agree_put; cbn [length]; lia).
  set (b1 := put r [N.setbit (byte b r) 2] b) in *. clearbody b1.
  split; [assumption|]. split; [assumption|].
  unfold RecAt, has_par, has_chi, is_meta, level, num_new, num_freed in *.
  rewrite !G2, !G3 by lia. fold (lev (N.setbit (byte b r) 2)). fold (lev (byte b r)) in H4.
  rewrite lev_set, bits_set_same, !bits_set by lia. ands; auto; lia.
Qed.

Lemma set_level_spec : forall b r par chi meta lvl nn nf ids ord l, (l < 16)%N ->
  RecAt b r par chi meta lvl nn nf ids ord ->
  exists b', set_level b r l = Some b' /\ length b' = length b /\ agree 0 r b' b /\
    RecAt b' r par chi meta l nn nf ids ord.
Proof.
  intros b r par chi meta lvl nn nf ids ord l Hl H.
  pose proof H as [H0 [H1 [H2 [H3 [H4 [H5 [H6 [H7 [H8 H9]]]]]]]]].
  unfold set_level. rewrite wr_some by (cbn [length]; lia). eexists. split; [reflexivity|].
  set (v := N.lor (N.ldiff (byte b r) 120) (N.shiftl (l mod 16) 3)).
  destruct (recat_head _ _ _ _ _ _ _ _ _ _ 0 v H ltac:(lia))
      as [G1 [G2 [G3 [G4 G5]]]]. rewrite Nat.add_0_r in *.
  assert (G6 : agree 0 r (put r [v] b) b) by (apply agree_put; cbn [length]; lia).
  destruct (bits_level (byte b r) l Hl) as [V1 V2]. fold v in V1, V2.
  set (b1 := put r [v] b) in *. clearbody b1 v.
  split; [assumption|]. split; [assumption|].
  unfold RecAt, has_par, has_chi, is_meta, level, num_new, num_freed in *.
  rewrite !G2, !G3 by lia. fold (lev v). rewrite !V1 by lia. ands; auto; lia.
Qed.

Lemma new_record_spec : forall b r ord, r + 16 <= length b -> (ord < 2 ^ 32)%N ->
  exists b', new_record b r ord = Some b' /\ length b' = length b /\ agree 0 r b' b /\
    RecAt b' r false false false 0%N 0 0 [] ord.
Proof.
  intros b r ord HL HO. unfold new_record.
  rewrite wr_some by (cbn [length]; lia). cbn [bind].
  set (v := N.land (byte b r) 128). set (b1 := put r [v; 0%N; 0%N; 0%N] b).
  assert (L1 : length b1 = length b) by (apply put_length; cbn [length]; lia).
  rewrite wr_some by (rewrite le_length; lia). cbn [bind].
  set (b2 := put (r + 4) (le 4 ord) b1).
  assert (L2 : length b2 = length b) by (unfold b2; rewrite put_length; rewrite ?le_length; lia).
  rewrite wr_some by (rewrite le6; lia). eexists. split; [reflexivity|].
  set (b3 := put (r + 8) (le 4 0 ++ le 2 0) b2).
  assert (L3 : length b3 = length b) by (unfold b3; rewrite put_length; rewrite ?le6; lia).
  split; [assumption|].
  assert (A3 : forall i, i < r + 8 -> byte b3 i = byte b2 i).
  { intros i Hi. apply (agree_put 0 (r + 8)); [rewrite le6; lia|lia|lia]. }
  assert (A2 : forall i, i < r + 4 -> byte b2 i = byte b1 i).
  { intros i Hi. apply (agree_put 0 (r + 4)); [rewrite le_length; lia|lia|lia]. }
  split.
  - intros i Hi. rewrite A3, A2 by lia. apply (agree_put 0 r); cbn [length]; lia.
  - assert (B1 : forall k, k < 4 -> byte b1 (r + k) = nth k [v; 0%N; 0%N; 0%N] 0%N).
    { intros k Hk. unfold b1. rewrite byte_put by (cbn [length]; lia). cbn [length].
      replace ((r <=? r + k) && (r + k <? r + 4)) with true by lia.
      replace (r + k - r) with k by lia. reflexivity. }
    destruct (bits_clear (byte b r)) as [V1 [V2 [V3 V4]]]. fold v in V1, V2, V3, V4.
    assert (B0 : byte b1 r = v) by (pose proof (B1 0 ltac:(lia)) as B0; rewrite Nat.add_0_r in B0; exact B0).
    unfold RecAt, has_par, has_chi, is_meta, level, num_new, num_freed, ordinal in *.
    rewrite !A3, !A2 by lia. rewrite !B0, !B1 by lia. cbn [nth length].
    fold (lev v). ands; auto; try lia.
    + unfold b3. rewrite get_put_out by (rewrite le6; lia). unfold b2.
      apply get_put_le; [lia|exact HO].
    + intros i x Hi. destruct i; discriminate.
Qed.

Lemma append_new_spec : forall l b r par chi meta lvl nn nf ids ord,
  RecAt b r par chi meta lvl nn nf ids ord ->
  r + 8 + 8 * (length ids + length l) <= length b -> length ids + length l <= 255 ->
  forallb bp_ok l = true ->
  exists b', append_new b r l = Some b' /\ length b' = length b /\ agree 0 r b' b /\
    RecAt b' r par chi meta lvl (nn + length l) nf (ids ++ map pos l) ord.
Proof.
  induction l as [|x l IH]; intros b r par chi meta lvl nn nf ids ord H HL HN HF.
  - exists b. cbn [append_new map length] in *. rewrite app_nil_r, Nat.add_0_r.
    ands; auto. intros i Hi. reflexivity.
  - cbn [forallb] in HF. apply andb_true_iff in HF. destruct HF as [Hx HF]. cbn [length] in *.
    destruct (append_spec ANew _ _ _ _ _ _ _ _ _ _ x H) as [b1 [E1 [L1 [A1 R1]]]]; auto; try lia.
    destruct (IH _ _ _ _ _ _ _ _ _ _ R1) as [b2 [E2 [L2 [A2 R2]]]]; auto.
    + rewrite app_length. cbn [length]. lia.
    + rewrite app_length. cbn [length]. lia.
    + exists b2. cbn [append_new]. rewrite E1. cbn [bind]. ands; auto; [lia| |].
      * eapply agree_trans; eassumption.
      * cbn [map]. rewrite <- app_assoc in R2. cbn [app] in R2.
        replace (nn + S (length l)) with (S nn + length l) by lia. exact R2.
Qed.

Lemma last_cons : forall A (l : list A) x d, last (x :: l) d = last l x.
Proof.
  intros A l. induction l as [|y l IH]; intros x d; [reflexivity|].
  change (last (x :: y :: l) d) with (last (y :: l) d). rewrite !IH. reflexivity.
Qed.

Lemma append_freed_spec : forall l b r par chi meta lvl nn nf ids ord,
  RecAt b r par chi meta lvl nn nf ids ord ->
  r + 8 + 8 * (length ids + length l) <= length b -> length ids + length l <= 255 ->
  forallb bp_ok l = true ->
  exists b', append_freed b r l = Some b' /\ length b' = length b /\ agree 0 r b' b /\
    RecAt b' r par chi meta (last (map bp_level l) lvl) nn (nf + length l) (ids ++ map pos l) ord.
Proof.
  induction l as [|x l IH]; intros b r par chi meta lvl nn nf ids ord H HL HN HF.
  - exists b. cbn [append_freed map length last] in *. rewrite app_nil_r, Nat.add_0_r.
    ands; auto. intros i Hi. reflexivity.
  - cbn [forallb] in HF. apply andb_true_iff in HF. destruct HF as [Hx HF]. cbn [length] in *.
    assert (Hl : (bp_level x < 16)%N).
    { unfold bp_ok in Hx. rewrite !andb_true_iff in Hx. destruct Hx as [_ Hx]. now apply N.ltb_lt. }
    destruct (set_level_spec _ _ _ _ _ _ _ _ _ _ (bp_level x) Hl H) as [b0 [E0 [L0 [A0 R0]]]].
    destruct (append_spec AFreed _ _ _ _ _ _ _ _ _ _ x R0) as [b1 [E1 [L1 [A1 R1]]]]; auto; try lia.
    destruct (IH _ _ _ _ _ _ _ _ _ _ R1) as [b2 [E2 [L2 [A2 R2]]]]; auto.
    + rewrite app_length. cbn [length]. lia.
    + rewrite app_length. cbn [length]. lia.
    + exists b2. cbn [append_freed]. rewrite E0. cbn [bind]. rewrite E1. cbn [bind]. ands; auto; [lia| |].
      * eapply agree_trans; [eassumption|]. eapply agree_trans; eassumption.
      * cbn [map]. rewrite last_cons. rewrite <- app_assoc in R2. cbn [app] in R2.
        replace (nf + S (length l)) with (S nf + length l) by lia. exact R2.
Qed.

(** ** A whole record *)

Definition opt_list {A} (x : option A) : list A := match x with Some y => [y] | None => [] end.

Definition ids_of (t : txn) : list (N * N) :=
  opt_list (d_par (expect t)) ++ opt_list (d_chi (expect t)) ++ d_new (expect t) ++ d_freed (expect t).

Definition is_some {A} (x : option A) : bool := match x with Some _ => true | None => false end.

Definition RecFor (b : list N) (r : nat) (t : txn) : Prop :=
  RecAt b r (is_some (d_par (expect t))) (is_some (d_chi (expect t))) (d_meta (expect t))
    (d_level (expect t)) (length (t_new t)) (length (t_freed t)) (ids_of t) (t_ord t).

Lemma ids_le : forall t, length (ids_of t) <= nodes t.
Proof.
  intros [o p c n f]. unfold ids_of, nodes, expect. cbn [d_par d_chi d_new d_freed t_par t_chi t_new t_freed].
  rewrite !app_length, !map_length.
  destruct p as [p|], c as [c|]; cbn [same option_map opt_list opt_n length]; try lia.
  destruct (Nat.eqb (bp_id p) (bp_id c)); cbn [opt_list length]; lia.
Qed.

Lemma fill_record_spec : forall b r t, txn_ok t = true -> r + 8 + 8 * nodes t <= length b ->
  exists b', fill_record b r t = Some b' /\ length b' = length b /\ agree 0 r b' b /\ RecFor b' r t.
Proof.
  intros b r t HT HL. pose proof (ids_le t) as HI. unfold txn_ok in HT.
  rewrite !andb_true_iff in HT. destruct HT as [[[[[[T1 T2] T3] T4] T5] T6] T7].
  apply N.ltb_lt in T1. apply Nat.leb_le in T6, T7.
  unfold fill_record.
  destruct (new_record_spec b r (t_ord t)) as [b1 [E1 [L1 [A1 R1]]]]; [lia|assumption|].
  rewrite E1. cbn [bind].
  unfold RecFor, ids_of, expect in *.
  cbn [d_par d_chi d_new d_freed d_meta d_level] in *.
  (* the parent *)
  assert (H2 : exists b2, match t_par t with
        | Some p => b' <- append b1 r AParent p ;; if bp_meta p then set_meta b' r else Some b'
        | None => Some b1
        end = Some b2 /\ length b2 = length b1 /\ agree 0 r b2 b1 /\
        RecAt b2 r (is_some (option_map pos (t_par t))) false
          (match t_par t with Some p => bp_meta p | None => false end) 0%N 0 0
          (opt_list (option_map pos (t_par t))) (t_ord t)).
  { destruct (t_par t) as [p|] eqn:Ep.
    - destruct (append_spec AParent _ _ _ _ _ _ _ _ _ _ p R1) as [b2 [E2 [L2 [A2 R2]]]]; auto; cbn [length]; try lia.
      rewrite E2. cbn [bind]. cbn [option_map is_some opt_list]. cbn [app] in R2.
      destruct (bp_meta p).
      + destruct (set_meta_spec _ _ _ _ _ _ _ _ _ _ R2) as [b3 [E3 [L3 [A3 R3]]]].
        exists b3. ands; auto; [lia|]. eapply agree_trans; eassumption.
      + exists b2. ands; auto.
    - exists b1. ands; auto. intros i Hi. reflexivity. }
  destruct H2 as [b2 [E2 [L2 [A2 R2]]]]. rewrite E2. cbn [bind].
  (* the child *)
  set (chi := if same (t_par t) (t_chi t) then None else option_map pos (t_chi t)) in *.
  set (ids0 := opt_list (option_map pos (t_par t))) in *.
  assert (H3 : exists b3, match t_chi t with
        | Some c =>
            if match t_par t with Some p => Nat.eqb (bp_id p) (bp_id c) | None => false end
            then Some b2 else append b2 r AChild c
        | None => Some b2
        end = Some b3 /\ length b3 = length b2 /\ agree 0 r b3 b2 /\
        RecAt b3 r (is_some (option_map pos (t_par t))) (is_some chi)
          (match t_par t with Some p => bp_meta p | None => false end) 0%N 0 0
          (ids0 ++ opt_list chi) (t_ord t)).
  { destruct (t_chi t) as [c|] eqn:Ec.
    - assert (Hs : match t_par t with Some p => Nat.eqb (bp_id p) (bp_id c) | None => false end
                   = same (t_par t) (Some c)) by reflexivity.
      rewrite Hs. unfold chi in *. destruct (same (t_par t) (Some c)).
      + exists b2. ands; auto; [intros i Hi; reflexivity|]. cbn [opt_list is_some]. now rewrite app_nil_r.
      + cbn [option_map is_some opt_list] in *.
        destruct (append_spec AChild _ _ _ _ _ _ _ _ _ _ c R2) as [b3 [E3 [L3 [A3 R3]]]]; auto.
        * rewrite !app_length in HI. cbn [length] in HI. lia.
        * rewrite !app_length in HI. cbn [length] in HI. lia.
        * exists b3. ands; auto.
    - unfold chi. exists b2. replace (if same (t_par t) None then None else option_map pos (@None bp)) with (@None (N * N)).
      2: { destruct (same (t_par t) None); reflexivity. }
      ands; auto; [intros i Hi; reflexivity|]. cbn [opt_list is_some]. now rewrite app_nil_r. }
  destruct H3 as [b3 [E3 [L3 [A3 R3]]]]. rewrite E3. cbn [bind].
  rewrite !app_length, !map_length in HI.
  destruct (append_new_spec (t_new t) _ _ _ _ _ _ _ _ _ _ R3) as [b4 [E4 [L4 [A4 R4]]]]; auto.
  { rewrite app_length. lia. } { rewrite app_length. lia. }
  rewrite E4. cbn [bind].
  destruct (append_freed_spec (t_freed t) _ _ _ _ _ _ _ _ _ _ R4) as [b5 [E5 [L5 [A5 R5]]]]; auto.
  { rewrite !app_length, map_length. lia. } { rewrite !app_length, map_length. lia. }
  exists b5. ands; auto; [lia| |].
  - do 4 (eapply agree_trans; [eassumption|]). assumption.
  - rewrite <- !app_assoc in R5. exact R5.
Qed.

(** ** Decoding a record *)

Lemma blk_id_at : forall b r par chi meta lvl nn nf ids ord i x,
  RecAt b r par chi meta lvl nn nf ids ord -> length ids <= 255 -> nth_error ids i = Some x ->
  blk_id b r i = Some x.
Proof.
  intros b r par chi meta lvl nn nf ids ord i x H HN Hi.
  assert (Hl : i < length ids) by (apply nth_error_Some; congruence).
  destruct H as [H0 [_ [_ [_ [_ [_ [_ [_ [_ H9]]]]]]]]]. destruct (H9 i x Hi) as [G1 G2].
  unfold blk_id. rewrite Nat.mod_small by lia.
  destruct (r + 8 + 8 * i + 8 <=? length b) eqn:E; [|lia]. rewrite G1, G2. now destruct x.
Qed.

Lemma blk_ids_at : forall l b r par chi meta lvl nn nf ids ord pre post,
  RecAt b r par chi meta lvl nn nf ids ord -> length ids <= 255 -> ids = pre ++ l ++ post ->
  blk_ids b r (length pre) (length l) = Some l.
Proof.
  induction l as [|x l IH]; intros b r par chi meta lvl nn nf ids ord pre post H HN E; [reflexivity|].
  cbn [blk_ids length].
  rewrite (blk_id_at _ _ _ _ _ _ _ _ _ _ (length pre) x H HN).
  2: { rewrite E, nth_error_app2, Nat.sub_diag by lia. reflexivity. }
  cbn [bind]. replace (S (length pre)) with (length (pre ++ [x])) by (rewrite app_length; cbn; lia).
  rewrite (IH _ _ _ _ _ _ _ _ _ _ (pre ++ [x]) post H HN); [reflexivity|].
  rewrite E, <- app_assoc. reflexivity.
Qed.

Lemma dec_record_spec : forall b r t, RecFor b r t -> nodes t <= 255 ->
  dec_record b r = Some (expect t) /\ rec_size b r = 8 + 8 * length (ids_of t).
Proof.
  intros b r t H HN. pose proof (ids_le t) as HI. unfold RecFor in H.
  assert (HI' : length (ids_of t) <= 255) by lia.
  pose proof (recat_total _ _ _ _ _ _ _ _ _ _ H) as HT.
  pose proof H as [H0 [H1 [H2 [H3 [H4 [H5 [H6 [H7 [H8 H9]]]]]]]]].
  split; [|unfold rec_size; now rewrite HT].
  unfold dec_record. replace (r + 8 <=? length b) with true by lia. cbn [negb].
  rewrite H1, H2, H3, H4, H5, H6, H7, !Nat2N.id.
  set (e := expect t) in *.
  assert (En : length (t_new t) = length (d_new e)) by (unfold e, expect; cbn; now rewrite map_length).
  assert (Ef : length (t_freed t) = length (d_freed e)) by (unfold e, expect; cbn; now rewrite map_length).
  assert (Eo : t_ord t = d_ord e) by reflexivity.
  assert (Ei : ids_of t = opt_list (d_par e) ++ opt_list (d_chi e) ++ d_new e ++ d_freed e) by reflexivity.
  rewrite En, Ef, Eo. clearbody e. destruct e as [o me p c ns fs lv].
  cbn [d_par d_chi d_new d_freed d_ord d_meta d_level] in *.
  assert (HP : (if is_some p then x <- blk_id b r 0 ;; Some (Some x) else Some None) = Some p).
  { destruct p as [p|]; [|reflexivity]. cbn [is_some].
    rewrite (blk_id_at _ _ _ _ _ _ _ _ _ _ 0 p H HI'); [reflexivity|]. rewrite Ei. reflexivity. }
  rewrite HP. cbn [bind].
  set (i1 := if is_some p then 1 else 0).
  assert (Hi1 : i1 = length (opt_list p)) by (destruct p; reflexivity).
  assert (HC : (if is_some c then x <- blk_id b r i1 ;; Some (Some x) else Some None) = Some c).
  { destruct c as [c|]; [|reflexivity]. cbn [is_some].
    rewrite (blk_id_at _ _ _ _ _ _ _ _ _ _ i1 c H HI'); [reflexivity|].
    rewrite Ei, Hi1, nth_error_app2, Nat.sub_diag by lia. reflexivity. }
  rewrite HC. cbn [bind].
  set (i2 := if is_some c then S i1 else i1).
  assert (Hi2 : i2 = length (opt_list p ++ opt_list c)).
  { rewrite app_length, <- Hi1. unfold i2. destruct c; cbn; lia. }
  rewrite Hi2.
  rewrite (blk_ids_at ns _ _ _ _ _ _ _ _ _ _ (opt_list p ++ opt_list c) fs H HI').
  2: { rewrite Ei, <- app_assoc. reflexivity. }
  cbn [bind]. rewrite <- app_length.
  rewrite (blk_ids_at fs _ _ _ _ _ _ _ _ _ _ ((opt_list p ++ opt_list c) ++ ns) [] H HI').
  2: { rewrite Ei, <- !app_assoc, app_nil_r. reflexivity. }
  reflexivity.
Qed.

(** ** The journal *)

Fixpoint Recs (b : list N) (r : nat) (l : list txn) (e : nat) : Prop :=
  match l with
  | [] => r = e
  | t :: l' => RecFor b r t /\ Recs b (r + 8 + 8 * length (ids_of t)) l' e
  end.

Lemma recs_le : forall l b r e, Recs b r l e -> r <= e.
Proof.
  induction l as [|t l IH]; intros b r e H; cbn [Recs] in H; [lia|].
  destruct H as [_ H]. apply IH in H. lia.
Qed.

Lemma recs_agree : forall l b b' lo r e, Recs b r l e -> agree lo e b b' -> lo <= r -> e <= length b' ->
  Recs b' r l e.
Proof.
  induction l as [|t l IH]; intros b b' lo r e H HA HL HE; [exact H|].
  cbn [Recs] in *. destruct H as [H1 H2]. pose proof (recs_le _ _ _ _ H2) as Hle. split.
  - unfold RecFor in *. eapply recat_agree; [exact H1| |lia]. eapply agree_sub; [exact HA|lia|lia].
  - eapply IH; [exact H2|exact HA|lia|lia].
Qed.

Lemma recs_snoc : forall l b r e t, Recs b r l e -> RecFor b e t ->
  Recs b r (l ++ [t]) (e + 8 + 8 * length (ids_of t)).
Proof.
  induction l as [|x l IH]; intros b r e t H HT; cbn [Recs app] in *.
  - subst e. auto.
  - destruct H as [H1 H2]. split; [assumption|]. now apply IH.
Qed.

Lemma recs_dec : forall l b r e, Recs b r l e -> forallb txn_ok l = true ->
  dec_records b r (length l) = Some (map expect l).
Proof.
  induction l as [|t l IH]; intros b r e H HF; [reflexivity|].
  cbn [Recs forallb length dec_records map] in *. destruct H as [H1 H2].
  apply andb_true_iff in HF. destruct HF as [HT HF].
  assert (HN : nodes t <= 255).
  { unfold txn_ok in HT. rewrite !andb_true_iff in HT. destruct HT as [_ HT]. now apply Nat.leb_le. }
  destruct (dec_record_spec b r t H1 HN) as [E1 E2]. rewrite E1, E2. cbn [bind].
  rewrite Nat.add_assoc. rewrite (IH _ _ _ H2 HF). reflexivity.
Qed.

Definition JInv (cp : Z) (b : list N) (l : list txn) (e : nat) : Prop :=
  16 <= length b /\ j_cp b = cp /\ j_txns b = N.of_nat (length l) /\ j_size b = N.of_nat e /\
  e <= length b /\ Recs b 16 l e.

Lemma fresh_length : forall junk a n, length (fresh junk a n) = n.
Proof. intros. unfold fresh. now rewrite map_length, seq_length. Qed.

Lemma add_txn_some : forall junk cp b l e t, JInv cp b l e -> txn_ok t = true ->
  (Z.of_nat (e + 8 + 8 * nodes t) < 2 ^ 32)%Z -> (Z.of_nat (length l) + 1 < 2 ^ 32)%Z ->
  exists b' e', add_txn junk cp (Some b) t = Some b' /\ JInv cp b' (l ++ [t]) e' /\
    e' <= e + 8 + 8 * nodes t.
Proof.
  intros junk cp b l e t [J0 [J1 [J2 [J3 [J4 J5]]]]] HT HS HC.
  assert (HN : nodes t <= 255).
  { unfold txn_ok in HT. rewrite !andb_true_iff in HT. destruct HT as [_ HT]. now apply Nat.leb_le. }
  pose proof (recs_le _ _ _ _ J5) as Hle. pose proof (ids_le t) as HI.
  unfold add_txn. cbn [bind]. rewrite J3, Nat2N.id. fold (nodes t).
  unfold size_for. rewrite (Nat.mod_small (nodes t)) by lia.
  set (b1 := if length b <? e + (8 + 8 * nodes t)
             then b ++ fresh junk (length b) (Nat.max (e + (8 + 8 * nodes t)) 512) else b).
  assert (L1 : e + 8 + 8 * nodes t <= length b1 /\ length b <= length b1).
  { unfold b1. destruct (length b <? e + (8 + 8 * nodes t)) eqn:E; [|lia].
    rewrite app_length, fresh_length. lia. }
  assert (A1 : forall off len, off + len <= length b -> get off len b1 = get off len b).
  { intros off len Ho. unfold b1. destruct (length b <? e + (8 + 8 * nodes t)); [|reflexivity].
    unfold get. now rewrite sub_app_l. }
  assert (A1' : agree 0 e b1 b).
  { intros i Hi. unfold b1. destruct (length b <? e + (8 + 8 * nodes t)); [|reflexivity].
    unfold byte. now rewrite app_nth1 by lia. }
  destruct L1 as [L1 L1']. clearbody b1.
  assert (Et : j_txns b1 = N.of_nat (length l)) by (unfold j_txns in *; rewrite A1; [assumption|lia]).
  rewrite Et.
  rewrite wr_some by (rewrite le_length; lia). cbn [bind].
  set (v := ((N.of_nat (length l) + 1) mod 2 ^ 32)%N). set (b2 := put 8 (le 4 v) b1).
  assert (L2 : length b2 = length b1) by (unfold b2; rewrite put_length; rewrite ?le_length; lia).
  assert (G2 : j_txns b2 = N.of_nat (length (l ++ [t]))).
  { unfold j_txns, b2. rewrite get_put_le; [|lia|].
    - unfold v. rewrite N.mod_small, app_length; cbn [length]; lia.
    - unfold v. apply N.mod_upper_bound. lia. }
  assert (S2 : j_size b2 = N.of_nat e /\ j_cp b2 = cp).
  { unfold j_size, j_cp, b2 in *. rewrite !get_put_out by (rewrite ?le_length; lia).
    rewrite !A1 by lia. auto. }
  assert (A2 : agree 16 e b2 b1) by (apply agree_put; rewrite le_length; lia).
  clearbody b2 v.
  destruct (fill_record_spec b2 e t HT) as [b3 [E3 [L3 [A3 R3]]]]; [lia|].
  rewrite E3. cbn [bind].
  destruct (dec_record_spec b3 e t R3 HN) as [_ ES]. rewrite ES.
  assert (G3 : forall off len, off + len <= e -> get off len b3 = get off len b2).
  { intros off len Ho. apply (get_agree 0 e); try assumption; lia. }
  destruct S2 as [S2 S2c].
  assert (S3 : j_size b3 = N.of_nat e) by (unfold j_size in *; rewrite G3; [assumption|lia]).
  rewrite S3. rewrite wr_some by (rewrite le_length; lia).
  eexists. exists (e + 8 + 8 * length (ids_of t)). split; [reflexivity|]. split; [|lia].
  set (w := ((N.of_nat e + N.of_nat (8 + 8 * length (ids_of t))) mod 2 ^ 32)%N).
  assert (Hw : w = N.of_nat (e + 8 + 8 * length (ids_of t))).
  { unfold w. rewrite N.mod_small; lia. }
  assert (HL4 : length (put 12 (le 4 w) b3) = length b3) by (rewrite put_length; rewrite ?le_length; lia).
  unfold JInv. ands.
  - lia.
  - unfold j_cp in *. rewrite get_put_out by (rewrite ?le_length; lia). rewrite G3 by lia. assumption.
  - unfold j_txns in *. rewrite get_put_out by (rewrite ?le_length; lia). rewrite G3 by lia. assumption.
  - unfold j_size. rewrite get_put_le; [assumption|lia|]. unfold w. apply N.mod_upper_bound. lia.
  - lia.
  - apply (recs_agree _ b3 _ 16); [|intros i Hi; symmetry; apply (agree_put 16 (length b3)); rewrite ?le_length; lia|lia|lia].
    apply recs_snoc; [|assumption].
    apply (recs_agree _ b _ 16); [assumption| |lia|lia].
    intros i Hi. symmetry. rewrite A3, A2 by lia. apply A1'. lia.
Qed.

Lemma add_txn_first : forall junk cp t, add_txn junk cp None t =
  add_txn junk cp (b <- wr (fresh junk 0 512) 0 (le 8 (z64 cp)) ;;
                   b' <- wr b 8 (le 4 0) ;; wr b' 12 (le 4 16)) t.
Proof.
  intros. unfold add_txn. cbn [bind].
  rewrite !wr_some; try reflexivity; rewrite ?fresh_length, ?put_length, ?le_length; rewrite ?put_length, ?le_length, ?fresh_length; lia.
Qed.

Lemma first_inv : forall junk cp, (- 2 ^ 63 <= cp < 2 ^ 63)%Z ->
  exists b, (b <- wr (fresh junk 0 512) 0 (le 8 (z64 cp)) ;;
             b' <- wr b 8 (le 4 0) ;; wr b' 12 (le 4 16)) = Some b /\ JInv cp b [] 16.
Proof.
  intros junk cp Hcp. pose proof (fresh_length junk 0 512) as L0. set (b0 := fresh junk 0 512) in *. clearbody b0.
  rewrite wr_some by (rewrite le_length; lia). cbn [bind]. set (b1 := put 0 (le 8 (z64 cp)) b0).
  assert (L1 : length b1 = 512) by (unfold b1; rewrite put_length; rewrite ?le_length; lia).
  assert (C1 : get 0 8 b1 = z64 cp) by (apply get_put_le; [lia|apply z64_lt]). clearbody b1.
  rewrite wr_some by (rewrite le_length; lia). cbn [bind]. set (b2 := put 8 (le 4 0) b1).
  assert (L2 : length b2 = 512) by (unfold b2; rewrite put_length; rewrite ?le_length; lia).
  assert (C2 : get 0 8 b2 = z64 cp).
  { unfold b2. rewrite get_put_out; [assumption|rewrite le_length; lia|lia]. }
  assert (C3 : get 8 4 b2 = 0%N) by (apply get_put_le; [lia|reflexivity]). clearbody b2.
  rewrite wr_some by (rewrite le_length; lia). eexists. split; [reflexivity|].
  assert (L3 : length (put 12 (le 4 16) b2) = 512) by (rewrite put_length; rewrite ?le_length; lia).
  unfold JInv, j_cp, j_txns, j_size. ands.
  - lia.
  - rewrite get_put_out by (rewrite ?le_length; lia). rewrite C2. now apply unz64_z64.
  - rewrite get_put_out by (rewrite ?le_length; lia). exact C3.
  - apply get_put_le; [lia|reflexivity].
  - lia.
  - reflexivity.
Qed.

Lemma total_app : forall l t, total (l ++ [t]) = total l + 8 + 8 * nodes t.
Proof.
  induction l as [|x l IH]; intros t; unfold total in *; cbn [app fold_right] in *; [lia|]. rewrite IH. lia.
Qed.

Lemma add_txns_some : forall l2 l1 junk cp b e, JInv cp b l1 e -> e <= total l1 ->
  forallb txn_ok l2 = true -> (Z.of_nat (total (l1 ++ l2)) < 2 ^ 32)%Z ->
  exists b' e', add_txns junk cp (Some b) l2 = Some (Some b') /\ JInv cp b' (l1 ++ l2) e'.
Proof.
  induction l2 as [|t l2 IH]; intros l1 junk cp b e HJ He HF HT.
  - exists b, e. rewrite app_nil_r. auto.
  - cbn [forallb] in HF. apply andb_true_iff in HF. destruct HF as [Ht HF].
    replace (l1 ++ t :: l2) with ((l1 ++ [t]) ++ l2) in * by (rewrite <- app_assoc; reflexivity).
    assert (HM : forall a c, total a <= total (a ++ c)).
    { induction a as [|x a IHa]; intros c; unfold total in *; cbn [app fold_right].
      - clear. induction c as [|y c IHc]; cbn [fold_right]; lia.
      - specialize (IHa c). lia. }
    assert (HLn : forall a, length a <= total a).
    { induction a as [|x a IHa]; unfold total in *; cbn [length fold_right]; lia. }
    pose proof (HM (l1 ++ [t]) l2) as H1. pose proof (total_app l1 t) as H2. pose proof (HLn l1) as H3.
    destruct (add_txn_some junk cp b l1 e t HJ Ht) as [b1 [e1 [E1 [J1 He1]]]]; [lia|lia|].
    cbn [add_txns]. rewrite E1. cbn [bind].
    destruct (IH (l1 ++ [t]) junk cp b1 e1 J1) as [b2 [e2 [E2 J2]]]; auto; [lia|].
    exists b2, e2. auto.
Qed.

Lemma journal_inv : forall junk cp l, l <> [] -> (- 2 ^ 63 <= cp < 2 ^ 63)%Z ->
  forallb txn_ok l = true -> (Z.of_nat (total l) < 2 ^ 32)%Z ->
  exists b e, add_txns junk cp None l = Some (Some b) /\ JInv cp b l e.
Proof.
  intros junk cp l Hne Hcp HF HT. destruct (first_inv junk cp Hcp) as [b [E J]].
  destruct l as [|t l]; [congruence|]. cbn [add_txns]. rewrite add_txn_first, E.
  destruct (add_txns_some (t :: l) [] junk cp b 16 J) as [b' [e' [E' J']]]; auto.
  cbn [add_txns] in E'. exists b', e'. auto.
Qed.
