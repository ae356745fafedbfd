(** * Proofs about sizing and spreading. *)
From Coq Require Import NArith List Bool Lia.
From Verif Require Import Base VdevSizeModel.
Import ListNotations.
Open Scope N_scope.

(** ** Sizing *)
Lemma sanity_done bs minc maxn v v' : sanity bs minc maxn v = Done v' ->
  v' = v /\ v_size v mod v_cs v = 0 /\ v_cs v mod bs = 0 /\ minc <= v_cs v /\ v_num v <= maxn /\ v_cs v <> 0 /\ bs <> 0.
Proof.
  unfold sanity, md. destruct (N.eqb_spec (v_cs v) 0); cbn; [discriminate|].
  destruct (N.eqb_spec (v_size v mod v_cs v) 0); cbn; [|discriminate].
  destruct (N.eqb_spec bs 0); cbn; [discriminate|].
  destruct (N.eqb_spec (v_cs v mod bs) 0); cbn; [|discriminate].
  destruct (N.ltb_spec (v_cs v) minc); [discriminate|].
  destruct (N.ltb_spec maxn (v_num v)); [discriminate|]. intros H1. injection H1 as <-. repeat split; auto.
Qed.
Lemma sanity_ok bs minc maxn v : v_size v mod v_cs v = 0 -> v_cs v mod bs = 0 -> minc <= v_cs v ->
  v_num v <= maxn -> v_cs v <> 0 -> bs <> 0 -> sanity bs minc maxn v = Done v.
Proof.
  intros. unfold sanity, md. destruct (N.eqb_spec (v_cs v) 0); [congruence|]. cbn.
  destruct (N.eqb_spec (v_size v mod v_cs v) 0); cbn; [|congruence].
  destruct (N.eqb_spec bs 0); cbn; [congruence|].
  destruct (N.eqb_spec (v_cs v mod bs) 0); cbn; [|congruence].
  destruct (N.ltb_spec (v_cs v) minc); [lia|]. destruct (N.ltb_spec maxn (v_num v)); [lia|]. reflexivity.
Qed.

Lemma div_done a b r : div a b = Done r -> b <> 0 /\ r = a / b.
Proof. unfold div. destruct (N.eqb_spec b 0); [discriminate|]. intros H. injection H as <-. auto. Qed.
Lemma bind_done {A B} (r : res A) (f : A -> res B) y : bind r f = Done y -> exists x, r = Done x /\ f x = Done y.
Proof. destruct r; cbn; intros H; try discriminate. eauto. Qed.
Lemma round_down_done a b r : round_down a b = Done r -> b <> 0 /\ r = a / b * b.
Proof. intros H. apply bind_done in H as (q & H1 & H2). apply div_done in H1 as [H0 ->]. injection H2 as <-. auto. Qed.
Lemma round_up_done a b r : round_up a b = Done r -> b <> 0 /\ r = (a + b - 1) / b * b.
Proof. intros H. apply bind_done in H as (q & H1 & H2). apply div_done in H1 as [H0 ->]. injection H2 as <-. auto. Qed.

Lemma u32_small n : n < 2 ^ 32 -> u32 n = n.
Proof. intros. now apply N.mod_small. Qed.

(** ** Rounding *)
Lemma half_even_near n d : 0 < d -> 2 * n <= 2 * d * half_even n d + d /\ 2 * d * half_even n d <= 2 * n + d.
Proof.
  intros Hd. unfold half_even.
  pose proof (N.div_mod' n d) as E. pose proof (N.mod_lt n d ltac:(lia)) as L.
  remember (n / d) as q. remember (n mod d) as r. clear Heqq Heqr.
  destruct (N.ltb_spec (2 * r) d); [nia|]. destruct (N.ltb_spec d (2 * r)); [nia|].
  destruct (N.even q); nia.
Qed.

Lemma pow_pos a : 0 < 2 ^ a.
Proof. apply N.neq_0_lt_0, N.pow_nonzero. lia. Qed.

Lemma scale_ok n d a b : 0 < n -> 0 < d -> scale n d = (a, b) -> 2 ^ 23 * (d * 2 ^ b) <= n * 2 ^ a.
Proof.
  intros Hn Hd. unfold scale.
  destruct (N.log2_spec n Hn) as [N1 N2]. destruct (N.log2_spec d Hd) as [D1 D2].
  set (ln := N.log2 n) in *. set (ld := N.log2 d) in *. cbv zeta beta.
  set (a0 := 24 + ld - N.min (24 + ld) ln). set (b0 := ln - N.min (24 + ld) ln).
  assert (Hab : 24 + ld + b0 = ln + a0) by (unfold a0, b0; lia).
  assert (K : 2 ^ 23 * (d * 2 ^ b0) <= n * 2 ^ a0).
  { rewrite N.pow_succ_r' in D2.
    assert (2 ^ 23 * (2 * 2 ^ ld * 2 ^ b0) = 2 ^ ln * 2 ^ a0).
    { rewrite <- N.pow_add_r, <- Hab, !N.pow_add_r. change (2 ^ 24) with (2 * 2 ^ 23). lia. }
    pose proof (pow_pos a0). pose proof (pow_pos b0). nia. }
  destruct (N.ltb_spec (n * 2 ^ a0) (2 ^ 24 * (d * 2 ^ b0))) as [H|H]; [intros E; injection E as <- <-; exact K|].
  destruct (N.ltb_spec 0 a0) as [H0|H0]; intros E; injection E as <- <-.
  - replace a0 with (N.succ (a0 - 1)) in H by lia. rewrite N.pow_succ_r' in H.
    change (2 ^ 24) with (2 * 2 ^ 23) in H. lia.
  - rewrite N.add_1_r, N.pow_succ_r'. change (2 ^ 24) with (2 * 2 ^ 23) in H. lia.
Qed.

(** The relative error is at most 2^-24. *)
Lemma rnd_near n d : 0 < n -> 0 < d -> let (p, q) := rnd (n, d) in
  0 < q /\ 0 < p /\ (2 ^ 24 - 1) * (n * q) <= 2 ^ 24 * (p * d) /\ 2 ^ 24 * (p * d) <= (2 ^ 24 + 1) * (n * q).
Proof.
  intros Hn Hd. unfold rnd. destruct (scale n d) as [a b] eqn:E. apply scale_ok in E; [|assumption..].
  pose proof (pow_pos a). pose proof (pow_pos b).
  destruct (half_even_near (n * 2 ^ a) (d * 2 ^ b)) as [H1 H2]; [nia|].
  set (h := half_even (n * 2 ^ a) (d * 2 ^ b)) in *.
  set (A := 2 ^ a) in *. set (B := 2 ^ b) in *. clearbody A B h.
  change (2 ^ 23) with 8388608 in E. change (2 ^ 24) with 16777216.
  split; [assumption|]. split; [|split]; nia.
Qed.

(** ** Shares *)
Definition L2 : N := (2 ^ 24 - 1) * (2 ^ 24 - 1).
Definition U2 : N := (2 ^ 24 + 1) * (2 ^ 24 + 1).

Lemma cancel a b k : 0 < k -> a * k <= b * k -> a <= b.
Proof. intros. nia. Qed.

Lemma rnd_exact num : 0 < num <= 2 ^ 24 -> let (p, q) := rnd (num, 1) in 0 < q /\ p = num * q.
Proof.
  intros H. unfold rnd. destruct (scale num 1) as [a b] eqn:E.
  unfold scale in E. change (N.log2 1) with 0 in E.
  assert (Hl : N.log2 num <= 24).
  { destruct H as [_ H]. apply N.log2_le_mono in H. now rewrite N.log2_pow2 in H by lia. }
  pose proof (N.log2_spec num ltac:(lia)) as [N1 N2]. set (l := N.log2 num) in *. cbv zeta beta in E.
  replace (24 + 0 - N.min (24 + 0) l) with (24 - l) in E by lia.
  replace (l - N.min (24 + 0) l) with 0 in E by lia.
  assert (Hb : b = 0 \/ (num = 2 ^ 24 /\ a = 0 /\ b = 1)).
  { destruct (_ <? _); [injection E as <- <-; now left|].
    destruct (N.ltb_spec 0 (24 - l)); injection E as <- <-; [now left|].
    right. assert (El : l = 24) by lia. rewrite El in N1 |- *. split; [|split; reflexivity].
    apply N.le_antisymm; [apply H|exact N1]. }
  pose proof (pow_pos a). destruct Hb as [->|(-> & -> & ->)].
  - split; [assumption|]. change (2 ^ 0) with 1. rewrite !N.mul_1_r. unfold half_even.
    rewrite N.mod_1_r, N.div_1_r. reflexivity.
  - split; [reflexivity|]. vm_compute. reflexivity.
Qed.

Lemma expect_near T num S : 0 < T -> 0 < S -> 0 < num <= 2 ^ 24 ->
  expect T num S * (L2 * T) <= U2 * (num * S) /\ L2 * (num * S) < (expect T num S + 1) * (U2 * T).
Proof.
  intros HT HS Hn. unfold expect, fdiv.
  pose proof (rnd_near T 1 HT ltac:(lia)) as R1. pose proof (rnd_near S 1 HS ltac:(lia)) as R2.
  pose proof (rnd_exact num Hn) as Rc.
  destruct (rnd (T, 1)) as [p1 q1], (rnd (S, 1)) as [p2 q2], (rnd (num, 1)) as [pc qc]. cbn [fst snd].
  destruct R1 as (Q1 & P1 & A1 & B1), R2 as (Q2 & P2 & A2 & B2), Rc as (Qc & ->).
  rewrite N.mul_1_r in *.
  pose proof (rnd_near (p1 * q2) (q1 * p2) ltac:(nia) ltac:(nia)) as R3.
  destruct (rnd (p1 * q2, q1 * p2)) as [p3 q3]. cbn [fst snd]. destruct R3 as (Q3 & P3 & A3 & B3).
  pose proof (rnd_near (num * qc * q3) (qc * p3) ltac:(nia) ltac:(nia)) as R4.
  destruct (rnd (num * qc * q3, qc * p3)) as [p4 q4]. cbn [fst snd]. destruct R4 as (Q4 & P4 & A4 & B4).
  unfold L2, U2. set (B := 2 ^ 24) in *. set (L := B - 1) in *. set (U := B + 1) in *.
  assert (HB : 0 < B) by reflexivity. assert (HL : 0 < L) by reflexivity. assert (HU : 0 < U) by reflexivity. clearbody B L U.
  assert (A4' : L * (num * q3 * q4) <= B * (p4 * p3)).
  { apply (cancel _ _ qc); [assumption|]. lia. }
  assert (B4' : B * (p4 * p3) <= U * (num * q3 * q4)).
  { apply (cancel _ _ qc); [assumption|]. lia. }
  clear A4 B4.
  assert (X1 : p4 * (L * L * T) <= U * U * (num * S) * q4).
  { apply (cancel _ _ (q1 * q2 * q3)); [repeat apply N.mul_pos_pos; assumption|].
    apply N.le_trans with (p4 * (L * (B * p1)) * q2 * q3).
    { assert (p4 * (L * (L * (T * q1))) * q2 * q3 <= p4 * (L * (B * p1)) * q2 * q3) by
        (do 2 apply N.mul_le_mono_r; do 2 apply N.mul_le_mono_l; exact A1). lia. }
    apply N.le_trans with (p4 * B * (B * (p3 * (q1 * p2)))).
    { assert (p4 * B * (L * (p1 * q2 * q3)) <= p4 * B * (B * (p3 * (q1 * p2)))) by (apply N.mul_le_mono_l; exact A3). lia. }
    apply N.le_trans with (U * (num * q3 * q4) * (B * (q1 * p2))).
    { assert (B * (p4 * p3) * (B * (q1 * p2)) <= U * (num * q3 * q4) * (B * (q1 * p2))) by (apply N.mul_le_mono_r; exact B4'). lia. }
    assert (B * p2 * (U * (num * q3 * q4) * q1) <= U * (S * q2) * (U * (num * q3 * q4) * q1)) by (apply N.mul_le_mono_r; exact B2). lia. }
  assert (X2 : L * L * (num * S) * q4 <= p4 * (U * U * T)).
  { apply (cancel _ _ (q1 * q2 * q3)); [repeat apply N.mul_pos_pos; assumption|].
    apply N.le_trans with (L * (num * q3 * q4) * (B * (q1 * p2))).
    { assert (L * (S * q2) * (L * (num * q3 * q4) * q1) <= B * p2 * (L * (num * q3 * q4) * q1)) by (apply N.mul_le_mono_r; exact A2). lia. }
    apply N.le_trans with (B * (p4 * p3) * (B * (q1 * p2))).
    { apply N.mul_le_mono_r. exact A4'. }
    apply N.le_trans with (p4 * B * (U * (p1 * q2 * q3))).
    { assert (p4 * B * (B * (p3 * (q1 * p2))) <= p4 * B * (U * (p1 * q2 * q3))) by (apply N.mul_le_mono_l; exact B3). lia. }
    assert (p4 * U * q2 * q3 * (B * p1) <= p4 * U * q2 * q3 * (U * (T * q1))) by (apply N.mul_le_mono_l; exact B1). lia. }
  pose proof (N.div_mod' p4 q4) as E. pose proof (N.mod_lt p4 q4 ltac:(lia)) as Lt.
  set (k := p4 / q4) in *. set (r := p4 mod q4) in *. clearbody k r.
  assert (HLT : 0 < L * L * T) by (repeat apply N.mul_pos_pos; assumption).
  assert (HUT : 0 < U * U * T) by (repeat apply N.mul_pos_pos; assumption).
  remember (L * L * T) as LT. remember (U * U * T) as UT.
  split.
  - apply (cancel _ _ q4); [assumption|]. assert (q4 * k * LT <= p4 * LT) by (apply N.mul_le_mono_r; lia). lia.
  - assert (p4 < q4 * (k + 1)) by lia.
    assert (p4 * UT < q4 * (k + 1) * UT) by (apply N.mul_lt_mono_pos_r; assumption). nia.
Qed.

Lemma share_le pd num cs s : share pd num cs s <= expect (total pd) num s.
Proof. unfold share. lia. Qed.

Lemma total_pos pd s : In s pd -> s <= total pd.
Proof. induction pd as [|x l IH]; cbn; [tauto|]. fold (total l). intros [->|H]; [lia|]. apply IH in H. lia. Qed.

Lemma sum_le T num l : 0 < T -> 0 < num <= 2 ^ 24 -> Forall (fun s => 0 < s) l -> forall f, (forall s, f s <= expect T num s) ->
  total (map f l) * (L2 * T) <= U2 * (num * total l).
Proof.
  intros HT Hn Hl f Hf. induction Hl as [|s l Hs _ IH]; cbn [map total fold_right]; [lia|].
  fold (total l) (total (map f l)). destruct (expect_near T num s HT Hs Hn) as [A _]. specialize (Hf s).
  assert (f s * (L2 * T) <= expect T num s * (L2 * T)) by (apply N.mul_le_mono_r; exact Hf). lia.
Qed.
Lemma share_near pd num cs s : 0 < total pd -> 0 < num <= 2 ^ 24 -> 0 < s -> 0 < cs -> num * cs <= total pd ->
  L2 * (num * s) < (share pd num cs s + 1) * (U2 * total pd).
Proof.
  intros HT Hn Hs Hc Hfit. unfold share. destruct (expect_near (total pd) num s HT Hs Hn) as [_ A].
  destruct (N.min_spec (expect (total pd) num s) (s / cs)) as [[_ ->]|[_ ->]]; [exact A|].
  pose proof (N.div_mod' s cs) as E. pose proof (N.mod_lt s cs ltac:(lia)) as Lt.
  set (k := s / cs) in *. set (r := s mod cs) in *. set (T := total pd) in *. clearbody k r T. clear A.
  assert (num * s < (k + 1) * T) by nia.
  change L2 with 281474943156225. change U2 with 281475010265089. lia.
Qed.
Lemma sum_ge T num f l : (forall s, In s l -> L2 * (num * s) < (f s + 1) * (U2 * T)) ->
  L2 * (num * total l) <= (total (map f l) + N.of_nat (length l)) * (U2 * T).
Proof.
  induction l as [|s l IH]; intros Hf; [cbn [total map fold_right length]; rewrite !N.mul_0_r; apply N.le_0_l|].
  cbn [map total fold_right length]. fold (total l) (total (map f l)).
  pose proof (Hf s (or_introl eq_refl)) as A. specialize (IH (fun s H => Hf s (or_intror H))).
  rewrite Nat2N.inj_succ. set (k := N.of_nat (length l)) in *. set (e := f s) in *.
  set (x := total (map f l)) in *. clearbody k e x. nia.
Qed.

Lemma spread_le pd num cs : pd <> [] -> Forall (fun s => 0 < s) pd -> 0 < num <= MAX_CHUNKS ->
  total (spread pd num cs) <= num.
Proof.
  intros Hp Hf Hn.
  assert (HT : 0 < total pd) by (destruct Hf; [congruence|cbn; lia]).
  assert (Hn' : 0 < num <= 2 ^ 24) by (unfold MAX_CHUNKS in Hn; lia).
  pose proof (sum_le (total pd) num pd HT Hn' Hf (share pd num cs) (share_le pd num cs)) as A.
  fold (spread pd num cs) in A. set (x := total (spread pd num cs)) in *. set (T := total pd) in *. clearbody x T.
  assert (B : x * L2 <= U2 * num) by (apply (cancel _ _ T); [assumption|lia]).
  change L2 with 281474943156225 in B. change U2 with 281475010265089 in B. unfold MAX_CHUNKS in Hn. lia.
Qed.
Lemma spread_ge pd num cs : pd <> [] -> Forall (fun s => 0 < s) pd -> 0 < num <= MAX_CHUNKS -> 0 < cs -> num * cs <= total pd ->
  num <= total (spread pd num cs) + N.of_nat (length pd).
Proof.
  intros Hp Hf Hn Hc Hfit.
  assert (HT : 0 < total pd) by (destruct Hf; [congruence|cbn; lia]).
  assert (Hn' : 0 < num <= 2 ^ 24) by (unfold MAX_CHUNKS in Hn; lia).
  pose proof (sum_ge (total pd) num (share pd num cs) pd) as A. fold (spread pd num cs) in A.
  set (x := total (spread pd num cs)) in *. set (k := N.of_nat (length pd)) in *.
  assert (B : L2 * num <= (x + k) * U2).
  { apply (cancel _ _ (total pd)); [assumption|].
    assert (L2 * (num * total pd) <= (x + k) * (U2 * total pd)); [|lia].
    apply A. intros s Hs. apply share_near; auto. rewrite Forall_forall in Hf. auto. }
  clearbody x k. change L2 with 281474943156225 in B. change U2 with 281475010265089 in B. unfold MAX_CHUNKS in Hn. lia.
Qed.

Lemma created_all num : forall l sofar, sofar + total l <= num -> exists l' rest, created num sofar l = Done l' /\ l = l' ++ rest /\
  (rest = [] \/ sofar + total l' = num).
Proof.
  induction l as [|c l IH]; intros sofar H; cbn [created].
  - exists [], []. auto.
  - cbn in H. fold (total l) in H. destruct (N.leb_spec num sofar) as [Hle|Hle].
    + exists [], (c :: l). split; [reflexivity|]. split; [reflexivity|]. right. cbn. lia.
    + destruct (N.ltb_spec num c) as [X|X]; [lia|].
      destruct (IH (sofar + c)) as (l' & rest & E & El & R); [lia|]. rewrite E. cbn.
      exists (c :: l'), rest. split; [reflexivity|]. split; [now rewrite El|].
      destruct R as [R|R]; [now left|right; cbn; fold (total l'); lia].
Qed.
