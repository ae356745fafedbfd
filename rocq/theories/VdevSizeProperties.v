(** * Sizing a new virtual device and spreading its chunks: C128-C130. *)
From Coq Require Import NArith List Bool Lia.
From Verif Require Import Base VdevSizeModel VdevSizeProofs.
Import ListNotations.
Open Scope N_scope.

(** What is asked for, and the smallest chunk: 1 MiB to 2 GiB; blocks below 64 KiB, up to 128 TiB. *)
Definition sane (minc : N) (p : param) : Prop :=
  2 ^ 20 <= minc <= 2 ^ 31 /\ 0 < p_bs p < 65536 /\ 0 < p_size p <= 2 ^ 47 /\ 0 < p_streams p /\
  p_num p + p_streams p <= 2 ^ 32 /\ p_static p = true.

(** What the new device has to be like: chunks of one size, made of whole blocks, that fill it. *)
Definition well_sized (minc : N) (p : param) (v : vdev) : Prop :=
  v_size v = v_num v * v_cs v /\ v_cs v mod p_bs p = 0 /\ minc <= v_cs v < 2 ^ 32 /\ v_num v <= 65536 /\
  v_size v <= p_size p /\ p_size p - v_size v < N.max (v_cs v) (v_num v * p_bs p).

Lemma maxn_le minc s : 2 ^ 20 <= minc -> s <= 2 ^ 47 -> u32 (s / minc) = s / minc.
Proof.
  intros. apply u32_small. apply N.div_lt_upper_bound; [lia|].
  change (2 ^ 47) with (2 ^ 15 * 2 ^ 32) in *. change (2 ^ 20) with 1048576 in *. lia.
Qed.
Lemma minnum_le s : s <= 2 ^ 47 -> (s - 1) / MAX_CHUNK_SIZE + 1 < 2 ^ 32.
Proof.
  intros. assert ((s - 1) / MAX_CHUNK_SIZE < 2 ^ 20); [|lia].
  apply N.div_lt_upper_bound; [unfold MAX_CHUNK_SIZE; lia|].
  change (2 ^ 47) with 140737488355328 in *. change (MAX_CHUNK_SIZE * 2 ^ 20) with 4503599626321920. lia.
Qed.
Lemma minnum_small s : s <= 2 ^ 47 -> (s - 1) / MAX_CHUNK_SIZE + 1 <= 65536.
Proof.
  intros H. assert (X : (s - 1) / MAX_CHUNK_SIZE < 65536).
  { apply N.div_lt_upper_bound; [discriminate|].
    change (2 ^ 47) with 140737488355328 in *. change (MAX_CHUNK_SIZE * 65536) with 281474976645120. lia. }
  set (a := (s - 1) / MAX_CHUNK_SIZE) in *. clearbody a. lia.
Qed.
Lemma picked n0 a b : a <= 65536 -> let n := N.min (N.max n0 a) (N.min b MAX_CHUNKS) in
  n <= 65536 /\ n <= b /\ (a <= n \/ n = b) /\ (0 < n0 -> 0 < b -> 0 < n).
Proof. unfold MAX_CHUNKS. cbv zeta. intros H. lia. Qed.
Lemma n0_eq p : 0 < p_streams p -> p_num p + p_streams p <= 2 ^ 32 ->
  exists n, round_up (p_num p) (p_streams p) = Done n /\ n < 2 ^ 32 /\ (p_num p = 0 <-> n = 0).
Proof.
  intros Hs Hn. unfold round_up, div. destruct (N.eqb_spec (p_streams p) 0) as [Zt|Zt]; [lia|]. cbn [bind].
  eexists. split; [reflexivity|].
  pose proof (N.div_mod' (p_num p + p_streams p - 1) (p_streams p)) as E.
  pose proof (N.mod_lt (p_num p + p_streams p - 1) (p_streams p) ltac:(lia)) as L.
  set (q := (p_num p + p_streams p - 1) / p_streams p) in *.
  set (r := (p_num p + p_streams p - 1) mod p_streams p) in *. clearbody q r. split; [nia|].
  split; [intros Z; rewrite Z in *; destruct (N.eq_dec q 0) as [->|]; [lia|nia]|nia].
Qed.

(** The arithmetic of the two ways. *)
Lemma by_num minc s bs n : 2 ^ 20 <= minc <= 2 ^ 31 -> 0 < bs < 65536 -> 0 < s <= 2 ^ 47 -> 0 < n <= 65536 -> n <= s / minc ->
  ((s - 1) / MAX_CHUNK_SIZE + 1 <= n \/ n = s / minc) ->
  let sz := s / (n * bs) * (n * bs) in
  let c := sz / n in
  u32 (n * bs) = n * bs /\ u32 c = c /\ sz = n * c /\ c mod bs = 0 /\ c < 2 ^ 32 /\ sz <= s /\ s - sz < n * bs /\
  (minc mod bs = 0 -> minc <= c).
Proof.
  intros Hm Hb Hs Hn Hq Hmin sz c.
  assert (Hnb0 : 0 < n * bs) by (apply N.mul_pos_pos; [apply Hn|apply Hb]).
  assert (Ec : c = s / (n * bs) * bs).
  { unfold c, sz. rewrite (N.mul_comm n bs), N.mul_assoc. apply N.div_mul. apply N.neq_0_lt_0, Hn. }
  assert (Hz : sz = n * c) by (rewrite Ec; unfold sz; rewrite (N.mul_comm n bs), N.mul_assoc; apply N.mul_comm).
  assert (Hdv : minc mod bs = 0 -> minc <= c).
  { intros Hd. rewrite Ec. apply N.mod_divide in Hd; [|apply N.neq_0_lt_0, Hb]. destruct Hd as [k Hk]. rewrite Hk.
    apply N.mul_le_mono_r. apply N.div_le_lower_bound; [apply N.neq_0_lt_0, Hnb0|].
    apply N.le_trans with (minc * (s / minc)).
    - replace (n * bs * k) with (minc * n) by (rewrite Hk, (N.mul_comm k bs), (N.mul_comm (bs * k) n); apply N.mul_assoc).
      now apply N.mul_le_mono_l.
    - apply N.mul_div_le. intros Z. rewrite Z in Hm. destruct Hm as [Hm _]. now apply N.lt_nge in Hm. }
  pose proof (N.div_mod' s (n * bs)) as E. pose proof (N.mod_lt s (n * bs) (proj2 (N.neq_0_lt_0 _) Hnb0)) as L.
  assert (Hc0 : n * c <= s) by (rewrite <- Hz; unfold sz; rewrite N.mul_comm; apply N.mul_div_le, N.neq_0_lt_0, Hnb0).
  assert (Hlo : s - sz < n * bs).
  { unfold sz. rewrite (N.mul_comm (s / (n * bs))). set (x := n * bs * (s / (n * bs))) in *. set (y := s mod (n * bs)) in *.
    set (z := n * bs) in *. clearbody x y z. clear -E L. lia. }
  clearbody c. clear E L. clearbody sz.
  assert (Hc : c < 2 ^ 32).
  { destruct Hmin as [Hmin|Hmin].
    - pose proof (N.div_mod' (s - 1) MAX_CHUNK_SIZE) as E'. pose proof (N.mod_lt (s - 1) MAX_CHUNK_SIZE ltac:(discriminate)) as L'.
      set (a := (s - 1) / MAX_CHUNK_SIZE) in *. set (b := (s - 1) mod MAX_CHUNK_SIZE) in *. clearbody a b.
      change MAX_CHUNK_SIZE with 4294967295 in *. change (2 ^ 32) with 4294967296. clear -Hc0 Hmin E' L' Hs Hn. nia.
    - assert (Hm0 : minc <> 0) by (clear -Hm; intros ->; destruct Hm as [Hm _]; now apply N.lt_nge in Hm).
      pose proof (N.div_mod' s minc) as E'. pose proof (N.mod_lt s minc Hm0) as L'. rewrite <- Hmin in E'.
      set (b := s mod minc) in *. clearbody b. clear -Hc0 E' L' Hs Hn Hm.
      assert (c < 2 * minc) by nia. change (2 ^ 32) with (2 * 2 ^ 31). lia. }
  split; [apply u32_small; change (2 ^ 32) with (65536 * 65536); clear -Hb Hn; nia|].
  split; [now apply u32_small|]. split; [exact Hz|].
  split; [rewrite Ec; apply N.mod_mul; apply N.neq_0_lt_0, Hb|].
  split; [exact Hc|]. split; [now rewrite Hz|]. split; [exact Hlo|]. exact Hdv.
Qed.

Theorem c128_sized minc p v : sane minc p -> compose minc p = Done v -> well_sized minc p v.
Proof.
  intros (Hm & Hb & Hs & Hst & Hn & Hstat) E. unfold compose in E.
  destruct (n0_eq p Hst Hn) as (n0 & E0 & Hn0 & _). rewrite E0 in E. cbn [bind] in E. rewrite (u32_small n0 Hn0) in E.
  unfold div at 1 in E. destruct (N.eqb_spec minc 0) as [Zm|Zm]; [lia|]. cbn [bind] in E.
  rewrite (maxn_le minc (p_size p)), Hstat in E by lia. destruct (N.eqb_spec (p_size p) 0) as [Zs|Zs]; [lia|].
  destruct (N.eqb_spec n0 0) as [Z|Z]; cbn [negb] in E.
  - destruct (N.eqb_spec (p_cs p) 0) as [Zc|Zc]; cbn [negb] in E; [discriminate|].
    apply bind_done in E as (c & Ec & E). apply bind_done in E as (sz & Esz & E). apply bind_done in E as (n & En & E).
    apply sanity_done in E as (-> & A & B & C & D & F & _). cbn [v_size v_num v_cs] in *.
    apply round_down_done in Esz as (_ & Esz). apply div_done in En as (_ & En).
    set (k := u32 c) in *. assert (Hk : k < 2 ^ 32) by (apply N.mod_lt; discriminate).
    assert (Ek : n = p_size p / k) by (rewrite En, Esz; apply N.div_mul; exact F).
    assert (Hn2 : u32 n = n).
    { apply u32_small. rewrite Ek. apply N.div_lt_upper_bound; [exact F|]. change (2 ^ 47) with (2 ^ 15 * 2 ^ 32) in *.
      change (2 ^ 20) with 1048576 in *. nia. }
    unfold well_sized. cbn [v_size v_num v_cs]. rewrite Hn2 in *.
    pose proof (N.div_mod' (p_size p) k) as E1. pose proof (N.mod_lt (p_size p) k F) as L1.
    set (q := p_size p / k) in *. set (r := p_size p mod k) in *. set (x := p_size p / minc) in *. clearbody q r x k. subst q sz.
    split; [reflexivity|]. split; [exact B|]. split; [split; assumption|]. split; [unfold MAX_CHUNKS in D; clear -D; lia|].
    rewrite (N.mul_comm k n) in E1. set (y := n * k) in *. set (z := n * p_bs p). clearbody y z. clear -E1 L1. split; lia.
  - apply bind_done in E as (sz & Esz & E). apply bind_done in E as (c & Ec & E).
    apply sanity_done in E as (-> & A & B & C & D & F & _). cbn [v_size v_num v_cs] in *.
    rewrite (u32_small _ (minnum_le (p_size p) (proj2 Hs))) in *.
    destruct (picked n0 ((p_size p - 1) / MAX_CHUNK_SIZE + 1) (p_size p / minc) (minnum_small _ (proj2 Hs))) as (Y1 & Y2 & Y3 & _).
    set (n2 := N.min (N.max n0 ((p_size p - 1) / MAX_CHUNK_SIZE + 1)) (N.min (p_size p / minc) MAX_CHUNKS)) in *. clearbody n2.
    apply div_done in Ec as (Hn2 & Ec). apply round_down_done in Esz as (_ & Esz).
    destruct (by_num minc (p_size p) (p_bs p) n2 Hm Hb Hs (conj (proj1 (N.neq_0_lt_0 _) Hn2) Y1) Y2 Y3) as (X1 & X2 & X3 & X4 & X5 & X6 & X7 & _).
    cbv zeta in *. rewrite X1 in Esz. rewrite <- Esz in *. rewrite <- Ec in *. rewrite X2 in *.
    unfold well_sized. cbn [v_size v_num v_cs].
    split; [exact X3|]. split; [exact X4|]. split; [split; assumption|]. split; [exact Y1|]. split; [exact X6|].
    eapply N.lt_le_trans; [exact X7|apply N.le_max_r].
Qed.
Print Assumptions c128_sized.

(** By a number of chunks it works if one chunk fits and the smallest chunk is made of whole blocks; *)
Theorem c128_by_number minc p : sane minc p -> minc mod p_bs p = 0 -> minc <= p_size p -> 0 < p_num p ->
  exists v, compose minc p = Done v /\ well_sized minc p v /\ 0 < v_num v.
Proof.
  intros Hsane Hdiv Hfit Hnum. pose proof Hsane as (Hm & Hb & Hs & Hst & Hn & Hstat).
  assert (X : exists v, compose minc p = Done v /\ 0 < v_num v).
  { unfold compose. destruct (n0_eq p Hst Hn) as (n0 & E0 & Hn0 & Hz). rewrite E0. cbn [bind]. rewrite (u32_small n0 Hn0).
    unfold div at 1. destruct (N.eqb_spec minc 0) as [Zm|Zm]; [lia|]. cbn [bind].
    rewrite (maxn_le minc (p_size p)), Hstat by lia. destruct (N.eqb_spec (p_size p) 0) as [Zs|Zs]; [lia|].
    destruct (N.eqb_spec n0 0) as [Z|Z]; cbn [negb]; [lia|].
    rewrite (u32_small _ (minnum_le (p_size p) (proj2 Hs))).
    assert (Hq : 0 < p_size p / minc) by (apply N.div_str_pos; split; [apply N.neq_0_lt_0; exact Zm|exact Hfit]).
    assert (Hn00 : 0 < n0) by now apply N.neq_0_lt_0.
    destruct (picked n0 ((p_size p - 1) / MAX_CHUNK_SIZE + 1) (p_size p / minc) (minnum_small _ (proj2 Hs))) as (Y1 & Y2 & Y3 & Y4).
    specialize (Y4 Hn00 Hq). assert (Y5 := N.le_min_r (N.max n0 ((p_size p - 1) / MAX_CHUNK_SIZE + 1)) (N.min (p_size p / minc) MAX_CHUNKS)).
    set (n2 := N.min (N.max n0 ((p_size p - 1) / MAX_CHUNK_SIZE + 1)) (N.min (p_size p / minc) MAX_CHUNKS)) in *. clearbody n2.
    destruct (by_num minc (p_size p) (p_bs p) n2 Hm Hb Hs (conj Y4 Y1) Y2 Y3) as (X1 & X2 & X3 & X4 & X5 & X6 & X7 & X8).
    specialize (X8 Hdiv). cbv zeta in *.
    assert (Zn0 : n2 <> 0) by now apply N.neq_0_lt_0.
    assert (Znb : n2 * p_bs p <> 0) by (apply N.neq_mul_0; split; [exact Zn0|apply N.neq_0_lt_0, Hb]).
    unfold round_down, div. rewrite X1. destruct (N.eqb_spec (n2 * p_bs p) 0) as [|_]; [contradiction|]. cbn [bind].
    destruct (N.eqb_spec n2 0) as [|_]; [contradiction|]. cbn [bind]. rewrite X2.
    assert (Hc0 : p_size p / (n2 * p_bs p) * (n2 * p_bs p) / n2 <> 0)
      by (intros Zc; rewrite Zc in X8; apply N.le_0_r in X8; contradiction).
    rewrite sanity_ok; [eexists; split; [reflexivity|exact Y4]|..]; cbn [v_size v_cs v_num].
    - set (c := p_size p / (n2 * p_bs p) * (n2 * p_bs p) / n2) in *. rewrite X3. now apply N.mod_mul.
    - exact X4.
    - exact X8.
    - exact Y5.
    - exact Hc0.
    - apply N.neq_0_lt_0, Hb. }
  destruct X as (v & E & P). exists v. split; [exact E|]. split; [exact (c128_sized minc p v Hsane E)|exact P].
Qed.
Print Assumptions c128_by_number.

(** by a size of chunks it works if no more than 65536 of them are needed. *)
Theorem c128_by_chunk_size minc p : sane minc p -> p_num p = 0 -> 0 < p_cs p -> N.max (p_cs p) minc + p_bs p <= 2 ^ 32 ->
  p_size p <= 65536 * N.max (p_cs p) minc ->
  exists v, compose minc p = Done v /\ well_sized minc p v.
Proof.
  intros Hsane Hnum Hcs Hmax Hfit. pose proof Hsane as (Hm & Hb & Hs & Hst & Hn & Hstat).
  assert (X : exists v, compose minc p = Done v).
  { unfold compose. destruct (n0_eq p Hst Hn) as (n0 & E0 & Hn0 & Hz). rewrite E0. cbn [bind]. rewrite (u32_small n0 Hn0).
    unfold div at 1. destruct (N.eqb_spec minc 0) as [Zm|Zm]; [lia|]. cbn [bind].
    rewrite (maxn_le minc (p_size p)), Hstat by lia. destruct (N.eqb_spec (p_size p) 0) as [Zs|Zs]; [lia|].
    destruct (N.eqb_spec n0 0) as [Z|Z]; cbn [negb]; [|lia].
    destruct (N.eqb_spec (p_cs p) 0) as [Zc|Zc]; [lia|]. cbn [negb].
    set (m := N.max (p_cs p) minc) in *. unfold round_up, div at 1. destruct (N.eqb_spec (p_bs p) 0) as [Zb|Zb]; [lia|]. cbn [bind].
    set (c := (m + p_bs p - 1) / p_bs p * p_bs p).
    pose proof (N.div_mod' (m + p_bs p - 1) (p_bs p)) as E. pose proof (N.mod_lt (m + p_bs p - 1) (p_bs p) ltac:(lia)) as L.
    assert (Hc : m <= c /\ c < 2 ^ 32).
    { unfold c. set (a := (m + p_bs p - 1) / p_bs p) in *. set (b := (m + p_bs p - 1) mod p_bs p) in *. clearbody a b. lia. }
    rewrite (u32_small c) by apply Hc.
    assert (Hc0 : c <> 0) by lia. unfold round_down, div. destruct (N.eqb_spec c 0) as [Zk|Zk]; [congruence|]. cbn [bind].
    rewrite N.div_mul by exact Hc0.
    assert (Hk : p_size p / c <= 65536 /\ p_size p / c <= p_size p / minc).
    { split; [apply N.div_le_upper_bound; [exact Hc0|nia]|]. apply N.div_le_compat_l. lia. }
    rewrite (u32_small (p_size p / c)) by lia.
    eexists. apply sanity_ok; cbn [v_size v_cs v_num].
    - now apply N.mod_mul.
    - unfold c. apply N.mod_mul. lia.
    - lia.
    - unfold MAX_CHUNKS. lia.
    - exact Hc0.
    - lia. }
  destruct X as (v & E). exists v. split; [exact E|]. exact (c128_sized minc p v Hsane E).
Qed.
Print Assumptions c128_by_chunk_size.

(** 10 GB in 7 chunks on drives with three streams in all; a chunk size of 20 000 000. *)
Definition MB16 : N := 16777216.
Definition by7 : param := Param true 10000000000 7 4096 0 3.
Definition by20 : param := Param true 10000000000 0 4096 20000000 3.
Example c128_nonvacuous :
  sane MB16 by7 /\ MB16 mod p_bs by7 = 0 /\ MB16 <= p_size by7 /\ 0 < p_num by7 /\
  compose MB16 by7 = Done (Vdev 9999986688 9 1111109632) /\
  sane MB16 by20 /\ p_num by20 = 0 /\ 0 < p_cs by20 /\ N.max (p_cs by20) MB16 + p_bs by20 <= 2 ^ 32 /\
  p_size by20 <= 65536 * N.max (p_cs by20) MB16 /\ compose MB16 by20 = Done (Vdev 9980383232 499 20000768).
Proof. unfold sane. repeat split; vm_compute; congruence. Qed.

(** C129: asking for a device ends with a device or a refusal, not with a division by zero. *)
Definition never_crashes : Prop :=
  forall p, p_static p = true -> (exists k, p_bs p = 2 ^ k /\ k < 32) -> 0 < p_size p < 2 ^ 64 -> 0 < p_num p <= 65536 -> 0 < p_streams p <= 65536 ->
  compose MB16 p <> DivZero.
(** The product of the number of chunks and the block size has 32 bits: 4 TB in 65536 chunks, 64 KiB blocks. *)
Theorem c129_crash_refuted : ~ never_crashes.
Proof.
  intros H. apply (H (Param true (2 ^ 42) 65536 65536 0 1)); [reflexivity|exists 16; split; vm_compute; reflexivity|split; vm_compute; congruence..|].
  vm_compute. reflexivity.
Qed.
Print Assumptions c129_crash_refuted.
(** Less than one chunk is asked for: 10 MB. *)
Theorem c129_small_refuted : ~ never_crashes.
Proof.
  intros H. apply (H (Param true 10000000 1 4096 0 1)); [reflexivity|exists 12; split; vm_compute; reflexivity|split; vm_compute; congruence..|].
  vm_compute. reflexivity.
Qed.
Print Assumptions c129_small_refuted.
(** The chunk size has 32 bits: 512 TiB. *)
Theorem c129_large_refuted : ~ never_crashes.
Proof.
  intros H. apply (H (Param true (2 ^ 49) 65536 4096 0 1)); [reflexivity|exists 12; split; vm_compute; reflexivity|split; vm_compute; congruence..|].
  vm_compute. reflexivity.
Qed.
Print Assumptions c129_large_refuted.

(** C130: the drives are given no more chunks than asked for, none more than fit on it; *)
Theorem c130_no_more pd num cs : pd <> [] -> Forall (fun s => 0 < s) pd -> 0 < num <= 65536 -> 0 < cs ->
  exists l rest, created num 0 (spread pd num cs) = Done l /\ spread pd num cs = l ++ rest /\ total rest = 0 /\ total l <= num /\
    Forall2 (fun s c => c * cs <= s) pd (spread pd num cs).
Proof.
  intros Hp Hf Hn Hc. pose proof (spread_le pd num cs Hp Hf Hn) as Le.
  destruct (created_all num (spread pd num cs) 0) as (l & rest & E & El & R); [lia|].
  assert (Ht : forall a b, total (a ++ b) = total a + total b).
  { clear. induction a as [|x a IH]; intros b; [reflexivity|]. cbn. fold (total (a ++ b)) (total a). rewrite IH. lia. }
  exists l, rest. split; [exact E|]. split; [exact El|]. rewrite El, Ht in Le.
  split; [destruct R as [->|R]; [reflexivity|lia]|]. split; [lia|].
  clear E El R Le. unfold spread. generalize (share pd num cs), (fun s => (N.le_min_r (expect (total pd) num s) (s / cs) : share pd num cs s <= s / cs)).
  intros f Hsh. clear -Hsh Hc. induction pd as [|s pd IH]; cbn; constructor; [|exact IH].
  specialize (Hsh s). pose proof (N.mul_div_le s cs ltac:(lia)). nia.
Qed.
Print Assumptions c130_no_more.

(** and if they fit at all, at most one per drive is missing. *)
Theorem c130_no_less pd num cs l : pd <> [] -> Forall (fun s => 0 < s) pd -> 0 < num <= 65536 -> 0 < cs -> num * cs <= total pd ->
  created num 0 (spread pd num cs) = Done l -> num <= total l + N.of_nat (length pd).
Proof.
  intros Hp Hf Hn Hc Hfit E. destruct (c130_no_more pd num cs Hp Hf Hn Hc) as (l' & rest & E' & El & Z & _).
  rewrite E in E'. injection E' as <-. pose proof (spread_ge pd num cs Hp Hf Hn Hc Hfit) as G. rewrite El in G.
  assert (Ht : forall a b, total (a ++ b) = total a + total b).
  { clear. induction a as [|x a IH]; intros b; [reflexivity|]. cbn. fold (total (a ++ b)) (total a). rewrite IH. lia. }
  rewrite Ht in G. lia.
Qed.
Print Assumptions c130_no_less.

(** Three drives of 1 TB, 500 GB and 333 GB, 1000 chunks of 100 MB: two are missing. *)
Definition drives : list N := [1000000000000; 500000000000; 333000000000].
Example c130_nonvacuous :
  drives <> [] /\ Forall (fun s => 0 < s) drives /\ 1000 * 100000000 <= total drives /\
  created 1000 0 (spread drives 1000 100000000) = Done [545; 272; 181].
Proof. split; [discriminate|]. split; [repeat constructor|]. split; [discriminate|]. vm_compute. reflexivity. Qed.
