(** With entries of fixed size a merge of nodes ends normally. *)
From Coq Require Import ZArith NArith List Bool Lia.
From Coq Require Import ZifyBool ZifyNat ZifyN.
From Verif Require Import Base BtNodeModel BtNodeSpec BtNodeProofs BtreeModel BtreeInv.
From Verif Require Import BtreePut BtreeMerge BtreeMerge2 BtreeRemove BtreeTotal.
Import ListNotations.

(** No merge gets stuck with the entries of this size: the ideal fill of two
    nodes leaves out the entry that would be one too many for both. *)
Definition merge_ends (c : cfg) (s : N) : Prop :=
  (s <= c_ideal c /\ 2 * c_ideal c < (2 * (c_data c / s) + 1) * s)%N.

Lemma sub3 : forall a b d, (b <= d)%N -> (a - b - (d - b) = a - d)%N.
Proof. intros. lia. Qed.

Lemma small32 : forall d x, (d < 2 ^ 31)%N -> (0 <= Z.of_N (d - x) < 2 ^ 32)%Z.
Proof.
  intros d x H. change (2 ^ 31)%N with 2147483648%N in H. change (2 ^ 32)%Z with 4294967296%Z. lia.
Qed.

Lemma two_nodes : forall D I s n0 n1 bal b R0, (0 < s)%N -> (I < D)%N ->
  (2 * I < (2 * (D / s) + 1) * s)%N -> (s * (n0 + n1) <= 2 * I)%N ->
  (s * (n0 + n1) <= 2 * bal <= s * (n0 + n1) + 1)%N -> b = (bal / s)%N ->
  R0 = (n1 - (bal - s * n0) / s)%N -> (s * n0 <= bal)%N ->
  (s * b <= bal < s * (b + 1))%N /\ (bal < D)%N /\ (R0 <= b + 1)%N /\
  (bal = s * b -> R0 <= b)%N /\
  (R0 = b + 1 -> s * (b + 1) <= D /\ s * (n0 + n1) - bal < D)%N /\ (s * R0 <= D)%N.
Proof.
  intros D I s n0 n1 bal b R0 Hs HI He Ht Hbal Eb ER Hocc.
  set (tsz := (s * (n0 + n1))%N) in *.
  assert (Hb : (s * b <= bal < s * (b + 1))%N).
  { subst b. split; [apply N.mul_div_le; lia|].
    pose proof (N.mul_succ_div_gt bal s ltac:(lia)) as H. rewrite N.add_1_r. exact H. }
  assert (Hn0b : (n0 <= b)%N) by (subst b; apply N.div_le_lower_bound; lia).
  assert (Hdiv : ((bal - s * n0) / s = b - n0)%N).
  { symmetry. apply (N.div_unique _ _ _ (bal - s * b)%N); [clear - Hb; lia|].
    rewrite N.mul_sub_distr_l.
    assert (s * n0 <= s * b)%N by (apply N.mul_le_mono_l; exact Hn0b).
    clear - H Hb. lia. }
  rewrite Hdiv in ER. clear Eb Hdiv.
  assert (HR0 : (R0 <= n0 + n1 - b)%N) by (clear - ER Hn0b; lia).
  assert (HR1 : (b < n0 + n1 -> R0 = n0 + n1 - b)%N) by (clear - ER Hn0b; lia).
  assert (Hnb : (n0 + n1 <= 2 * b + 1)%N).
  { assert (H : (s * (n0 + n1) < s * (2 * b + 2))%N) by (fold tsz; clear - Hb Hbal; clearbody tsz; lia).
    apply N.mul_lt_mono_pos_l in H; [clear - H; lia|assumption]. }
  assert (HbalI : (bal <= I)%N) by (clear - Hbal Ht; clearbody tsz; lia).
  assert (Hcap : (R0 = b + 1 -> s * (b + 1) <= D /\ tsz - bal < D)%N).
  { intros E. assert (En : (n0 + n1 = 2 * b + 1)%N) by (clear - HR0 E Hnb; lia).
    assert (Hlt : (s * (2 * b + 1) < s * (2 * (D / s) + 1))%N).
    { rewrite <- En. fold tsz. clear - He Ht. clearbody tsz. lia. }
    apply N.mul_lt_mono_pos_l in Hlt; [|assumption].
    assert (H1 : (s * (b + 1) <= s * (D / s))%N) by (apply N.mul_le_mono_l; clear - Hlt; lia).
    pose proof (N.mul_div_le D s ltac:(clear - Hs; lia)) as H2. split.
    - eapply N.le_trans; [exact H1|exact H2].
    - clear - Hbal HbalI HI. clearbody tsz. lia. }
  ands.
  - apply Hb.
  - apply Hb.
  - eapply N.le_lt_trans; [exact HbalI|exact HI].
  - clear - HR0 Hnb. lia.
  - intros E. assert (H : (s * (n0 + n1) <= s * (2 * b))%N)
      by (fold tsz; clear - E Hbal; clearbody tsz; lia).
    apply N.mul_le_mono_pos_l in H; [clear - H HR0; lia|assumption].
  - exact Hcap.
  - destruct (N.eq_dec R0 (b + 1)) as [E|E]; [rewrite E; apply Hcap; exact E|].
    assert (H : (s * R0 <= s * b)%N) by (apply N.mul_le_mono_l; clear - HR0 Hnb E; lia).
    clear - H Hb HbalI HI. lia.
Qed.

Section Redistribute.
Variable c : cfg.
Context {A B : Type}.
Variable sz : Z * A -> N.
Variable s : N.
Hypothesis Hs : forall p, sz p = s.
Hypothesis Hs0 : (0 < s)%N.
Hypothesis Hok : cfg_ok c.
Hypothesis Hends : merge_ends c s.
Notation seg := (list (Z * A) * option B)%type.

Lemma copy_entries_fits : forall (dst src : seg) m,
  (total sz (fst dst) <= c_data c)%N ->
  (total sz (fst (copy_entries c sz dst src m)) <= c_data c)%N.
Proof.
  intros dst src m H. unfold copy_entries. cbn [fst].
  rewrite !(total_const sz s Hs) in *. rewrite app_length, firstn_length.
  rewrite (fit_const sz s Hs Hs0).
  set (room := (c_data c - s * N.of_nat (length (fst dst)))%N) in *.
  assert (s * (room / s) <= room)%N by (apply N.mul_div_le; lia).
  assert (s * N.of_nat (Nat.min (Nat.min m (Nat.min (length (fst src)) (N.to_nat (room / s))))
            (length (fst src))) <= s * (room / s))%N by (apply N.mul_le_mono_l; lia).
  rewrite Nat2N.inj_add. lia.
Qed.

Lemma left_src_const : forall (olds : list seg) avail takes rest j,
  left_src sz olds avail = (takes, (rest, j)) ->
  (N.of_nat (length (left_over rest j)) = N.of_nat (length (conc olds)) - avail / s)%N /\
  (fold_right Nat.add 0 takes + length (left_over rest j) = length (conc olds))%nat /\
  (rest = [] \/ left_over rest j <> []) /\ (length rest <= length olds)%nat /\
  (forall o r, rest = o :: r -> (j <= length (fst o))%nat).
Proof.
  induction olds as [|o olds IH]; intros avail takes rest j H; cbn [left_src] in H.
  - injection H as <- <- <-. cbn. ands; try lia; try (now left); try discriminate.
  - rewrite (fit_const sz s Hs Hs0) in H. rewrite conc_cons, app_length.
    destruct (Nat.eqb_spec (Nat.min (length (fst o)) (N.to_nat (avail / s))) (length (fst o)))
      as [E|E].
    + destruct (left_src sz olds (avail - total sz (fst o))) as [l [rest' j']] eqn:EL.
      injection H as <- <- <-. destruct (IH _ _ _ _ EL) as [I1 [I2 [I3 [I4 I5]]]].
      rewrite (total_const sz s Hs) in I1.
      assert (Ed : ((avail - s * N.of_nat (length (fst o))) / s =
                    avail / s - N.of_nat (length (fst o)))%N).
      { assert (N.of_nat (length (fst o)) <= avail / s)%N by lia.
        assert (s * N.of_nat (length (fst o)) <= avail)%N.
        { pose proof (N.mul_div_le avail s ltac:(lia)).
          assert (s * N.of_nat (length (fst o)) <= s * (avail / s))%N
            by (apply N.mul_le_mono_l; lia). lia. }
        replace avail with (avail - s * N.of_nat (length (fst o)) +
                            N.of_nat (length (fst o)) * s)%N at 2 by lia.
        rewrite N.div_add by lia. lia. }
      rewrite Ed in I1. cbn [fold_right length]. ands; try assumption; try lia.
    + injection H as <- <- <-. cbn [left_over fold_right length].
      rewrite app_length, skipn_length. ands; try lia.
      * right. intros E'. apply (f_equal (@length _)) in E'.
        rewrite app_length, skipn_length in E'. cbn in E'. lia.
      * intros o' r' [= <- <-]. lia.
Qed.

(** The one new node takes the rest. *)
Lemma copy_loop_one : forall balanced b R0 tsz0,
  (s * b <= balanced < s * (b + 1))%N -> (balanced < c_data c)%N ->
  (R0 <= b + 1)%N -> (balanced = s * b -> R0 <= b)%N ->
  (R0 = b + 1 -> s * (b + 1) <= c_data c /\ tsz0 < c_data c)%N ->
  forall (rest : list seg) j cur fuel,
  (forall o r, rest = o :: r -> (j <= length (fst o))%nat) ->
  (N.of_nat (length (fst cur)) + N.of_nat (length (left_over rest j)) = R0)%N ->
  (2 * length rest <= fuel)%nat ->
  exists cur', copy_loop c sz fuel 2 balanced rest j [cur]
      (Z.of_N balanced - Z.of_N (s * N.of_nat (length (fst cur))))
      (tsz0 - s * N.of_nat (length (fst cur))) (N.of_nat (length (left_over rest j)))
    = Ok [cur'] /\ N.of_nat (length (fst cur')) = R0.
Proof.
  intros balanced b R0 tsz0 HB HBD HR HR1 HR2.
  pose proof (ok_data c Hok) as HD.
  induction rest as [|o r IH]; intros j cur fuel Hj HL HF.
  { exists cur. split; [destruct fuel; reflexivity|]. cbn in HL. lia. }
  specialize (Hj o r eq_refl). cbn [length] in HF. destruct fuel as [|fuel]; [lia|].
  set (k := N.of_nat (length (fst cur))) in *.
  set (lo := left_over (o :: r) j) in *.
  assert (Elo : (length lo = length (fst o) - j + length (conc r))%nat).
  { unfold lo. cbn [left_over]. now rewrite app_length, skipn_length. }
  assert (Hr0 : forall cu : seg, left_over r 0 = conc r).
  { intros _. destruct r; reflexivity. }
  assert (Hr1 : forall o0 r0, r = o0 :: r0 -> (0 <= length (fst o0))%nat) by (intros; lia).
  (* the step that finishes the old node *)
  cbn [copy_loop].
  assert (Hal : ((Z.of_N balanced - Z.of_N (s * k) =? 0)%Z && (0 <? N.of_nat (length lo))%N)%bool
                = false).
  { apply andb_false_iff.
    destruct (N.ltb_spec 0 (N.of_nat (length lo))) as [H|H]; [left|now right].
    apply Z.eqb_neq. intros E.
    assert (E' : balanced = (s * k)%N) by lia.
    assert (Hkb : (k <= b)%N) by lia.
    assert (Hk : k = b).
    { assert (s * k <= s * b)%N by (apply N.mul_le_mono_l; lia).
      assert (s * b = s * k)%N by lia. apply N.mul_cancel_l in H1; lia. }
    subst k. rewrite Hk in *. specialize (HR1 E'). lia. }
  rewrite Hal. unfold copy_size. cbn [fst snd].
  rewrite (fit_const sz s Hs Hs0), skipn_length.
  rewrite !(total_const sz s Hs). fold k.
  set (size := Z.to_N ((Z.of_N balanced - Z.of_N (s * k)) mod 2 ^ 32)).
  set (n := Nat.min (length (fst o) - j) (N.to_nat (N.min size (c_data c - s * k) / s))).
  assert (Hn : (n <= length (fst o) - j)%nat) by lia.
  rewrite !app_length, firstn_length, skipn_length, (Nat.min_l n) by assumption.
  rewrite !Nat2N.inj_add. fold k.
  set (ed1 := match snd o with Some e => if (j + n =? length (fst o))%nat then Some e else snd cur
              | None => snd cur end).
  destruct (N.eq_0_gt_0_cases (N.of_nat (length lo))) as [Hz|Hpos].
  - (* nothing left *)
    assert (Hn0 : n = 0%nat) by lia. clearbody n. subst n.
    destruct (Nat.eqb_spec (length (fst o)) (j + 0)) as [_|E]; [|lia].
    change (N.of_nat 0) with 0%N. rewrite N.add_0_r, !N.sub_diag, !N.sub_0_r.
    change (firstn 0 (skipn j (fst o))) with (@nil (Z * A)). rewrite app_nil_r.
    destruct (IH 0%nat (fst cur, ed1) fuel Hr1) as [cur' [HC HLn]].
    + cbn [fst]. fold k. rewrite (Hr0 cur). lia.
    + lia.
    + exists cur'. split; [|assumption]. cbn [fst] in HC. fold k in HC.
      rewrite (Hr0 cur) in HC.
      replace (N.of_nat (length (conc r))) with (N.of_nat (length lo)) in HC by lia.
      exact HC.
  - assert (Hkb : (k <= b)%N) by lia.
    assert (Hsk : (s * k <= s * b)%N) by (apply N.mul_le_mono_l; lia).
    assert (Esize : size = (balanced - s * k)%N).
    { unfold size. rewrite Z.mod_small; [lia|].
      change (2 ^ 31)%N with 2147483648%N in HD. change (2 ^ 32)%Z with 4294967296%Z. lia. }
    assert (Ediv : (N.min size (c_data c - s * k) / s = b - k)%N).
    { rewrite Esize, N.min_l by lia. symmetry.
      apply (N.div_unique _ _ _ (balanced - s * b)%N); [lia|].
      rewrite N.mul_sub_distr_l. lia. }
    assert (Enm : n = Nat.min (length (fst o) - j) (N.to_nat (b - k)))
      by (unfold n; now rewrite Ediv).
    clearbody n. clear Hal.
    destruct (Nat.eqb_spec (length (fst o)) (j + n)) as [E|E].
    + (* the whole old node *)
      replace (k + N.of_nat n)%N with (N.of_nat (length (fst cur ++ firstn n (skipn j (fst o)))))
        by (rewrite app_length, firstn_length, skipn_length; lia).
      destruct (IH 0%nat (fst cur ++ firstn n (skipn j (fst o)), ed1) fuel Hr1)
        as [cur' [HC HLn]].
      * cbn [fst]. rewrite (Hr0 cur), app_length, firstn_length, skipn_length. lia.
      * lia.
      * exists cur'. split; [|assumption]. cbn [fst] in HC. rewrite (Hr0 cur) in HC.
        set (k' := N.of_nat (length (fst cur ++ firstn n (skipn j (fst o))))) in *.
        assert (Ek' : k' = (k + N.of_nat n)%N)
          by (unfold k'; rewrite app_length, firstn_length, skipn_length; lia).
        rewrite sub3 by (apply N.mul_le_mono_l; rewrite Ek'; apply N.le_add_r).
        replace (N.of_nat (length lo) - N.of_nat n)%N with (N.of_nat (length (conc r))) by lia.
        exact HC.
    + (* one entry is left over *)
      assert (En : (N.of_nat n = b - k)%N) by lia.
      assert (ER : (R0 = b + 1)%N) by lia.
      destruct (HR2 ER) as [HD1 HD2].
      assert (Ekn : (k + N.of_nat n = b)%N) by lia. rewrite !Ekn.
      change (N.of_nat (length [cur]) =? 2 - 1)%N with true. cbn [andb].
      rewrite sub3 by assumption.
      assert (Hsb : (s * (b + 1) = s * b + s)%N) by lia.
      assert (Hlt : (tsz0 - s * b <? c_data c - s * b)%N = true) by lia.
      rewrite Hlt. destruct fuel as [|fuel]; [lia|]. cbn [copy_loop].
      assert (Hal2 : ((Z.of_N (c_data c - s * b) =? 0)%Z &&
        (0 <? N.of_nat (length lo) - N.of_nat n)%N)%bool = false).
      { apply andb_false_iff. left. lia. }
      rewrite Hal2. unfold copy_size. cbn [fst snd].
      rewrite (fit_const sz s Hs Hs0), skipn_length, !(total_const sz s Hs).
      set (es1 := fst cur ++ firstn n (skipn j (fst o))) in *.
      assert (Eb : N.of_nat (length es1) = b).
      { unfold es1. rewrite app_length, firstn_length, skipn_length. fold k in Ekn.
        unfold k in Ekn. clear - Ekn Hn. lia. }
      rewrite Eb.
      set (n2 := Nat.min (length (fst o) - (j + n)) _).
      assert (En2 : n2 = 1%nat).
      { unfold n2. rewrite Z.mod_small by (now apply small32).
        rewrite N2Z.id, N.min_id.
        assert (Hd1 : (1 <= (c_data c - s * b) / s)%N).
        { apply N.div_le_lower_bound; [clear - Hs0; lia|]. clear - HD1 Hsb. lia. }
        assert (Ho1 : (length (fst o) - (j + n) = 1)%nat).
        { clear - Elo HL ER Ekn Hn E Hj. lia. }
        rewrite Ho1. clear - Hd1. lia. }
      clearbody n2. subst n2.
      assert (Ho1 : (length (fst o) - (j + n) = 1)%nat).
      { clear - Elo HL ER Ekn Hn E Hj. lia. }
      clear HB HBD HR HR1 HR2 Hsk Ediv Hlt Hal2 HD1 HD2 Hsb Enm HD Hends Hkb Hpos En.
      clearbody es1 lo.
      destruct (Nat.eqb_spec (length (fst o)) (j + n + 1)) as [_|E1]; [|lia].
      rewrite !app_length, firstn_length, skipn_length, Ho1.
      change (Nat.min 1 1) with 1%nat. rewrite Nat2N.inj_add, Eb. change (N.of_nat 1) with 1%N.
      match goal with |- context [copy_loop _ _ _ _ _ r 0 [?cc] _ _ _] =>
        destruct (IH 0%nat cc fuel Hr1) as [cur' [HC HLn]] end.
      * cbn [fst]. rewrite (Hr0 cur), app_length, firstn_length, skipn_length, Ho1.
        change (Nat.min 1 1) with 1%nat. clear - Eb Elo HL ER Ekn Ho1 Hj. lia.
      * clear - HF. lia.
      * exists cur'. split; [|assumption]. cbn [fst] in HC. rewrite (Hr0 cur) in HC.
        rewrite !app_length, firstn_length, skipn_length, Ho1 in HC.
        change (Nat.min 1 1) with 1%nat in HC. rewrite Nat2N.inj_add, Eb in HC.
        change (N.of_nat 1) with 1%N in HC.
        rewrite sub3 by (apply N.mul_le_mono_l, N.le_add_r).
        replace (N.of_nat (length lo) - N.of_nat n - 1)%N with (N.of_nat (length (conc r)))
          by (clear - Elo Ho1 Hj; lia).
        exact HC.
Qed.

Lemma fold_takes : forall l a, fold_left Nat.add l a = (a + fold_right Nat.add 0 l)%nat.
Proof. induction l as [|x l IH]; intros a; cbn; [lia|]. rewrite IH. lia. Qed.

Lemma redistribute_total : forall fuel (left : seg) (olds : list seg),
  olds <> [] -> (length olds <= 2)%nat -> (4 <= fuel)%nat ->
  (s * N.of_nat (length (fst left)) <= c_data c)%N ->
  exists r, redistribute c sz fuel left olds = Ok r /\
    match r with
    | None => True
    | Some (l, news) =>
        (length news < length olds)%nat /\
        (s * N.of_nat (length (fst l)) <= c_data c)%N /\
        Forall (fun w => s * N.of_nat (length (fst w)) <= c_data c)%N news
    end.
Proof.
  intros fuel left olds Hne H2 HFu HL. unfold redistribute.
  rewrite total_conc. rewrite (ok_rebal c Hok). cbn [negb]. rewrite andb_true_r.
  rewrite !(total_const sz s Hs). rewrite <- N.mul_add_distr_l.
  set (n0 := N.of_nat (length (fst left))) in *.
  set (n1 := N.of_nat (length (conc olds))) in *.
  set (tsz := (s * (n0 + n1))%N) in *.
  set (num := (if (tsz =? 0)%N then 1 else (tsz - 1) / c_ideal c + 1)%N).
  destruct (N.leb_spec (N.of_nat (length olds) + 1) num) as [|Hnum];
    [eexists; split; [reflexivity|exact I]|].
  set (balanced := (if (tsz =? 0)%N then 0 else (tsz - 1) / num + 1)%N).
  destruct (N.ltb_spec balanced (s * n0)) as [|Hocc];
    [eexists; split; [reflexivity|exact I]|].
  pose proof (ok_ideal c Hok) as Hid. pose proof (ok_data c Hok) as Hdata.
  destruct Hends as [He1 He2].
  destruct (left_src sz olds (balanced - s * n0)) as [takes [rest j]] eqn:ES.
  destruct (left_src_const _ _ _ _ _ ES) as [S1 [S2 [S3 [S4 S5]]]]. fold n1 in S1.
  rewrite count_conc. cbn [N.add]. fold n1. rewrite fold_takes. cbn [Nat.add].
  assert (Htent : (n1 - N.of_nat (fold_right Nat.add 0%nat takes) =
                   N.of_nat (length (left_over rest j)))%N) by lia.
  rewrite Htent.
  assert (Hloop : exists news, copy_loop c sz fuel num balanced rest j [] 0
      (tsz - s * n0 - (balanced - s * n0)) (N.of_nat (length (left_over rest j))) = Ok news /\
      (length news < length olds)%nat /\
      Forall (fun w => s * N.of_nat (length (fst w)) <= c_data c)%N news).
  { destruct S3 as [S3|S3].
    - exists []. subst rest. split; [destruct fuel; reflexivity|].
      split; [destruct olds; [congruence|cbn; lia]|constructor].
    - assert (Hcnt : (0 < N.of_nat (length (left_over rest j)))%N)
        by (destruct (left_over rest j); [congruence|cbn; lia]).
      assert (Hn1 : (0 < n1)%N) by lia.
      assert (Ht : (s <= tsz)%N) by (unfold tsz; nia).
      destruct (N.eqb_spec tsz 0) as [Et|Et]; [lia|].
      unfold num in *. set (q := ((tsz - 1) / c_ideal c)%N) in *.
      assert (Hq : (tsz - 1 < c_ideal c * (q + 1))%N).
      { unfold q. pose proof (N.mul_succ_div_gt (tsz - 1) (c_ideal c) ltac:(lia)). lia. }
      assert (Hq2 : (c_ideal c * q <= tsz - 1)%N) by (apply N.mul_div_le; lia).
      assert (Hcase : q = 0%N \/ (q = 1%N /\ length olds = 2%nat)) by lia.
      destruct Hcase as [Hq0 | [Hq1 Ho2]].
      + (* everything fits in the leftmost node *)
        exfalso. unfold balanced in *. rewrite Hq0 in *. change (0 + 1)%N with 1%N in *.
        rewrite N.div_1_r in *.
        replace (tsz - 1 + 1 - s * n0)%N with (n1 * s)%N in S1 by (unfold tsz in *; lia).
        rewrite N.div_mul in S1 by lia. lia.
      + unfold balanced in *. rewrite Hq1 in *. change (1 + 1)%N with 2%N in *.
        set (bal := ((tsz - 1) / 2 + 1)%N) in *.
        assert (Hbal : (tsz <= 2 * bal <= tsz + 1)%N).
        { unfold bal. pose proof (N.div_mod (tsz - 1) 2 ltac:(lia)).
          pose proof (N.mod_lt (tsz - 1) 2 ltac:(lia)).
          clear - H H0 Et. clearbody tsz. lia. }
        set (R0 := N.of_nat (length (left_over rest j))) in *.
        assert (Ht2 : (tsz <= 2 * c_ideal c)%N) by (clear - Hq Et; clearbody tsz; lia).
        clearbody bal. clear balanced.
        destruct (two_nodes (c_data c) (c_ideal c) s n0 n1 bal (bal / s) R0 Hs0
                    (proj2 Hid) He2 Ht2 Hbal eq_refl S1 Hocc)
          as [A1 [A2 [A3 [A4 [A5 A6]]]]].
        fold tsz in A5.
        destruct (copy_loop_one bal (bal / s) R0 (tsz - bal) A1 A2 A3 A4 A5
                    rest j ([], None) fuel S5) as [cur' [HC HLn]].
        * reflexivity.
        * clear - S4 Ho2 HFu. lia.
        * exists [cur']. split; [|split].
          -- cbn [fst length] in HC. change (N.of_nat 0) with 0%N in HC.
             rewrite N.mul_0_r, Z.sub_0_r, N.sub_0_r in HC. fold R0 in HC.
             rewrite sub3 by assumption.
             rewrite <- HC.
             destruct rest as [|o r]; [cbn in Hcnt; discriminate|].
             destruct fuel as [|fuel]; [clear - HFu; lia|]. cbn [copy_loop].
             rewrite (proj2 (N.ltb_lt 0 R0)) by assumption.
             rewrite Z.eqb_refl.
             replace (Z.of_N bal =? 0)%Z with false; [reflexivity|].
             clear - Hbal Et. clearbody tsz. lia.
          -- rewrite Ho2. cbn. lia.
          -- constructor; [|constructor]. rewrite HLn. exact A6. }
  destruct Hloop as [rnews [HC [HLn HF]]]. rewrite HC. rewrite rev_length.
  destruct (Nat.ltb_spec (length olds) (length rnews)) as [|_]; [lia|].
  destruct (Nat.eqb_spec (length rnews) (length olds)) as [|_]; [lia|]. cbn [andb].
  eexists. split; [reflexivity|]. cbn beta iota. rewrite rev_length.
  split; [assumption|]. split.
  - rewrite <- (total_const sz s Hs).
    assert (HL' : (total sz (fst left) <= c_data c)%N)
      by (rewrite (total_const sz s Hs); exact HL).
    clear - HL' Hs Hs0. revert left HL'.
    induction (combine olds takes) as [|p l IH]; intros left HL; cbn; [assumption|].
    apply IH. now apply copy_entries_fits.
  - now apply Forall_rev.
  - intros p. rewrite Hs. assumption.
Qed.

End Redistribute.
