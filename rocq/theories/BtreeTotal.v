(** With entries of fixed size the operations on a B-tree end normally. *)
From Coq Require Import ZArith NArith List Bool Lia.
From Coq Require Import ZifyBool ZifyNat ZifyN.
From Verif Require Import Base BtNodeModel BtNodeSpec BtNodeProofs BtreeModel BtreeInv.
From Verif Require Import BtreePut.
Import ListNotations.

(** SimpleNode for leaves and interior nodes with entries of [sl] and [si]
    bytes, at least two to a node. *)
Record cfg_fixed (c : cfg) (sl si : N) : Prop := {
  fx_l : forall k v, c_lsz c k v = sl;
  fx_i : forall k, c_isz c k = si;
  fx_hdr : c_hdr c = 0%N;
  fx_need : forall kd k v, c_need c kd k v = match kd with PUpdate => 0%N | _ => sl end;
  fx_ineed : c_ineed c = si;
  fx_fixedk : c_fixedk c = true;
  fx_pos : (0 < sl /\ 0 < si)%N;
  fx_capl : (2 * sl <= c_data c)%N;
  fx_capi : (2 * si <= c_data c)%N
}.

Section Const.
Context {A : Type}.
Variable sz : Z * A -> N.
Variable s : N.
Hypothesis Hs : forall p, sz p = s.
Hypothesis H0 : (0 < s)%N.

Lemma total_const : forall es, total sz es = (s * N.of_nat (length es))%N.
Proof.
  clear H0. induction es as [|p es IH]; cbn [total length]; [lia|]. rewrite Hs, IH. lia.
Qed.

Lemma fit_const : forall es room,
  fit sz es room = Nat.min (length es) (N.to_nat (room / s)).
Proof.
  induction es as [|p es IH]; intros room; cbn [fit length]; [reflexivity|].
  rewrite Hs. destruct (N.leb_spec s room) as [H|H].
  - rewrite IH.
    assert (E : (room / s = (room - s) / s + 1)%N).
    { replace room with (room - s + 1 * s)%N at 1 by lia. apply N.div_add. lia. }
    rewrite E. lia.
  - rewrite N.div_small by assumption. lia.
Qed.
End Const.

Section WithCfg.
Variable c : cfg.
Variables sl si : N.
Hypothesis Hfx : cfg_fixed c sl si.

Lemma lsz_const : forall p, lsz c p = sl.
Proof. intros. apply (fx_l _ _ _ Hfx). Qed.
Lemma isz_const : forall A (p : Z * A), isz c p = si.
Proof. intros. apply (fx_i _ _ _ Hfx). Qed.
Lemma ltotal : forall es, total (lsz c) es = (sl * N.of_nat (length es))%N.
Proof. intros. apply total_const. apply lsz_const. Qed.
Lemma itotal : forall A (es : list (Z * A)), total (isz c) es = (si * N.of_nat (length es))%N.
Proof. intros. apply total_const. apply isz_const. Qed.

(** No node holds more than its size. *)
Fixpoint fits (h : nat) (t : tree) : Prop :=
  match h, t with
  | O, Leaf _ _ es => (sl * N.of_nat (length es) <= c_data c)%N
  | S h', Inner _ _ es ed =>
      (si * N.of_nat (length es) <= c_data c)%N /\
      Forall (fun s => fits h' (snd s)) (slots es ed)
  | _, _ => True
  end.

(** One more entry fits. *)
Definition roomy (t : tree) : Prop :=
  match t with
  | Leaf _ _ es => (sl * N.of_nat (length es) + sl <= c_data c)%N
  | Inner _ _ es _ => (si * N.of_nat (length es) + si <= c_data c)%N
  end.

Lemma half : forall A (sz : Z * A -> N) s es, (forall p, sz p = s) -> (0 < s)%N ->
  moved c sz es = Nat.min (length es / 2) (length es - 1).
Proof.
  intros A sz s es Hs H0. unfold moved. rewrite (fit_const sz s Hs H0).
  rewrite rev_length, (total_const sz s Hs), (fx_hdr _ _ _ Hfx), N.add_0_r.
  assert (E : ((s * N.of_nat (length es)) * 50 / 100 / s = N.of_nat (length es) / 2)%N).
  { replace (s * N.of_nat (length es) * 50)%N with (s * N.of_nat (length es) * 50)%N by lia.
    change 100%N with (2 * 50)%N.
    rewrite N.div_mul_cancel_r by lia.
    rewrite N.div_div by lia. rewrite (N.mul_comm 2 s).
    rewrite N.div_mul_cancel_l by lia. reflexivity. }
  rewrite E. pose proof (fx_pos _ _ _ Hfx).
  assert (E2 : N.to_nat (N.of_nat (length es) / 2) = (length es / 2)%nat).
  { rewrite N2Nat.inj_div. rewrite Nat2N.id. reflexivity. }
  rewrite E2. assert (length es / 2 <= length es)%nat by (apply Nat.div_le_upper_bound; lia).
  lia.
Qed.

Lemma split_child_total : forall h lo hi t nx, wf h lo hi t -> fits h t -> ~ roomy t ->
  exists k l r, split_child c nx t = Ok (k, l, r) /\ fits h l /\ fits h r /\ roomy l /\ roomy r.
Proof.
  intros h lo hi t nx HW HF HR.
  pose proof (fx_pos _ _ _ Hfx) as [P1 P2]. pose proof (fx_capl _ _ _ Hfx) as C1.
  pose proof (fx_capi _ _ _ Hfx) as C2.
  destruct h as [|h], t as [id next es|id next es ed]; cbn in HW; try contradiction;
    cbn [split_child fits roomy] in *.
  - rewrite (half _ _ sl) by (auto using lsz_const).
    assert (Hn : (2 <= length es)%nat).
    { destruct (le_lt_dec 2 (length es)); [assumption|].
      assert (sl * N.of_nat (length es) <= sl * 1)%N by (apply N.mul_le_mono_l; lia). lia. }
    assert (Hd : (1 <= length es / 2 < length es)%nat).
    { split; [apply Nat.div_le_lower_bound; lia|apply Nat.div_lt; lia]. }
    rewrite Nat.min_l by lia. set (m := (length es / 2)%nat) in *.
    destruct (Nat.eqb_spec m 0) as [|Hm0]; [lia|].
    do 3 eexists. split; [reflexivity|]. cbn [fits roomy].
    rewrite firstn_length, skipn_length.
    assert (Hm : forall n, (n < length es)%nat ->
      (sl * N.of_nat n + sl <= c_data c)%N).
    { intros n Hn'. assert (sl * (N.of_nat n + 1) <= sl * N.of_nat (length es))%N
        by (apply N.mul_le_mono_l; lia). lia. }
    pose proof (Hm (Nat.min (length es - m) (length es)) ltac:(lia)).
    pose proof (Hm (length es - (length es - m))%nat ltac:(lia)).
    ands; lia.
  - destruct HF as [HF1 HF2]. rewrite (half _ _ si) by (auto using isz_const).
    assert (Hn : (2 <= length es)%nat).
    { destruct (le_lt_dec 2 (length es)); [assumption|].
      assert (si * N.of_nat (length es) <= si * 1)%N by (apply N.mul_le_mono_l; lia). lia. }
    assert (Hd : (1 <= length es / 2 < length es)%nat).
    { split; [apply Nat.div_le_lower_bound; lia|apply Nat.div_lt; lia]. }
    rewrite Nat.min_l by lia. set (m := (length es / 2)%nat) in *.
    destruct (Nat.eqb_spec m 0) as [|Hm0]; [lia|].
    do 3 eexists. split; [reflexivity|]. cbn [fits roomy].
    rewrite firstn_length, skipn_length.
    assert (Hm : forall n, (n < length es)%nat ->
      (si * N.of_nat n + si <= c_data c)%N).
    { intros n Hn'. assert (si * (N.of_nat n + 1) <= si * N.of_nat (length es))%N
        by (apply N.mul_le_mono_l; lia). lia. }
    pose proof (Hm (Nat.min (length es - m) (length es)) ltac:(lia)).
    pose proof (Hm (length es - (length es - m))%nat ltac:(lia)).
    rewrite <- (firstn_skipn (length es - m) es), slots_app in HF2.
    apply Forall_app in HF2. destruct HF2.
    ands; try lia; assumption.
Qed.

(** A full node is split when a key is to be added. *)
Lemma split_needed_roomy : forall h lo hi kd k v t, wf h lo hi t -> fits h t ->
  split_needed c kd k v t = true -> ~ roomy t.
Proof.
  intros h lo hi kd k v t HW HF HS HR.
  destruct h as [|h], t as [id next es|id next es ed]; cbn in HW; try contradiction;
    cbn [split_needed roomy fits] in *.
  - rewrite ltotal, (fx_need _ _ _ Hfx) in HS. destruct kd; lia.
  - rewrite itotal, (fx_ineed _ _ _ Hfx) in HS. lia.
Qed.
Lemma roomy_split_needed : forall kd k v t, roomy t -> split_needed c kd k v t = false.
Proof.
  intros kd k v t HR. destruct t as [id next es|id next es ed]; cbn [split_needed roomy] in *.
  - rewrite ltotal, (fx_need _ _ _ Hfx). destruct kd; lia.
  - rewrite itotal, (fx_ineed _ _ _ Hfx). lia.
Qed.

Lemma slot_at : forall P es ed lo hi k p u x q m, chain P lo hi (slots es ed) ->
  slots es ed = p ++ (u, x) :: q -> chain P lo m p -> inb m u k ->
  snd (bsearch_node es k) = length p.
Proof.
  intros P es ed lo hi k p u x q m HC HE HP [HK1 HK2].
  destruct (slots_sorted _ _ _ _ _ HC) as [HS _].
  assert (Hl : (length p <= length es)%nat).
  { apply (f_equal (@length _)) in HE. rewrite slots_length, app_length in HE.
    cbn [length] in HE. destruct ed; lia. }
  assert (HE' := HE).
  rewrite <- (firstn_skipn (length p) es) in HE'. rewrite slots_app in HE'.
  apply app_same_len in HE'; [|rewrite slots_length, firstn_length; lia].
  destruct HE' as [E1 E2].
  assert (Ha : all_lt k (firstn (length p) es)).
  { rewrite <- E1 in HP. destruct (slots_sorted _ _ _ _ _ HP) as [_ HF].
    eapply Forall_impl; [|exact HF]. intros y [Hy1 Hy2]. cbn beta in *.
    pose proof (ele_elt_trans _ _ _ Hy2 HK1) as H. exact H. }
  assert (Hb : all_ge k (skipn (length p) es)).
  { rewrite HE in HC. apply chain_app in HC. destruct HC as [m' [_ HC]].
    destruct HC as [Hm' [_ HC]].
    destruct (skipn (length p) es) as [|[k1 x1] es1] eqn:ES; [constructor|].
    change (slots ((k1, x1) :: es1) ed) with ((Fin k1, x1) :: slots es1 ed) in E2.
    injection E2 as E3 E4 E5. subst u x q.
    destruct (slots_sorted _ _ _ _ _ HC) as [_ HF].
    assert (Hk1 : (k <= k1)%Z).
    { destruct HK2 as [HK2|HK2]; [cbn in HK2; lia|injection HK2; lia]. }
    constructor; [cbn [fst]; lia|]. eapply Forall_impl; [|exact HF].
    intros y [Hy1 _]. cbn in *. lia. }
  rewrite <- (firstn_skipn (length p) es) in HS |- *.
  rewrite (bsearch_at _ _ _ HS Ha Hb). cbn [snd]. rewrite firstn_length. lia.
Qed.

Lemma set_child_length : forall es ed i x, length (fst (set_child es ed i x)) = length es.
Proof.
  intros es ed i x. unfold set_child. destruct (nth_error es i) as [[k y]|] eqn:E; [|reflexivity].
  apply nth_error_split in E. destruct E as [a [b [-> <-]]]. cbn [fst].
  rewrite upd_at_app, !app_length. reflexivity.
Qed.

Lemma ins_at_length : forall es (i : nat) k (x : tree), (i <= length es)%nat ->
  length (ins_at es i k x) = S (length es).
Proof.
  intros es i k x H. unfold ins_at. rewrite app_length. cbn [length].
  rewrite firstn_length, skipn_length. lia.
Qed.

Lemma put_list_length : forall k v es, (length (put_list k v es) <= S (length es))%nat.
Proof.
  induction es as [|[k0 v0] es IH]; cbn; [lia|].
  destruct (k <? k0)%Z; [cbn; lia|]. destruct (k =? k0)%Z; cbn; lia.
Qed.

Lemma put_list_length_in : forall k v es, sorted es -> assoc es k <> None ->
  length (put_list k v es) = length es.
Proof.
  induction es as [|[k0 v0] es IH]; intros HS HA; cbn in *; [congruence|].
  apply sorted_cons in HS. destruct HS as [HG HS]. cbn in HG.
  destruct (Z.ltb_spec k k0).
  - exfalso. rewrite (proj2 (Z.eqb_neq k0 k)) in HA by lia. apply HA. apply assoc_gt.
    eapply Forall_impl; [|exact HG]. cbn. lia.
  - rewrite (Z.eqb_sym k0 k) in HA. destruct (k =? k0)%Z; cbn; [reflexivity|].
    now rewrite IH.
Qed.

Lemma put_in_leaf_total : forall lo hi id next es kd k v f,
  leaf_ok lo hi es -> (sl * N.of_nat (length es) <= c_data c)%N ->
  split_needed c kd k v (Leaf id next es) = false ->
  exists t' st old, put_in_leaf c id next es kd k v f = Ok (t', st, old) /\ fits 0 t'.
Proof.
  intros lo hi id next es kd k v f HW HF HR. unfold put_in_leaf.
  pose proof (leaf_put_ok es kd k v f (proj1 HW)) as HP.
  destruct (leaf_put es kd k v f) as [[st old] es'].
  destruct HP as [H1 [H2 H3]].
  assert (HL : (sl * N.of_nat (length es') <= c_data c)%N).
  { cbn [split_needed] in HR. rewrite ltotal, (fx_need _ _ _ Hfx) in HR.
    destruct st; try (subst es'; assumption). subst es'.
    pose proof (put_list_length k v es) as HL.
    destruct kd.
    - assert (sl * N.of_nat (length (put_list k v es)) <= sl * (N.of_nat (length es) + 1))%N
        by (apply N.mul_le_mono_l; lia). lia.
    - rewrite put_list_length_in; [assumption|apply HW|].
      unfold put_spec in H1. destruct (assoc es k); [discriminate|]. cbn in H1. congruence.
    - assert (sl * N.of_nat (length (put_list k v es)) <= sl * (N.of_nat (length es) + 1))%N
        by (apply N.mul_le_mono_l; lia). lia. }
  rewrite ltotal. rewrite (proj2 (N.leb_le _ _) HL). do 3 eexists. split; [reflexivity|].
  exact HL.
Qed.

Lemma fits_set_child : forall h es ed p u x q x',
  slots es ed = p ++ (u, x) :: q ->
  (si * N.of_nat (length es) <= c_data c)%N -> Forall (fun s => fits h (snd s)) (slots es ed) ->
  fits h x' ->
  let '(es', ed') := set_child es ed (length p) x' in
  forall id next, fits (S h) (Inner id next es' ed').
Proof.
  intros h es ed p u x q x' HE HL HF HX.
  pose proof (set_child_slots es ed p u x q x' HE) as H1.
  pose proof (set_child_length es ed (length p) x') as H2.
  destruct (set_child es ed (length p) x') as [es' ed']. cbn [fst] in H2. intros id next.
  cbn [fits]. rewrite H1, H2. split; [assumption|]. rewrite HE in HF.
  apply Forall_app in HF. destruct HF as [F1 F2]. apply Forall_app. split; [assumption|].
  constructor; [exact HX|]. now apply Forall_inv_tail in F2.
Qed.

(** One put, at a node whose child on the way is not full, and at a node with
    room. *)
Lemma do_put_total : forall h,
  (forall fuel lo hi t nx kd k v f, wf h lo hi t -> inb lo hi k -> fits h t ->
    split_needed c kd k v t = false -> (2 * h < fuel)%nat ->
    exists t' nx' st old, do_put c fuel nx t kd k v f = Ok (t', nx', st, old) /\ fits h t') /\
  (forall fuel lo hi id next es ed nx kd k v f, wf (S h) lo hi (Inner id next es ed) ->
    inb lo hi k -> fits (S h) (Inner id next es ed) ->
    (forall x, child_at es ed (snd (bsearch_node es k)) = Some x ->
       split_needed c kd k v x = false) ->
    (2 * h + 1 < fuel)%nat ->
    exists t' nx' st old,
      do_put c fuel nx (Inner id next es ed) kd k v f = Ok (t', nx', st, old) /\
      fits (S h) t').
Proof.
  assert (Hdown : forall h,
    (forall fuel lo hi t nx kd k v f, wf h lo hi t -> inb lo hi k -> fits h t ->
      split_needed c kd k v t = false -> (2 * h < fuel)%nat ->
      exists t' nx' st old, do_put c fuel nx t kd k v f = Ok (t', nx', st, old) /\ fits h t') ->
    (forall fuel lo hi id next es ed nx kd k v f, wf (S h) lo hi (Inner id next es ed) ->
      inb lo hi k -> fits (S h) (Inner id next es ed) ->
      (forall x, child_at es ed (snd (bsearch_node es k)) = Some x ->
         split_needed c kd k v x = false) ->
      (2 * h + 1 < fuel)%nat ->
      exists t' nx' st old,
        do_put c fuel nx (Inner id next es ed) kd k v f = Ok (t', nx', st, old) /\
        fits (S h) t')).
  { intros h IH fuel lo hi id next es ed nx kd k v f HW HK HF HC HFu.
    destruct fuel as [|fuel]; [lia|]. destruct HW as [_ HW]. destruct HF as [HF1 HF2].
    destruct (find_slot _ _ _ _ _ _ HW HK) as [p [u [x [q [m [HE [HI [HP [HB [HX HQ]]]]]]]]]].
    cbn [do_put]. rewrite HI in HC |- *. rewrite (child_at_slot _ _ _ _ _ _ HE) in HC |- *.
    rewrite (HC x eq_refl).
    assert (HFx : fits h x).
    { rewrite HE in HF2. apply Forall_app in HF2. destruct HF2 as [_ HF2].
      exact (Forall_inv HF2). }
    destruct (IH fuel m u x nx kd k v f HX HB HFx (HC x eq_refl) ltac:(lia))
      as [x' [nx' [st [old [HR HFx']]]]]. rewrite HR.
    pose proof (fits_set_child h es ed p u x q x' HE HF1 HF2 HFx') as HS.
    destruct (set_child es ed (length p) x') as [es' ed'].
    do 4 eexists. split; [reflexivity|]. apply HS. }
  induction h as [|h [IH1 IH2]].
  - assert (H1 : forall fuel lo hi t nx kd k v f, wf 0 lo hi t -> inb lo hi k -> fits 0 t ->
      split_needed c kd k v t = false -> (2 * 0 < fuel)%nat ->
      exists t' nx' st old, do_put c fuel nx t kd k v f = Ok (t', nx', st, old) /\ fits 0 t').
    { intros fuel lo hi t nx kd k v f HW HK HF HS HFu.
      destruct t as [id next es|]; [|contradiction]. destruct fuel as [|fuel]; [lia|].
      cbn [do_put].
      destruct (put_in_leaf_total lo hi id next es kd k v f HW HF HS) as [t' [st [old [HR HF']]]].
      rewrite HR. do 4 eexists. split; [reflexivity|assumption]. }
    split; [exact H1|]. apply Hdown. exact H1.
  - assert (H1 : forall fuel lo hi t nx kd k v f, wf (S h) lo hi t -> inb lo hi k -> fits (S h) t ->
      split_needed c kd k v t = false -> (2 * S h < fuel)%nat ->
      exists t' nx' st old, do_put c fuel nx t kd k v f = Ok (t', nx', st, old) /\ fits (S h) t').
    { intros fuel lo hi t nx kd k v f HW HK HF HS HFu.
      destruct t as [|id next es ed]; [contradiction|].
      destruct fuel as [|fuel]; [lia|].
      pose proof HW as [_ HC]. pose proof HF as [HF1 HF2].
      destruct (find_slot _ _ _ _ _ _ HC HK) as [p [u [x [q [m [HE [HI [HP [HB [HX HQ]]]]]]]]]].
      destruct (split_needed c kd k v x) eqn:ES.
      2:{ apply (IH2 (S fuel) lo hi); try assumption; [|lia].
          intros y Hy. rewrite HI, (child_at_slot _ _ _ _ _ _ HE) in Hy. congruence. }
      cbn [do_put]. rewrite HI, (child_at_slot _ _ _ _ _ _ HE), ES.
      assert (HFx : fits h x).
      { rewrite HE in HF2. apply Forall_app in HF2. destruct HF2 as [_ HF2].
        exact (Forall_inv HF2). }
      destruct (split_child_total h m u x nx HX HFx
                  (split_needed_roomy _ _ _ _ _ _ _ HX HFx ES))
        as [kk [l [r [HR [Fl [Fr [Rl Rr]]]]]]].
      assert (HSN := split_node_ok c h lo hi es ed p u x q m nx).
      unfold split_node in HSN |- *. rewrite HR in HSN |- *.
      pose proof (set_child_slots es ed p u x q r HE) as HS1.
      pose proof (set_child_length es ed (length p) r) as HL1.
      destruct (set_child es ed (length p) r) as [es1 ed1]. cbn [fst] in HL1.
      assert (HG : (total (isz c) es1 + c_isz c kk <=? c_data c)%N = true).
      { rewrite itotal, HL1, (fx_i _ _ _ Hfx). cbn [split_needed] in HS.
        rewrite itotal, (fx_ineed _ _ _ Hfx) in HS. lia. }
      rewrite HG in HSN |- *.
      specialize (HSN _ _ _ HE HP HX HQ eq_refl). destruct HSN as [HN [HC' _]].
      pose proof (ins_at_slots _ _ _ _ _ _ kk l HS1) as HS2.
      assert (Hlp : (length p <= length es1)%nat).
      { rewrite HL1. apply (f_equal (@length _)) in HE. rewrite slots_length, app_length in HE.
        cbn [length] in HE. destruct ed; lia. }
      apply (IH2 fuel lo hi).
      - split; assumption.
      - assumption.
      - cbn [fits]. rewrite ins_at_length, HL1 by assumption. split.
        + cbn [split_needed] in HS. rewrite itotal, (fx_ineed _ _ _ Hfx) in HS. lia.
        + rewrite HS2. rewrite HE in HF2. apply Forall_app in HF2. destruct HF2 as [F1 F2].
          apply Forall_app. split; [assumption|].
          constructor; [exact Fl|]. constructor; [exact Fr|]. now apply Forall_inv_tail in F2.
      - intros y Hy.
        destruct (split_child_ok c _ _ _ _ _ _ _ _ HX HR) as [K1 [K2 [K3 [K4 _]]]].
        destruct (Z.leb_spec k kk) as [Hk|Hk].
        + rewrite (slot_at _ _ _ _ _ k p (Fin kk) l ((u, r) :: q) m HC' HS2 HP) in Hy.
          * rewrite (child_at_slot _ _ _ _ _ _ HS2) in Hy. injection Hy as <-.
            now apply roomy_split_needed.
          * split; [apply HB|].
            destruct (Z.eq_dec k kk) as [->|]; [now right|left; cbn; lia].
        + assert (HS3 : slots (ins_at es1 (length p) kk l) ed1 =
                        (p ++ [(Fin kk, l)]) ++ (u, r) :: q)
            by (rewrite <- app_assoc; exact HS2).
          rewrite (slot_at _ _ _ _ _ k (p ++ [(Fin kk, l)]) u r q (Fin kk) HC' HS3) in Hy.
          * rewrite (child_at_slot _ _ _ _ _ _ HS3) in Hy. injection Hy as <-.
            now apply roomy_split_needed.
          * apply chain_app. exists m. split; [assumption|]. cbn. auto.
          * destruct HB. split; [|assumption]. cbn. lia.
      - lia. }
    split; [exact H1|]. apply Hdown. exact H1.
Qed.

Lemma put_total : forall fuel h t nx kd k v f, wf h NegInf PosInf t -> fits h t ->
  (2 * h + 5 < fuel)%nat ->
  exists t' nx' st old h', put c fuel nx t kd k v f = Ok (t', nx', st, old) /\
    wf h' NegInf PosInf t' /\ fits h' t' /\ (h' <= S h)%nat.
Proof.
  intros fuel h t nx kd k v f HW HF HFu. destruct fuel as [|fuel]; [lia|]. cbn [put].
  destruct (split_needed c kd k v t) eqn:ES.
  - destruct (split_child_total h _ _ t (nx + 1) HW HF
                (split_needed_roomy _ _ _ _ _ _ _ HW HF ES))
      as [kk [l [r [HR [Fl [Fr _]]]]]].
    assert (HSR := split_root_ok c h t nx).
    unfold split_root, split_node in HSR |- *. rewrite HR in HSR |- *.
    cbn [set_child nth_error] in HSR |- *. cbn [total] in HSR |- *.
    rewrite (fx_i _ _ _ Hfx) in HSR |- *.
    pose proof (fx_capi _ _ _ Hfx) as HC. pose proof (fx_pos _ _ _ Hfx) as [_ HP].
    assert (HG : (0 + si <=? c_data c)%N = true) by lia. rewrite HG in HSR |- *.
    specialize (HSR _ _ HW eq_refl). destruct HSR as [HW' _].
    assert (HF' : fits (S h) (Inner nx no_id (ins_at [] 0 kk l) (Some r))).
    { cbn [fits ins_at firstn skipn app length slots map fst snd]. split; [lia|].
      constructor; [exact Fl|]. constructor; [exact Fr|constructor]. }
    destruct fuel as [|fuel]; [lia|]. cbn [put].
    assert (HS' : split_needed c kd k v (Inner nx no_id (ins_at [] 0 kk l) (Some r)) = false).
    { cbn [split_needed]. rewrite itotal, (fx_ineed _ _ _ Hfx).
      cbn [ins_at firstn skipn app length]. lia. }
    rewrite HS'.
    destruct (proj1 (do_put_total (S h)) fuel NegInf PosInf _ (nx + 1 + 1)%N kd k v f
                HW' (inb_top k) HF' HS' ltac:(lia)) as [t' [nx' [st [old [HR' HF'']]]]].
    exists t', nx', st, old, (S h). split; [exact HR'|].
    split; [|split; [assumption|lia]].
    eapply do_put_ok; [exact HW'|apply inb_top|exact HR'].
  - destruct (proj1 (do_put_total h) fuel NegInf PosInf t nx kd k v f
                HW (inb_top k) HF ES ltac:(lia)) as [t' [nx' [st [old [HR' HF'']]]]].
    exists t', nx', st, old, h. split; [exact HR'|].
    split; [|split; [assumption|lia]].
    eapply do_put_ok; [exact HW|apply inb_top|exact HR'].
Qed.

End WithCfg.
