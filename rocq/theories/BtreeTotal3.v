(** With entries of fixed size the removal of a key ends normally. *)
From Coq Require Import ZArith NArith List Bool Lia.
From Coq Require Import ZifyBool ZifyNat ZifyN.
From Verif Require Import Base BtNodeModel BtNodeSpec BtNodeProofs BtreeModel BtreeInv.
From Verif Require Import BtreePut BtreeMerge BtreeMerge2 BtreeRemove BtreeTotal BtreeTotal2.
Import ListNotations.

Section WithCfg.
Variable c : cfg.
Variables sl si : N.
Hypothesis Hfx : cfg_fixed c sl si.
Hypothesis Hok : cfg_ok c.
Hypothesis Hel : merge_ends c sl.
Hypothesis Hei : merge_ends c si.

Lemma update_at_total : forall es ed i k x, (i <= length es)%nat ->
  exists es' ed', update_at c es ed i k x = Ok (es', ed') /\ length es' = length es.
Proof.
  intros es ed i k x H. unfold update_at.
  destruct (Nat.eqb_spec i (length es)) as [|Hi]; [eauto|].
  assert (HL : length (upd_at es i k x) = length es).
  { destruct (nth_error es i) as [p|] eqn:E; [|apply nth_error_None in E; lia].
    apply nth_error_split in E. destruct E as [a [b [-> <-]]].
    rewrite upd_at_app, !app_length. reflexivity. }
  rewrite !(itotal _ _ _ Hfx), HL, N.leb_refl. cbn [orb]. eauto.
Qed.

Lemma enter_news_total : forall rb es ed i, (i <= length es)%nat ->
  exists es' ed', enter_news c es ed i rb = Ok (es', ed') /\ length es' = length es.
Proof.
  induction rb as [|[k x] rb IH]; intros es ed i H; cbn [enter_news]; [eauto|].
  destruct (update_at_total es ed i k x H) as [es1 [ed1 [E1 L1]]]. rewrite E1.
  destruct (IH es1 ed1 (i - 1)%nat ltac:(lia)) as [es2 [ed2 [E2 L2]]]. rewrite E2.
  exists es2, ed2. split; [reflexivity|lia].
Qed.

Lemma enter_parent_total : forall es ed start end_ left lempty built,
  (start < end_ <= length es)%nat -> (length built < end_ - start)%nat ->
  exists es' ed',
    enter_parent c es ed start end_ (end_ - start) left lempty built = Ok (es', ed').
Proof.
  intros es ed start end_ left lempty built H HB. unfold enter_parent.
  set (ex := (end_ - start - length built)%nat).
  destruct (Nat.eqb_spec ex 0) as [|_]; [lia|].
  unfold remove_range.
  assert (HG : forall es1 ed1, (start <= length es1)%nat -> (end_ - ex <= length es1)%nat ->
    exists es' ed', match enter_news c es1 ed1 (end_ - ex) (rev built) with
      | Stop s => Stop s
      | Ok (es2, ed2) =>
        match (if lempty then Ok (set_child es2 ed2 start (snd left))
               else update_at c es2 ed2 start (fst left) (snd left)) with
        | Stop s => Stop s
        | Ok (es3, ed3) =>
          match es3, ed3 with
          | _ :: _, None =>
              if (last_key c es3 =? last_key c es)%Z then Ok (es3, ed3)
              else update_at c es3 ed3 (length es3 - 1) (last_key c es)
                     (last (map snd built) (snd left))
          | _, _ => Ok (es3, ed3)
          end
        end
      end = Ok (es', ed')).
  { intros es1 ed1 G1 G2.
    destruct (enter_news_total (rev built) es1 ed1 _ G2) as [es2 [ed2 [E2 L2]]]. rewrite E2.
    assert (G3 : exists es3 ed3, (if lempty then Ok (set_child es2 ed2 start (snd left))
               else update_at c es2 ed2 start (fst left) (snd left)) = Ok (es3, ed3)).
    { destruct lempty; [destruct (set_child es2 ed2 start (snd left)); eauto|].
      destruct (update_at_total es2 ed2 start (fst left) (snd left) ltac:(lia))
        as [es3 [ed3 [E3 _]]]. eauto. }
    destruct G3 as [es3 [ed3 E3]]. rewrite E3.
    destruct es3 as [|p es3]; [destruct ed3; eauto|]. destruct ed3; [eauto|].
    destruct (_ =? _)%Z; [eauto|].
    destruct (update_at_total (p :: es3) None (length (p :: es3) - 1) (last_key c es)
                (last (map snd built) (snd left)) ltac:(lia)) as [es4 [ed4 [E4 _]]].
    rewrite E4. eauto. }
  destruct (Nat.eqb_spec (start + ex) (length es)) as [E|E].
  - apply HG; rewrite firstn_length; lia.
  - apply HG; rewrite app_length, firstn_length, skipn_length; lia.
Qed.

(** The children afterwards. *)
Lemma enter_slots : forall es ed P k0 lt W Q kl l' lempty built es' ed',
  slots es ed = P ++ (Fin k0, lt) :: W ++ Q -> W <> [] ->
  (length built <= length W)%nat ->
  enter_parent c es ed (length P) (length P + length W) (length W) (kl, l') lempty built
    = Ok (es', ed') ->
  exists X, slots es' ed' = P ++ X ++ Q /\ map snd X = l' :: map snd built.
Proof.
  intros es ed P k0 lt W Q kl l' lempty built es' ed' HE HW HL HR.
  set (win := (if lempty then k0 else kl, l') :: built) in *.
  assert (Hlen : length (slots es ed) = (length P + 1 + length W + length Q)%nat)
    by (rewrite HE, !app_length; cbn [length]; rewrite app_length; lia).
  rewrite slots_length in Hlen.
  assert (HWl : (0 < length W)%nat) by (destruct W; [congruence|cbn; lia]).
  assert (Hwin : forall bi k x u, win = bi ++ [(k, x)] ->
    map snd (slots bi None ++ [(u : ext, x)]) = l' :: map snd built).
  { intros bi k x u Ew. change (l' :: map snd built) with (map snd win). rewrite Ew.
    rewrite !map_app, slots_none, map_map. cbn. f_equal. }
  destruct (exists_last (l := win)) as [bi [[kx x] Ebs]]; [discriminate|].
  destruct (slots_cut es ed P ((Fin k0, lt) :: W ++ Q) HE) as [a [b [Ees [EP Eb]]]].
  { destruct ed; lia. }
  assert (HPl : length P = length a) by (rewrite EP, slots_length; lia).
  destruct b as [|[k1 x1] b].
  { exfalso. unfold slots in Eb. destruct ed; cbn in Eb; discriminate. }
  change (slots ((k1, x1) :: b) ed) with ((Fin k1, x1) :: slots b ed) in Eb.
  injection Eb as <- <- Eb.
  assert (Hlenb : (length (slots b ed) = length W + length Q)%nat)
    by (rewrite <- Eb, app_length; reflexivity).
  rewrite slots_length in Hlenb.
  destruct (Nat.le_gt_cases (length W) (length b)) as [Hcase|Hcase].
  - destruct (slots_cut b ed W Q (eq_sym Eb) Hcase) as [w [q [-> [EW EQ]]]].
    assert (HWw : length W = length w) by (rewrite EW, slots_length; lia).
    subst es. rewrite HPl, HWw in HR.
    apply enter_parent_mid in HR; [|lia]. cbn zeta in HR. fold win in HR.
    destruct HR as [HR1 HR2]. rewrite <- EQ in *.
    destruct (nil_dec _ Q) as [HQ0|HQ0].
    + specialize (HR2 HQ0). rewrite HQ0. rewrite Ebs in *.
      rewrite removelast_last, last_last in HR2. cbn [snd] in HR2.
      rewrite <- EP in HR2. eexists. split; [rewrite app_nil_r; exact HR2|].
      apply (Hwin bi kx x). reflexivity.
    + specialize (HR1 HQ0). rewrite <- EP in HR1. eexists. split; [exact HR1|].
      rewrite slots_none, map_map. reflexivity.
  - destruct ed as [ee|]; [|lia].
    assert (HQ0 : Q = []) by (destruct Q; [reflexivity|cbn in Hlenb; lia]).
    subst Q es. rewrite app_nil_r in Eb. subst W.
    rewrite slots_length in *. rewrite HPl in HR.
    replace (length a + (length b + 1))%nat with (length a + 1 + length b)%nat in HR by lia.
    apply enter_parent_edge in HR; [|lia]. cbn zeta in HR. fold win in HR.
    rewrite Ebs in HR. rewrite removelast_last, last_last in HR. cbn [snd] in HR.
    rewrite <- EP in HR. eexists. split; [rewrite app_nil_r; exact HR|].
    apply (Hwin bi kx x). assumption.
Qed.

Lemma build_leaves_fits : forall news nx sn,
  Forall (fun w => sl * N.of_nat (length (fst w)) <= c_data c)%N news ->
  Forall (fits c sl si 0) (map snd (build_leaves c nx sn news)).
Proof.
  induction news as [|[es e] news IH]; intros nx sn H; cbn [build_leaves map snd]; constructor.
  - apply Forall_inv in H. exact H.
  - apply IH. now apply Forall_inv_tail in H.
Qed.

Lemma build_inners_fits : forall h news nx sn,
  Forall (fun w => si * N.of_nat (length (fst w)) <= c_data c)%N news ->
  Forall (fun w => Forall (fun s => fits c sl si h (snd s)) (slots (fst w) (snd w))) news ->
  Forall (fits c sl si (S h)) (map snd (build_inners c nx sn news)).
Proof.
  induction news as [|[es e] news IH]; intros nx sn H1 H2; cbn [build_inners map snd]; constructor.
  - apply Forall_inv in H1. apply Forall_inv in H2. split; assumption.
  - apply IH; eapply Forall_inv_tail; eassumption.
Qed.

Lemma as_inners_fits : forall h (W : list (ext * tree)) olds, as_inners (map snd W) = Some olds ->
  Forall (fun s => fits c sl si (S h) (snd s)) W ->
  Forall (fun w => Forall (fun s => fits c sl si h (snd s)) (slots (fst w) (snd w))) olds.
Proof.
  induction W as [|[u x] W IH]; intros olds H HF; cbn [map snd as_inners] in H.
  - injection H as <-. constructor.
  - destruct x as [|id nx es ed]; [discriminate|].
    destruct (as_inners (map snd W)) as [olds'|]; [|discriminate]. injection H as <-.
    constructor; [apply Forall_inv in HF; apply HF|].
    apply IH; [reflexivity|]. now apply Forall_inv_tail in HF.
Qed.

(** A property of children spread over segments. *)
Lemma Forall_slots_none : forall (Pr : tree -> Prop) es,
  Forall (fun s => Pr (snd s)) (slots es None) <-> Forall (fun p => Pr (snd p)) es.
Proof. intros. rewrite slots_none. apply Forall_map. Qed.

Lemma Forall_segs : forall (Pr : tree -> Prop) (segs : list (list (Z * tree) * option tree)),
  segs <> [] -> Forall (fun s => snd s = None) (removelast segs) ->
  (Forall (fun w => Forall (fun s => Pr (snd s)) (slots (fst w) (snd w))) segs <->
   Forall (fun s => Pr (snd s)) (slots (conc segs) (snd (last segs ([], None))))).
Proof.
  intros Pr. induction segs as [|[es e] segs IH]; intros Hn HF; [congruence|].
  destruct segs as [|s segs].
  - cbn [last fst snd]. rewrite conc_one. cbn [fst]. split.
    + intros H. now apply Forall_inv in H.
    + intros H. constructor; [assumption|constructor].
  - rewrite removelast_nonempty in HF by discriminate.
    pose proof (Forall_inv HF) as He. cbn [snd] in He. subst e. apply Forall_inv_tail in HF.
    specialize (IH ltac:(discriminate) HF).
    rewrite conc_cons. cbn [fst].
    change (last ((es, None) :: s :: segs) ([], None)) with (last (s :: segs) ([], None)).
    rewrite slots_app, Forall_app, <- IH. split.
    + intros H. split; [apply Forall_inv in H; exact H|now apply Forall_inv_tail in H].
    + intros [H1 H2]. constructor; assumption.
Qed.

Lemma merge_nodes_total : forall fuel h lo hi nx es ed start end_,
  chain (wf h) lo hi (slots es ed) -> (start < end_ <= start + 2)%nat ->
  (end_ < length (slots es ed))%nat -> (4 <= fuel)%nat ->
  Forall (fun s => fits c sl si h (snd s)) (slots es ed) ->
  exists r, merge_nodes c fuel nx es ed start end_ = Ok r /\
    match r with
    | None => True
    | Some (es', ed', _) =>
        (length (slots es' ed') < length (slots es ed))%nat /\
        Forall (fun s => fits c sl si h (snd s)) (slots es' ed')
    end.
Proof.
  intros fuel h lo hi nx es ed start end_ HC HSE HEnd HFu HF.
  unfold merge_nodes. destruct (negb (c_merge c)); [eexists; split; [reflexivity|exact I]|].
  pose proof (fx_pos _ _ _ Hfx) as [Pl Pi].
  (* the window *)
  destruct (nth_error (slots es ed) start) as [[u0 lt]|] eqn:EN;
    [|apply nth_error_None in EN; lia].
  rewrite child_at_slots, EN. cbn [option_map snd].
  apply nth_error_split in EN. destruct EN as [P [rest [HE HPl]]].
  set (W := firstn (end_ - start) rest). set (Q := skipn (end_ - start) rest).
  assert (HWl : length W = (end_ - start)%nat).
  { unfold W. rewrite firstn_length. rewrite HE, app_length in HEnd. cbn [length] in HEnd. lia. }
  assert (HCh : children es ed (S start) (end_ - start) = Some (map snd W)).
  { assert (HG : forall n p r, slots es ed = p ++ r -> (n <= length r)%nat ->
      children es ed (length p) n = Some (map snd (firstn n r))).
    { induction n as [|n IHn]; intros p r Hp Hr; [reflexivity|]. cbn [children].
      destruct r as [|[u y] r]; [cbn in Hr; lia|].
      rewrite (child_at_slot _ _ _ _ _ _ Hp).
      assert (Hp' : slots es ed = (p ++ [(u, y)]) ++ r) by (rewrite <- app_assoc; exact Hp).
      specialize (IHn _ _ Hp' ltac:(cbn in Hr; lia)).
      rewrite app_length in IHn. cbn [length] in IHn. rewrite Nat.add_1_r in IHn.
      rewrite IHn. reflexivity. }
    assert (Hp' : slots es ed = (P ++ [(u0, lt)]) ++ rest) by (rewrite <- app_assoc; exact HE).
    specialize (HG (end_ - start)%nat _ _ Hp').
    rewrite app_length in HG. cbn [length] in HG. rewrite Nat.add_1_r, HPl in HG.
    apply HG. rewrite HE, app_length in HEnd. cbn [length] in HEnd. lia. }
  rewrite HCh.
  assert (HE2 : slots es ed = P ++ (u0, lt) :: W ++ Q)
    by (rewrite HE; unfold W, Q; now rewrite firstn_skipn).
  clear HE HCh. clearbody W Q. clear rest. rename HE2 into HE.
  assert (HWn : W <> []) by (intros ->; cbn in HWl; lia).
  subst start. replace end_ with (length P + length W)%nat in * by lia.
  clear HWl. assert (HC0 := HC).
  rewrite HE in HC. apply chain_app in HC. destruct HC as [m [HP HC]].
  change ((u0, lt) :: W ++ Q) with (((u0, lt) :: W) ++ Q) in HC.
  apply chain_app in HC. destruct HC as [U [HWc HQ]].
  pose proof HWc as [HW1 [HW2 HW3]].
  assert (Hu0 : exists k0, u0 = Fin k0).
  { pose proof (chain_lt _ _ _ _ HW3 HWn) as Hlt.
    destruct u0; [destruct m; contradiction|eauto|destruct U; contradiction]. }
  destruct Hu0 as [k0 ->].
  assert (HF0 := HF). rewrite HE in HF0. apply Forall_app in HF0. destruct HF0 as [FP HF0].
  pose proof (Forall_inv HF0) as Flt. cbn [snd] in Flt. apply Forall_inv_tail in HF0.
  apply Forall_app in HF0. destruct HF0 as [FW FQ].
  assert (HW2l : (length W <= 2)%nat) by lia.
  assert (HEs : (length P + length W <= length es)%nat).
  { rewrite slots_length in HEnd. destruct ed; lia. }
  rewrite map_length. rewrite (fx_fixedk _ _ _ Hfx). cbn [negb andb].
  (* entering the result into the parent *)
  assert (Henter : forall l' lempty kl built nx',
    (length built < length W)%nat -> fits c sl si h l' ->
    Forall (fits c sl si h) (map snd built) ->
    exists r : option (list (Z * tree) * option tree * N), match enter_parent c es ed (length P) (length P + length W) (length W)
                      (kl, l') lempty built with
      | Stop s => Stop s
      | Ok (es', ed') => Ok (Some (es', ed', nx' : N))
      end = Ok r /\
      match r with
      | None => True
      | Some (es', ed', _) =>
          (length (slots es' ed') < length (slots es ed))%nat /\
          Forall (fun s => fits c sl si h (snd s)) (slots es' ed')
      end).
  { intros l' lempty kl built nx' HB Fl Fb.
    destruct (enter_parent_total es ed (length P) (length P + length W) (kl, l') lempty built)
      as [es' [ed' ER]].
    - assert (0 < length W)%nat by (destruct W; [congruence|cbn; lia]). lia.
    - lia.
    - replace (length P + length W - length P)%nat with (length W) in ER by lia. rewrite ER.
      eexists. split; [reflexivity|]. cbn beta iota.
      destruct (enter_slots _ _ _ _ _ _ _ _ _ _ _ _ _ HE HWn (Nat.lt_le_incl _ _ HB) ER) as [X [EX MX]].
      rewrite EX, HE. split.
      + rewrite !app_length. cbn [length]. rewrite app_length.
        apply (f_equal (@length _)) in MX. rewrite map_length in MX. cbn [length] in MX.
        rewrite map_length in MX. lia.
      + apply Forall_app. split; [assumption|]. apply Forall_app. split; [|assumption].
        apply (proj1 (Forall_map snd _ _)). rewrite MX. constructor; assumption. }
  destruct h as [|h], lt as [lid n0 les|lid n0 les led]; try contradiction.
  - destruct (as_leaves_ok W _ _ HW3) as [olds [EO [HOl [HOc [HOe HOo]]]]]. rewrite EO.
    destruct (redistribute_total (B:=N) c (lsz c) sl (lsz_const _ _ _ Hfx) Pl Hok Hel fuel (les, None) olds)
      as [r [ER Hr]]; try assumption.
    + intros ->; cbn in HOl; destruct W; [congruence|discriminate].
    + lia.
    + rewrite ER. destruct r as [[l news]|]; [|eexists; split; [reflexivity|exact I]].
      destruct Hr as [R1 [R2 R3]]. apply Henter.
      * rewrite build_leaves_length. lia.
      * exact R2.
      * now apply build_leaves_fits.
  - destruct (as_inners_ok h W _ _ HW3 HWn) as [olds [EO [HOl [HOe [HOl2 HOc]]]]].
    rewrite EO. destruct HW2 as [HW2n HW2].
    pose proof (chain_last_fin _ _ _ _ _ HW2). subst led.
    assert (HOn : olds <> []) by (intros ->; cbn in HOl; destruct W; [congruence|discriminate]).
    destruct (redistribute_total (B:=tree) c (isz c) si (isz_const _ _ _ Hfx tree) Pi Hok Hei fuel
                (les, None) olds) as [r [ER Hr]]; try assumption.
    + lia.
    + apply Flt.
    + rewrite ER. destruct r as [[l news]|]; [|eexists; split; [reflexivity|exact I]].
      destruct Hr as [R1 [R2 R3]].
      apply redistribute_ok in ER; [|intros p; apply (ok_isz c Hok)|assumption|reflexivity|assumption|assumption|lia].
      destruct ER as [_ [Q1 [_ [_ [Q4 Q5]]]]]. cbn [fst snd] in *.
      assert (Hall : Forall (fun w => Forall (fun s => fits c sl si h (snd s))
                (slots (fst w) (snd w))) (l :: news)).
      { apply Forall_segs; [discriminate|assumption|].
        rewrite conc_cons, Q1, Q5, slots_app. apply Forall_app. split; [apply Flt|].
        apply (Forall_segs _ olds HOn HOe). eapply as_inners_fits; eassumption. }
      apply Henter.
      * rewrite build_inners_length. lia.
      * cbn [fits]. split; [exact R2|]. apply Forall_inv in Hall. exact Hall.
      * apply build_inners_fits; [assumption|]. now apply Forall_inv_tail in Hall.
Qed.

Lemma del_list_length : forall k es, (length (del_list k es) <= length es)%nat.
Proof.
  induction es as [|[k0 v0] es IH]; cbn; [lia|]. destruct (k =? k0)%Z; cbn; lia.
Qed.

(** The fuel that one removal needs: at each level at most one merge per child
    and the way down. *)
Definition cap : nat := N.to_nat (c_data c / si).

Lemma slots_cap : forall h id next es ed, fits c sl si (S h) (Inner id next es ed) ->
  (length (slots es ed) <= S cap)%nat.
Proof.
  intros h id next es ed [H _]. rewrite slots_length. unfold cap.
  pose proof (fx_pos _ _ _ Hfx) as [_ Pi].
  assert (N.of_nat (length es) <= c_data c / si)%N by (apply N.div_le_lower_bound; lia).
  destruct ed; lia.
Qed.

Lemma do_remove_total : forall h n fuel lo hi t nx k,
  wf h lo hi t -> inb lo hi k -> fits c sl si h t ->
  (match t with Leaf _ _ _ => 0 | Inner _ _ es ed => length (slots es ed) end <= n)%nat ->
  (h * (cap + 6) + n + 6 <= fuel)%nat ->
  exists t' nx' st old, do_remove c fuel nx t k = Ok (t', nx', st, old) /\ fits c sl si h t'.
Proof.
  induction h as [|h IHh].
  - intros n fuel lo hi t nx k HW HK HF Hn HFu. destruct t as [id next es|]; [|contradiction].
    destruct fuel as [|fuel]; [lia|]. cbn [do_remove].
    rewrite (leaf_remove_ok es k (proj1 HW)).
    do 4 eexists. split; [reflexivity|]. cbn [fits] in *.
    pose proof (del_list_length k es).
    assert (sl * N.of_nat (length (del_list k es)) <= sl * N.of_nat (length es))%N
      by (apply N.mul_le_mono_l; lia). lia.
  - induction n as [|n IHn]; intros fuel lo hi t nx k HW HK HF Hn HFu;
      (destruct t as [|id next es ed]; [contradiction|]).
    { destruct HW as [HW _]. destruct (slots es ed); [congruence|cbn in Hn; lia]. }
    destruct fuel as [|fuel]; [lia|]. cbn [do_remove].
    pose proof HW as [HWn HC]. pose proof HF as [HF1 HF2].
    destruct (find_slot _ _ _ _ _ _ HC HK) as [p [u [x [q [m [HE [HI [HP [HB [HX HQ]]]]]]]]]].
    rewrite HI, (child_at_slot _ _ _ _ _ _ HE).
    assert (HFx : fits c sl si h x).
    { rewrite HE in HF2. apply Forall_app in HF2. destruct HF2 as [_ HF2].
      exact (Forall_inv HF2). }
    assert (Hdown : exists t' nx' st old,
      match do_remove c fuel nx x k with
      | Stop s => Stop s
      | Ok (x', nx', st, old) =>
          let '(es', ed') := set_child es ed (length p) x' in
          Ok (Inner id next es' ed', nx', st, old)
      end = Ok (t', nx', st, old) /\ fits c sl si (S h) t').
    { destruct (IHh (S cap) fuel m u x nx k HX HB HFx) as [x' [nx' [st [old [HR HFx']]]]].
      - destruct x as [|id' next' es0 ed0]; [lia|]. destruct h as [|h]; [contradiction|].
        eapply slots_cap; exact HFx.
      - cbn [Nat.mul] in HFu. lia.
      - rewrite HR.
        pose proof (fits_set_child c sl si h es ed p u x q x' HE HF1 HF2 HFx') as HS.
        destruct (set_child es ed (length p) x') as [es' ed'].
        do 4 eexists. split; [reflexivity|]. apply HS. }
    destruct (merge_needed c x && (length p <? merge_end c es ed (length p))%nat)%bool eqn:EM;
      [|exact Hdown].
    apply andb_prop in EM. destruct EM as [_ EM]. apply Nat.ltb_lt in EM.
    destruct (merge_nodes_total fuel h lo hi nx es ed (length p) (merge_end c es ed (length p)) HC)
      as [r [ER Hr]].
    + split; [assumption|]. unfold merge_end. pose proof (ok_merge c Hok).
      destruct ed; lia.
    + rewrite slots_length. unfold merge_end in *. destruct ed; lia.
    + lia.
    + assumption.
    + rewrite ER. destruct r as [[[es' ed'] nx']|]; [|exact Hdown].
      destruct Hr as [Hr1 Hr2].
      apply (merge_nodes_ok c Hok _ _ _ _ _ _ _ _ _ _ _ _ HC) in ER.
      2:{ split; [assumption|]. unfold merge_end. pose proof (ok_merge c Hok).
          destruct ed; lia. }
      destruct ER as [E1 [E2 _]].
      apply (IHn fuel lo hi).
      * split; assumption.
      * assumption.
      * split; [|assumption].
        assert (length es' <= length es)%nat
          by (rewrite !slots_length in Hr1; destruct ed, ed'; lia).
        assert (si * N.of_nat (length es') <= si * N.of_nat (length es))%N
          by (apply N.mul_le_mono_l; lia). lia.
      * lia.
      * lia.
Qed.

Lemma remove_total : forall h fuel t nx k, c_merge c = true ->
  wf h NegInf PosInf t -> fits c sl si h t ->
  (h * (cap + 7) + cap + 9 <= fuel)%nat ->
  exists t' nx' st old h', remove c fuel nx t k = Ok (t', nx', st, old) /\
    wf h' NegInf PosInf t' /\ fits c sl si h' t' /\ (h' <= h)%nat.
Proof.
  induction h as [|h IH]; intros fuel t nx k HM HW HF HFu;
    (destruct fuel as [|fuel]; [lia|]).
  - destruct t as [id next es|]; [|contradiction]. cbn [remove].
    destruct es as [|p es].
    { exists (Leaf id next []), nx, StNotFound, None, 0%nat. split; [reflexivity|]. auto. }
    destruct (do_remove_total 0 0 fuel NegInf PosInf (Leaf id next (p :: es)) nx k HW (inb_top k) HF)
      as [t' [nx' [st [old [HR HF']]]]]; [lia|lia|].
    exists t', nx', st, old, 0%nat. split; [exact HR|]. split; [|split; [assumption|lia]].
    eapply do_remove_ok; [exact Hok|exact HW|apply inb_top|exact HR].
  - destruct t as [|id next es ed]; [contradiction|].
    assert (Hgo : exists t' nx' st old h', do_remove c fuel nx (Inner id next es ed) k
      = Ok (t', nx', st, old) /\ wf h' NegInf PosInf t' /\ fits c sl si h' t' /\ (h' <= S h)%nat).
    { destruct (do_remove_total (S h) (S cap) fuel NegInf PosInf (Inner id next es ed) nx k
                  HW (inb_top k) HF) as [t' [nx' [st [old [HR HF']]]]].
      - eapply slots_cap; exact HF.
      - cbn [Nat.mul] in *. lia.
      - exists t', nx', st, old, (S h). split; [exact HR|]. split; [|split; [assumption|lia]].
        eapply do_remove_ok; [exact Hok|exact HW|apply inb_top|exact HR]. }
    cbn [remove]. destruct es as [|p es]; [|exact Hgo].
    destruct ed as [e|]; [|destruct HW as [HW _]; cbn in HW; congruence].
    rewrite HM.
    assert (HWe : wf h NegInf PosInf e).
    { destruct HW as [_ HW]. cbn in HW. tauto. }
    assert (HFe : fits c sl si h e).
    { destruct HF as [_ HF]. cbn in HF. exact (Forall_inv HF). }
    destruct (IH fuel e nx k HM HWe HFe) as [t' [nx' [st [old [h' [HR [W [F L]]]]]]]].
    + cbn [Nat.mul] in HFu. lia.
    + exists t', nx', st, old, h'. split; [exact HR|]. split; [assumption|].
      split; [assumption|lia].
Qed.

End WithCfg.
