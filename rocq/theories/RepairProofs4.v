(** * The repair of a node with a right sibling. *)
From Coq Require Import ZArith List Bool Arith Lia Permutation.
From Verif Require Import Base RepairModel RepairSpec RepairProofs RepairProofs2 RepairProofs3.
Import ListNotations.

Lemma raised_last last n : n_ents n <> [] -> last_key (raised last n) = Z.max last (last_key n).
Proof.
  intros H. unfold raised. destruct (Z.ltb_spec (last_key n) last); [|lia].
  destruct (snoc_or_nil (n_ents n)) as [E|(r & [k v] & E)]; [congruence|].
  unfold last_key at 1, set_last_key. cbn. rewrite E, rev_app_distr. cbn. rewrite rev_app_distr. cbn. lia.
Qed.

Section Inner.
Variables (fuel cap : nat) (d : disk) (root : nat) (ids : list nat) (pid : nat) (p : node).
Variables (h i0 s : nat) (sn : node) (b0 : list (nat * node)) (l : nat) (ln : node) (f : nat) (fn : node).
Let body := b0 ++ [(l, ln)].
Let last := Z.max (last_key p) (last_key ln).
Hypothesis Hcap : 0 < cap.
Hypothesis Hleaf : n_leaf p = false.
Hypothesis Hdel : n_del p = false.
Hypothesis Hnoedge : n_edge p = None.
Hypothesis Hroot : root <> pid.
Hypothesis Hsib : live_right d h (n_next p) (Some s).
Hypothesis Hsn : d s = Some sn.
Hypothesis Hsf : first_child sn = Some f.
Hypothesis Hfn : d f = Some fn.
Hypothesis Hfirst : first_child p = Some i0.
Hypothesis Hchain : chain d (Some i0) body (Some f).
Hypothesis Hinner : forall c, In c body -> inner p c.
Hypothesis Horder : forall c, In c body -> was_child p (fst c) = true \/ (last_key (snd c) <= last)%Z.
Hypothesis Hll : n_del ln = false /\ n_ents ln <> [].
Hypothesis Hhead : forall c r, body = c :: r -> n_del (snd c) = false.
(** The first child of the sibling ends the walk. *)
Hypothesis Hstop : (last_key ln <= last_key p)%Z ->
  n_del fn = false /\ (rightmost fn = true \/ was_child p f = false /\ (last_key p < last_key fn)%Z).
Hypothesis Hnd : NoDup (pid :: ids ++ map fst body ++ [f]).
Hypothesis Hids : length body < length ids.
Hypothesis Hfuel : h + length body < fuel.

Lemma repair_inner : exists o ps nxt,
  repair_links fuel cap d root ids pid p = Ok o /\ o_ok o = true /\ o_root o = root /\
  (nxt = n_next p \/ nxt = Some s) /\
  row (o_disk o) cap (n_level p) ps (map (entry p) (live b0) ++ [(last, l)]) None nxt /\
  ps <> [] /\ (exists ids', pid :: ids = map fst ps ++ ids') /\
  (exists cs, Forall2 relinked (live b0 ++ [(l, if Nat.ltb 1 (n_level p) then raised last ln else ln)]) cs /\
     chain (o_disk o) (Some i0) cs (Some f)) /\
  (forall i, ~ In i (pid :: ids ++ map fst body) -> o_disk o i = d i).
Proof.
  set (stop := if Z.ltb (last_key p) (last_key ln) then Some f else None).
  set (p1 := if Z.ltb (last_key p) (last_key ln) then set_next (Some s) p else p).
  set (x := Ctx false (Some s) (map (fun e => (snd e, fst e)) (n_ents p)) last stop cap).
  set (p2 := set_edge None (set_ents [] p1)).
  inversion Hnd as [|? ? N1 N2]; subst.
  assert (N4 : NoDup (map fst body ++ [f])).
  { clear -N2. revert N2. generalize (map fst body ++ [f]). intros v. induction ids; cbn; [auto|]. intros H. inversion H; auto. }
  assert (N3 := nodup_prefix _ _ N4).
  assert (N5 : ~ In f (map fst body)) by (apply NoDup_remove_2 in N4; now rewrite app_nil_r in N4).
  assert (HW : forall c, In c body -> wants x (snd c) (fst c) = true).
  { intros c Hc. destruct (Hinner c Hc) as [H1 H2]. unfold wants. rewrite H1. cbn [negb andb].
    destruct (orig_key (w_orig x) (fst c)) eqn:E; [reflexivity|].
    assert (X : was_child p (fst c) = false).
    { destruct (was_child p (fst c)) eqn:Y; [|reflexivity]. apply orig_was in Y. destruct Y as [k Y]. unfold x in E. cbn [w_orig] in E. congruence. }
    destruct H2 as [H2|H2]; [|congruence]. destruct (Horder c Hc) as [H3|H3]; [congruence|].
    destruct (n_ents (snd c)); [congruence|]. cbn. apply Z.leb_le. exact H3. }
  assert (HC : 0 < w_cap x) by exact Hcap.
  destruct (walk_body x d pid ids (n_level p) (n_next p2) (Some i0) HC body [] (Wst d ids (pid, p2) []) None (Some i0) (Some f) Hchain)
    as (w & pre & I1 & I2 & I3).
  { exact N3. }
  { exact HW. }
  { intros y Hy. unfold x, stop in Hy. cbn in Hy. destruct (Z.ltb _ _); [|discriminate]. injection Hy as <-. exact N5. }
  { intros l1 c l2 E E2. cbn. destruct l1 as [|c1 l1]; cbn in E.
    - rewrite (Hhead c l2 E) in E2. discriminate.
    - cbn. unfold live. cbn. rewrite (Hhead c1 _ E). discriminate. }
  { cbn. assumption. }
  { apply init_inv; unfold p2, p1; destruct (Z.ltb _ _); cbn; reflexivity || assumption. }
  cbn [app] in I1.
  assert (Hbne : body <> []). { unfold body. intros X. apply app_eq_nil in X. destruct X. discriminate. }
  assert (HF : s_disk w f = Some fn). { rewrite (wi_same _ _ _ _ _ _ _ _ _ _ _ I1); assumption. }
  (* how the walk ends *)
  assert (HWK : exists nxt, (nxt = n_next p \/ nxt = Some s) /\
     walk fuel x (Wst d ids (pid, p2) []) None i0 = Ok (on_cur (set_next nxt) w, true)).
  { assert (Hown : forall v, n_next (snd (s_cur w)) = v -> on_cur (set_next v) w = w).
    { intros v <-. destruct w as [wd wi [ci [cl clv ce ced cn cdl cm]] wdone]. reflexivity. }
    assert (Hcn : n_next (snd (s_cur w)) = n_next p2) by exact (linked_last _ _ _ (wi_link _ _ _ _ _ _ _ _ _ _ _ I1)).
    unfold stop in x. destruct (Z.ltb_spec (last_key p) (last_key ln)) as [H|H].
    - exists (Some s). split; [now right|]. rewrite Hown by exact Hcn.
      apply (I2 Hbne f eq_refl eq_refl i0 eq_refl). lia.
    - specialize (I3 (or_intror (or_intror eq_refl)) i0 f eq_refl eq_refl).
      destruct (Hstop ltac:(lia)) as (HD & HR).
      assert (X : walk fuel x (Wst d ids (pid, p2) []) None i0 = walk (S (fuel - S (length body))) x w pre f).
      { rewrite <- I3. f_equal. lia. }
      rewrite X. cbn [walk]. unfold rd. rewrite HF. cbn [bind]. unfold rightmost in HR.
      destruct (has_edge fn || n_leaf fn && match n_next fn with None => true | Some _ => false end) eqn:ER.
      + rewrite HD. exists (Some s). split; [now right|]. reflexivity.
      + destruct HR as [HR|[H1 H2]]; [discriminate|]. exists (n_next p). split; [now left|]. rewrite Hown by exact Hcn.
        assert (E1 : orig_key (w_orig x) f = None).
        { destruct (orig_key (w_orig x) f) as [k|] eqn:E; [|reflexivity]. exfalso.
          assert (Y : was_child p f = true) by (apply orig_was; exists k; exact E). congruence. }
        rewrite E1. cbn [w_edge x negb andb w_last].
        assert (E2 : Z.ltb last (last_key fn) = true). { apply Z.ltb_lt. unfold last. clear - H H2. lia. }
        cbn [w_last x]. rewrite E2. reflexivity. }
  destruct HWK as (nxt & Hnxt & HWK).
  destruct I1. destruct wi_kids as (cs & K1 & K2 & K3).
  destruct Hll as [Hl1 Hl2].
  destruct (wi_tail b0 (l, ln) eq_refl Hl1) as (re & Hre). cbn [fst] in Hre.
  assert (Hkey : key_of x (l, ln) = last_key ln). { unfold key_of. cbn. destruct (n_ents ln); [congruence|reflexivity]. }
  rewrite Hkey in Hre.
  set (cn := set_next nxt (snd (s_cur w))).
  assert (Hcnk : n_leaf cn = false /\ n_level cn = n_level p /\ n_del cn = false /\ n_edge cn = None).
  { apply (wi_kind (s_cur w)). unfold pars. apply in_or_app. right. now left. }
  assert (Hcne : n_ents cn = re ++ [(last_key ln, l)]) by exact Hre.
  assert (Hcnl : last_key cn = last_key ln). { unfold last_key at 1. now rewrite Hcne, rev_app_distr. }
  set (cn' := set_ents (re ++ [(last, l)]) cn).
  (* the last child *)
  destruct (snoc_or_nil cs) as [Ec|(cs0 & [l' n'] & Ec)].
  { exfalso. subst cs. unfold body in K1. rewrite live_snoc in K1. cbn [snd] in K1. rewrite Hl1 in K1.
    inversion K1. match goal with X : [] = live b0 ++ _ |- _ => symmetry in X; apply app_eq_nil in X; destruct X; discriminate | X : live b0 ++ _ = [] |- _ => apply app_eq_nil in X; destruct X; discriminate end. }
  assert (K1' := K1). unfold body in K1'. rewrite live_snoc in K1'. cbn [snd] in K1'. rewrite Hl1, Ec in K1'.
  apply Forall2_app_inv_l in K1'. destruct K1' as (u1 & u2 & K5 & K6 & K7).
  inversion K6 as [|a b la lb K8 K9]; subst. inversion K9; subst. apply app_inj_tail in K7. destruct K7 as [<- <-].
  assert (Ell : l' = l) by (symmetry; apply K8). subst l'.
  assert (Hn'e : n_ents n' = n_ents ln) by (symmetry; apply K8).
  assert (Hn'k : last_key n' = last_key ln) by (unfold last_key; now rewrite Hn'e).
  assert (HLd : s_disk w l = Some n'). { apply (chain_in _ _ _ _ (l, n') K2). apply in_or_app. right. now left. }
  set (d1 := if Nat.ltb 1 (n_level p) && Z.ltb (last_key ln) last
             then dput (s_disk w) l (set_mine (raised last n')) else s_disk w).
  assert (HFL : fix_last (s_disk w) last cn true = Ok (d1, cn', true)).
  { unfold fix_last.
    assert (E1 : negb (is_nil (n_ents cn)) && negb (has_edge cn) = true).
    { rewrite Hcne. destruct Hcnk as (_ & _ & _ & X). unfold has_edge. rewrite X, andb_false_r. now destruct re. }
    rewrite E1, Hcnl.
    assert (E2 : (if Z.ltb (last_key ln) last then set_ents (set_last_key last (n_ents cn)) cn else cn) = cn').
    { unfold cn'. destruct (Z.ltb_spec (last_key ln) last) as [H|H].
      - unfold set_last_key. rewrite Hcne, rev_app_distr. cbn. now rewrite rev_involutive.
      - assert (X : last = last_key ln) by (unfold last in *; lia). rewrite X, <- Hcne. destruct cn. reflexivity. }
    rewrite E2. destruct Hcnk as (_ & X & _). change (n_level cn') with (n_level cn). rewrite X.
    unfold d1. destruct (1 <? n_level p); [|reflexivity]. cbn [andb].
    change (n_ents cn') with (re ++ [(last, l)]). rewrite rev_app_distr. cbn [rev app].
    unfold rd. rewrite HLd. cbn [bind]. rewrite Hn'k. unfold raised. rewrite Hn'k. now destruct (Z.ltb (last_key ln) last). }
  set (ps0 := rev (s_done w) ++ [(fst (s_cur w), cn')]).
  assert (HidsN : pid :: ids = map fst ps0 ++ s_ids w).
  { rewrite wi_ids. unfold pars, ps0. now rewrite !map_app. }
  assert (HNps : NoDup (pid :: ids)).
  { constructor; [intros X; apply N1; apply in_or_app; now left|now apply nodup_prefix in N2]. }
  set (D := match rev (s_done w) with
            | [] => put_all d1 [(fst (s_cur w), cn')]
            | first :: others => put_all d1 (others ++ [(fst (s_cur w), cn')] ++ [] ++ [first])
            end).
  assert (HRUN : repair_links fuel cap d root ids pid p = Ok (Out D root (s_ids w) true)).
  { unfold repair_links. rewrite (sibling_ok d h p (Some s) Hsib) by lia. cbn [bind].
    assert (Ene : n_ents p <> []).
    { intros E. unfold first_child, has_edge in Hfirst. rewrite E, Hnoedge, andb_false_r in Hfirst. discriminate. }
    assert (E0 : is_nil (n_ents p) = false) by (destruct (n_ents p); [congruence|reflexivity]).
    rewrite E0. cbn [andb].
    assert (E1 : match n_ents p with (_, c) :: _ => Some c | [] => if has_edge p then n_edge p else None end = Some i0) by exact Hfirst.
    rewrite E1. clear E1.
    assert (E2 : exists n0 l0, body = (i0, n0) :: l0).
    { destruct body as [|c r]; [congruence|]. inversion Hchain; subst. eauto. }
    destruct E2 as (n0 & l0 & E2). assert (HCH := Hchain). rewrite E2 in HCH.
    assert (E3 : rd d i0 = Ok n0). { inversion HCH; subst. unfold rd. match goal with X : d i0 = _ |- _ => now rewrite X end. }
    rewrite E3. cbn [bind].
    assert (E5 : sibling_first_child fuel d p = Ok (Some f)).
    { unfold sibling_first_child. assert (Y : has_edge p = false) by (unfold has_edge; now rewrite Hnoedge, andb_false_r).
      rewrite Hleaf, Y. cbn [negb andb].
      rewrite (sibling_ok d h p (Some s) Hsib) by lia. cbn [bind]. unfold rd. rewrite Hsn. cbn [bind].
      unfold first_child in Hsf. now rewrite Hsf. }
    rewrite E5. cbn [bind].
    rewrite (scan_ok d (Some f) l0 i0 n0 (Some i0) (Some f) 0%Z false HCH).
    2: { intros y Hy. injection Hy as <-. intros X. apply N5. rewrite E2. now right. }
    2: { right. exists f. eauto. }
    2: { apply (f_equal (@length (nat * node))) in E2. cbn in E2. lia. }
    cbn [bind]. rewrite <- E2. unfold body. rewrite fold_left_app. cbn [fold_left].
    assert (E6 : is_nil (n_ents ln) = false) by (destruct (n_ents ln); [congruence|reflexivity]).
    assert (E8 : forall r, scan1 r (l, ln) = (last_key ln, true)).
    { intros r. unfold scan1. cbn [snd]. now rewrite Hl1, E6. }
    rewrite !E8. cbn [fst snd].
    match goal with |- context [bind ?t _] => assert (E7 : t = Ok (last, stop, p1)) end.
    { unfold stop, p1, last. destruct (Z.ltb_spec (last_key p) (last_key ln)); [rewrite Z.max_r by lia|rewrite Z.max_l by lia]; reflexivity. }
    rewrite E7. cbn [bind]. fold p2. fold x. rewrite HWK. cbn [bind].
    unfold on_cur. cbn [s_cur s_done s_ids s_disk fst snd]. fold cn.
    destruct (Nat.eqb_spec root pid) as [|_]; [congruence|]. rewrite andb_false_r. cbn [bind]. rewrite HFL. cbn [bind].
    unfold D. destruct (rev (s_done w)); reflexivity. }
  assert (R3 : NoDup (map fst (rev (s_done w) ++ [(fst (s_cur w), cn')] ++ []))).
  { rewrite app_nil_r. rewrite HidsN in HNps. unfold ps0 in HNps. exact (nodup_prefix _ _ HNps). }
  destruct (write_row d1 (rev (s_done w)) (fst (s_cur w), cn') [] D R3 eq_refl) as (W1 & _ & W3).
  assert (Hlink : linked ps0 nxt).
  { exact (linked_snoc _ _ (fst (s_cur w), cn') _ wi_link eq_refl). }
  assert (Hps0 : ps0 <> []). { unfold ps0. intros X. apply app_eq_nil in X. destruct X. discriminate. }
  assert (Hout : forall i, ~ In i (pid :: ids) -> D i = d1 i).
  { intros i Hi. apply W3. intros X. apply Hi. rewrite HidsN. apply in_or_app. left. rewrite app_nil_r in X. exact X. }
  assert (Hcs : forall c, In c body -> ~ In (fst c) (pid :: ids)).
  { intros c Hc [X|X].
    - apply N1. rewrite X. apply in_or_app. right. apply in_or_app. left. now apply in_map.
    - clear - N2 X Hc. assert (Hm : In (fst c) (map fst body ++ [f])) by (apply in_or_app; left; now apply in_map).
      revert N2 X Hm. generalize (map fst body ++ [f]) (fst c).
      intros v y. induction ids as [|z r IH]; cbn; [tauto|]. intros H H1 H2. inversion H; subst.
      destruct H1 as [<-|H1]; [apply H4, in_or_app; now right|auto]. }
  assert (Hlb : In (l, ln) body) by (unfold body; apply in_or_app; right; now left).
  exists (Out D root (s_ids w) true), (map mined ps0), nxt. cbn [o_ok o_disk o_root]. ands.
  - exact HRUN.
  - reflexivity.
  - reflexivity.
  - exact Hnxt.
  - constructor.
    + apply (linked_chain D ps0 nxt Hlink Hps0). exact W1.
    + intros q Hq. apply in_map_iff in Hq. destruct Hq as (q' & <- & Hq). cbn. unfold ps0 in Hq.
      apply in_app_iff in Hq. destruct Hq as [Hq|[<-|[]]].
      * destruct (wi_kind q') as (A1 & A2 & A3 & A4). { unfold pars. apply in_or_app. now left. } auto.
      * cbn. tauto.
    + intros q Hq. apply in_map_iff in Hq. destruct Hq as (q' & <- & Hq). cbn. unfold ps0 in Hq.
      apply in_app_iff in Hq. destruct Hq as [Hq|[<-|[]]].
      * apply in_rev in Hq. rewrite (wi_full q' Hq). cbn. lia.
      * cbn. rewrite Hre in wi_cur. rewrite app_length in *. exact wi_cur.
    + intros q Hq. unfold ps0 in Hq. rewrite map_app in Hq. cbn [map] in Hq. rewrite removelast_last in Hq.
      apply in_map_iff in Hq. destruct Hq as (q' & <- & Hq). cbn. split.
      * apply in_rev in Hq. exact (wi_full q' Hq).
      * apply (wi_kind q'). unfold pars. apply in_or_app. now left.
    + intros r q E. unfold ps0 in E. rewrite map_app in E. cbn [map] in E. apply app_inj_tail in E. destruct E as [_ <-].
      cbn. tauto.
    + rewrite flat_map_concat_map, map_map, <- flat_map_concat_map. unfold ps0. cbn.
      assert (X : flat_map (fun q => n_ents (snd q)) (rev (s_done w)) ++ re = map (entry p) (live b0)).
      { unfold pars in wi_ents. rewrite flat_map_app in wi_ents. cbn in wi_ents. rewrite app_nil_r, Hre in wi_ents.
        unfold body in wi_ents. rewrite live_snoc in wi_ents. cbn [snd] in wi_ents. rewrite Hl1, map_app, app_assoc in wi_ents.
        cbn [map] in wi_ents. apply app_inj_tail in wi_ents. destruct wi_ents as [X _]. rewrite X.
        apply map_ext. intros c. now apply entry_key. }
      rewrite flat_map_app. cbn. rewrite app_nil_r, app_assoc, X. reflexivity.
  - destruct ps0; [congruence|discriminate].
  - exists (s_ids w). rewrite HidsN, map_map. reflexivity.
  - exists (cs0 ++ [(l, if Nat.ltb 1 (n_level p) && Z.ltb (last_key ln) last then set_mine (raised last n') else n')]). split.
    + apply Forall2_app; [assumption|]. constructor; [|constructor].
      destruct K8 as (_ & A2 & A3 & A4 & A5 & A6). cbn [fst snd] in A2, A3, A4, A5, A6.
      destruct (1 <? n_level p); cbn [andb]; [|unfold relinked; cbn; auto 10].
      unfold raised. rewrite Hn'k. destruct (Z.ltb (last_key ln) last); unfold relinked; cbn; auto 10.
      rewrite Hn'e. auto 10.
    + rewrite Forall2_app_inv_l in * || idtac. apply chain_app in K2. destruct K2 as (m & K10 & K11).
      inversion K11 as [|a1 a2 a3 a4 K12 K13]; subst. apply chain_nil in K13.
      assert (HNl : NoDup (map fst (cs0 ++ [(l, n')]))).
      { rewrite <- (relinked_ids _ _ K1). now apply live_nodup. }
      rewrite map_app in HNl. cbn in HNl. apply NoDup_remove_2 in HNl. rewrite app_nil_r in HNl.
      apply chain_app. exists (Some l). split.
      * eapply chain_ext; [exact K10|]. intros c Hc.
        assert (X : In (fst c) (map fst (live b0))) by (rewrite (relinked_ids _ _ K5); now apply in_map).
        apply in_map_iff in X. destruct X as (y & EY & X). apply live_sub in X.
        rewrite Hout by (rewrite <- EY; apply Hcs; unfold body; apply in_or_app; now left).
        assert (Y := chain_in _ _ _ _ c K10 Hc).
        unfold d1. destruct (_ && _); [|exact Y]. unfold dput.
        destruct (Nat.eqb_spec (fst c) l) as [E|E]; [exfalso; apply HNl; rewrite <- E; now apply in_map|exact Y].
      * constructor.
        { rewrite Hout by exact (Hcs _ Hlb). unfold d1. destruct (_ && _); [unfold dput; now rewrite Nat.eqb_refl|exact HLd]. }
        { assert (X : n_next (if (1 <? n_level p) && Z.ltb (last_key ln) last then set_mine (raised last n') else n') = n_next n').
          { unfold raised. destruct ((1 <? n_level p) && Z.ltb (last_key ln) last); [|reflexivity]. destruct (Z.ltb (last_key n') last); reflexivity. }
          rewrite X, K13. constructor. }
  - intros i Hi. rewrite Hout. 2: { intros X. apply Hi. cbn in *. rewrite in_app_iff. tauto. }
    assert (Y : s_disk w i = d i). { apply wi_same. intros X. apply Hi. right. apply in_or_app. now right. }
    unfold d1. destruct (_ && _); [|exact Y]. unfold dput. destruct (Nat.eqb_spec i l) as [->|]; [|exact Y].
    exfalso. apply Hi. right. apply in_or_app. right. apply (in_map fst) in Hlb. exact Hlb.
Qed.
End Inner.
