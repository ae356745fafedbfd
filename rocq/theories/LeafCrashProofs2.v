(** * Proofs about the leaves after a crash: the groups through a CP. *)
From Coq Require Import ZArith List Bool Arith Lia.
From Verif Require Import Base WbModel WbSpec WbProofs DagModel DagSpec DagProofs DagProofs2 DagProofs3
  LeafCrashModel LeafCrashSpec LeafCrashProofs.
Import ListNotations.

Section Run.
Variable isnew : nat -> bool.
Variable lvl : nat -> nat.
Variable pos : nat -> Z.
Variable ismeta : nat -> bool.
Variable v : nat.
Notation lower := (lower lvl pos).
Notation GI := (GI isnew lvl v ismeta).
Notation RInv := (RInv isnew lvl pos ismeta).

Lemma nxt_leaf : forall f f' (F F' : nat -> bool), (forall b u, f b = Some u -> lower b u) ->
  (forall y, lvl y = v -> F' y = F y) -> (forall y, lvl y = v -> F y = true -> f' y = f y) ->
  forall b h, nxt f F b h -> lvl b = v -> lvl h = v -> f' b = f b -> nxt f' F' b h.
Proof.
  intros f f' F F' Hlo HF Hf b h H. induction H as [b u H1 H2|b u w H1 H2 H3 IH]; intros Hlb Hl Hb.
  - apply NHere; [congruence|]. rewrite HF; auto.
  - assert (Hu : lvl u = v).
    { apply (nxt_lower lvl pos _ _ Hlo) in H3. apply Hlo in H1. unfold WbProofs.lower in H1, H3. lia. }
    apply NOver with u; [congruence|now rewrite HF|]. apply IH; auto.
Qed.

Lemma gi_other W W' intro intro' F F' ab up ab' up' L0 L G :
  incl W W' -> GI W intro F ab up L0 L G -> (forall b u, ab b = Some u -> lower b u) -> (forall b u, up b = Some u -> lower b u) ->
  incl intro intro' -> (forall y, lvl y = v -> F' y = F y) ->
  (forall y, lvl y = v -> isnew y = true \/ F y = true -> ab' y = ab y /\ up' y = up y) ->
  (forall y, lvl y = v -> up' y = up y \/ exists u, up' y = Some u /\ ismeta u = true) ->
  GI W' intro' F' ab' up' L0 L G.
Proof.
  intros HWW [HO HC HG HND HLV HDN] La Lu Hi HF He Hr.
  assert (Hin : forall g i, In g G -> In i (ids (fst g)) \/ In i (ids (snd g)) -> lvl i = v).
  { intros g i Hg Hi2. apply HLV. destruct Hi2 as [H|H]; unfold ids in *; apply in_map_iff in H; destruct H as (z & Z1 & Z2);
      [left; rewrite HO|right; rewrite HC]; apply in_map_iff; exists z; (split; [assumption|]); apply in_flat_map; eauto. }
  constructor; auto.
  - intros g Hg. destruct (HG g Hg) as (h & ho & hc & ot & ct & W1 & W2 & W3 & W4 & WW & W5 & W6).
    assert (Hh : lvl h = v) by (apply (Hin g); [assumption|]; left; rewrite W1; now left).
    exists h, ho, hc, ot, ct. ands; auto.
    + now rewrite HF.
    + intros b Hb. destruct (W5 b Hb) as (Y1 & Y2 & Y3 & Y4 & Y5 & Y6).
      assert (Hb0 : lvl b = v) by (apply (Hin g); [assumption|]; right; rewrite W1; now right).
      destruct (He b Hb0 (or_introl Y1)) as [E1 E2]. unfold Cm. ands; auto.
      * now rewrite HF.
      * eapply (nxt_leaf ab); eauto. intros y Q1 Q2. apply He; auto.
      * eapply (nxt_leaf up); eauto. intros y Q1 Q2. apply He; auto.
      * intros P HP. rewrite E1 in HP. destruct (Y6 P HP) as [->|[V1 V2]]; [now left|]. right.
        assert (HP0 : lvl P = v).
        { apply (nxt_lower lvl pos _ _ Lu) in V2. apply La in HP. unfold WbProofs.lower in V2, HP. lia. }
        split; [now rewrite HF|]. eapply (nxt_leaf up); eauto; [intros y Q1 Q2|]; apply He; auto.
    + intros b Hb. destruct (W6 b Hb) as (Y1 & Y2 & Y3).
      assert (Hb0 : lvl b = v) by (apply (Hin g); [assumption|]; left; rewrite W1; now right).
      destruct (He b Hb0 (or_intror Y1)) as [E1 E2]. unfold Om. ands; auto.
      * now rewrite HF.
      * eapply (nxt_leaf up); eauto. intros y Q1 Q2. apply He; auto.
  - intros g h ho ot Hg E u Hu Hm.
    assert (Hh : lvl h = v) by (apply (Hin g); [assumption|]; left; rewrite E; now left).
    destruct (Hr h Hh) as [Eh|(m & Em & Hmm)]; [|rewrite Em in Hu; injection Hu as ->; congruence].
    rewrite Eh in Hu. destruct (HDN g h ho ot Hg E u Hu Hm) as [H|(x & X1 & X2 & X3)]; [now left|]. right. exists x.
    split; [now rewrite HF|]. split; [assumption|].
    eapply (nxt_leaf up); eauto; [intros y Q1 Q2|]; apply He; auto.
Qed.

(** What an operation does to the nodes of level [v]. *)
Inductive lshape : layout -> wop -> layout -> Prop :=
| HTx A c x Fr B p news freeds x' N : freeds = ids Fr -> news = ids N ->
    end_bound ((c, x) :: Fr) = end_bound ((c, x') :: N) ->
    lshape (A ++ (c, x) :: Fr ++ B) (OTransact p c news freeds) (A ++ (c, x') :: N ++ B)
| HSame L o :
    match o with
    | OTransact _ c _ _ => lvl c <> v
    | ORoot _ r => lvl r <> v \/ isnew r = false
    | _ => True
    end -> lshape L o L.
Lemma lstep_shape m L o L' : lstep v lvl isnew m L o L' -> lshape L (wop_of o) L'.
Proof.
  intros H. destruct H as [L c es Hc HFt|A c x Fr B p es x' N news freeds Efr Enw EB HFt|L o Ho]; cbn [wop_of].
  - now apply HSame.
  - now apply HTx.
  - apply HSame. now destruct o.
Qed.

Lemma op_gi W intro roots gone F w d o L0 L L' G w' d' :
  RInv intro roots gone F w d -> strict_op isnew lvl pos ismeta gone intro o = true ->
  lshape L o L' -> GI W intro F (above w) (ups d) L0 L G ->
  wexec w o = Some w' -> process_all d (record_of w' o) = Some d' ->
  exists G', GI (W ++ written_op o) (intro_op intro o) (fun b => F b || merged1 o b) (above w') (ups d') L0 L' G'.
Proof.
  intros [HL HN HD Hnw Hfr Hg] HS HT HG EW ED.
  assert (HO : legal_op isnew lvl pos intro o = true).
  { unfold strict_op in HS. apply andb_true_iff in HS. destruct HS as [HS _].
    apply andb_true_iff in HS. tauto. }
  assert (La := above_lower isnew lvl pos ismeta intro roots w HL).
  assert (Lu := ups_lower isnew lvl pos ismeta d HD).
  destruct (exec_linv isnew lvl pos intro roots w o HL HO HN) as [w0 [E [H1 [H2 [H3 [H4 H5]]]]]].
  rewrite EW in E. injection E as <-.
  destruct HT as [A c x Fr B p nw freeds x' N Efr Enw EB|L o Ho].
  - apply strict_tx in HS.
    assert (HFd := exec_freed isnew lvl pos ismeta gone intro roots w p c nw freeds w' HL HN HS EW).
    destruct HS as (Hkp & Hkc & Hlv & Hnd & Hn & Hf & HNf & Huse & Hne).
    assert (HR : record_of w' (OTransact p c nw freeds) = [Rec (above w' c) (Some c) nw freeds]).
    { cbn [record_of]. unfold above. destruct nw; [|reflexivity]. destruct freeds; [|reflexivity].
      destruct Hne; congruence. }
    destruct H5 as [K1 [K2 K3]].
    assert (Hcf : ~ In c freeds).
    { intros X. apply Hf in X. destruct X as [X _]. now apply lower_irrefl in X. }
    specialize (K2 Hcf).
    assert (Hgn : forall b, b = p \/ b = c \/ In b nw \/ In b freeds -> F b = false).
    { intros b Hb. destruct (F b) eqn:Eb; [|reflexivity]. apply Hg in Eb. apply Huse in Hb. tauto. }
    assert (Hkn : forall b, known isnew intro b = true -> isnew b && mem b intro = isnew b).
    { intros b Hb. unfold known in Hb. destruct (isnew b); [|reflexivity]. exact Hb. }
    assert (HP : exists P, above w' c = Some P).
    { rewrite K2. destruct (above w c) as [u|] eqn:Eu; [eauto|]. unfold real.
      destruct (isnew p) eqn:Ep; [|eauto].
      assert (X := known_above isnew lvl pos _ _ _ p HL Hkp Ep).
      destruct (above w p) as [u|] eqn:Eu2; [eauto|congruence]. }
    destruct HP as [P EP]. rewrite EP in HR.
    destruct (li_up _ _ _ _ _ _ H1 c P EP) as [P1 [P2 P3]].
    assert (Hdis : forall x, In x freeds -> ~ In x nw).
    { intros y Hx X. destruct (Hn y X) as [X1 [X2 X3]]. apply Hf in Hx. destruct Hx as [_ Hx].
      unfold known in Hx. rewrite X1 in Hx. cbn in Hx. now apply (proj1 (mem_iff y intro)) in Hx. }
    destruct (process_tx_ok isnew lvl pos ismeta d P c nw freeds HD P1 P2)
      as [d0 [E' [D1 [D2 [D3 [D4 [D5 [D6 D7]]]]]]]].
    { apply Huse. auto. }
    { rewrite Hnw. now apply Hkn. }
    { rewrite Hfr. apply Hgn. auto. }
    { intros y Hx. destruct (Hn y Hx) as [X1 [X2 X3]]. ands; auto. apply Huse. auto. }
    { intros y Hx. destruct (Hf y Hx) as [X1 X2]. ands; auto. apply Huse. auto. }
    rewrite HR in ED. cbn [process_all] in ED. rewrite E' in ED. injection ED as <-.
    assert (Hc0 : lvl c = v) by (apply (gi_lvl _ _ _ _ _ _ _ _ _ _ _ _ HG); right; rewrite ids_app, in_app_iff; right; now left).
    cbn [intro_op merged1].
    apply (gi_tx isnew lvl pos v ismeta W (W ++ nw ++ [c; p]) intro F (above w) (ups d) (above w') (ups d0) L0 G p c P nw freeds A x Fr B x' N); auto.
    + apply incl_appl, incl_refl.
    + rewrite !in_app_iff. right. right. now left.
    + rewrite D3. now rewrite Hfr.
    + intros y Hy. apply HFd; assumption.
    + intros n Hi. destruct (Hn n Hi) as (X1 & X2 & X3). ands; auto.
      cbn [legal_op] in HO. apply andb_true_iff in HO. destruct HO as [HO _].
      apply andb_true_iff in HO. destruct HO as [_ Hnw2]. rewrite forallb_forall in Hnw2.
      specialize (Hnw2 n Hi). apply andb_true_iff in Hnw2. destruct Hnw2 as [Q _].
      apply andb_true_iff in Q. destruct Q as [_ Q]. now apply Nat.eqb_eq in Q.
    + intros n Hi Hj. exact (Hdis n Hj Hi).
  - destruct o as [b|p c news freeds|r0 r|b].
    + cbn [record_of process_all intro_op merged1] in *. injection ED as <-. exists G.
      apply (gi_other W _ intro _ F _ (above w) (ups d) _ _ _ _ _ (incl_appl _ (incl_refl W)) HG La Lu).
      * apply incl_refl.
      * intros y _. apply orb_false_r.
      * intros y _ _. auto.
      * intros y _. auto.
    + apply strict_tx in HS.
      assert (HFd := exec_freed isnew lvl pos ismeta gone intro roots w p c news freeds w' HL HN HS EW).
      destruct HS as (Hkp & Hkc & Hlv & Hnd & Hn & Hf & HNf & Huse & Hne).
      assert (HR : record_of w' (OTransact p c news freeds) = [Rec (above w' c) (Some c) news freeds]).
      { cbn [record_of]. unfold above. destruct news; [|reflexivity]. destruct freeds; [|reflexivity].
        destruct Hne; congruence. }
      destruct H5 as [K1 [K2 K3]].
      assert (Hcf : ~ In c freeds).
      { intros X. apply Hf in X. destruct X as [X _]. now apply lower_irrefl in X. }
      specialize (K2 Hcf).
      assert (Hgn : forall b, b = p \/ b = c \/ In b news \/ In b freeds -> F b = false).
      { intros b Hb. destruct (F b) eqn:Eb; [|reflexivity]. apply Hg in Eb. apply Huse in Hb. tauto. }
      assert (Hkn : forall b, known isnew intro b = true -> isnew b && mem b intro = isnew b).
      { intros b Hb. unfold known in Hb. destruct (isnew b); [|reflexivity]. exact Hb. }
      assert (HP : exists P, above w' c = Some P).
      { rewrite K2. destruct (above w c) as [u|] eqn:Eu; [eauto|]. unfold real.
        destruct (isnew p) eqn:Ep; [|eauto].
        assert (X := known_above isnew lvl pos _ _ _ p HL Hkp Ep).
        destruct (above w p) as [u|] eqn:Eu2; [eauto|congruence]. }
      destruct HP as [P EP]. rewrite EP in HR.
      destruct (li_up _ _ _ _ _ _ H1 c P EP) as [P1 [P2 P3]].
      assert (Hdis : forall x, In x freeds -> ~ In x news).
      { intros y Hx X. destruct (Hn y X) as [X1 [X2 X3]]. apply Hf in Hx. destruct Hx as [_ Hx].
        unfold known in Hx. rewrite X1 in Hx. cbn in Hx. now apply (proj1 (mem_iff y intro)) in Hx. }
      destruct (process_tx_ok isnew lvl pos ismeta d P c news freeds HD P1 P2)
        as [d0 [E' [D1 [D2 [D3 [D4 [D5 [D6 D7]]]]]]]].
      { apply Huse. auto. }
      { rewrite Hnw. now apply Hkn. }
      { rewrite Hfr. apply Hgn. auto. }
      { intros y Hx. destruct (Hn y Hx) as [X1 [X2 X3]]. ands; auto. apply Huse. auto. }
      { intros y Hx. destruct (Hf y Hx) as [X1 X2]. ands; auto. apply Huse. auto. }
      rewrite HR in ED. cbn [process_all] in ED. rewrite E' in ED. injection ED as <-.
      cbn [legal_op] in HO. apply andb_true_iff in HO. destruct HO as [HO Hfr2].
      apply andb_true_iff in HO. destruct HO as [HO Hnw2]. rewrite forallb_forall in Hfr2, Hnw2.
      assert (Hl1 : forall y, In y news -> lvl y <> v).
      { intros y Hy. specialize (Hnw2 y Hy). apply andb_true_iff in Hnw2. destruct Hnw2 as [Q _].
        apply andb_true_iff in Q. destruct Q as [_ Q]. apply Nat.eqb_eq in Q. congruence. }
      assert (Hl2 : forall y, In y freeds -> lvl y <> v).
      { intros y Hy. specialize (Hfr2 y Hy). apply andb_true_iff in Hfr2. destruct Hfr2 as [Q _].
        apply Nat.eqb_eq in Q. congruence. }
      exists G. apply (gi_other W _ intro _ F _ (above w) (ups d) _ _ _ _ _ (incl_appl _ (incl_refl W)) HG La Lu).
      * cbn [intro_op]. apply incl_appr, incl_refl.
      * intros y Hy. cbn [merged1]. replace (mem y freeds) with false; [apply orb_false_r|].
        symmetry. apply mem_false. intros Z. exact (Hl2 y Z Hy).
      * intros y Hy _. assert (y <> c) by (intros ->; contradiction).
        assert (~ In y news) by (intros Z; exact (Hl1 y Z Hy)).
        assert (~ In y freeds) by (intros Z; exact (Hl2 y Z Hy)). auto.
      * intros y Hy. left. assert (y <> c) by (intros ->; contradiction).
        assert (~ In y news) by (intros Z; exact (Hl1 y Z Hy)).
        assert (~ In y freeds) by (intros Z; exact (Hl2 y Z Hy)). auto.
    + assert (HS' := HS). unfold strict_op in HS'. apply andb_true_iff in HS'. destruct HS' as [HS' HM].
      apply andb_true_iff in HS'. destruct HS' as [_ HGn]. apply andb_true_iff in HM. destruct HM as [Hm Hr].
      apply negb_true_iff in Hr. cbn [uses forallb] in HGn.
      apply andb_true_iff in HGn. destruct HGn as [HG1 HGn]. apply andb_true_iff in HGn. destruct HGn as [HG2 _].
      apply negb_true_iff in HG1, HG2. apply mem_false in HG1, HG2.
      cbn [legal_op] in HO. apply andb_true_iff in HO. destruct HO as [Hmn Hlv].
      apply negb_true_iff in Hmn. apply Nat.ltb_lt in Hlv.
      assert (HFm : F r0 = false) by (destruct (F r0) eqn:X; [apply Hg in X; contradiction|reflexivity]).
      assert (HFr : F r = false) by (destruct (F r) eqn:X; [apply Hg in X; contradiction|reflexivity]).
      assert (HR : record_of w' (ORoot r0 r) =
                   [if isnew r then Rec (Some r0) None [r] [] else Rec (Some r0) (Some r) [] []]).
      { cbn [record_of]. rewrite (li_new _ _ _ _ _ _ H1). reflexivity. }
      destruct (process_root_ok isnew lvl pos ismeta d r0 r HD Hmn) as [d0 [E' [D1 [D2 [D3 [D4 [D5 D6]]]]]]]; auto.
      { now left. }
      { now rewrite Hfr. }
      rewrite HR in ED. cbn [process_all] in ED. rewrite E' in ED. injection ED as <-.
      destruct H5 as [K1 K2]. exists G. apply (gi_other W _ intro _ F _ (above w) (ups d) _ _ _ _ _ (incl_appl _ (incl_refl W)) HG La Lu).
      * cbn [intro_op]. apply incl_tl, incl_refl.
      * intros y _. apply orb_false_r.
      * intros y Hy HH. assert (y <> r); [|auto]. intros ->. destruct Ho as [Ho|Ho]; [contradiction|].
        destruct HH as [HH|HH]; congruence.
      * intros y Hy. destruct (Nat.eq_dec y r) as [->|]; [|auto]. right. eauto.
    + cbn [record_of process_all intro_op merged1] in *. injection ED as <-. exists G.
      apply (gi_other W _ intro _ F _ (above w) (ups d) _ _ _ _ _ (incl_appl _ (incl_refl W)) HG La Lu).
      * apply incl_refl.
      * intros y _. apply orb_false_r.
      * intros y _ _. auto.
      * intros y _. auto.
Qed.

(** ** The leaves in memory *)
Lemma path_ext m m' a l e : (forall i, In i l -> m' i = m i) -> path m a l e -> path m' a l e.
Proof.
  intros H P. induction P as [e|i l e P IH]; [constructor|]. constructor. rewrite H by now left.
  apply IH. intros j Hj. apply H. now right.
Qed.
Lemma path_app m l1 l2 a e : path m a (l1 ++ l2) e <-> exists b, path m a l1 b /\ path m b l2 e.
Proof.
  revert a. induction l1 as [|i l1 IH]; intros a.
  - cbn. split; [intros H; exists a; split; [constructor|assumption]|]. intros [b [H1 H2]].
    inversion H1; subst. assumption.
  - cbn. split.
    + intros H. inversion H as [|? ? ? Q]; subst. apply IH in Q. destruct Q as [b [H1 H2]]. exists b. split; [now constructor|assumption].
    + intros [b [H1 H2]]. inversion H1; subst. constructor. apply IH. eauto.
Qed.
Lemma path_last m a l e : path m a l e -> l <> [] -> forall x, n_next (m (last l x)) = e.
Proof.
  intros P. induction P as [e|i l e P IH]; intros Hl x; [congruence|].
  destruct l as [|j l]; [inversion P; subst; reflexivity|]. change (last (i :: j :: l) x) with (last (j :: l) x).
  apply IH. discriminate.
Qed.
Lemma link_news_out news : forall m nx m' t, link_news m news nx = (m', t) ->
  forall i, ~ In i (map fst news) -> m' i = m i.
Proof.
  induction news as [|[j es] r IH]; intros m nx m' t H i Hi; cbn in H.
  - injection H as <- _. reflexivity.
  - destruct (link_news m r nx) as [m1 t1] eqn:E. injection H as <- <-. unfold mset.
    destruct (Nat.eqb_spec i j) as [->|]; [exfalso; apply Hi; now left|].
    apply (IH _ _ _ _ E). intros Z. apply Hi. now right.
Qed.
Lemma link_news_path news : forall m nx m' t, NoDup (map fst news) -> link_news m news nx = (m', t) ->
  path m' t (map fst news) nx.
Proof.
  induction news as [|[j es] r IH]; intros m nx m' t ND H; cbn in H.
  - injection H as <- <-. constructor.
  - destruct (link_news m r nx) as [m1 t1] eqn:E. injection H as <- <-. cbn in ND. inversion ND; subst.
    cbn. constructor. replace (n_next (mset m1 j (Ln es t1) j)) with t1 by (unfold mset; now rewrite Nat.eqb_refl).
    apply path_ext with m1; [|eapply IH; eauto]. intros i Hi. unfold mset.
    destruct (Nat.eqb_spec i j) as [->|]; [contradiction|reflexivity].
Qed.

Lemma step_path m L o L' : lstep v lvl isnew m L o L' -> NoDup (ids L) -> NoDup (ids L') ->
  (forall i, In i (match o with LTx _ _ _ news _ => map fst news | _ => [] end) -> ~ In i (ids L)) ->
  path m (head (ids L)) (ids L) None -> path (lexec m o) (head (ids L')) (ids L') None /\ head (ids L') = head (ids L).
Proof.
  intros H ND ND' Hnew P. destruct H as [L c es Hc HFt|A c x Fr B p es x' N news freeds Efr Enw EB HFt|L o Ho].
  - split; [|reflexivity]. cbn [lexec]. clear - P Hc.
    assert (G : forall a l e, path m a l e -> path (mset m c (Ln es (n_next (m c)))) a l e).
    { intros a l e Q. induction Q as [e|i l e Q IH]; [constructor|]. constructor.
      replace (n_next (mset m c (Ln es (n_next (m c))) i)) with (n_next (m i)); [assumption|].
      unfold mset. destruct (Nat.eqb_spec i c) as [->|]; reflexivity. }
    auto.
  - assert (HH : head (ids (A ++ (c, x') :: N ++ B)) = head (ids (A ++ (c, x) :: Fr ++ B))) by (destruct A; reflexivity).
    split; [|exact HH]. rewrite HH. cbn [lexec].
    destruct (link_news m news (n_next (m (last freeds c)))) as [m1 t] eqn:E.
    assert (I1 : ids (A ++ (c, x) :: Fr ++ B) = ids A ++ c :: ids Fr ++ ids B) by (rewrite ids_app; cbn; now rewrite ids_app).
    assert (I2 : ids (A ++ (c, x') :: N ++ B) = ids A ++ c :: ids N ++ ids B) by (rewrite ids_app; cbn; now rewrite ids_app).
    set (a0 := head (ids (A ++ (c, x) :: Fr ++ B))) in *. clearbody a0. clear HH.
    rewrite I1 in *. rewrite I2 in *.
    apply path_app in P. destruct P as [b [PA P]]. assert (b = Some c) by (inversion P; reflexivity). subst b.
    assert (PB : path m (n_next (m (last freeds c))) (ids B) None).
    { change (c :: ids Fr ++ ids B) with ((c :: ids Fr) ++ ids B) in P. apply path_app in P. destruct P as [b [PF PB]].
      replace (n_next (m (last freeds c))) with b; [assumption|]. symmetry.
      assert (Z := path_last _ _ _ _ PF ltac:(discriminate) c). rewrite Efr.
      destruct (ids Fr); [exact Z|]. exact Z. }
    assert (Hcn : ~ In c (ids A) /\ ~ In c (ids N) /\ ~ In c (ids B)).
    { change (c :: ids N ++ ids B) with ([c] ++ ids N ++ ids B) in ND'.
      destruct (nodup_mid _ _ _ ND' c) as [Z1 Z2]; [now left|]. rewrite in_app_iff in Z2. tauto. }
    assert (HnA : forall i, In i (ids N) -> ~ In i (ids A) /\ ~ In i (ids B)).
    { intros i Hi. change (c :: ids N ++ ids B) with ([c] ++ ids N ++ ids B) in ND'. rewrite app_assoc in ND'.
      destruct (nodup_mid _ _ _ ND' i Hi) as [Z1 Z2]. rewrite in_app_iff in Z1. tauto. }
    assert (HNN : NoDup (ids N)).
    { clear - ND'. induction (ids A); [|inversion ND'; auto]. cbn in ND'. inversion ND'; subst.
      clear - H2. induction (ids N); [constructor|]. inversion H2; subst. rewrite in_app_iff in *. constructor; [tauto|auto]. }
    set (m' := mset m1 c (Ln es t)).
    assert (E1 : forall i, i <> c -> m' i = m1 i).
    { intros i Hi. unfold m', mset. destruct (Nat.eqb_spec i c); [contradiction|reflexivity]. }
    assert (E2 : forall i, i <> c -> ~ In i (ids N) -> m' i = m i).
    { intros i Hi Hj. rewrite E1 by assumption. apply (link_news_out _ _ _ _ _ E). now rewrite Enw. }
    apply path_app. exists (Some c). split.
    + apply path_ext with m; [|exact PA]. intros i Hi. apply E2; [intros ->; tauto|]. intros Z. apply HnA in Z. tauto.
    + constructor. apply path_app. exists (n_next (m (last freeds c))). split.
      * replace (n_next (m' c)) with t by (unfold m', mset; now rewrite Nat.eqb_refl).
        apply path_ext with m1; [intros i Hi; apply E1; intros ->; tauto|]. rewrite <- Enw.
        apply (link_news_path _ _ _ _ _ ltac:(now rewrite Enw) E).
      * apply path_ext with m; [|exact PB]. intros i Hi. apply E2; [intros ->; tauto|]. intros Z. apply HnA in Z. tauto.
  - split; [exact P|reflexivity].
Qed.

Lemma lexec_out m o i : ~ In i (written_op (wop_of o)) -> lexec m o i = m i.
Proof.
  destruct o as [c es|p c es news freeds|o]; cbn [lexec wop_of written_op]; intros H.
  - unfold mset. destruct (Nat.eqb_spec i c) as [->|]; [exfalso; apply H; now left|reflexivity].
  - destruct (link_news m news _) as [m1 t] eqn:E. unfold mset.
    rewrite in_app_iff in H. cbn in H. destruct (Nat.eqb_spec i c) as [->|]; [tauto|].
    apply (link_news_out _ _ _ _ _ E). tauto.
  - reflexivity.
Qed.
Lemma step_fits m L o L' : lstep v lvl isnew m L o L' -> fits m None L -> fits (lexec m o) None L'.
Proof. intros H HF. now destruct H. Qed.

(** ** Through the whole CP *)
Lemma run_gi : forall l W intro roots gone F w d m L0 L G Lf,
  RInv intro roots gone F w d -> strict isnew lvl pos ismeta gone intro (map wop_of l) = true ->
  lsteps v lvl isnew m L l Lf -> GI W intro F (above w) (ups d) L0 L G ->
  path m (head (ids L)) (ids L) None -> fits m None L ->
  exists w' j d' intro' roots' gone' G', wrunj w (map wop_of l) = Some (w', j) /\ process_all d j = Some d' /\
    RInv intro' roots' gone' (fun b => F b || merged (map wop_of l) b) w' d' /\
    (forall x, In x (d_ids d') <-> In x (named j) \/ In x (d_ids d)) /\
    GI (W ++ written (map wop_of l)) intro' (fun b => F b || merged (map wop_of l) b) (above w') (ups d') L0 Lf G' /\
    path (lrun m l) (head (ids Lf)) (ids Lf) None /\ head (ids Lf) = head (ids L) /\ fits (lrun m l) None Lf /\
    (forall i, ~ In i (written (map wop_of l)) -> lrun m l i = m i).
Proof.
  induction l as [|o l IH]; intros W intro roots gone F w d m L0 L G Lf HR HS HT HG HP HFt.
  - inversion HT; subst. exists w, [], d, intro, roots, gone, G.
    assert (HF0 : forall b, F b || merged (map wop_of []) b = F b) by (intros; apply orb_false_r).
    ands; auto.
    + destruct HR as [X1 X2 X3 X4 X5 X6]. constructor; auto.
      * intros b. now rewrite HF0.
      * intros b. rewrite HF0. apply X6.
    + intros x. cbn. tauto.
    + apply (gi_other W _ intro _ F _ (above w) (ups d) _ _ _ _ _ (incl_appl _ (incl_refl W)) HG).
      * exact (above_lower isnew lvl pos ismeta intro roots w (ri_l _ _ _ _ _ _ _ _ _ _ HR)).
      * exact (ups_lower isnew lvl pos ismeta d (ri_d _ _ _ _ _ _ _ _ _ _ HR)).
      * apply incl_refl.
      * intros y _. apply HF0.
      * auto.
      * auto.
  - cbn [map strict] in HS. apply andb_true_iff in HS. destruct HS as [HS1 HS2].
    inversion HT as [|? ? ? L1 ? ? T1 T2]; subst.
    destruct (op_ok isnew lvl pos ismeta _ _ _ _ _ _ (wop_of o) HR HS1) as [w1 [d1 [roots1 [E1 [P1 [R1 [I1 _]]]]]]].
    destruct (op_gi _ _ _ _ _ _ _ _ _ _ _ _ _ _ HR HS1 (lstep_shape _ _ _ _ T1) HG E1 P1) as [G1 HG1].
    assert (Hsp := step_path m L o L1 T1 (gi_nd _ _ _ _ _ _ _ _ _ _ _ _ HG) (gi_nd _ _ _ _ _ _ _ _ _ _ _ _ HG1)).
    destruct Hsp as [HP1 HH1]; [|assumption|].
    { intros i Hi Hj. destruct o as [|p c es news freeds|]; try (destruct Hi; fail).
      cbn [wop_of] in HS1. apply strict_tx in HS1. destruct HS1 as (_ & _ & _ & _ & Hn & _).
      destruct (Hn i Hi) as (V1 & V2 & _). rewrite (gi_cur _ _ _ _ _ _ _ _ _ _ _ _ HG) in Hj.
      unfold ids in Hj. apply in_map_iff in Hj. destruct Hj as ([b' z] & Y1 & Y2). cbn in Y1. subst b'.
      apply in_flat_map in Y2. destruct Y2 as (g2 & Y2 & Y3).
      destruct (gi_ok _ _ _ _ _ _ _ _ _ _ _ _ HG g2 Y2) as (h2 & ho2 & hc2 & ot2 & ct2 & W1 & _ & W3 & _ & _ & W5 & W6).
      rewrite W1 in Y3. destruct Y3 as [Y3|Y3]; [congruence|]. apply (in_map fst) in Y3. apply W5 in Y3.
      destruct Y3 as (_ & Y3 & _). contradiction. }
    assert (HF1 := step_fits m L o L1 T1 HFt).
    destruct (IH _ _ _ _ _ _ _ _ _ _ _ _ R1 HS2 T2 HG1 HP1 HF1)
      as (w2 & j & d2 & intro2 & roots2 & gone2 & G2 & E2 & P2 & R2 & I2 & HG2 & HP2 & HH2 & HF2 & HO2).
    exists w2, (record_of w1 (wop_of o) ++ j), d2, intro2, roots2, gone2, G2.
    cbn [map wrunj]. rewrite E1, E2.
    assert (HFe : forall b, (F b || merged1 (wop_of o) b) || merged (map wop_of l) b = F b || merged (map wop_of (o :: l)) b).
    { intros b. cbn [map merged existsb]. fold (merged (map wop_of l) b). rewrite orb_assoc. reflexivity. }
    ands; auto.
    + rewrite process_all_app, P1. exact P2.
    + destruct R2 as [X1 X2 X3 X4 X5 X6]. constructor; auto.
      * intros b. rewrite X5. apply HFe.
      * intros b. cbn [map] in HFe. rewrite <- HFe. apply X6.
    + intros x. rewrite I2, I1, named_app, in_app_iff. tauto.
    + apply (gi_other _ _ intro2 _ _ _ (above w2) (ups d2) _ _ _ _ _ (fun x Hx => eq_rect_r (fun z => In x z) Hx (app_assoc W (written_op (wop_of o)) (written (map wop_of l)))) HG2).
      * exact (above_lower isnew lvl pos ismeta _ _ w2 (ri_l _ _ _ _ _ _ _ _ _ _ R2)).
      * exact (ups_lower isnew lvl pos ismeta d2 (ri_d _ _ _ _ _ _ _ _ _ _ R2)).
      * apply incl_refl.
      * intros y _. symmetry. apply HFe.
      * auto.
      * auto.
    + congruence.
    + intros i Hi. cbn [map written flat_map] in Hi. rewrite in_app_iff in Hi.
      transitivity (lexec m o i); [apply HO2; tauto|]. apply lexec_out. tauto.
Qed.
End Run.
