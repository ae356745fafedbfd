(** * Proofs about the leaves after a crash: which leaves switch together. *)
From Coq Require Import ZArith List Bool Arith Lia.
From Verif Require Import Base WbModel WbSpec WbProofs DagModel DagSpec DagProofs DagProofs2 DagProofs3
  LeafCrashModel LeafCrashSpec.
Import ListNotations.

(** A group: leaves at the start of the CP, and the leaves now in their place. *)
Definition group := (layout * layout)%type.
Notation gfst := (@fst layout layout).
Notation gsnd := (@snd layout layout).

Lemma end_bound_app a b : b <> [] -> end_bound (a ++ b) = end_bound b.
Proof.
  intros H. unfold end_bound. rewrite map_app. induction a as [|x a IH]; [reflexivity|]. cbn [app map].
  rewrite <- IH. destruct (map snd a ++ map snd b) eqn:E; [|reflexivity].
  apply app_eq_nil in E. destruct E as [_ E]. now apply map_eq_nil in E.
Qed.
Lemma ids_app a b : ids (a ++ b) = ids a ++ ids b.
Proof. apply map_app. Qed.

Lemma split_at : forall (G : list group) A (c : nat * option Z) R, flat_map gsnd G = A ++ c :: R ->
  exists G1 g G2 a t, G = G1 ++ g :: G2 /\ A = flat_map gsnd G1 ++ a /\ snd g = a ++ c :: t /\ R = t ++ flat_map gsnd G2.
Proof.
  induction G as [|g G IH]; intros A c R H; cbn in H; [now destruct A|].
  apply app_eq_app in H. destruct H as [l [[H1 H2]|[H1 H2]]].
  - destruct l as [|y l]; cbn in H2.
    + rewrite app_nil_r in H1. destruct (IH [] c R (eq_sym H2)) as (G1 & g' & G2 & a & t & E1 & E2 & E3 & E4).
      exists (g :: G1), g', G2, a, t. ands; [now rewrite E1|cbn; rewrite <- app_assoc, <- E2; now rewrite app_nil_r|assumption|assumption].
    + injection H2 as <- H2. exists [], g, G, A, l. ands; auto.
  - destruct (IH l c R H2) as (G1 & g' & G2 & a & t & E1 & E2 & E3 & E4).
    exists (g :: G1), g', G2, a, t. ands; auto; [now rewrite E1|]. cbn. rewrite <- app_assoc, <- E2. assumption.
Qed.

Definition heads_ok (G : list group) : Prop :=
  forall g, In g G -> exists h ho hc ot ct, g = ((h, ho) :: ot, (h, hc) :: ct).
Lemma split_run : forall (G : list group) (t Fr B : layout), heads_ok G -> t ++ flat_map gsnd G = Fr ++ B ->
  exists Gm G2 rest, G = Gm ++ G2 /\ t ++ flat_map gsnd Gm = Fr ++ rest /\ B = rest ++ flat_map gsnd G2 /\
    (forall g h hc ct, In g Gm -> snd g = (h, hc) :: ct -> In h (ids Fr)).
Proof.
  induction G as [|g G IH]; intros t Fr B HH H.
  - exists [], [], B. cbn in *. ands; [reflexivity|assumption|now rewrite app_nil_r|]. intros g h hc ct [].
  - apply app_eq_app in H. destruct H as [l [[H1 H2]|[H1 H2]]].
    + exists [], (g :: G), l. ands; [reflexivity|cbn [flat_map]; now rewrite app_nil_r|assumption|]. intros g' h hc ct [].
    + destruct (HH g (or_introl eq_refl)) as (h & ho & hc & ot & ct & Eg).
      destruct l as [|y l].
      { exists [], (g :: G), []. ands; [reflexivity|cbn [flat_map]; rewrite !app_nil_r in *; congruence|cbn [app] in *; congruence|]. intros g' h' hc' ct' []. }
      cbn [flat_map] in H2.
      destruct (IH (snd g) (y :: l) B) as (Gm & G2 & rest & E1 & E2 & E3 & E4); [intros z Hz; apply HH; now right|assumption|].
      exists (g :: Gm), G2, rest. ands; auto.
      * now rewrite E1.
      * change (flat_map gsnd (g :: Gm)) with (snd g ++ flat_map gsnd Gm). rewrite E2, H1. now rewrite <- app_assoc.
      * intros g' h' hc' ct' [<-|Hg] Es.
        -- subst g. cbn [snd] in *. injection H2 as E _. injection Es as <- <- <-. subst Fr. rewrite ids_app. apply in_app_iff. right.
           left. now rewrite <- E.
        -- subst Fr. rewrite ids_app. apply in_app_iff. right. eauto.
Qed.

Section Groups.
Variable isnew : nat -> bool.
Variable lvl : nat -> nat.
Variable pos : nat -> Z.
Variable v : nat.
Variable ismeta : nat -> bool.
Notation lower := (lower lvl pos).

(** A leaf made in the CP, in the group of [h]. *)
Definition Cm (intro : list nat) (F : nat -> bool) (ab up : nat -> option nat) (h b : nat) : Prop :=
  isnew b = true /\ In b intro /\ F b = false /\ nxt ab F b h /\ nxt up F b h /\
  (forall P, ab b = Some P -> P = h \/ F P = true /\ nxt up F P h).
(** A leaf of the start of the CP, freed. *)
Definition Om (F : nat -> bool) (up : nat -> option nat) (h b : nat) : Prop :=
  F b = true /\ isnew b = false /\ nxt up F b h.
(** [Wr]: the nodes written so far. *)
Definition gok Wr intro F ab up (g : group) : Prop := exists h ho hc ot ct,
  g = ((h, ho) :: ot, (h, hc) :: ct) /\ end_bound (fst g) = end_bound (snd g) /\ isnew h = false /\ F h = false /\
  (ot ++ ct <> [] -> In h Wr) /\
  (forall b, In b (ids ct) -> Cm intro F ab up h b) /\ (forall b, In b (ids ot) -> Om F up h b).

Record GI (Wr intro : list nat) (F : nat -> bool) (ab up : nat -> option nat) (L0 L : layout) (G : list group) : Prop := mkGI {
  gi_old : L0 = flat_map gfst G;
  gi_cur : L = flat_map gsnd G;
  gi_ok : forall g, In g G -> gok Wr intro F ab up g;
  gi_nd : NoDup (ids L);
  gi_lvl : forall i, In i (ids L0) \/ In i (ids L) -> lvl i = v;
  gi_dn : forall g h ho ot, In g G -> fst g = (h, ho) :: ot -> forall u, up h = Some u -> ismeta u = false ->
            1 < length (snd g) \/ exists x, F x = true /\ lvl x = v /\ nxt up F x h }.

Lemma nodup_mid (X Y Z : list nat) : NoDup (X ++ Y ++ Z) -> forall i, In i Y -> ~ In i X /\ ~ In i Z.
Proof.
  intros H i Hi. split; intros Hj.
  - induction X as [|x X IH]; [destruct Hj|]. cbn in H. inversion H; subst.
    destruct Hj as [->|Hj]; [|auto]. apply H2. rewrite !in_app_iff. auto.
  - induction X as [|x X IH]; [|inversion H; subst; auto].
    cbn in H. induction Y as [|y Y IHY]; [destruct Hi|]. inversion H; subst.
    destruct Hi as [->|Hi]; [|auto]. apply H2. rewrite in_app_iff. auto.
Qed.

Lemma gi_tx Wr Wr' intro F ab up ab' up' L0 G p c P news freeds A x Fr B x' N :
  incl Wr Wr' -> In c Wr' ->
  GI Wr intro F ab up L0 (A ++ (c, x) :: Fr ++ B) G ->
  freeds = ids Fr -> news = ids N -> end_bound ((c, x) :: Fr) = end_bound ((c, x') :: N) ->
  (forall y, y <> c -> ~ In y news -> ~ In y freeds -> ab' y = ab y) ->
  (forall y, y <> c -> ~ In y news -> ~ In y freeds -> up' y = up y) ->
  ab' c = Some P -> (isnew c = true -> ab c <> None -> ab' c = ab c) ->
  up' c = (if F P then up P else Some P) ->
  (forall y, In y news -> ab' y = if isnew c then ab' c else Some c) ->
  (forall y, In y news \/ In y freeds -> up' y = if isnew c then up' c else Some c) ->
  (forall y, In y freeds -> (exists d, ab' d = Some y) -> ab' y = if isnew c then ab' c else Some c) ->
  F c = false -> F p = false -> (forall y, In y news \/ In y freeds -> F y = false) ->
  (forall n, In n news -> isnew n = true /\ ~ In n intro /\ lvl n = lvl c) -> NoDup news ->
  (forall n, In n news -> ~ In n freeds) -> news <> [] \/ freeds <> [] ->
  exists G', GI Wr' (news ++ intro) (fun y => F y || mem y freeds) ab' up' L0 (A ++ (c, x') :: N ++ B) G'.
Proof.
  intros HWW HcW [HO HC HG HND HLV HDN] Efr Enw EB Of Ou EP Ec Euc Nf Nu Ff Fc Fp Fx Hn NDn Hnf Hne.
  set (F' := fun y => F y || mem y freeds).
  destruct (split_at G A (c, x) (Fr ++ B)) as (G1 & g & Gr & a & t & E1 & E2 & E3 & E4); [now rewrite <- HC|].
  destruct (split_run Gr t Fr B) as (Gm & G2 & rest & E5 & E6 & E7 & E8).
  { intros z Hz. destruct (HG z) as (h & ho & hc & ot & ct & X & _); [subst G; apply in_app_iff; right; now right|eauto 10]. }
  { now symmetry. }
  assert (Hg : gok Wr intro F ab up g) by (apply HG; subst G; apply in_app_iff; right; now left).
  destruct Hg as (h & ho & hc & ot & ct & X1 & X2 & X3 & X4 & XW & X5 & X6).
  (* everything of the changed part *)
  set (M := a ++ (c, x) :: Fr ++ rest).
  assert (EM : M = snd g ++ flat_map gsnd Gm).
  { unfold M. rewrite E3, <- app_assoc. cbn. now rewrite E6. }
  assert (HL : A ++ (c, x) :: Fr ++ B = flat_map gsnd G1 ++ M ++ flat_map gsnd G2).
  { rewrite E2, E7. unfold M. rewrite <- !app_assoc. cbn. now rewrite <- !app_assoc. }
  assert (HNm : NoDup (ids (flat_map gsnd G1) ++ ids M ++ ids (flat_map gsnd G2))) by (rewrite <- !ids_app, <- HL; exact HND).
  assert (HMd : NoDup (ids M)).
  { clear -HNm. induction (ids (flat_map gsnd G1)); [|inversion HNm; auto]. cbn in HNm.
    induction (ids M); [constructor|]. inversion HNm; subst. constructor; [|auto]. rewrite in_app_iff in *. tauto. }
  assert (Mids : ids M = ids a ++ (c :: ids Fr) ++ ids rest).
  { unfold M. rewrite ids_app. cbn. now rewrite ids_app. }
  assert (Hcf : forall i, In i (c :: ids Fr) -> ~ In i (ids a) /\ ~ In i (ids rest)).
  { rewrite Mids in HMd. intros i Hi. eapply nodup_mid; eassumption. }
  assert (Hcc : ~ In c (ids Fr)).
  { rewrite Mids in HMd. clear -HMd. induction (ids a); [|inversion HMd; auto]. cbn in HMd. inversion HMd; subst. rewrite in_app_iff in *. tauto. }
  assert (Hh : h = c \/ In h (ids a)).
  { rewrite X1 in E3. cbn in E3. destruct a; cbn in E3; injection E3 as E3 _; [left|right]; [congruence|]. subst. now left. }
  assert (HhF : ~ In h freeds).
  { subst freeds. destruct Hh as [->|Hh]; [assumption|]. intros Z. destruct (Hcf h); [now right|contradiction]. }
  assert (HF'h : F' h = false) by (unfold F'; rewrite X4; now apply mem_false).
  assert (Hcnew : isnew c = false -> h = c).
  { intros Z. destruct (Nat.eq_dec c h) as [|Hd]; [auto|]. assert (Y : In c (ids (snd g))).
    { rewrite E3, ids_app. apply in_app_iff. right. now left. }
    rewrite X1 in Y. cbn in Y. destruct Y as [|Y]; [auto|]. apply X5 in Y. destruct Y as [Y _]. congruence. }
  assert (Hcold : isnew c = true -> Cm intro F ab up h c).
  { intros Z. assert (Y : In c (ids (snd g))).
    { rewrite E3, ids_app. apply in_app_iff. right. now left. }
    rewrite X1 in Y. cbn in Y. destruct Y as [Y|Y]; [congruence|]. now apply X5. }
  assert (HF' : forall y, F y = true -> F' y = true) by (intros y Hy; unfold F'; now rewrite Hy).
  assert (Hof : forall y, F y = true -> ab' y = ab y).
  { intros y Hy. apply Of; intros Z; subst; try congruence; rewrite Fx in Hy; auto; congruence. }
  assert (Hou : forall y, F y = true -> up' y = up y).
  { intros y Hy. apply Ou; intros Z; subst; try congruence; rewrite Fx in Hy; auto; congruence. }
  assert (HF'c : F' c = false) by (unfold F'; rewrite Fc; apply mem_false; subst freeds; assumption).
  (* keeping a head that stays *)
  assert (Kab : forall b y, nxt ab F b y -> ab' b = ab b -> F' y = false -> nxt ab' F' b y).
  { intros b y Y1 Y2 Y3. apply (nxt_compose ab ab' F F' Hof HF' b y Y2). exists y. split; [assumption|now rewrite Y3]. }
  assert (Kup : forall b y, nxt up F b y -> up' b = up b -> F' y = false -> nxt up' F' b y).
  { intros b y Y1 Y2 Y3. apply (nxt_compose up up' F F' Hou HF' b y Y2). exists y. split; [assumption|now rewrite Y3]. }
  assert (cAb0 : isnew c = true -> ab' c = ab c).
  { intros Z. apply Ec; [assumption|]. destruct (Hcold Z) as (_ & _ & _ & Y & _). inversion Y; congruence. }
  assert (cAb : isnew c = true -> nxt ab' F' c h).
  { intros Z. apply Kab; auto. now apply Hcold. }
  assert (cUp : isnew c = true -> nxt up' F' c h).
  { intros Z. destruct (Hcold Z) as (_ & _ & _ & _ & _ & Y). destruct (Y P) as [->|[Y1 Y2]]; [rewrite <- cAb0; auto| |].
    - rewrite X4 in Euc. now apply NHere.
    - rewrite Y1 in Euc. apply (nxt_same up' F' c P); [rewrite Euc; symmetry; auto|]. apply Kup; auto. }
  assert (viaAb : forall y, ab' y = (if isnew c then ab' c else Some c) -> nxt ab' F' y h).
  { intros y Y. destruct (isnew c) eqn:Z.
    - apply (nxt_same ab' F' y c h Y). auto.
    - rewrite Hcnew in * by reflexivity. now apply NHere. }
  assert (viaUp : forall y, up' y = (if isnew c then up' c else Some c) -> nxt up' F' y h).
  { intros y Y. destruct (isnew c) eqn:Z.
    - apply (nxt_same up' F' y c h Y). auto.
    - rewrite Hcnew in * by reflexivity. now apply NHere. }
  assert (Tab : forall b y, nxt ab F b y -> ab' b = ab b -> (y = h \/ In y freeds) -> nxt ab' F' b h).
  { intros b y Y1 Y2 [->|Y3]; [now apply Kab|].
    apply (nxt_compose ab ab' F F' Hof HF' b h Y2). exists y. split; [assumption|].
    replace (F' y) with true by (symmetry; unfold F'; apply orb_true_iff; right; now apply mem_iff).
    apply viaAb. apply Ff; [assumption|]. destruct (nxt_last _ _ _ _ Y1) as (z & Z1 & Z2).
    exists z. rewrite <- Z1. destruct Z2 as [->|Z2]; auto. }
  assert (Tup : forall b y, nxt up F b y -> up' b = up b -> (y = h \/ In y freeds) -> nxt up' F' b h).
  { intros b y Y1 Y2 [->|Y3]; [now apply Kup|].
    apply (nxt_compose up up' F F' Hou HF' b h Y2). exists y. split; [assumption|].
    replace (F' y) with true by (symmetry; unfold F'; apply orb_true_iff; right; now apply mem_iff).
    apply viaUp. auto. }
  assert (HcP : forall Q, ab' c = Some Q -> isnew c = true -> Q = h \/ F' Q = true /\ nxt up' F' Q h).
  { intros Q Y Z. destruct (Hcold Z) as (_ & _ & _ & _ & _ & W). destruct (W Q) as [->|[W1 W2]]; [rewrite <- cAb0; auto|now left|].
    right. split; [auto|]. apply Kup; auto. }
  (* members that stay *)
  assert (Hstay : forall b, In b (ids M) -> ~ In b freeds -> b <> h -> Cm (news ++ intro) F' ab' up' h b).
  { intros b Hb Hbf Hbh. destruct (Nat.eq_dec b c) as [->|Hbc].
    { destruct (isnew c) eqn:Z; [|exfalso; apply Hbh; now rewrite Hcnew].
      destruct (Hcold eq_refl) as (Y1 & Y2 & Y3 & _). unfold Cm. ands; auto. apply in_app_iff. now right. }
    assert (Hy : exists y, Cm intro F ab up y b /\ (y = h \/ In y freeds)).
    { rewrite EM, ids_app in Hb. apply in_app_iff in Hb. destruct Hb as [Hb|Hb].
      - exists h. rewrite X1 in Hb. cbn in Hb. destruct Hb as [|Hb]; [congruence|]. split; [auto|now left].
      - unfold ids in Hb. apply in_map_iff in Hb. destruct Hb as ([b' z] & Y1 & Y2). cbn in Y1. subst b'.
        apply in_flat_map in Y2. destruct Y2 as (g2 & Y2 & Y3).
        destruct (HG g2) as (h2 & ho2 & hc2 & ot2 & ct2 & W1 & _ & _ & _ & _ & W5 & _).
        { subst G Gr. rewrite !in_app_iff. right. right. rewrite in_app_iff. now left. }
        assert (W : In h2 (ids Fr)) by (apply (E8 g2 h2 hc2 ct2 Y2); now rewrite W1).
        exists h2. split; [|right; now subst freeds]. apply W5. rewrite W1 in Y3. cbn in Y3.
        destruct Y3 as [Y3|Y3]; [|now apply (in_map fst) in Y3].
        exfalso. apply Hbf. injection Y3 as <- _. now subst freeds. }
    destruct Hy as (y & (Y1 & Y2 & Y3 & Y4 & Y5 & Y6) & Y7).
    assert (Hbn : ~ In b news) by (intros Z; destruct (Hn b Z) as (_ & W & _); contradiction).
    unfold Cm. ands; auto.
    + apply in_app_iff. now right.
    + unfold F'. rewrite Y3. now apply mem_false.
    + eapply Tab; eauto.
    + eapply Tup; eauto.
    + intros Q HQ. rewrite Of in HQ by assumption. destruct (Y6 Q HQ) as [->|[W1 W2]].
      * destruct Y7 as [->|Y7]; [now left|]. right. split; [unfold F'; apply orb_true_iff; right; now apply mem_iff|]. auto.
      * right. split; [auto|]. eapply Tup; eauto. }
  assert (Hnews : forall b, In b (ids N) -> Cm (news ++ intro) F' ab' up' h b).
  { intros b Hb. rewrite <- Enw in Hb. destruct (Hn b Hb) as (Y1 & Y2 & _). unfold Cm. ands; auto.
    - apply in_app_iff. now left.
    - unfold F'. rewrite Fx by auto. apply mem_false. auto.
    - intros Q HQ. rewrite Nf in HQ by assumption. destruct (isnew c) eqn:Z; [now apply HcP|].
      injection HQ as <-. left. symmetry. auto. }
  (* the groups not touched *)
  assert (Hother : forall g2, In g2 (G1 ++ G2) -> gok Wr' (news ++ intro) F' ab' up' g2 /\
    forall h ho ot, fst g2 = (h, ho) :: ot -> forall u, up' h = Some u -> ismeta u = false ->
            1 < length (snd g2) \/ exists x, F' x = true /\ lvl x = v /\ nxt up' F' x h).
  { intros g2 Hg2. destruct (HG g2) as (h2 & ho2 & hc2 & ot2 & ct2 & W1 & W2 & W3 & W4 & WW & W5 & W6).
    { subst G Gr. rewrite !in_app_iff in *. cbn. rewrite in_app_iff. tauto. }
    assert (Hid : forall i, In i (ids (snd g2)) -> ~ In i (ids M)).
    { intros i Hi Hm. destruct (nodup_mid _ _ _ HNm i Hm) as [Z1 Z2].
      assert (Hin : forall GG, In g2 GG -> In i (ids (flat_map gsnd GG))).
      { intros GG Hgg. unfold ids in *. apply in_map_iff in Hi. destruct Hi as (u & U1 & U2). apply in_map_iff.
        exists u. split; [assumption|]. apply in_flat_map. eauto. }
      apply in_app_iff in Hg2. destruct Hg2; eauto. }
    assert (Hid2 : forall i, In i (ids (snd g2)) -> i <> c /\ ~ In i freeds).
    { intros i Hi. specialize (Hid i Hi). rewrite Mids in Hid. subst freeds. rewrite !in_app_iff in Hid. cbn in Hid. split; [intros ->|]; tauto. }
    assert (Hh2 : h2 <> c /\ ~ In h2 freeds) by (apply Hid2; rewrite W1; now left).
    assert (HF2 : F' h2 = false) by (unfold F'; rewrite W4; now apply mem_false).
    split; [|intros h3 ho3 ot3 Y u Hu Hmu].
    2: { assert (h3 = h2) by (rewrite W1 in Y; cbn in Y; congruence). subst h3.
      assert (Hhn : ~ In h2 news) by (intros Z; destruct (Hn h2 Z) as (W & _); congruence).
      rewrite Ou in Hu by tauto. destruct (HDN g2 h2 ho3 ot3) with (u := u) as [V|(z & V1 & V0 & V2)]; auto.
      - subst G Gr. rewrite !in_app_iff in *. cbn. rewrite in_app_iff. tauto.
      - right. exists z. ands; auto. }
    exists h2, ho2, hc2, ot2, ct2. ands; auto.
    - intros b Hb. destruct (W5 b Hb) as (Y1 & Y2 & Y3 & Y4 & Y5 & Y6).
      destruct (Hid2 b) as [Hbc Hbf]; [rewrite W1; now right|].
      assert (Hbn : ~ In b news) by (intros Z; destruct (Hn b Z) as (_ & W & _); contradiction).
      unfold Cm. ands; auto.
      + apply in_app_iff. now right.
      + unfold F'. rewrite Y3. now apply mem_false.
      + intros Q HQ. rewrite Of in HQ by assumption. destruct (Y6 Q HQ) as [->|[V1 V2]]; [now left|].
        right. split; auto.
    - intros b Hb. destruct (W6 b Hb) as (Y1 & Y2 & Y3). unfold Om. ands; auto. }
  (* the new group *)
  set (gn := (fst g ++ flat_map gfst Gm, a ++ (c, x') :: N ++ rest) : group).
  assert (Hcur : exists hc' ct', snd gn = (h, hc') :: ct' /\ forall b, In b (ids ct') -> Cm (news ++ intro) F' ab' up' h b).
  { cbn [gn snd]. destruct a as [|[h' z] a'].
    - assert (h = c) as -> by (destruct Hh as [|[]]; assumption).
      exists x', (N ++ rest). split; [reflexivity|]. intros b Hb. rewrite ids_app, in_app_iff in Hb.
      destruct Hb as [Hb|Hb]; [auto|]. apply Hstay.
      + rewrite Mids, !in_app_iff. auto.
      + subst freeds. intros Z. destruct (Hcf b); [now right|contradiction].
      + intros ->. destruct (Hcf c); [now left|contradiction].
    - assert (h' = h) as -> by (rewrite X1 in E3; cbn in E3; congruence).
      exists z, (a' ++ (c, x') :: N ++ rest). split; [reflexivity|]. intros b Hb.
      rewrite ids_app in Hb. cbn in Hb. rewrite ids_app, in_app_iff in Hb. cbn in Hb. rewrite in_app_iff in Hb.
      assert (Hha : ~ In h (ids a')).
      { rewrite Mids in HMd. cbn in HMd. inversion HMd; subst. rewrite in_app_iff in *. tauto. }
      destruct Hb as [Hb|[<-|[Hb|Hb]]]; [| |auto|]; apply Hstay.
      + rewrite Mids, !in_app_iff. cbn. auto.
      + subst freeds. intros Z. destruct (Hcf b) as [Y _]; [now right|]. apply Y. now right.
      + intros ->. contradiction.
      + rewrite Mids, !in_app_iff. cbn. auto.
      + now subst freeds.
      + intros ->. destruct (Hcf h) as [Y _]; [now left|]. apply Y. now left.
      + rewrite Mids, !in_app_iff. auto.
      + subst freeds. intros Z. destruct (Hcf b) as [_ Y]; [now right|]. contradiction.
      + intros ->. rewrite Mids in HMd. cbn in HMd. apply NoDup_cons_iff in HMd. destruct HMd as [HMd _]. apply HMd.
        rewrite in_app_iff. right. right. rewrite in_app_iff. now right. }
  assert (Hold : exists ot', fst gn = (h, ho) :: ot' /\ forall b, In b (ids ot') -> Om F' up' h b).
  { exists (ot ++ flat_map gfst Gm). split; [unfold gn; cbn [fst]; now rewrite X1|].
    intros b Hb. rewrite ids_app, in_app_iff in Hb. destruct Hb as [Hb|Hb].
    - destruct (X6 b Hb) as (Y1 & Y2 & Y3). unfold Om. ands; auto.
    - unfold ids in Hb. apply in_map_iff in Hb. destruct Hb as ([b' z] & Y1 & Y2). cbn in Y1. subst b'.
      apply in_flat_map in Y2. destruct Y2 as (g2 & Y2 & Y3).
      destruct (HG g2) as (h2 & ho2 & hc2 & ot2 & ct2 & W1 & _ & W3 & _ & _ & W5 & W6).
      { subst G Gr. rewrite !in_app_iff. right. right. rewrite in_app_iff. now left. }
      assert (W : In h2 freeds) by (subst freeds; apply (E8 g2 h2 hc2 ct2 Y2); now rewrite W1).
      rewrite W1 in Y3. cbn in Y3. destruct Y3 as [Y3|Y3].
      + injection Y3 as <- _. unfold Om. ands; auto. unfold F'. apply orb_true_iff. right. now apply mem_iff.
      + apply (in_map fst) in Y3. destruct (W6 b Y3) as (V1 & V2 & V3). unfold Om. ands; auto. eapply Tup; eauto. }
  assert (Hend : end_bound (fst gn) = end_bound (snd gn)).
  { assert (Hall : end_bound (fst g ++ flat_map gfst Gm) = end_bound M).
    { rewrite EM. assert (HGm : forall g2, In g2 Gm -> gok Wr intro F ab up g2).
      { intros g2 Y. apply HG. subst G Gr. rewrite !in_app_iff. right. right. rewrite in_app_iff. now left. }
      assert (X1' : fst g <> [] /\ snd g <> []) by (rewrite X1; split; discriminate).
      clear - HGm X2 X1'. revert g X2 X1'. induction Gm as [|g2 Gm IH]; intros g X2 X1'; cbn [flat_map].
      - now rewrite !app_nil_r.
      - destruct (HGm g2 (or_introl eq_refl)) as (h2 & ho2 & hc2 & ot2 & ct2 & W1 & W2 & _).
        assert (Q : fst g2 <> [] /\ snd g2 <> []) by (rewrite W1; split; discriminate).
        assert (R := IH (fun z Hz => HGm z (or_intror Hz)) g2 W2 Q).
        rewrite (end_bound_app (fst g)), (end_bound_app (snd g)); [exact R| |]; intros Z; apply app_eq_nil in Z; tauto. }
    unfold gn. cbn [fst snd]. rewrite Hall. unfold M. rewrite !(end_bound_app a) by discriminate.
    destruct rest as [|r rest].
    - rewrite !app_nil_r. exact EB.
    - change ((c, x) :: Fr ++ r :: rest) with (((c, x) :: Fr) ++ r :: rest).
      change ((c, x') :: N ++ r :: rest) with (((c, x') :: N) ++ r :: rest).
      rewrite !end_bound_app by discriminate. reflexivity. }
  exists (G1 ++ gn :: G2). constructor.
  - rewrite HO, E1, E5. rewrite !flat_map_app. cbn [flat_map gn fst]. rewrite flat_map_app. now rewrite <- !app_assoc.
  - rewrite flat_map_app. cbn [flat_map gn snd]. rewrite E2, E7. rewrite <- !app_assoc. cbn. now rewrite <- !app_assoc.
  - intros g2 Hg2. apply in_app_iff in Hg2. destruct Hg2 as [Y|[<-|Y]].
    + refine (proj1 (Hother g2 _)). apply in_app_iff. now left.
    + destruct Hcur as (hc' & ct' & Y1 & Y2). destruct Hold as (ot' & Y3 & Y4).
      exists h, ho, hc', ot', ct'. ands; auto; [rewrite <- Y1, <- Y3; now destruct gn|].
      intros _. destruct Hh as [->|Hh]; [assumption|]. apply HWW, XW. intros Z. apply app_eq_nil in Z. destruct Z as [_ Z].
      rewrite X1, Z in E3. cbn in E3. destruct a as [|z [|z' a]]; cbn in E3; [destruct Hh|discriminate|discriminate].
    + refine (proj1 (Hother g2 _)). apply in_app_iff. now right.
  - assert (HI : forall i, In i news -> ~ In i (ids (A ++ (c, x) :: Fr ++ B))).
    { intros i Hi Hj. destruct (Hn i Hi) as (V1 & V2 & _). rewrite HC in Hj.
      unfold ids in Hj. apply in_map_iff in Hj. destruct Hj as ([b' z] & Y1 & Y2). cbn in Y1. subst b'.
      apply in_flat_map in Y2. destruct Y2 as (g2 & Y2 & Y3).
      destruct (HG g2 Y2) as (h2 & ho2 & hc2 & ot2 & ct2 & W1 & _ & W3 & _ & _ & W5 & W6).
      rewrite W1 in Y3. destruct Y3 as [Y3|Y3]; [congruence|]. apply (in_map fst) in Y3. apply W5 in Y3. destruct Y3 as (_ & Y3 & _). contradiction. }
    rewrite Enw in NDn, HI. clear - HND HI NDn. rewrite !ids_app in *. cbn in *. rewrite !ids_app in *.
    induction (ids A) as [|y l IH]; cbn in *.
    + inversion HND; subst. rewrite in_app_iff in H1. constructor.
      * rewrite in_app_iff. intros [Z|Z]; [|tauto]. apply (HI c Z). now left.
      * assert (HB : NoDup (ids B)) by (clear - H2; induction (ids Fr); [assumption|inversion H2; auto]).
        assert (HB2 : forall i, In i (ids N) -> ~ In i (ids B)).
        { intros i Hi Hj. apply (HI i Hi). rewrite in_app_iff. auto. }
        clear - HB HB2 NDn. induction (ids N) as [|z l IH]; [assumption|]. cbn. inversion NDn; subst. constructor.
        -- rewrite in_app_iff. intros [Z|Z]; [contradiction|]. apply (HB2 z); [now left|assumption].
        -- apply IH; [assumption|]. intros i Hi. apply HB2. now right.
    + inversion HND; subst. constructor.
      * intros Z. rewrite in_app_iff in Z. cbn in Z. rewrite in_app_iff in Z.
        rewrite in_app_iff in H1. cbn in H1. rewrite in_app_iff in H1.
        destruct Z as [Z|[Z|[Z|Z]]]; try tauto. apply (HI y Z). now left.
      * apply IH; [assumption|]. intros i Hi Z. apply (HI i Hi). now right.
  - intros i [Hi|Hi]; [auto|]. assert (Hc0 : lvl c = v) by (apply HLV; right; rewrite ids_app, in_app_iff; right; now left).
    rewrite ids_app in Hi. cbn in Hi. rewrite ids_app, in_app_iff in Hi. cbn in Hi. rewrite in_app_iff in Hi.
    destruct Hi as [Hi|[<-|[Hi|Hi]]]; auto.
    + apply HLV. right. rewrite ids_app, in_app_iff. auto.
    + rewrite <- Enw in Hi. destruct (Hn i Hi) as (_ & _ & V). congruence.
    + apply HLV. right. rewrite ids_app, in_app_iff. cbn. rewrite ids_app, in_app_iff. auto.
  - intros g2 h2 ho2 ot2 Hg2 Y u Hu Hmu. apply in_app_iff in Hg2. destruct Hg2 as [Z|[<-|Z]].
    + refine (proj2 (Hother g2 _) h2 ho2 ot2 Y u Hu Hmu). apply in_app_iff. now left.
    + assert (h2 = h) by (unfold gn in Y; cbn [fst] in Y; rewrite X1 in Y; cbn in Y; congruence). subst h2.
      destruct Hne as [Hne|Hne].
      * left. unfold gn. cbn [snd]. destruct N; [subst news; contradiction|]. rewrite app_length. cbn. lia.
      * right. destruct freeds as [|z fr]; [contradiction|]. exists z. split; [|split; [|apply viaUp, Nu; right; now left]].
        { unfold F'. apply orb_true_iff. right. apply mem_iff. now left. }
        apply HLV. right. rewrite ids_app, in_app_iff. right. right. rewrite ids_app, in_app_iff. left. rewrite <- Efr. now left.
    + refine (proj2 (Hother g2 _) h2 ho2 ot2 Y u Hu Hmu). apply in_app_iff. now right.
Qed.
End Groups.
