(** * Proofs about the walk over the links after a crash: every node that waits has one below it. *)
From Coq Require Import ZArith List Bool Arith Lia Permutation.
From Verif Require Import Base WbModel WbSpec WbProofs WbFlushProofs WbProperties DagModel DagSpec DagProofs DagProofs2
  DagProofs3 DagProperties LeafCrashModel LeafCrashSpec LeafCrashProofs LeafCrashProofs2 RecovModel RecovSpec RecovProofs.
Import ListNotations.

Definition lay (row : list nat) : layout := map (fun i => (i, @None Z)) row.
Lemma lay_app a b : lay (a ++ b) = lay a ++ lay b.
Proof. apply map_app. Qed.
Lemma ids_lay a : ids (lay a) = a.
Proof. unfold ids, lay. rewrite map_map. apply map_id. Qed.
Lemma end_lay : forall a, end_bound (lay a) = None.
Proof.
  unfold end_bound, lay. intros a. rewrite map_map. cbn. induction a as [|x a IH]; [reflexivity|]. destruct a; [reflexivity|exact IH].
Qed.

Lemma strip_spec : forall F row B, strip F row = Some B -> row = F ++ B.
Proof.
  induction F as [|f F IH]; intros row B H; [now injection H as <-|]. destruct row as [|x row]; [discriminate|].
  cbn in H. destruct (Nat.eqb_spec f x) as [->|]; [|discriminate]. cbn. f_equal. auto.
Qed.
Lemma row_tx_spec : forall c N F row row', row_tx c N F row = Some row' ->
  exists A B, row = A ++ c :: F ++ B /\ row' = A ++ c :: N ++ B.
Proof.
  intros c N F. induction row as [|x row IH]; intros row' H; [discriminate|]. cbn [row_tx] in H.
  destruct (Nat.eqb_spec x c) as [->|].
  - destruct (strip F row) as [B|] eqn:E; [|discriminate]. injection H as <-. apply strip_spec in E. subst row.
    exists [], B. auto.
  - destruct (row_tx c N F row) as [r|] eqn:E; [|discriminate]. injection H as <-.
    destruct (IH r eq_refl) as (A & B & -> & ->). exists (x :: A), B. auto.
Qed.

Section Run.
Variable isnew : nat -> bool.
Variable lvl : nat -> nat.
Variable pos : nat -> Z.
Variable ismeta : nat -> bool.
Variable v : nat.
Notation lower := (lower lvl pos).
Notation RInv := (RInv isnew lvl pos ismeta).

(** The links of the rebuilt buffers through one operation. *)
Lemma op_ups intro roots gone F w d o w' d' :
  RInv intro roots gone F w d -> strict_op isnew lvl pos ismeta gone intro o = true ->
  wexec w o = Some w' -> process_all d (record_of w' o) = Some d' ->
  match o with
  | OTransact p c news freeds =>
      (forall y, y <> c -> ~ In y news -> ~ In y freeds -> ups d' y = ups d y) /\
      (forall y, In y news -> isnew y = true /\ lvl y = lvl c) /\ (forall y, In y freeds -> lvl y = lvl c) /\
      (forall y, y = c \/ In y freeds -> isnew y = true -> In y intro)
  | ORoot m r => ups d' r = Some m /\ ismeta m = true /\ forall y, y <> r -> ups d' y = ups d y
  | _ => d' = d
  end.
Proof.
  intros [HL HN HD Hnw Hfr Hg] HS EW ED.
  assert (HO : legal_op isnew lvl pos intro o = true).
  { unfold strict_op in HS. apply andb_true_iff in HS. destruct HS as [HS _].
    apply andb_true_iff in HS. tauto. }
  destruct (exec_linv isnew lvl pos intro roots w o HL HO HN) as [w0 [E [H1 [H2 [H3 [H4 H5]]]]]].
  rewrite EW in E. injection E as <-.
  destruct o as [b|p c news freeds|r0 r|b].
  - cbn in ED. congruence.
  - apply strict_tx in HS.
    destruct HS as (Hkp & Hkc & Hlv & Hnd & Hn & Hf & HNf & Huse & Hne).
    assert (HR : record_of w' (OTransact p c news freeds) = [Rec (above w' c) (Some c) news freeds]).
    { cbn [record_of]. unfold above. destruct news; [|reflexivity]. destruct freeds; [|reflexivity].
      destruct Hne; congruence. }
    destruct H5 as [K1 [K2 K3]].
    assert (Hcf : ~ In c freeds).
    { intros X. apply Hf in X. destruct X as [X _]. now apply lower_irrefl in X. }
    specialize (K2 Hcf).
    assert (Hgn : forall b, b = p \/ b = c \/ In b news \/ In b freeds -> F b = false).
    { intros b Hb. destruct (F b) eqn:Eb; [|reflexivity]. apply Hg in Eb. apply Huse in Hb. tauto. }
    assert (Hkn : forall b, known isnew intro b = true -> isnew b && mem b intro = isnew b).
    { intros b Hb. unfold known in Hb. destruct (isnew b); [|reflexivity]. exact Hb. }
    assert (HP : exists P, above w' c = Some P).
    { rewrite K2. destruct (above w c) as [u|] eqn:Eu; [eauto|]. unfold real.
      destruct (isnew p) eqn:Ep; [|eauto].
      assert (X := known_above isnew lvl pos _ _ _ p HL Hkp Ep).
      destruct (above w p) as [u|] eqn:Eu2; [eauto|congruence]. }
    destruct HP as [P EP]. rewrite EP in HR.
    destruct (li_up _ _ _ _ _ _ H1 c P EP) as [P1 [P2 P3]].
    assert (Hdis : forall x, In x freeds -> ~ In x news).
    { intros y Hx X. destruct (Hn y X) as [X1 [X2 X3]]. apply Hf in Hx. destruct Hx as [_ Hx].
      unfold known in Hx. rewrite X1 in Hx. cbn in Hx. now apply (proj1 (mem_iff y intro)) in Hx. }
    destruct (process_tx_ok isnew lvl pos ismeta d P c news freeds HD P1 P2)
      as [d0 [E' [D1 [D2 [D3 [D4 [D5 [D6 D7]]]]]]]].
    { apply Huse. auto. }
    { rewrite Hnw. now apply Hkn. }
    { rewrite Hfr. apply Hgn. auto. }
    { intros y Hx. destruct (Hn y Hx) as [X1 [X2 X3]]. ands; auto. apply Huse. auto. }
    { intros y Hx. destruct (Hf y Hx) as [X1 X2]. ands; auto. apply Huse. auto. }
    rewrite HR in ED. cbn [process_all] in ED. rewrite E' in ED. injection ED as <-.
    cbn [legal_op] in HO. apply andb_true_iff in HO. destruct HO as [HO Hfr2].
    apply andb_true_iff in HO. destruct HO as [HO Hnw2]. rewrite forallb_forall in Hfr2, Hnw2.
    split; [auto|]. split.
    + intros y Hy. specialize (Hnw2 y Hy). apply andb_true_iff in Hnw2. destruct Hnw2 as [Q _].
      apply andb_true_iff in Q. destruct Q as [_ Q]. apply Nat.eqb_eq in Q. split; [|assumption]. now apply Hn.
    + split; [intros y Hy; specialize (Hfr2 y Hy); apply andb_true_iff in Hfr2; destruct Hfr2 as [Q _]; now apply Nat.eqb_eq in Q|].
      intros y Hy Hny. assert (Hk : known isnew intro y = true) by (destruct Hy as [->|Hy]; [assumption|now apply Hf]).
      unfold known in Hk. rewrite Hny in Hk. cbn in Hk. now apply mem_iff.
  - assert (HS' := HS). unfold strict_op in HS'. apply andb_true_iff in HS'. destruct HS' as [HS' HM].
    apply andb_true_iff in HS'. destruct HS' as [_ HGn]. apply andb_true_iff in HM. destruct HM as [Hm Hr].
    apply negb_true_iff in Hr. cbn [uses forallb] in HGn.
    apply andb_true_iff in HGn. destruct HGn as [HG1 HGn]. apply andb_true_iff in HGn. destruct HGn as [HG2 _].
    apply negb_true_iff in HG1, HG2. apply mem_false in HG1, HG2.
    cbn [legal_op] in HO. apply andb_true_iff in HO. destruct HO as [Hmn Hlv].
    apply negb_true_iff in Hmn. apply Nat.ltb_lt in Hlv.
    assert (HFm : F r0 = false) by (destruct (F r0) eqn:X; [apply Hg in X; contradiction|reflexivity]).
    assert (HR : record_of w' (ORoot r0 r) =
                 [if isnew r then Rec (Some r0) None [r] [] else Rec (Some r0) (Some r) [] []]).
    { cbn [record_of]. rewrite (li_new _ _ _ _ _ _ H1). reflexivity. }
    destruct (process_root_ok isnew lvl pos ismeta d r0 r HD Hmn) as [d0 [E' [D1 [D2 [D3 [D4 [D5 D6]]]]]]]; auto.
    { now left. }
    { now rewrite Hfr. }
    rewrite HR in ED. cbn [process_all] in ED. rewrite E' in ED. injection ED as <-. auto.
  - cbn in ED. congruence.
Qed.

(** The row of a level through a CP.  [L0]: at the start. *)
Definition RowI (L0 row intro : list nat) (F : nat -> bool) (w : wb) (d : dag) : Prop :=
  ((exists W G, GI isnew lvl v ismeta W intro F (above w) (ups d) (lay L0) (lay row) G) \/
   (L0 = [] /\ forall i, In i row -> isnew i = true /\ lvl i = v)) /\
  (forall b u, lvl b = v -> isnew b = false -> ups d b = Some u -> ismeta u = false -> In b L0) /\
  (forall b, ups d b <> None -> isnew b = true -> In b intro).

Lemma row_old L0 row intro F w d : RowI L0 row intro F w d -> forall i, In i row -> lvl i = v /\ (isnew i = false -> In i L0).
Proof.
  intros [[(W & G & H)|[_ H]] _] i Hi.
  - split; [apply (gi_lvl _ _ _ _ _ _ _ _ _ _ _ _ H); right; now rewrite ids_lay|]. intros Hn.
    rewrite <- (ids_lay L0), (gi_old _ _ _ _ _ _ _ _ _ _ _ _ H). rewrite <- (ids_lay row), (gi_cur _ _ _ _ _ _ _ _ _ _ _ _ H) in Hi.
    unfold ids in *. apply in_map_iff in Hi. destruct Hi as ([b z] & Y1 & Y2). cbn in Y1. subst b.
    apply in_flat_map in Y2. destruct Y2 as (g & Y2 & Y3).
    destruct (gi_ok _ _ _ _ _ _ _ _ _ _ _ _ H g Y2) as (h & ho & hc & ot & ct & W1 & _ & W3 & _ & _ & W5 & W6).
    rewrite W1 in Y3. cbn in Y3. destruct Y3 as [Y3|Y3].
    + injection Y3 as -> ->. apply in_map_iff. exists (i, ho). split; [reflexivity|]. apply in_flat_map. exists g. split; [assumption|].
      rewrite W1. now left.
    + apply (in_map fst) in Y3. apply W5 in Y3. destruct Y3 as [Y3 _]. cbn in Y3. congruence.
  - destruct (H i Hi) as [H1 H2]. split; [assumption|congruence].
Qed.

Lemma op_row L0 row row' intro roots gone F w d o w' d' :
  RInv intro roots gone F w d -> strict_op isnew lvl pos ismeta gone intro o = true ->
  RowI L0 row intro F w d -> row_op lvl isnew v row o = Some row' ->
  wexec w o = Some w' -> process_all d (record_of w' o) = Some d' ->
  RowI L0 row' (intro_op intro o) (fun b => F b || merged1 o b) w' d'.
Proof.
  intros HR HS HI HO EW ED. assert (HU := op_ups _ _ _ _ _ _ _ _ _ HR HS EW ED).
  assert (Hold := row_old _ _ _ _ _ _ HI). destruct HI as (HI & HK & HV). split; [|split].
  - destruct HI as [(W & G & HG)|[H0 Hall]].
    + destruct o as [b|p c N Fr|m r|b]; cbn [row_op] in HO.
      * injection HO as <-. left. exists (W ++ written_op (OWrite b)).
        refine (op_gi isnew lvl pos ismeta v W intro roots gone F w d (OWrite b) _ _ _ G w' d' HR HS _ HG EW ED). now apply HSame.
      * destruct (Nat.eqb_spec (lvl c) v) as [Ec|Ec].
        -- apply row_tx_spec in HO. destruct HO as (A & B & -> & ->). left. exists (W ++ written_op (OTransact p c N Fr)).
           refine (op_gi isnew lvl pos ismeta v W intro roots gone F w d (OTransact p c N Fr) _ _ _ G w' d' HR HS _ HG EW ED).
           rewrite !lay_app. cbn [lay map]. fold (lay (Fr ++ B)) (lay (N ++ B)). rewrite !lay_app. apply HTx.
           ++ now rewrite ids_lay.
           ++ now rewrite ids_lay.
           ++ change ((c, None) :: lay Fr) with (lay (c :: Fr)). change ((c, None) :: lay N) with (lay (c :: N)). now rewrite !end_lay.
        -- injection HO as <-. left. exists (W ++ written_op (OTransact p c N Fr)).
           refine (op_gi isnew lvl pos ismeta v W intro roots gone F w d (OTransact p c N Fr) _ _ _ G w' d' HR HS _ HG EW ED). now apply HSame.
      * destruct (Nat.eqb (lvl r) v && isnew r) eqn:Er.
        -- destruct row; [|discriminate]. injection HO as <-. right. apply andb_true_iff in Er. destruct Er as [Er1 Er2].
           apply Nat.eqb_eq in Er1. split.
           ++ assert (X := gi_cur _ _ _ _ _ _ _ _ _ _ _ _ HG). destruct G as [|g G].
              ** assert (Y := gi_old _ _ _ _ _ _ _ _ _ _ _ _ HG). destruct L0; [reflexivity|discriminate].
              ** destruct (gi_ok _ _ _ _ _ _ _ _ _ _ _ _ HG g (or_introl eq_refl)) as (h & ho & hc & ot & ct & W1 & _).
                 cbn [flat_map] in X. rewrite W1 in X. discriminate.
           ++ intros i [<-|[]]. auto.
        -- injection HO as <-. left. exists (W ++ written_op (ORoot m r)).
           refine (op_gi isnew lvl pos ismeta v W intro roots gone F w d (ORoot m r) _ _ _ G w' d' HR HS _ HG EW ED). apply HSame.
           apply andb_false_iff in Er. destruct Er as [Er|Er]; [left; now apply Nat.eqb_neq|now right].
      * injection HO as <-. left. exists (W ++ written_op (OFree b)).
        refine (op_gi isnew lvl pos ismeta v W intro roots gone F w d (OFree b) _ _ _ G w' d' HR HS _ HG EW ED). now apply HSame.
    + right. split; [assumption|]. destruct o as [b|p c N Fr|m r|b]; cbn [row_op] in HO; try (injection HO as <-; assumption).
      * destruct (Nat.eqb_spec (lvl c) v) as [Ec|Ec]; [|injection HO as <-; assumption].
        apply row_tx_spec in HO. destruct HO as (A & B & -> & ->). destruct HU as (_ & HU & _).
        intros i Hi. rewrite in_app_iff in Hi. cbn in Hi. rewrite in_app_iff in Hi.
        destruct (in_dec Nat.eq_dec i N) as [Hin|Hin]; [destruct (HU i Hin) as [U1 U2]; split; congruence|].
        apply Hall. rewrite in_app_iff. cbn. rewrite in_app_iff. tauto.
      * destruct (Nat.eqb (lvl r) v && isnew r) eqn:Er; [|injection HO as <-; assumption].
        destruct row; [|discriminate]. injection HO as <-. apply andb_true_iff in Er. destruct Er as [Er1 Er2].
        apply Nat.eqb_eq in Er1. intros i [<-|[]]. auto.
  - intros b u Hb Hbn Hu Hmu. destruct o as [b0|p c N Fr|m r|b0]; cbn [row_op] in HO; try (subst d'; eauto).
    + destruct HU as (U1 & U2 & U3 & _).
      assert (HX : b = c \/ In b Fr \/ ups d' b = ups d b).
      { destruct (Nat.eq_dec b c) as [|Hbc]; [now left|]. destruct (in_dec Nat.eq_dec b Fr) as [|Hbf]; [auto|].
        right. right. apply U1; auto. intros X. destruct (U2 b X). congruence. }
      destruct (Nat.eqb_spec (lvl c) v) as [Ec|Ec].
      * apply row_tx_spec in HO. destruct HO as (A & B & -> & ->). destruct HX as [->|[X|X]].
        -- apply Hold; [|assumption]. apply in_app_iff. right. now left.
        -- apply Hold; [|assumption]. apply in_app_iff. right. right. apply in_app_iff. now left.
        -- rewrite X in Hu. eauto.
      * destruct HX as [->|[X|X]]; [congruence|apply U3 in X; congruence|]. rewrite X in Hu. eauto.
    + destruct HU as (U1 & U2 & U3). destruct (Nat.eq_dec b r) as [->|Hbr]; [congruence|]. rewrite U3 in Hu by assumption. eauto.
  - intros b Hb Hbn. destruct o as [b0|p c N Fr|m r|b0]; cbn [intro_op]; try (subst d'; auto).
    + destruct HU as (U1 & U2 & U3 & U4). apply in_app_iff. destruct (in_dec Nat.eq_dec b N) as [|HN]; [now left|right].
      destruct (Nat.eq_dec b c) as [|Hbc]; [auto|]. destruct (in_dec Nat.eq_dec b Fr) as [|Hbf]; [auto|].
      rewrite U1 in Hb by assumption. auto.
    + destruct HU as (U1 & U2 & U3). destruct (Nat.eq_dec b r) as [->|Hbr]; [now left|]. rewrite U3 in Hb by assumption. right. auto.
Qed.

Lemma row_ext L0 row intro F F' w d intro0 roots gone : RInv intro0 roots gone F w d -> (forall b, F' b = F b) ->
  RowI L0 row intro F w d -> RowI L0 row intro F' w d.
Proof.
  intros HR HF [[(W & G & HG)|H] [HK HV]]; (split; [|split]); auto. left. exists W, G.
  apply (gi_other isnew lvl pos ismeta v W W intro intro F F' (above w) (ups d) _ _ _ _ _ (incl_refl W) HG).
  - exact (above_lower isnew lvl pos ismeta _ _ w (ri_l _ _ _ _ _ _ _ _ _ _ HR)).
  - exact (ups_lower isnew lvl pos ismeta d (ri_d _ _ _ _ _ _ _ _ _ _ HR)).
  - apply incl_refl.
  - auto.
  - auto.
  - auto.
Qed.

Lemma rinv_ext intro roots gone F F' w d : (forall b, F' b = F b) -> RInv intro roots gone F w d -> RInv intro roots gone F' w d.
Proof.
  intros HF [X1 X2 X3 X4 X5 X6]. constructor; auto; intros b; rewrite HF; auto.
Qed.

Lemma run_row : forall l L0 row row' intro roots gone F w d w' j d',
  RInv intro roots gone F w d -> strict isnew lvl pos ismeta gone intro l = true ->
  RowI L0 row intro F w d -> row_run lvl isnew v row l = Some row' ->
  wrunj w l = Some (w', j) -> process_all d j = Some d' ->
  exists intro' roots' gone', RInv intro' roots' gone' (fun b => F b || merged l b) w' d' /\
    RowI L0 row' intro' (fun b => F b || merged l b) w' d'.
Proof.
  induction l as [|o l IH]; intros L0 row row' intro roots gone F w d w' j d' HR HS HI HO EJ EP.
  - cbn in *. injection HO as <-. injection EJ as <- <-. cbn in EP. injection EP as <-. exists intro, roots, gone.
    assert (HF : forall b, F b || false = F b) by (intros; apply orb_false_r).
    split; [exact (rinv_ext _ _ _ _ _ _ _ HF HR)|exact (row_ext _ _ _ _ _ _ _ _ _ _ HR HF HI)].
  - cbn [strict] in HS. apply andb_true_iff in HS. destruct HS as [HS1 HS2].
    destruct (op_ok isnew lvl pos ismeta _ _ _ _ _ _ o HR HS1) as [w1 [d1 [roots1 [E1 [P1 [R1 _]]]]]].
    cbn [row_run] in HO. destruct (row_op lvl isnew v row o) as [row1|] eqn:Eo; [|discriminate].
    cbn [wrunj] in EJ. rewrite E1 in EJ. destruct (wrunj w1 l) as [[w2 j2]|] eqn:E2; [|discriminate].
    injection EJ as <- <-. rewrite process_all_app, P1 in EP.
    assert (HI1 := op_row _ _ _ _ _ _ _ _ _ _ _ _ HR HS1 HI Eo E1 P1).
    destruct (IH L0 row1 row' _ _ _ _ _ _ _ _ _ R1 HS2 HI1 HO E2 EP) as (i' & r' & g' & H1 & H2). exists i', r', g'.
    assert (HF : forall b, F b || merged (o :: l) b = (F b || merged1 o b) || merged l b).
    { intros b. cbn [merged existsb]. now rewrite orb_assoc. }
    split; [exact (rinv_ext _ _ _ _ _ _ _ HF H1)|exact (row_ext _ _ _ _ _ _ _ _ _ _ H1 HF H2)].
Qed.

(** In the end: a node of the start that waits for a node has one below it. *)
Lemma row_down L0 row intro F w d b u : RowI L0 row intro F w d -> lvl b = v -> isnew b = false -> F b = false ->
  ups d b = Some u -> ismeta u = false -> exists x, nxt (ups d) F x b.
Proof.
  intros (HI & HK & _) Hl Hn HF Hu Hm. specialize (HK b u Hl Hn Hu Hm).
  destruct HI as [(W & G & HG)|[-> _]]; [|destruct HK].
  rewrite <- (ids_lay L0), (gi_old _ _ _ _ _ _ _ _ _ _ _ _ HG) in HK. unfold ids in HK. apply in_map_iff in HK.
  destruct HK as ([b' z] & Y1 & Y2). cbn in Y1. subst b'. apply in_flat_map in Y2. destruct Y2 as (g & Y2 & Y3).
  destruct (gi_ok _ _ _ _ _ _ _ _ _ _ _ _ HG g Y2) as (h & ho & hc & ot & ct & W1 & _ & W3 & _ & _ & W5 & W6).
  rewrite W1 in Y3. cbn in Y3. destruct Y3 as [Y3|Y3].
  - injection Y3 as -> ->. destruct (gi_dn _ _ _ _ _ _ _ _ _ _ _ _ HG g b z ot Y2) with (u := u) as [X|(x & _ & _ & X)]; auto.
    + now rewrite W1.
    + rewrite W1 in X. cbn in X. destruct ct as [|[y yb] ct]; [cbn in X; lia|]. exists y.
      apply W5. now left.
    + eauto.
  - apply (in_map fst) in Y3. apply W6 in Y3. destruct Y3 as [Y3 _]. cbn in Y3. congruence.
Qed.

Lemma row_init L0 : NoDup L0 -> (forall i, In i L0 -> isnew i = false /\ lvl i = v) ->
  RowI L0 L0 [] (fun _ => false) (wb_init isnew) empty.
Proof.
  intros H1 H2. split; [|split; [discriminate|cbn; congruence]]. left. exists [], (map (fun x => ([x], [x])) (lay L0)). constructor.
  - generalize (lay L0). clear. induction l as [|x L IH]; [reflexivity|]. cbn. now rewrite <- IH.
  - generalize (lay L0). clear. induction l as [|x L IH]; [reflexivity|]. cbn. now rewrite <- IH.
  - intros g Hg. apply in_map_iff in Hg. destruct Hg as ([i hi] & <- & Hi).
    apply (in_map fst) in Hi. fold (ids (lay L0)) in Hi. rewrite ids_lay in Hi. apply H2 in Hi. destruct Hi as [Hi1 Hi2].
    exists i, hi, hi, [], []. ands; auto; try (intros b []; fail). cbn. congruence.
  - now rewrite ids_lay.
  - intros i Hi. rewrite ids_lay in Hi. apply H2. tauto.
  - intros g h ho ot _ _ u H. discriminate.
Qed.
End Run.
