(** * A later start. *)
From Coq Require Import List Arith Lia Bool Permutation.
From Verif Require Import DevMgrModel DevMgrSpec DevMgrProofs DevMgrProofs2.
Import ListNotations.

Definition isv (D : disks) (d : nat) : bool := match valid (D d) with Some _ => true | None => false end.
Lemma isv_used D d : isv D d = true <-> used D d.
Proof. unfold isv, used. destruct (valid (D d)); split; try discriminate; eauto. intros (b & H). discriminate. Qed.
Lemma scan_spec D U : forall dl h stale, uuid h = U ->
  (forall d b, In d dl -> valid (D d) = Some b -> puuid b = U /\ uuid (fh b) = U) ->
  exists h' st, scan D dl h stale = Some (h', st, filter (isv D) dl, filter (fun d => negb (isv D d)) dl) /\
    (h' = h \/ exists d b, In d dl /\ valid (D d) = Some b /\ h' = fh b) /\ gen h <= gen h' /\
    forall d b, In d dl -> valid (D d) = Some b -> gen (fh b) <= gen h'.
Proof.
  induction dl as [|d dl IH]; intros h stale Hu H.
  - exists h, stale. cbn. repeat split; auto. tauto.
  - cbn [scan filter]. destruct (valid (D d)) as [b|] eqn:V.
    + destruct (H d b) as (P & Q); [now left|auto|]. rewrite P, Hu, Nat.eqb_refl.
      assert (Iv : isv D d = true) by (unfold isv; now rewrite V). rewrite Iv. cbn [negb].
      set (h1 := if gen h <? gen (fh b) then fh b else h).
      destruct (IH h1 (negb (Nat.eqb (gen (fh b)) (gen h)))) as (h' & st & E & O & L & M).
      { unfold h1. destruct (gen h <? gen (fh b)); auto. }
      { intros d' b' I X. apply (H d'); auto. now right. }
      exists h', st. rewrite E. split; auto.
      assert (L1 : gen h <= gen h1 /\ gen (fh b) <= gen h1) by (unfold h1; destruct (gen h <? gen (fh b)) eqn:Z; [apply Nat.ltb_lt in Z|apply Nat.ltb_ge in Z]; lia).
      split; [|split; [lia|]].
      * destruct O as [->|(d' & b' & I & X & ->)]; [|right; exists d', b'; cbn; auto].
        unfold h1. destruct (gen h <? gen (fh b)); auto. right. exists d, b. cbn. auto.
      * intros d' b' [<-|I] X; [|eauto]. rewrite V in X. injection X as <-. lia.
    + assert (Iv : isv D d = false) by (unfold isv; now rewrite V). rewrite Iv. cbn [negb].
      destruct (IH h stale Hu) as (h' & st & E & O & L & M); [intros d' b' I X; apply (H d'); auto; now right|].
      exists h', st. rewrite E. split; auto. split; [|split; auto].
      * destruct O as [->|(d' & b' & I & X & ->)]; auto. right. exists d', b'. cbn. auto.
      * intros d' b' [<-|I] X; [|eauto]. rewrite V in X. discriminate.
Qed.

Lemma perm_ins x l : Permutation (ins x l) (x :: l).
Proof.
  induction l as [|y l IH]; cbn; [apply Permutation_refl|]. destruct (fst x <=? fst y); [apply Permutation_refl|].
  eapply perm_trans; [apply perm_skip, IH|]. apply perm_swap.
Qed.
Lemma perm_sorted l : Permutation (sorted l) l.
Proof. induction l; cbn; [constructor|]. eapply perm_trans; [apply perm_ins|]. now apply perm_skip. Qed.

Lemma in_found D vs a x d v : In (x, d, v) (found D vs a) <-> In d (map snd a) /\ In (x, v) (chk (D d)) /\ In v vs.
Proof.
  unfold found. rewrite in_flat_map. split.
  - intros (p & I & H). apply in_map_iff in H. destruct H as ((x' & v') & E & F). cbn in E. injection E as -> <- ->.
    apply filter_In in F. cbn in F. destruct F as (F & M). apply memb_in in M. split; auto. apply in_map_iff. eauto.
  - intros (I & F & M). apply in_map_iff in I. destruct I as (p & <- & I). exists p. split; auto. apply in_map_iff.
    exists (x, v). split; auto. apply filter_In. split; auto. cbn. now apply memb_in.
Qed.
Lemma nodup_filter {A} (f : nat * A -> bool) l : NoDup (map fst l) -> NoDup (map fst (filter f l)).
Proof.
  induction l as [|y l IH]; cbn; auto. intros H. inversion H; subst. destruct (f y); cbn; auto. constructor; auto.
  rewrite in_map_iff. intros (z & E & I). apply filter_In in I. apply H2. apply in_map_iff. exists z. tauto.
Qed.
Lemma nodup_found D vs a : NoDup (map snd a) -> (forall d, In d (map snd a) -> NoDup (map fst (chk (D d)))) ->
  (forall x d v d' v', In d (map snd a) -> In d' (map snd a) -> In (x, v) (chk (D d)) -> In (x, v') (chk (D d')) -> d = d') ->
  NoDup (map cid (found D vs a)).
Proof.
  induction a as [|p a IH]; intros N K J; cbn [found flat_map map]; [constructor|].
  rewrite map_app, nodup_app. inversion N; subst. split; [|split].
  - rewrite map_map. unfold cid. cbn [fst]. apply nodup_filter, K. now left.
  - apply IH; auto; [intros d I; apply K; now right|]. intros x d v d' v' I1 I2. apply J; now right.
  - intros x X Y. apply in_map_iff in X. destruct X as (((x1 & d1) & v1) & E & X). cbn in E. subst x1.
    apply in_map_iff in X. destruct X as ((x2 & v2) & E & X). cbn in E. injection E as -> <- ->.
    apply filter_In in X. apply in_map_iff in Y. destruct Y as (((x3 & d3) & v3) & E & Y). cbn in E. subst x3.
    apply (in_found D vs a) in Y. destruct Y as (Y1 & Y2 & _).
    assert (Q : snd p = d3) by (apply (J x (snd p) v1 d3 v3); [now left|now right|tauto|auto]). congruence.
Qed.

Lemma in_insv x y l : In x (insv y l) <-> x = y \/ In x l.
Proof.
  induction l as [|z l IH]; cbn [insv].
  - cbn. split; intros [H|H]; auto.
  - destruct (y <? z).
    + cbn. split; intros [H|H]; auto.
    + destruct (Nat.eqb y z) eqn:E.
      * apply Nat.eqb_eq in E. subst. cbn. split; [tauto|]. intros [H|H]; auto.
      * cbn. rewrite IH. split; intros [H|[H|H]]; auto.
Qed.
Lemma in_vdevs c D L v : In v (vdevs c D L) <-> In v (infos c D L false) \/ In v (infos c D L true).
Proof.
  unfold vdevs. rewrite <- in_app_iff. induction (infos c D L false ++ infos c D L true) as [|x l IH]; cbn; [tauto|].
  rewrite in_insv, IH. split; intros [H|H]; auto.
Qed.
Lemma of_type_app c t a b : of_type c t (a ++ b) = of_type c t a ++ of_type c t b.
Proof. apply filter_app. Qed.
Lemma pool_app c t base rest : pool c t base <> [] -> pool c t (base ++ rest) <> [].
Proof.
  unfold pool. rewrite !of_type_app. destruct (of_type c t base) as [|p l]; cbn; [|discriminate].
  intros H. destruct (of_type c t rest); [|discriminate]. destruct (of_type c false base); cbn; [congruence|discriminate].
Qed.
Lemma vdevs_all c base rest D : pools c base -> (forall v d, v < nv c -> In d (pool c (vt c v) base) -> In v (vinf (D d))) ->
  small c D (base ++ rest) -> forall v, In v (vdevs c D (base ++ rest)) <-> v < nv c.
Proof.
  intros (_ & P) B S v. rewrite in_vdevs. split.
  - assert (X : forall t, In v (infos c D (base ++ rest) t) -> v < nv c).
    { intros t. unfold infos. destruct (of_type c t (base ++ rest)) as [|d l] eqn:E; [cbn; tauto|]. apply S.
      assert (I : In d (of_type c t (base ++ rest))) by (rewrite E; now left). unfold of_type in I. apply filter_In in I. tauto. }
    intros [H|H]; eauto.
  - intros Hv. specialize (P v Hv). specialize (B v). unfold pool in P, B.
    assert (X : forall t d l, of_type c t base = d :: l -> In v (vinf (D d)) -> In v (infos c D (base ++ rest) t)).
    { intros t d l E I. unfold infos. rewrite of_type_app, E. exact I. }
    assert (Y : forall t, In v (infos c D (base ++ rest) t) -> In v (infos c D (base ++ rest) false) \/ In v (infos c D (base ++ rest) true)) by (intros []; auto).
    destruct (of_type c (vt c v) base) as [|d l] eqn:E.
    + destruct (of_type c false base) as [|d l] eqn:F; [congruence|]. apply (Y false). eapply X; eauto. apply B; auto. now left.
    + apply (Y (vt c v)). eapply X; eauto. apply B; auto. now left.
Qed.

Lemma filter_all {A} (f : A -> bool) l : (forall x, In x l -> f x = true) -> filter f l = l.
Proof. induction l; cbn; intros H; auto. rewrite H by auto. rewrite IHl; auto. Qed.
Lemma firstn_map {A B} (f : A -> B) n : forall l, firstn n (map f l) = map f (firstn n l).
Proof. induction n; intros [|x l]; cbn; auto. now rewrite IHn. Qed.
Lemma first_valid_some D base rest : base <> [] -> (forall d, In d base -> used D d) ->
  exists d b, In d base /\ valid (D d) = Some b /\ first_valid D (base ++ rest) = Some b.
Proof.
  destruct base as [|d base]; [congruence|]. intros _ H. destruct (H d) as (b & V); [now left|]. exists d, b. cbn. rewrite V. auto.
Qed.
Lemma unique_ok D (a : list (nat * nat)) : NoDup (map fst a) -> (forall id d, In (id, d) a -> exists b, fb (D d) = Some b /\ pid b = id) -> unique D a = true.
Proof.
  intros N H. unfold unique. apply nodupb_ok.
  replace (map _ a) with (map fst a); auto. apply map_ext_in. intros (id, d) I. destruct (H id d I) as (b & E & P). cbn. now rewrite E.
Qed.

Lemma load_ok c base D ext u num : live c base D -> pools c base -> NoDup (base ++ ext) ->
  (forall d, used D d -> In d (base ++ ext)) ->
  exists ws m, start c D (base ++ ext) u num = (ws, Up m) /\
    (forall n, live c base (applies D (firstn n ws)) /\ keeps D (applies D (firstn n ws))) /\
    memok c (applies D ws) m /\ degraded m = negb (Nat.eqb (length base) (length (base ++ ext))) /\
    forall d, In d (devs m) <-> In d (base ++ ext).
Proof.
  intros LV PL ND FU. pose proof LV as ((G & C & U & H1 & (dg & bg & Vg & Eg) & H3) & (K1 & K2) & B1 & B2).
  destruct (first_valid_some D base ext (proj1 PL) B1) as (d0 & b0 & I0 & V0 & FV).
  destruct (H1 d0 b0 V0) as (_ & _ & _ & Hu0 & _ & Hn0 & _).
  destruct (scan_spec D U (base ++ ext) (fh b0) false Hu0) as (h & st & SC & O & _ & GM).
  { intros d b _ V. destruct (H1 d b V) as (_ & _ & _ & ? & ? & _). auto. }
  assert (HH : exists d b, valid (D d) = Some b /\ h = fh b) by (destruct O as [->|(d & b & _ & V & ->)]; eauto).
  destruct HH as (dh & bh & Vh & Eh). destruct (H1 dh bh Vh) as (Lg & _ & _ & Hu & _ & Hn & Hc).
  assert (Gh : gen h = G) by (specialize (GM dg bg (FU dg (ex_intro _ bg Vg)) Vg); subst h; lia).
  rewrite <- Eh in Hc, Hu, Hn. specialize (Hc Gh). clear O GM Lg.
  set (l := filter (isv D) (base ++ ext)) in *. set (f := filter (fun d => negb (isv D d)) (base ++ ext)) in *.
  assert (Il : forall d, In d l <-> used D d).
  { intros d. unfold l. rewrite filter_In, isv_used. split; [tauto|]. auto. }
  assert (If : forall d, In d f <-> In d (base ++ ext) /\ ~ used D d).
  { intros d. unfold f. rewrite filter_In, negb_true_iff, <- isv_used. destruct (isv D d); intuition congruence. }
  assert (Nl : NoDup l) by now apply NoDup_filter. assert (Nf : NoDup f) by now apply NoDup_filter.
  assert (El : exists rest, l = base ++ rest).
  { exists (filter (isv D) ext). unfold l. rewrite filter_app, (filter_all _ base); auto. intros x I. apply isv_used. auto. }
  destruct El as (rest & El).
  destruct (fmt h f) as [[h1 a1] ws1] eqn:FM.
  destruct (fmt_spec f h h1 a1 ws1 FM) as (F1 & F2 & F3 & F4 & F5 & F6 & F7 & F8). specialize (F8 Nf D).
  set (D1 := applies D ws1) in *.
  set (a := map (fun d => (match fb (D d) with Some b => pid b | None => 0 end, d)) l ++ a1).
  assert (Sa : map snd a = l ++ f) by (unfold a; rewrite map_app, map_map, F5; cbn [snd]; now rewrite map_id).
  assert (Fn : forall d, In d f -> valid (D d) = None) by (intros d I; apply valid_none, If, I).
  destruct (fmt_prefix f ws1 F7 D Fn) as (P1 & P2). fold D1 in P1, P2.
  assert (S1 : forall d, used D d -> D1 d = D d) by (intros d I; apply P1; rewrite If; tauto).
  assert (U1 : forall d, used D1 d <-> used D d).
  { intros d. split; intros X; [|unfold used; rewrite S1 by auto; exact X]. destruct (in_dec Nat.eq_dec d f) as [I|I].
    - apply P2, valid_none in I. tauto.
    - unfold used in *. now rewrite <- (P1 d I). }
  assert (IL : forall d, In d (l ++ f) <-> In d (base ++ ext)).
  { intros d. rewrite in_app_iff, Il, If. destruct (isv D d) eqn:X.
    - apply isv_used in X. split; [intros _; now apply FU|auto].
    - assert (~ used D d) by (rewrite <- isv_used; congruence). tauto. }
  assert (A1 : forall id d, In (id, d) a1 -> In d f /\ cur h < id <= cur h + length f /\
     exists hx, npd hx = npd h /\ uuid hx = uuid h /\ D1 d = Disk (Some (FBlk false hx id (uuid h))) [] []).
  { intros id d I. split; [rewrite <- F5; apply in_map_iff; exists (id, d); auto|]. split; [|now apply F8].
    assert (X : In id (map fst a1)) by (apply in_map_iff; exists (id, d); auto). rewrite F6 in X. apply in_seq in X. lia. }
  assert (Ia : forall id d, In (id, d) a -> exists b, fb (D1 d) = Some b /\ pid b = id /\ id <= cur h1 /\ uuid (fh b) = U /\ puuid b = U /\ npd (fh b) = length base).
  { intros id d I. unfold a in I. apply in_app_iff in I. destruct I as [I|I].
    - apply in_map_iff in I. destruct I as (d' & E & I). injection E as E ->. apply Il in I. destruct I as (b & V).
      pose proof V as V'. apply valid_fb in V'. destruct V' as (V' & _). rewrite V' in E. subst id. exists b.
      rewrite S1 by (eexists; eauto). destruct (H1 d b V) as (_ & _ & ? & ? & ? & ? & _). repeat split; auto. lia.
    - destruct (A1 id d I) as (_ & ? & hx & E1 & E2 & E3). rewrite E3. cbn. eexists. split; [reflexivity|]. cbn. repeat split; try lia; try congruence. }
  assert (Na : NoDup (map fst a)).
  { unfold a. rewrite map_app, map_map, F6. cbn [fst]. apply nodup_app. split; [|split; [apply seq_NoDup|]].
    - clear - Nl Il H3. assert (Iu : forall d, In d l -> used D d) by (intros; now apply Il). clear Il.
      induction l as [|d r IH]; cbn; [constructor|]. inversion Nl; subst. constructor; [|apply IH; auto; intros; apply Iu; now right].
      rewrite in_map_iff. intros (d' & E & I). destruct (Iu d) as (b & V); [now left|]. destruct (Iu d') as (b' & V'); [now right|].
      pose proof V as W. pose proof V' as W'. apply valid_fb in W, W'. destruct W as (W & _), W' as (W' & _). rewrite W, W' in E.
      assert (d' = d) by (eapply H3; eauto). congruence.
    - intros x X Y. apply in_seq in Y. apply in_map_iff in X. destruct X as (d & E & I). apply Il in I. destruct I as (b & V).
      destruct (H1 d b V) as (_ & _ & X & _). apply valid_fb in V. destruct V as (V & _). rewrite V in E. lia. }
  assert (Ns : NoDup (map snd a)).
  { rewrite Sa. apply nodup_app. repeat split; auto. intros x X Y. apply Il in X. apply If in Y. tauto. }
  assert (SM : small c D1 (l ++ f)).
  { intros d I. apply in_app_iff in I. destruct I as [I|I].
    - apply Il in I. rewrite S1 by auto. destruct (K1 d I) as (_ & ? & ?). auto.
    - rewrite <- F5 in I. apply in_map_iff in I. destruct I as ((id & d') & E & I). cbn in E. subst d'.
      destruct (A1 id d I) as (_ & _ & hx & _ & _ & E). rewrite E. cbn. tauto. }
  set (L := l ++ f) in *.
  assert (VS : forall v, In v (vdevs c D1 L) <-> v < nv c).
  { unfold L. rewrite El, <- app_assoc. apply vdevs_all; auto.
    - intros v d X Y. rewrite S1; auto. apply B1. now apply (pool_incl c (vt c v)).
    - rewrite app_assoc, <- El. exact SM. }
  set (vs := vdevs c D1 L) in *. set (k := found D1 vs (sorted a)).
  assert (Ss : forall d, In d (map snd (sorted a)) <-> In d L) by (intros d; rewrite in_snd_sorted, Sa; tauto).
  assert (Kf : forall d, In d f -> chk (D1 d) = []).
  { intros d I. rewrite <- F5 in I. apply in_map_iff in I. destruct I as ((id & d') & E & I). cbn in E. subst d'.
    destruct (A1 id d I) as (_ & _ & hx & _ & _ & E). now rewrite E. }
  assert (KL : forall d, In d L -> NoDup (map fst (chk (D1 d)))).
  { intros d I. apply in_app_iff in I. destruct I as [I|I]; [apply Il in I; rewrite S1 by auto; now apply K1|]. rewrite Kf by auto. constructor. }
  assert (EX : exact D1 L k).
  { split; [|split; auto].
    - apply nodup_found; [apply (Permutation_NoDup (l := map snd a)); auto; apply Permutation_sym, Permutation_map, perm_sorted| |].
      + intros d I. apply KL, Ss, I.
      + intros x d v d' v' I I' X X'. apply Ss in I, I'.
        assert (Y : used D d) by (apply in_app_iff in I; destruct I as [I|I]; [now apply Il|rewrite Kf in X by auto; destruct X]).
        assert (Y' : used D d') by (apply in_app_iff in I'; destruct I' as [I'|I']; [now apply Il|rewrite Kf in X' by auto; destruct X']).
        rewrite S1 in X, X' by auto. apply (K2 x d v d' v'); split; auto.
    - intros x d v. unfold k. rewrite in_found, Ss, VS. split; [tauto|]. intros (X & Y). repeat split; auto. eapply SM; eauto. }
  assert (UL : forall d, used D1 d -> In d L) by (intros d X; apply in_app_iff; left; now apply Il, U1).
  assert (L1 : forall n, live c base (applies D (firstn n ws1)) /\ keeps D (applies D (firstn n ws1))).
  { intros n. assert (FF : Forall (isfmt f) (firstn n ws1)) by (rewrite Forall_forall in *; intros w I; apply F7; rewrite <- (firstn_skipn n ws1); apply in_app_iff; auto).
    destruct (fmt_prefix f _ FF D Fn) as (Q1 & Q2).
    assert (S2 : forall d, used D d -> applies D (firstn n ws1) d = D d) by (intros d I; apply Q1; rewrite If; tauto). split.
    - apply (live_same c base D); auto. intros d X. destruct (in_dec Nat.eq_dec d f) as [I|I]; [apply valid_none; auto|].
      unfold used. rewrite Q1; auto.
    - intros d b V. rewrite S2 by (eexists; eauto). split; [eauto|apply incl_refl]. }
  assert (LD1 : live c base D1 /\ keeps D D1) by (specialize (L1 (length ws1)); now rewrite firstn_all in L1).
  (** the commit, after [D2] with chunks [k2] *)
  assert (CM : forall D2 k2 g, live c base D2 -> exact D2 L k2 -> small c D2 L -> (forall d, fb (D2 d) = fb (D1 d)) ->
     (g = S G \/ g = G /\ f = []) ->
     (forall n, live c base (applies D2 (firstn n (commit g (cur h1) a))) /\ keeps D2 (applies D2 (firstn n (commit g (cur h1) a)))) /\
     unique (applies D2 (commit g (cur h1) a)) a = true /\
     memok c (applies D2 (commit g (cur h1) a)) (Mem (sorted a) L vs k2 (negb (Nat.eqb (npd (fh b0)) (length (base ++ ext)))))).
  { intros D2 k2 g LV2 EX2 SM2 FB Hg.
    assert (V2 : forall d, valid (D2 d) = valid (D1 d)) by (intros d; now apply valid_eq).
    assert (U2 : forall d, used D2 d -> In d L) by (intros d X; apply UL; unfold used in *; now rewrite <- V2).
    assert (IaL : forall d, In d L -> exists id, In (id, d) a).
    { intros d I. rewrite <- Sa in I. apply in_map_iff in I. destruct I as ((id & d') & E & I). cbn in E. subst. eauto. }
    assert (HC : forall (a' : list (nat * nat)), incl (map snd a') L -> a' <> [] -> let D' := applies D2 (map (fun p => WCommit (snd p) g (cur h1)) a') in
       hv D' g (cur h1) U (length base) /\ (forall d, used D' d <-> used D2 d \/ In d (map snd a')) /\
       (forall d, chk (D' d) = chk (D2 d) /\ vinf (D' d) = vinf (D2 d)) /\ keeps D2 D' /\
       (forall d b, fb (D2 d) = Some b -> exists b', fb (D' d) = Some b' /\ pid b' = pid b)).
    { intros a' I' N'. apply (hv_commit D2 L); auto.
      - intros d b I Fb. destruct (IaL d I) as (id & J). destruct (Ia id d J) as (b' & E & ? & ? & ? & ? & ?). rewrite FB, E in Fb. injection Fb as <-. repeat split; auto. lia.
      - intros d I Fb. destruct (IaL d I) as (id & J). destruct (Ia id d J) as (b' & E & _). rewrite FB in Fb. congruence.
      - intros d b d' b' I I2 Fb Fb' E. destruct (IaL d I) as (id & J). destruct (IaL d' I2) as (id' & J').
        destruct (Ia id d J) as (b1 & E1 & P3 & _). destruct (Ia id' d' J') as (b2 & E2 & P4 & _). rewrite FB, E1 in Fb. rewrite FB, E2 in Fb'.
        assert (Q : id' = id) by congruence. rewrite Q in J'. eapply nodup_fst; [exact Na|exact J|exact J'].
      - intros d b V. rewrite V2 in V. assert (X : used D d) by (apply U1; eexists; eauto). rewrite S1 in V by auto.
        destruct (H1 d b V) as (? & ? & _ & _ & _ & _ & Z). split; [lia|]. split; [lia|]. destruct Hg as [->|(-> & Ef)]; [lia|].
        intros W. rewrite Z by auto. rewrite F4, Ef. cbn. lia. }
    assert (CP : forall n, live c base (applies D2 (firstn n (commit g (cur h1) a))) /\ keeps D2 (applies D2 (firstn n (commit g (cur h1) a)))).
    { intros n. unfold commit. rewrite firstn_map. destruct (firstn n (sorted a)) as [|p r] eqn:Q; [cbn; split; [exact LV2|apply keeps_refl]|].
      rewrite <- Q. destruct (HC (firstn n (sorted a))) as (X1 & X2 & X3 & X4 & _); [|congruence|].
      { intros d I. apply Ss. rewrite <- (firstn_skipn n (sorted a)), map_app. apply in_app_iff. auto. }
      split; auto. apply (live_chk c base D2); eauto.
      - apply (exact_ckv c _ L k2).
        + destruct EX2 as (Y1 & Y2 & Y3). split; [exact Y1|]. split.
          * intros x d v. destruct (X3 d) as (-> & _). apply Y2.
          * intros d I. destruct (X3 d) as (-> & _). auto.
        + intros d I. destruct (X3 d) as (-> & ->). auto.
        + intros d X. apply X2 in X. destruct X as [X|X]; auto. apply Ss. rewrite <- (firstn_skipn n (sorted a)), map_app. apply in_app_iff. auto.
      - intros d X. apply X2. auto. }
    split; [exact CP|].
    assert (Nz : sorted a <> []).
    { intros Z. destruct PL as (PL & _). destruct base as [|d bs]; [congruence|]. assert (I : In d L) by (apply IL; now left).
      apply Ss in I. rewrite Z in I. destruct I. }
    destruct (HC (sorted a)) as (X1 & X2 & X3 & X4 & X5); auto; [intros d I; now apply Ss|]. fold (commit g (cur h1) a) in X1, X2, X3, X4, X5.
    set (D3 := applies D2 (commit g (cur h1) a)) in *.
    assert (IA : forall id d, In (id, d) a -> exists b, fb (D3 d) = Some b /\ pid b = id).
    { intros id d I. destruct (Ia id d I) as (b & E & P3 & _). rewrite <- FB in E. destruct (X5 d b E) as (b' & E' & P4). exists b'. split; congruence. }
    assert (U3 : forall d, used D3 d <-> In d L) by (intros d; rewrite X2, Ss; split; [intros [X|X]; auto|auto]).
    split; [now apply unique_ok|]. split; [now apply nodup_sorted|]. cbn [all devs vds cs]. split; [|split; [|split; [|split]]].
    - intros id d. rewrite in_sorted. split.
      + intros I. destruct (IA id d I) as (b & E & P3). assert (X : used D3 d) by (apply U3; rewrite <- Sa; apply in_map_iff; exists (id, d); auto).
        destruct X as (b' & V). exists b'. split; auto. apply valid_fb in V. destruct V as (V & _). congruence.
      + intros (b & V & <-). assert (X : In d L) by (apply U3; eexists; eauto). destruct (IaL d X) as (id & I).
        destruct (IA id d I) as (b' & E & P3). apply valid_fb in V. destruct V as (V & _). replace (pid b) with id by congruence. auto.
    - intros d. symmetry. apply U3.
    - exact VS.
    - apply EX2.
    - intros x d v. destruct EX2 as (_ & Y2 & _). rewrite Y2. unfold held. rewrite U3. destruct (X3 d) as (-> & _). tauto. }
  unfold start, load. destruct (base ++ ext) as [|z zs] eqn:Z.
  { destruct PL as (PL & _). destruct base; [congruence|discriminate]. }
  rewrite FV, SC, FM. fold D1 a. rewrite (proj2 (nodupb_ok _) Na). cbn [negb]. cbv zeta. fold L vs k.
  destruct f as [|y ys] eqn:Ef.
  - (* no new drive *)
    cbn in FM. injection FM as <- <- <-. destruct st.
    + assert (Q : D1 = D) by reflexivity.
      destruct (CM D k (gen h)) as (X1 & X2 & X3); [exact LV|exact EX|exact SM|auto|right; auto|]. rewrite X2.
      eexists. eexists. split; [reflexivity|]. split; [exact X1|]. split; [exact X3|]. cbn [degraded devs]. rewrite Hn0. split; [reflexivity|exact IL].
    + eexists. eexists. split; [reflexivity|]. split; [intros n; rewrite firstn_nil; split; [exact LV|apply keeps_refl]|].
      assert (EL : forall d, In d L <-> used D d) by (intros d; unfold L; rewrite app_nil_r; apply Il).
      split; [|cbn [degraded devs]; rewrite Hn0; split; [reflexivity|exact IL]].
      split; [now apply nodup_sorted|]. cbn [all devs vds cs]. change (applies D []) with D. split; [|split; [|split; [|split]]].
      * intros id d. rewrite in_sorted. unfold a. rewrite app_nil_r. split.
        -- intros I. apply in_map_iff in I. destruct I as (d' & E & I). injection E as E ->. apply Il in I. destruct I as (b & V).
           exists b. split; auto. apply valid_fb in V. destruct V as (V & _). now rewrite V in E.
        -- intros (b & V & <-). apply in_map_iff. exists d. split; [|apply Il; eexists; eauto]. apply valid_fb in V. destruct V as (V & _). now rewrite V.
      * exact EL.
      * exact VS.
      * apply EX.
      * intros x d v. destruct EX as (_ & Y2 & _). rewrite (Y2 x d v). unfold held. rewrite EL. reflexivity.
  - rewrite <- Ef in *.
    destruct (grow_trail c num L vs k) as (ws2 & k2 & GR & TR).
    { intros v I. apply VS in I. split; auto. unfold L. rewrite El, <- app_assoc. apply pool_app. now apply PL. }
    rewrite GR.
    destruct (trail_exact c L k ws2 k2 TR D1 EX SM) as (EX2 & SM2 & FB2 & _).
    destruct (live_trail c base D1 L k ws2 k2 (proj1 LD1) EX SM UL TR) as (LV2 & KP2).
    destruct (CM (applies D1 ws2) k2 (S (gen h1))) as (X1 & X2 & X3); auto; [intros d; apply FB2|left; lia|].
    assert (AP : forall ws3, applies D (ws1 ++ ws2 ++ ws3) = applies (applies D1 ws2) ws3) by (intros ws3; unfold applies, D1; rewrite !fold_left_app; reflexivity).
    rewrite AP, X2. eexists. eexists. split; [reflexivity|]. split; [|split; [now rewrite AP|cbn [degraded devs]; rewrite Hn0; split; [reflexivity|exact IL]]].
    intros n. rewrite firstn_app.
    destruct (le_lt_dec n (length ws1)) as [Hn1|Hn1].
    + replace (n - length ws1) with 0 by lia. rewrite app_nil_r. apply L1.
    + rewrite firstn_all2 by lia. rewrite firstn_app. set (n1 := n - length ws1).
      destruct (le_lt_dec n1 (length ws2)) as [Hn2|Hn2].
      * replace (n1 - length ws2) with 0 by lia. rewrite app_nil_r.
        replace (applies D (ws1 ++ firstn n1 ws2)) with (applies D1 (firstn n1 ws2)) by (unfold applies, D1; now rewrite fold_left_app).
        destruct (trail_prefix _ _ _ _ _ TR n1) as (k3 & T3).
        destruct (live_trail c base D1 L k _ k3 (proj1 LD1) EX SM UL T3) as (Y1 & Y2). split; auto. eapply keeps_tran; [apply LD1|auto].
      * rewrite (firstn_all2 ws2) by lia. rewrite AP. destruct (X1 (n1 - length ws2)) as (Y1 & Y2). split; auto.
        eapply keeps_tran; [apply LD1|]. eapply keeps_tran; eauto.
Qed.
