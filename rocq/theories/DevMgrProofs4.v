(** * The first start, chunks at run time, and all histories. *)
From Coq Require Import List Arith Lia Bool Permutation.
From Verif Require Import DevMgrModel DevMgrSpec DevMgrProofs DevMgrProofs2 DevMgrProofs3.
Import ListNotations.

Lemma first_valid_none D dl : (forall d, ~ used D d) -> first_valid D dl = None.
Proof. intros H. induction dl as [|d dl IH]; cbn; auto. specialize (H d). apply valid_none in H. now rewrite H. Qed.

Lemma format_ok c base D u num : (forall d, ~ used D d) -> pools c base -> NoDup base ->
  exists w1 w2 m, start c D base u num = (w1 ++ w2, Up m) /\ length w2 = length base /\ Forall (fun w => exists d g x, w = WCommit d g x) w2 /\
    (forall n d, n <= length w1 -> ~ used (applies D (firstn n (w1 ++ w2))) d) /\
    (forall n, n < length (w1 ++ w2) -> exists d, In d base /\ ~ used (applies D (firstn n (w1 ++ w2))) d) /\
    live c base (applies D (w1 ++ w2)) /\ memok c (applies D (w1 ++ w2)) m /\ degraded m = false /\
    forall d, In d (devs m) <-> In d base.
Proof.
  intros FR PL ND.
  destruct (fmt (Hdr 1 (length base) 0 u) base) as [[h a] ws1] eqn:FM.
  destruct (fmt_spec base _ h a ws1 FM) as (F1 & F2 & F3 & F4 & F5 & F6 & F7 & F8). cbn in F1, F2, F3, F4, F6. specialize (F8 ND D).
  set (D1 := applies D ws1) in *.
  assert (Fn : forall d, In d base -> valid (D d) = None) by (intros; now apply valid_none).
  assert (N1 : forall n d, ~ used (applies D (firstn n ws1)) d).
  { intros n d. assert (FF : Forall (isfmt base) (firstn n ws1)) by (rewrite Forall_forall in *; intros w I; apply F7; rewrite <- (firstn_skipn n ws1); apply in_app_iff; auto).
    destruct (fmt_prefix base _ FF D Fn) as (Q1 & Q2). destruct (in_dec Nat.eq_dec d base) as [I|I]; [now apply valid_none, Q2|].
    unfold used. rewrite Q1 by auto. apply FR. }
  assert (N2 : forall d, ~ used D1 d) by (intros d; specialize (N1 (length ws1) d); now rewrite firstn_all in N1).
  assert (Na : NoDup (map fst a)) by (rewrite F6; apply seq_NoDup).
  assert (A1 : forall id d, In (id, d) a -> In d base /\ id <= cur h /\
     exists hx, npd hx = length base /\ uuid hx = u /\ D1 d = Disk (Some (FBlk false hx id u)) [] []).
  { intros id d I. split; [rewrite <- F5; apply in_map_iff; exists (id, d); auto|]. split; [|now apply F8].
    assert (X : In id (map fst a)) by (apply in_map_iff; exists (id, d); auto). rewrite F6 in X. apply in_seq in X. lia. }
  assert (Ia : forall d, In d base -> exists id, In (id, d) a).
  { intros d I. rewrite <- F5 in I. apply in_map_iff in I. destruct I as ((id & d') & E & I). cbn in E. subst. eauto. }
  assert (Kf : forall d, In d base -> chk (D1 d) = [] /\ vinf (D1 d) = []).
  { intros d I. destruct (Ia d I) as (id & J). destruct (A1 id d J) as (_ & _ & hx & _ & _ & E). rewrite E. auto. }
  assert (EX : exact D1 base []).
  { split; [constructor|]. split; [|intros d I; destruct (Kf d I) as (-> & _); constructor].
    intros x d v. split; [intros []|]. intros (I & J). destruct (Kf d I) as (E & _). rewrite E in J. destruct J. }
  assert (SM : small c D1 base) by (intros d I; destruct (Kf d I) as (-> & ->); cbn; tauto).
  destruct (create_trail c num base (seq 0 (nv c)) []) as (ws2 & k & CR & TR & WV).
  { intros v I. apply in_seq in I. split; [lia|]. apply PL. lia. }
  destruct (trail_exact c base [] ws2 k TR D1 EX SM) as (EX2 & SM2 & FB2 & V2).
  assert (N3 : forall n d, ~ used (applies D1 (firstn n ws2)) d).
  { intros n d. destruct (trail_prefix _ _ _ _ _ TR n) as (k3 & T3).
    destruct (trail_exact c base [] _ k3 T3 D1 EX SM) as (_ & _ & FB3 & _).
    unfold used. rewrite (valid_eq _ (D1 d)) by apply FB3. apply N2. }
  set (D2 := applies D1 ws2) in *.
  assert (N4 : forall d, ~ used D2 d) by (intros d; specialize (N3 (length ws2) d); now rewrite firstn_all in N3).
  assert (Ss : forall d, In d (map snd (sorted a)) <-> In d base) by (intros d; rewrite in_snd_sorted, F5; tauto).
  set (w2 := commit (gen h) (cur h) a).
  destruct (hv_commit D2 base (sorted a) (gen h) (cur h) u (length base)) as (X1 & X2 & X3 & X4 & X5).
  { intros d X. now apply N4 in X. }
  { intros d I. now apply Ss. }
  { intros Z. destruct PL as (PL & _). destruct base as [|d bs]; [congruence|]. assert (I : In d (d :: bs)) by now left. apply Ss in I. rewrite Z in I. destruct I. }
  { intros d b I E. rewrite (proj1 (FB2 d)) in E. destruct (Ia d I) as (id & J). destruct (A1 id d J) as (_ & ? & hx & E1 & E2 & E3).
    rewrite E3 in E. cbn in E. injection E as <-. cbn. auto. }
  { intros d I E. rewrite (proj1 (FB2 d)) in E. destruct (Ia d I) as (id & J). destruct (A1 id d J) as (_ & ? & hx & E1 & E2 & E3).
    rewrite E3 in E. discriminate. }
  { intros d b d' b' I I' E E' P. rewrite (proj1 (FB2 d)) in E. rewrite (proj1 (FB2 d')) in E'.
    destruct (Ia d I) as (id & J). destruct (A1 id d J) as (_ & _ & hx & _ & _ & E3). destruct (Ia d' I') as (id' & J'). destruct (A1 id' d' J') as (_ & _ & hx' & _ & _ & E3').
    rewrite E3 in E. rewrite E3' in E'. cbn in E, E'. injection E as <-. injection E' as <-. cbn in P. rewrite <- P in J'. eapply nodup_fst; eauto. }
  { intros d b V. destruct (N4 d). eexists; eauto. }
  fold (commit (gen h) (cur h) a) in X1, X2, X3, X4, X5. fold w2 in X1, X2, X3, X4, X5.
  set (D3 := applies D2 w2) in *.
  assert (AP : forall ws3, applies D ((ws1 ++ ws2) ++ ws3) = applies D2 ws3) by (intros ws3; unfold applies, D2, D1, applies; rewrite !fold_left_app; reflexivity).
  assert (U3 : forall d, used D3 d <-> In d base) by (intros d; rewrite X2, Ss; split; [intros [X|X]; auto; now apply N4 in X|auto]).
  exists (ws1 ++ ws2), w2. eexists. split.
  { unfold start, format. destruct base as [|z zs] eqn:Z; [destruct PL; congruence|]. rewrite first_valid_none by auto. rewrite FM. fold D1.
    rewrite (unique_ok D1 a Na).
    - cbn [negb]. rewrite CR. unfold w2. rewrite <- app_assoc. reflexivity.
    - intros id d I. destruct (A1 id d I) as (_ & _ & hx & _ & _ & E). rewrite E. cbn. eauto. }
  assert (Lw : length w2 = length base).
  { unfold w2, commit. rewrite map_length. rewrite (Permutation_length (perm_sorted a)). rewrite <- F5, map_length. reflexivity. }
  split; [exact Lw|]. split.
  { unfold w2, commit. apply Forall_forall. intros w I. apply in_map_iff in I. destruct I as (p & <- & _). eauto. }
  assert (NC : forall n d, n <= length (ws1 ++ ws2) -> ~ used (applies D (firstn n ((ws1 ++ ws2) ++ w2))) d).
  { intros n d Hn. rewrite firstn_app. replace (n - length (ws1 ++ ws2)) with 0 by lia. rewrite app_nil_r, firstn_app.
    destruct (le_lt_dec n (length ws1)) as [Hn1|Hn1].
    - replace (n - length ws1) with 0 by lia. rewrite app_nil_r. apply N1.
    - rewrite firstn_all2 by lia. replace (applies D (ws1 ++ firstn (n - length ws1) ws2)) with (applies D1 (firstn (n - length ws1) ws2)) by (unfold applies, D1; now rewrite fold_left_app). apply N3. }
  split; [exact NC|]. split.
  { intros n Hn. destruct (le_lt_dec n (length (ws1 ++ ws2))) as [L|L].
    - destruct base as [|d bs] eqn:Z; [destruct PL; congruence|]. exists d. split; [now left|]. now apply NC.
    - rewrite firstn_app, firstn_all2, AP by lia. set (n1 := n - length (ws1 ++ ws2)). rewrite app_length in Hn.
      unfold w2, commit. rewrite firstn_map.
      assert (Hs : length (sorted a) = length w2) by (unfold w2, commit; now rewrite map_length).
      destruct (skipn n1 (sorted a)) as [|p r] eqn:Sk.
      { apply (f_equal (@length _)) in Sk. rewrite skipn_length in Sk. cbn in Sk. lia. }
      assert (Np : NoDup (map snd (sorted a))) by (apply (Permutation_NoDup (l := map snd a)); [apply Permutation_sym, Permutation_map, perm_sorted|now rewrite F5]).
      assert (Sp : In (snd p) base) by (apply Ss; rewrite <- (firstn_skipn n1 (sorted a)), Sk, map_app; apply in_app_iff; right; now left).
      rewrite <- (firstn_skipn n1 (sorted a)), Sk, map_app, nodup_app in Np. destruct Np as (_ & _ & Np).
      exists (snd p). split; auto. unfold used. rewrite commit_all.
      destruct (memb (snd p) (map snd (firstn n1 (sorted a)))) eqn:M; [|apply N4]. apply memb_in in M. destruct (Np (snd p) M). now left. }
  rewrite AP. fold D3. split; [|split; [|cbn [degraded devs]; split; [reflexivity|tauto]]].
  - split; [exists (gen h), (cur h), u; exact X1|]. split.
    + apply (exact_ckv c D3 base k).
      * destruct EX2 as (Y1 & Y2 & Y3). split; [exact Y1|]. split.
        -- intros x d v. destruct (X3 d) as (-> & _). apply Y2.
        -- intros d I. destruct (X3 d) as (-> & _). auto.
      * intros d I. destruct (X3 d) as (-> & ->). auto.
      * intros d X. now apply U3.
    + split; [intros d I; now apply U3|]. intros v d Hv I. destruct (X3 d) as (_ & ->). apply V2. apply WV; auto. apply in_seq. lia.
  - split; [now apply nodup_sorted|]. cbn [all devs vds cs]. fold D3. split; [|split; [|split; [|split]]].
    + intros id d. rewrite in_sorted. split.
      * intros I. destruct (A1 id d I) as (Id & _ & hx & _ & _ & E). destruct (X5 d (FBlk false hx id u)) as (b' & E' & P).
        { rewrite (proj1 (FB2 d)), E. reflexivity. }
        apply U3 in Id. destruct Id as (b & V). exists b. split; auto. apply valid_fb in V. destruct V as (V & _). cbn in P. congruence.
      * intros (b & V & <-). assert (I : In d base) by (apply U3; eexists; eauto). destruct (Ia d I) as (id & J).
        destruct (A1 id d J) as (_ & _ & hx & _ & _ & E). destruct (X5 d (FBlk false hx id u)) as (b' & E' & P).
        { rewrite (proj1 (FB2 d)), E. reflexivity. }
        apply valid_fb in V. destruct V as (V & _). cbn in P. replace (pid b) with id by congruence. auto.
    + intros d. symmetry. apply U3.
    + intros v. rewrite in_seq. lia.
    + apply EX2.
    + intros x d v. destruct EX2 as (_ & Y2 & _). rewrite Y2. unfold held. rewrite U3. destruct (X3 d) as (-> & _). tauto.
Qed.

(** Chunks made and removed at run time. *)
Lemma mem_exact c base D m : live c base D -> memok c D m -> exact D (devs m) (cs m) /\ small c D (devs m).
Proof.
  intros (_ & (K1 & _) & _) (_ & _ & M3 & _ & M5 & M6). split.
  - split; [exact M5|]. split.
    + intros x d v. rewrite M6, M3. unfold held. tauto.
    + intros d I. apply M3 in I. now apply K1.
  - intros d I. apply M3 in I. destruct (K1 d I) as (_ & ? & ?). auto.
Qed.
Lemma new_ok c base s m v d k : live c base (dk s) -> memok c (dk s) m -> mm s = Some m ->
  let s' := step c s (NewChunk v d k) in live c base (dk s') /\ keeps (dk s) (dk s') /\ forall m', mm s' = Some m' -> memok c (dk s') m'.
Proof.
  intros LV MO E. cbn [step]. rewrite E.
  destruct (memb v (vds m) && memb d (pool c (vt c v) (devs m))) eqn:B.
  2: { split; [exact LV|]. split; [apply keeps_refl|]. intros m' X. assert (m' = m) by congruence. now subst. }
  apply andb_true_iff in B. destruct B as (B1 & B2). apply memb_in in B1, B2. apply pool_incl in B2.
  destruct (mem_exact c base (dk s) m LV MO) as (EX & SM). pose proof MO as (M1 & M2 & M3 & M4 & M5 & M6).
  apply M4 in B1. set (x := pick (map cid (cs m))).
  assert (TR : trail c (devs m) (cs m) [WChunks d v [x]; WVinfo d v] (cs m ++ [(x, d, v)])).
  { constructor; auto; [constructor; [tauto|constructor]| |constructor; auto; constructor].
    intros y [<-|[]]. apply pick_fresh. }
  assert (UL : forall e, used (dk s) e -> In e (devs m)) by (intros; now apply M3).
  cbn zeta. unfold cut. cbn [dk mm].
  destruct (trail_prefix _ _ _ _ _ TR k) as (k3 & T3). destruct (live_trail c base _ _ _ _ _ LV EX SM UL T3) as (L3 & K3).
  split; [exact L3|]. split; [exact K3|]. intros m' X. destruct (k <? _) eqn:Q; [discriminate|]. apply Nat.ltb_ge in Q. injection X as <-.
  rewrite firstn_all2 by exact Q.
  destruct (trail_exact _ _ _ _ _ TR (dk s) EX SM) as (EX' & _ & F & _).
  set (D' := applies (dk s) [WChunks d v [x]; WVinfo d v]) in *.
  assert (V : forall e, valid (D' e) = valid (dk s e)) by (intros e; apply valid_eq, F).
  split; [exact M1|]. cbn [all devs vds cs]. split; [intros id e; rewrite M2; unfold known; now rewrite V|].
  split; [intros e; rewrite M3; unfold used; now rewrite V|]. split; [exact M4|]. split; [apply EX'|].
  intros y e w. destruct EX' as (_ & Y & _). rewrite Y, M3. unfold held, used. now rewrite V.
Qed.
Lemma del_ok c base s m x k : live c base (dk s) -> memok c (dk s) m -> mm s = Some m ->
  let s' := step c s (DelChunk x k) in live c base (dk s') /\
  (forall d, valid (dk s' d) = valid (dk s d)) /\ (forall y d v, y <> x -> (held (dk s) y d v <-> held (dk s') y d v)) /\
  forall m', mm s' = Some m' -> memok c (dk s') m' /\ forall d v, ~ held (dk s') x d v.
Proof.
  intros LV MO E. cbn [step]. rewrite E. pose proof MO as (M1 & M2 & M3 & M4 & M5 & M6).
  destruct (find (fun y => Nat.eqb (cid y) x) (cs m)) as [[[y d] v]|] eqn:Fd.
  2: { split; [exact LV|]. split; [auto|]. split; [tauto|]. intros m' X. assert (m' = m) by congruence. subst m'. split; auto.
       intros d v H. apply M6 in H. apply (find_none _ _ Fd) in H. cbn in H. now rewrite Nat.eqb_refl in H. }
  apply find_some in Fd. destruct Fd as (Fd & Q). cbn in Q. apply Nat.eqb_eq in Q. subst y.
  cbn zeta. unfold cut. cbn [dk mm].
  set (ws := [WDrop d x; WVinfo d v]).
  assert (LV' : forall n, n >= 1 -> let D' := applies (dk s) (firstn n ws) in
     (forall e, fb (D' e) = fb (dk s e)) /\ (forall e y w, In (y, w) (chk (D' e)) <-> In (y, w) (chk (dk s e)) /\ ~ (e = d /\ y = x)) /\
     (forall e, incl (vinf (dk s e)) (vinf (D' e))) /\ (forall e w, In w (vinf (D' e)) -> In w (vinf (dk s e)) \/ (e = d /\ w = v)) /\
     (forall e, chk (D' e) = chk (dk s e) \/ chk (D' e) = filter (fun z => negb (Nat.eqb (fst z) x)) (chk (dk s e)))).
  { intros n Hn D'.
    assert (D'1 : applies (dk s) [WDrop d x] = set (dk s) d (Disk (fb (dk s d)) (vinf (dk s d)) (filter (fun z => negb (Nat.eqb (fst z) x)) (chk (dk s d))))) by reflexivity.
    assert (X : D' = applies (dk s) [WDrop d x] \/ D' = apply (applies (dk s) [WDrop d x]) (WVinfo d v)).
    { unfold D', ws. destruct n as [|[|n]]; [lia|left; reflexivity|right]. cbn [firstn]. rewrite firstn_nil. reflexivity. }
    set (T := applies (dk s) [WDrop d x]) in *.
    assert (TT : (forall e, fb (T e) = fb (dk s e)) /\ (forall e, vinf (T e) = vinf (dk s e)) /\
       (forall e y w, In (y, w) (chk (T e)) <-> In (y, w) (chk (dk s e)) /\ ~ (e = d /\ y = x)) /\
       (forall e, chk (T e) = chk (dk s e) \/ chk (T e) = filter (fun z => negb (Nat.eqb (fst z) x)) (chk (dk s e)))).
    { rewrite D'1. repeat split.
      - intros e. destruct (Nat.eq_dec e d) as [->|Ne]; [now rewrite set_eq|now rewrite set_ne].
      - intros e. destruct (Nat.eq_dec e d) as [->|Ne]; [now rewrite set_eq|now rewrite set_ne].
      - revert H. destruct (Nat.eq_dec e d) as [->|Ne]; [rewrite set_eq; cbn; rewrite filter_In; tauto|rewrite set_ne; auto].
      - intros (-> & ->). rewrite set_eq in H. cbn in H. apply filter_In in H. cbn in H. rewrite Nat.eqb_refl in H. destruct H; discriminate.
      - intros (H & H'). destruct (Nat.eq_dec e d) as [->|Ne]; [rewrite set_eq; cbn|now rewrite set_ne].
        apply filter_In. split; auto. cbn. apply negb_true_iff, Nat.eqb_neq. tauto.
      - intros e. destruct (Nat.eq_dec e d) as [->|Ne]; [rewrite set_eq; cbn; auto|rewrite set_ne; auto]. }
    destruct TT as (T1 & T2 & T3 & T4). clearbody T.
    destruct X as [->| ->].
    - split; [exact T1|]. split; [exact T3|]. split; [intros e; rewrite T2; apply incl_refl|]. split; [intros e w; rewrite T2; auto|exact T4].
    - cbn [apply].
      assert (Z : forall e, fb (set T d (Disk (fb (T d)) (v :: vinf (T d)) (chk (T d))) e) = fb (T e) /\
         chk (set T d (Disk (fb (T d)) (v :: vinf (T d)) (chk (T d))) e) = chk (T e) /\
         vinf (set T d (Disk (fb (T d)) (v :: vinf (T d)) (chk (T d))) e) = if Nat.eqb e d then v :: vinf (T e) else vinf (T e)).
      { intros e. destruct (Nat.eq_dec e d) as [->|Ne]; [rewrite set_eq, Nat.eqb_refl; auto|rewrite set_ne by auto; apply Nat.eqb_neq in Ne; rewrite Ne; auto]. }
      split; [intros e; destruct (Z e) as (-> & _); auto|]. split; [intros e y w; destruct (Z e) as (_ & -> & _); auto|].
      split; [intros e; destruct (Z e) as (_ & _ & ->); rewrite T2; destruct (Nat.eqb e d); [apply incl_tl|]; apply incl_refl|].
      split; [|intros e; destruct (Z e) as (_ & -> & _); auto].
      intros e w. destruct (Z e) as (_ & _ & ->). rewrite T2. destruct (Nat.eqb e d) eqn:Q; [|auto]. apply Nat.eqb_eq in Q. intros [<-|H]; auto. }
  destruct k as [|k].
  { cbn. split; [exact LV|]. split; [auto|]. split; [tauto|]. intros m' X. discriminate. }
  destruct (LV' (S k)) as (T1 & T2 & T3 & T4 & T5); [lia|]. set (D' := applies (dk s) (firstn (S k) ws)) in *.
  assert (V : forall e, valid (D' e) = valid (dk s e)) by (intros e; apply valid_eq, T1).
  assert (u : forall e, used D' e <-> used (dk s) e) by (intros e; unfold used; now rewrite V).
  pose proof LV as ((G & C & U & H1 & (dg & bg & Vg & Eg) & H3) & (K1 & K2) & B1 & B2).
  assert (Hx : held (dk s) x d v) by now apply M6.
  assert (NX : forall e w, ~ held D' x e w).
  { intros e w (X1 & X2). apply T2 in X2. destruct X2 as (X2 & X3). apply u in X1.
    assert (e = d) by (apply (K2 x e w d v); auto; split; auto). tauto. }
  split; [|split; [exact V|split]].
  - split; [|split].
    + exists G, C, U. split; [intros e b; rewrite V; apply H1|]. split; [exists dg, bg; now rewrite V|]. intros e b e' b'. rewrite !V. apply H3.
    + split.
      * intros e X. apply u in X. destruct (K1 e X) as (Y1 & Y2 & Y3). split; [|split].
        -- destruct (T5 e) as [-> | ->]; auto. now apply nodup_filter.
        -- intros w W. apply T4 in W. destruct W as [W|(_ & ->)]; auto. destruct (K1 d (proj1 Hx)) as (_ & _ & Z). exact (Z x v (proj2 Hx)).
        -- intros y w W. apply T2 in W. destruct W as (W & _). eapply Y3; eauto.
      * intros y e w e' w' (X1 & X2) (Y1 & Y2). apply T2 in X2, Y2. apply u in X1, Y1. apply (K2 y e w e' w'); split; tauto.
    + split; [intros e I; now apply u, B1|]. intros w e P Q. apply T3. auto.
  - intros y e w Ne. unfold held. rewrite u, T2. tauto.
  - intros m' X. destruct (S k <? _) eqn:Q; [discriminate|]. injection X as <-. split; [|exact NX].
    split; [exact M1|]. cbn [all devs vds cs]. split; [intros id e; rewrite M2; unfold known; now rewrite V|].
    split; [intros e; now rewrite M3, u|]. split; [exact M4|]. split.
    + clear - M5. induction (cs m) as [|z l IH]; cbn; [constructor|]. inversion M5; subst. destruct (negb _); cbn; auto. constructor; auto.
      rewrite in_map_iff. intros (z' & E & I). apply filter_In in I. apply H1. apply in_map_iff. exists z'. tauto.
    + intros y e w. rewrite filter_In, M6. unfold held. rewrite u, T2. cbn. rewrite negb_true_iff, Nat.eqb_neq. split.
      * intros ((X1 & X2) & X3). repeat split; auto. tauto.
      * intros (X1 & X2 & X3). split; [auto|]. intros ->. apply X3. split; auto. apply (K2 x e w d v); split; auto. apply Hx. apply Hx.
Qed.

(** ** All histories *)
Definition stays (e : ev) : Prop := match e with DelChunk _ _ => False | _ => True end.

Lemma start_ok c base s dl u num k : pools c base -> inv c base s -> calm c base s (Start dl u num k) ->
  let s' := step c s (Start dl u num k) in inv c base s' /\ keeps (dk s) (dk s') /\
  exists ws m, start c (dk s) dl u num = (ws, Up m) /\ (mm s' = None \/ mm s' = Some m) /\ (length ws <= k -> mm s' = Some m) /\
    degraded m = negb (length base =? length dl) /\ (forall d, In d (devs m) <-> In d dl).
Proof.
  intros PL IV (ND & (ext & E) & US & FRs). subst dl. cbn [step] in *. destruct IV as [(FR & Mn)|(LV & MO)].
  - destruct (FRs FR) as (E & TN). assert (ext = []) as ->.
    { apply (f_equal (@length nat)) in E. rewrite app_length in E. destruct ext; cbn in E; auto; lia. }
    rewrite app_nil_r in *. destruct (format_ok c base (dk s) u num FR PL ND) as (w1 & w2 & m & S1 & S2 & SC & S3 & S4 & S5 & S6 & S7 & S8).
    rewrite S1 in TN |- *. unfold cut in *. cbn [dk mm] in *. split; [|split].
    + destruct (k <? length (w1 ++ w2)) eqn:Q.
      * apply Nat.ltb_lt in Q. destruct (S4 k Q) as (d & I & N). left. split; auto. intros e X. apply N. apply TN; eauto.
      * apply Nat.ltb_ge in Q. right. rewrite firstn_all2 by auto. split; auto. intros m' X. injection X as <-. auto.
    + intros d b V. destruct (FR d). eexists; eauto.
    + exists (w1 ++ w2), m. split; auto. split; [destruct (k <? _); auto|]. split; [|split; [now rewrite Nat.eqb_refl|auto]].
      intros H. apply Nat.ltb_ge in H. now rewrite H.
  - destruct (load_ok c base (dk s) ext u num LV PL ND US) as (ws & m & S1 & S2 & S3 & S4 & S5). rewrite S1. unfold cut. cbn [dk mm].
    split; [|split].
    + right. split; [apply S2|]. intros m' X. destruct (k <? _) eqn:Q; [discriminate|]. apply Nat.ltb_ge in Q. injection X as <-. now rewrite firstn_all2.
    + apply S2.
    + exists ws, m. split; auto. split; [destruct (k <? _); auto|]. split; [|auto]. intros H. apply Nat.ltb_ge in H. now rewrite H.
Qed.

Lemma inv_step c base s e : pools c base -> inv c base s -> calm c base s e ->
  inv c base (step c s e) /\ (stays e -> keeps (dk s) (dk (step c s e))).
Proof.
  intros PL IV CM. destruct e as [dl u num k|v d k|x k].
  - destruct (start_ok c base s dl u num k PL IV CM) as (A & B & _). auto.
  - destruct (mm s) as [m|] eqn:M.
    + destruct IV as [(_ & X)|(LV & MO)]; [congruence|]. destruct (new_ok c base s m v d k LV (MO m M) M) as (A & B & C). split; auto. right. auto.
    + cbn [step]. rewrite M. split; auto. intros _. apply keeps_refl.
  - split; [|intros []]. destruct (mm s) as [m|] eqn:M.
    + destruct IV as [(_ & X)|(LV & MO)]; [congruence|]. destruct (del_ok c base s m x k LV (MO m M) M) as (A & B & C & D). right. split; auto. intros m' X. now apply D.
    + cbn [step]. rewrite M. exact IV.
Qed.
Lemma inv_reach c base s : pools c base -> reach c (calm c base) s -> inv c base s.
Proof. intros PL R. induction R as [D F|s e R IH CM]; [left; auto|]. now apply inv_step. Qed.
