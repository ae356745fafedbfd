(** * Proofs about starts of the device manager. *)
From Coq Require Import List Arith Lia Bool.
From Verif Require Import DevMgrModel DevMgrSpec.
Import ListNotations.

Lemma memb_in x l : memb x l = true <-> In x l.
Proof.
  unfold memb. rewrite existsb_exists. split.
  - intros (y & H & E). apply Nat.eqb_eq in E. now subst.
  - intros H. exists x. split; auto. apply Nat.eqb_refl.
Qed.
Lemma memb_no x l : memb x l = false <-> ~ In x l.
Proof. rewrite <- memb_in. destruct (memb x l); split; congruence. Qed.
Lemma nodupb_ok l : nodupb l = true <-> NoDup l.
Proof.
  induction l; cbn; [split; auto; constructor|].
  rewrite andb_true_iff, negb_true_iff, IHl, memb_no. split.
  - intros (? & ?). now constructor.
  - intros H. inversion H. auto.
Qed.
Lemma nodup_app {A} (l m : list A) : NoDup (l ++ m) <-> NoDup l /\ NoDup m /\ forall x, In x l -> In x m -> False.
Proof.
  induction l as [|y l IH]; cbn.
  - split; [intros H; split; [constructor|]; split; [exact H|tauto]|tauto].
  - split.
    + intros H. inversion H; subst. apply IH in H3. destruct H3 as (H3 & H4 & H5). rewrite in_app_iff in H2.
      repeat split; auto; [constructor; tauto|]. intros x [<-|Hx] Hm; [tauto|eauto].
    + intros (H1 & H2 & H3). inversion H1; subst. constructor.
      * rewrite in_app_iff. intros [H|H]; [tauto|]. eapply H3; eauto.
      * apply IH. repeat split; auto. intros x Hx Hm. apply (H3 x); auto.
Qed.
Lemma nodup_fst {A B} (l : list (A * B)) a b b' : NoDup (map fst l) -> In (a, b) l -> In (a, b') l -> b = b'.
Proof.
  induction l as [|[x y] l IH]; cbn; [tauto|]. intros H. inversion H; subst. intros [E|H1] [F|H4].
  - congruence.
  - injection E as -> ->. contradict H2. apply in_map_iff. exists (a, b'). auto.
  - injection F as -> ->. contradict H2. apply in_map_iff. exists (a, b). auto.
  - eauto.
Qed.

Lemma lowest_spec ids : forall fuel from, (forall i, i < from -> In i ids) -> length ids <= from + fuel ->
  ~ In (lowest ids from fuel) ids.
Proof.
  induction fuel; cbn; intros from H L.
  - intros X. assert (I : incl (seq 0 (S from)) ids).
    { intros y Hy. apply in_seq in Hy. destruct (Nat.eq_dec y from); [now subst|]. apply H. lia. }
    apply NoDup_incl_length in I; [|apply seq_NoDup]. rewrite seq_length in I. lia.
  - destruct (memb from ids) eqn:E.
    + apply IHfuel; [|lia]. intros i Hi. destruct (Nat.eq_dec i from); [subst; now apply memb_in|]. apply H. lia.
    + now apply memb_no.
Qed.
Lemma pick_fresh ids : ~ In (pick ids) ids.
Proof. apply lowest_spec; [lia|lia]. Qed.
Lemma alloc_spec n : forall used0, NoDup (alloc used0 n) /\ forall x, In x (alloc used0 n) -> ~ In x used0.
Proof.
  induction n; intros u; cbn [alloc]; [split; [constructor|cbn; tauto]|].
  destruct (IHn (pick u :: u)) as (N & F). split.
  - constructor; auto. intros H. apply F in H. cbn in H. tauto.
  - intros x [<-|H]; [apply pick_fresh|]. apply F in H. cbn in H. tauto.
Qed.

(** ** Virtual device and chunk writes *)
Definition put (d v : nat) (ids : list nat) : list chunk := map (fun c => (c, d, v)) ids.
Lemma cid_put d v ids : map cid (put d v ids) = ids.
Proof. unfold put. rewrite map_map. unfold cid. cbn. apply map_id. Qed.
Inductive trail (c : cfg) (L : list nat) : list chunk -> list wr -> list chunk -> Prop :=
| t_nil k : trail c L k [] k
| t_chunks k d v ids ws k' : In d L -> v < nv c -> NoDup ids -> (forall x, In x ids -> ~ In x (map cid k)) ->
    trail c L (k ++ put d v ids) ws k' -> trail c L k (WChunks d v ids :: ws) k'
| t_vinfo k d v ws k' : In d L -> v < nv c -> trail c L k ws k' -> trail c L k (WVinfo d v :: ws) k'.
Lemma trail_app c L k ws k' : trail c L k ws k' -> forall ws2 k2, trail c L k' ws2 k2 -> trail c L k (ws ++ ws2) k2.
Proof. induction 1; cbn; intros; auto; constructor; auto. Qed.
Lemma trail_prefix c L k ws k' : trail c L k ws k' -> forall n, exists k2, trail c L k (firstn n ws) k2.
Proof.
  induction 1; intros n.
  - destruct n; cbn; eexists; constructor.
  - destruct n; [eexists; constructor|]. destruct (IHtrail n) as (k2 & T). exists k2. cbn. now constructor.
  - destruct n; [eexists; constructor|]. destruct (IHtrail n) as (k2 & T). exists k2. cbn. now constructor.
Qed.
Lemma trail_vinfos c L v : v < nv c -> forall ps k, incl ps L -> trail c L k (map (fun d => WVinfo d v) ps) k.
Proof.
  intros Hv. induction ps; cbn; intros k I; [constructor|].
  constructor; auto; [apply I; now left|]. apply IHps. intros x H. apply I. now right.
Qed.
Lemma spread_trail c L num v : v < nv c -> forall ps k, incl ps L ->
  trail c L k (map (fun p => WChunks (fst p) v (snd p)) (spread num v ps (map cid k))) (k ++ triples v (spread num v ps (map cid k))) /\
  trail c L k (add_ws v (spread num v ps (map cid k))) (k ++ triples v (spread num v ps (map cid k))).
Proof.
  intros Hv. enough (G : forall ps k u, (forall x, In x u <-> In x (map cid k)) -> incl ps L ->
    trail c L k (map (fun p => WChunks (fst p) v (snd p)) (spread num v ps u)) (k ++ triples v (spread num v ps u)) /\
    trail c L k (add_ws v (spread num v ps u)) (k ++ triples v (spread num v ps u))).
  { intros ps k I. apply G; auto. tauto. }
  induction ps as [|d ps IH]; intros k u E I; cbn -[alloc].
  - rewrite app_nil_r. split; constructor.
  - destruct (alloc_spec (num v d) u) as (N & F). set (ids := alloc u (num v d)) in *.
    assert (Hd : In d L) by (apply I; now left).
    assert (F' : forall x, In x ids -> ~ In x (map cid k)) by (intros x Hx; rewrite <- E; auto).
    destruct (IH (k ++ put d v ids) (ids ++ u)) as (A & B).
    { intros x. rewrite map_app, cid_put, !in_app_iff, E. tauto. }
    { intros x H. apply I. now right. }
    rewrite <- app_assoc in A, B. split; [now constructor|]. constructor; auto. now constructor.
Qed.

Lemma pool_incl c t L : incl (pool c t L) L.
Proof.
  unfold pool, of_type. intros x H. destruct (filter (fun d => eqb (typ c d) t) L) eqn:E.
  - apply filter_In in H. tauto.
  - rewrite <- E in H. apply filter_In in H. tauto.
Qed.
Lemma create_trail c num L : forall vs k, (forall v, In v vs -> v < nv c /\ pool c (vt c v) L <> []) ->
  exists ws k', create_vdevs c num L vs k = (ws, Some k') /\ trail c L k ws k' /\
    forall v d, In v vs -> In d (pool c (vt c v) L) -> In (WVinfo d v) ws.
Proof.
  induction vs as [|v vs IH]; intros k H.
  - exists [], k. cbn. repeat split; [constructor|tauto].
  - destruct (H v) as (Hv & Hp); [now left|].
    cbn [create_vdevs].
    assert (X : forall ps, pool c (vt c v) L = ps -> exists ws k', (let sp := spread num v ps (map cid k) in
        let '(ws, o) := create_vdevs c num L vs (k ++ triples v sp) in (create_ws v ps sp ++ ws, o)) = (ws, Some k') /\
        trail c L k ws k' /\ forall v0 d, In v0 (v :: vs) -> In d (pool c (vt c v0) L) -> In (WVinfo d v0) ws).
    { intros ps E. cbv zeta. assert (I : incl ps L) by (rewrite <- E; apply pool_incl).
      destruct (IH (k ++ triples v (spread num v ps (map cid k)))) as (ws & k' & E1 & T & W); [intros; apply H; now right|].
      rewrite E1. eexists. exists k'. split; [reflexivity|]. split.
      - apply (trail_app _ _ _ _ (k ++ triples v (spread num v ps (map cid k)))); auto. unfold create_ws.
        eapply trail_app; [apply spread_trail; auto|]. now apply trail_vinfos.
      - intros v0 d [<-|Hv0] Hd; rewrite in_app_iff; [left|right; eauto]. unfold create_ws. rewrite in_app_iff. right.
        rewrite E in Hd. apply in_map_iff. exists d. auto. }
    destruct (pool c (vt c v) L) as [|p ps] eqn:E; [contradiction|]. now apply X.
Qed.
Lemma grow_trail c num L : forall vs k, (forall v, In v vs -> v < nv c /\ pool c (vt c v) L <> []) ->
  exists ws k', grow c num L vs k = (ws, Some k') /\ trail c L k ws k'.
Proof.
  induction vs as [|v vs IH]; intros k H.
  - exists [], k. cbn. split; [auto|constructor].
  - destruct (H v) as (Hv & Hp); [now left|]. cbn [grow].
    assert (H' : forall v0, In v0 vs -> v0 < nv c /\ pool c (vt c v0) L <> []) by (intros; apply H; now right).
    destruct (dyn c v); [auto|].
    destruct (pool c (vt c v) L) as [|p ps] eqn:E; [contradiction|]. destruct (Nat.eqb _ _); [auto|].
    set (sp := spread num v (filter (fun d => negb (memb d (mine v k))) (p :: ps)) (map cid k)).
    destruct (IH (k ++ triples v sp) H') as (ws & k' & E1 & T). rewrite E1. eexists. exists k'. split; [reflexivity|].
    eapply trail_app; [|exact T]. apply spread_trail; auto. intros x Hx. apply filter_In in Hx.
    apply (pool_incl c (vt c v)). rewrite E. tauto.
Qed.

(** Memory has just the chunks that are on the drives of [L]. *)
Definition exact (D : disks) (L : list nat) (k : list chunk) : Prop :=
  NoDup (map cid k) /\ (forall c d v, In (c, d, v) k <-> In d L /\ In (c, v) (chk (D d))) /\
  forall d, In d L -> NoDup (map fst (chk (D d))).
Definition small (c : cfg) (D : disks) (L : list nat) : Prop :=
  forall d, In d L -> (forall v, In v (vinf (D d)) -> v < nv c) /\ forall x v, In (x, v) (chk (D d)) -> v < nv c.
Lemma set_eq D d x : set D d x d = x.
Proof. unfold set. now rewrite Nat.eqb_refl. Qed.
Lemma set_ne D d x e : e <> d -> set D d x e = D e.
Proof. intros H. unfold set. apply Nat.eqb_neq in H. now rewrite H. Qed.
Lemma in_pair ids (x v v' : nat) : In (x, v') (map (fun c : nat => (c, v)) ids) <-> In x ids /\ v' = v.
Proof.
  rewrite in_map_iff. split.
  - intros (y & E & H). injection E as -> ->. auto.
  - intros (H & ->). eauto.
Qed.
Lemma in_put x d v ids d' v' : In (x, d', v') (put d v ids) <-> In x ids /\ d' = d /\ v' = v.
Proof.
  unfold put. rewrite in_map_iff. split.
  - intros (y & E & H). injection E as -> -> ->. auto.
  - intros (H & -> & ->). eauto.
Qed.
Lemma exact_id D L k x d v : exact D L k -> In d L -> In (x, v) (chk (D d)) -> In x (map cid k).
Proof. intros (_ & E & _) H1 H2. apply in_map_iff. exists (x, d, v). split; auto. now apply E. Qed.
Lemma trail_exact c L k ws k' : trail c L k ws k' -> forall D, exact D L k -> small c D L ->
  exact (applies D ws) L k' /\ small c (applies D ws) L /\
  (forall d, fb (applies D ws d) = fb (D d) /\ incl (vinf (D d)) (vinf (applies D ws d)) /\ incl (chk (D d)) (chk (applies D ws d))) /\
  forall d v, In (WVinfo d v) ws -> In v (vinf (applies D ws d)).
Proof.
  induction 1 as [k|k d v ids ws k' Hd Hv N F T IH|k d v ws k' Hd Hv T IH]; intros D E B.
  - split; [exact E|]. split; [exact B|]. split; [|cbn; tauto]. intros d. repeat split; apply incl_refl.
  - cbn [applies fold_left]. set (D1 := apply D (WChunks d v ids)) in *.
    destruct (IH D1) as (A1 & A2 & A3 & A4).
    + split; [|split].
      * rewrite map_app, cid_put, nodup_app. split; [apply E|]. split; auto. intros x H1 H2. now apply (F x).
      * intros x d' v'. rewrite in_app_iff, in_put. destruct E as (_ & E & _). rewrite E. unfold D1. cbn [apply].
        destruct (Nat.eq_dec d' d) as [->|Ne].
        -- rewrite set_eq. cbn [chk]. rewrite in_app_iff, in_pair. tauto.
        -- rewrite set_ne by auto. tauto.
      * intros d' Hd'. unfold D1. cbn [apply]. destruct (Nat.eq_dec d' d) as [->|Ne].
        -- rewrite set_eq. cbn [chk]. rewrite map_app, map_map. cbn [fst]. rewrite map_id, nodup_app. split; [now apply E|].
           split; auto. intros x H1 H2. apply in_map_iff in H1. destruct H1 as ((x', v') & <- & H1).
           apply (F x'); auto. eapply exact_id; eauto.
        -- rewrite set_ne by auto. now apply E.
    + intros d' Hd'. unfold D1. cbn [apply]. destruct (Nat.eq_dec d' d) as [->|Ne].
      * rewrite set_eq. cbn. split; [apply B; auto|]. intros x v'. rewrite in_app_iff, in_pair. intros [H1|(_ & ->)]; auto.
        exact (proj2 (B d Hd) x v' H1).
      * rewrite set_ne by auto. now apply B.
    + split; auto. split; auto. split.
      * intros d'. destruct (A3 d') as (P & Q & R). unfold D1 in P, Q, R at 1. cbn [apply] in P, Q, R.
        assert (X : fb (set D d (Disk (fb (D d)) (vinf (D d)) (chk (D d) ++ map (fun c => (c, v)) ids)) d') = fb (D d') /\
           vinf (set D d (Disk (fb (D d)) (vinf (D d)) (chk (D d) ++ map (fun c => (c, v)) ids)) d') = vinf (D d') /\
           incl (chk (D d')) (chk (set D d (Disk (fb (D d)) (vinf (D d)) (chk (D d) ++ map (fun c => (c, v)) ids)) d'))).
        { destruct (Nat.eq_dec d' d) as [->|Ne]; [rewrite set_eq; cbn; repeat split; apply incl_appl, incl_refl|].
          rewrite set_ne by auto. repeat split; apply incl_refl. }
        destruct X as (X1 & X2 & X3). rewrite X1 in P. rewrite X2 in Q. repeat split; auto. eapply incl_tran; eauto.
      * intros d' v' [H|H]; [discriminate|]. now apply A4.
  - cbn [applies fold_left]. set (D1 := apply D (WVinfo d v)) in *.
    assert (K : forall d', chk (D1 d') = chk (D d') /\ fb (D1 d') = fb (D d')).
    { intros d'. unfold D1. cbn [apply]. destruct (Nat.eq_dec d' d) as [->|Ne]; [rewrite set_eq|rewrite set_ne]; auto. }
    destruct (IH D1) as (A1 & A2 & A3 & A4).
    + split; [apply E|split].
      * intros x d' v'. destruct (K d') as (-> & _). apply E.
      * intros d' Hd'. destruct (K d') as (-> & _). now apply E.
    + intros d' Hd'. destruct (K d') as (-> & _). unfold D1. cbn [apply]. destruct (Nat.eq_dec d' d) as [->|Ne].
      * rewrite set_eq. cbn. split; [|apply B; auto]. intros x [<-|H1]; auto. exact (proj1 (B d Hd) x H1).
      * rewrite set_ne by auto. now apply B.
    + assert (V : forall d', incl (vinf (D d')) (vinf (D1 d'))).
      { intros d'. unfold D1. cbn [apply]. destruct (Nat.eq_dec d' d) as [->|Ne]; [rewrite set_eq|rewrite set_ne by auto; apply incl_refl].
        cbn. apply incl_tl, incl_refl. }
      split; auto. split; auto. split.
      * intros d'. destruct (A3 d') as (P & Q & R). destruct (K d') as (K1 & K2). rewrite K2 in P. rewrite K1 in R.
        repeat split; auto. eapply incl_tran; eauto.
      * intros d' v' [H|H]; [|now apply A4]. injection H as <- <-. apply (A3 d). unfold D1. cbn [apply]. rewrite set_eq. cbn. now left.
Qed.

(** ** Formatting *)
Definition isfmt (f : list nat) (w : wr) : Prop := exists d b, w = WFormat d b /\ In d f /\ done b = false.
Lemma fmt_prefix f ws : Forall (isfmt f) ws -> forall D, (forall d, In d f -> valid (D d) = None) ->
  (forall d, ~ In d f -> applies D ws d = D d) /\ forall d, In d f -> valid (applies D ws d) = None.
Proof.
  induction 1 as [|w ws H F IH]; intros D V; [cbn; auto|].
  destruct H as (d & b & -> & Hd & Hb). cbn [applies fold_left].
  destruct (IH (apply D (WFormat d b))) as (A & B).
  - intros e He. cbn [apply]. destruct (Nat.eq_dec e d) as [->|Ne]; [rewrite set_eq; unfold valid; cbn; now rewrite Hb|].
    rewrite set_ne by auto. auto.
  - split; auto. intros e He. unfold applies in A. rewrite A by auto. cbn [apply]. apply set_ne. congruence.
Qed.
Lemma fmt_spec l : forall h h' a ws, fmt h l = (h', a, ws) ->
  gen h' = gen h /\ npd h' = npd h /\ uuid h' = uuid h /\ cur h' = cur h + length l /\
  map snd a = l /\ map fst a = seq (S (cur h)) (length l) /\ Forall (isfmt l) ws /\
  (NoDup l -> forall D id d, In (id, d) a -> exists hx, npd hx = npd h /\ uuid hx = uuid h /\ applies D ws d = Disk (Some (FBlk false hx id (uuid h))) [] []).
Proof.
  induction l as [|d l IH]; intros h h' a ws E; cbn in E.
  - injection E as <- <- <-. cbn. repeat split; auto; tauto.
  - destruct (fmt _ l) as [[h1 a1] ws1] eqn:E1. injection E as <- <- <-.
    destruct (IH _ _ _ _ E1) as (A1 & A2 & A3 & A4 & A5 & A6 & A7 & A8). cbn in A1, A2, A3, A4, A6, A8. clear IH.
    cbn [length map fst snd]. repeat split; auto; try lia; try (cbn; congruence).
    + constructor; [exists d, (FBlk false h (S (cur h)) (uuid h)); cbn; auto|].
      eapply Forall_impl; [|exact A7]. intros w (e & b & -> & He & Hb). exists e, b. cbn. auto.
    + intros N D id e [H|H].
      * injection H as <- <-. exists h. repeat split; auto. cbn [applies fold_left].
        inversion N; subst. 
        assert (X : forall D', applies D' ws1 d = D' d).
        { clear - A7 H1. induction A7 as [|w ws (e & b & -> & He & _) F IH]; intros D'; [reflexivity|].
          cbn [applies fold_left]. unfold applies in IH. rewrite IH. cbn [apply]. apply set_ne. congruence. }
        unfold applies in X. rewrite X. cbn [apply]. apply set_eq.
      * inversion N; subst. destruct (A8 H3 (apply D (WFormat d (FBlk false h (S (cur h)) (uuid h)))) id e H) as (hx & P & Q & R).
        exists hx. auto.
Qed.

(** ** Committing *)
Definition com (g c : nat) (x : disk) : disk :=
  match fb x with
  | None => x
  | Some b => Disk (Some (FBlk true (Hdr g (npd (fh b)) c (uuid (fh b))) (pid b) (puuid b))) (vinf x) (chk x)
  end.
Lemma com_com g c x : com g c (com g c x) = com g c x.
Proof. unfold com. destruct (fb x) as [b|] eqn:E; cbn; [reflexivity|now rewrite E]. Qed.
Lemma com_apply D g c d e : apply D (WCommit d g c) e = if Nat.eqb e d then com g c (D e) else D e.
Proof.
  cbn [apply]. unfold com. destruct (Nat.eqb e d) eqn:E.
  - apply Nat.eqb_eq in E. subst. destruct (fb (D d)) eqn:F; [apply set_eq|reflexivity].
  - apply Nat.eqb_neq in E. destruct (fb (D d)); [now apply set_ne|reflexivity].
Qed.
Lemma commit_all g c (a : list (nat * nat)) : forall D d,
  applies D (map (fun p => WCommit (snd p) g c) a) d = if memb d (map snd a) then com g c (D d) else D d.
Proof.
  induction a as [|p a IH]; intros D d; [reflexivity|]. cbn [map applies fold_left memb existsb].
  unfold applies in IH. rewrite IH, com_apply. fold (memb d (map snd a)).
  destruct (Nat.eqb d (snd p)); cbn [orb]; [|reflexivity]. destruct (memb d (map snd a)); [apply com_com|reflexivity].
Qed.
Lemma in_ins x y l : In x (ins y l) <-> x = y \/ In x l.
Proof.
  induction l as [|z l IH]; cbn; [intuition congruence|]. destruct (fst y <=? fst z); cbn; rewrite ?IH; intuition congruence.
Qed.
Lemma in_sorted x l : In x (sorted l) <-> In x l.
Proof. induction l; cbn; [tauto|]. rewrite in_ins, IHl. intuition congruence. Qed.
Lemma nodup_ins x l : ~ In (fst x) (map fst l) -> NoDup (map fst l) -> NoDup (map fst (ins x l)).
Proof.
  induction l as [|y l IH]; cbn; intros H N; [constructor; [tauto|constructor]|].
  destruct (fst x <=? fst y); cbn; [constructor; auto|]. inversion N; subst. constructor; [|apply IH; tauto].
  rewrite in_map_iff. intros (z & E & Hz). apply in_ins in Hz. destruct Hz as [->|Hz]; [apply H; left; now symmetry|].
  apply H2. apply in_map_iff. eauto.
Qed.
Lemma nodup_sorted l : NoDup (map fst l) -> NoDup (map fst (sorted l)).
Proof.
  induction l; cbn; intros N; [constructor|]. inversion N; subst. apply nodup_ins; auto.
  rewrite in_map_iff. intros (z & E & Hz). apply (in_sorted z l) in Hz. apply H1. apply in_map_iff. eauto.
Qed.
Lemma in_snd_sorted d a : In d (map snd (sorted a)) <-> In d (map snd a).
Proof. rewrite !in_map_iff. split; intros (x & E & H); exists x; rewrite in_sorted in *; auto. Qed.
