(** * Proofs about the leaves after a crash: what the disk shows. *)
From Coq Require Import ZArith List Bool Arith Lia Permutation.
From Verif Require Import Base WbModel WbSpec WbProofs WbFlushProofs WbProperties DagModel DagSpec DagProofs DagProofs2 DagProofs3 DagProperties
  LeafCrashModel LeafCrashSpec LeafCrashProofs LeafCrashProofs2.
Import ListNotations.

(** ** Rows of leaves and their bounds *)
Fixpoint fseg (m : mem_t) (lo : option Z) (L : layout) : Prop :=
  match L with
  | [] => True
  | (i, hi) :: r =>
      (forall k v, In (k, v) (n_ents (m i)) -> over lo k /\ upto hi k) /\
      (r <> [] -> hi <> None) /\
      (forall x, hi = Some x -> over lo x) /\ fseg m hi r
  end.
Lemma end_bound_cons x L : L <> [] -> end_bound (x :: L) = end_bound L.
Proof. intros H. apply (end_bound_app [x]). exact H. Qed.
Lemma fits_fseg m : forall L lo, fits m lo L <-> fseg m lo L /\ (L <> [] -> end_bound L = None).
Proof.
  induction L as [|[i hi] r IH]; intros lo; cbn [fits fseg].
  - split; [intros _; split; [exact I|congruence]|auto].
  - rewrite IH. destruct r as [|y r].
    + split.
      * intros (H1 & H2 & H3 & H4 & H5). split; [ands; [exact H1|congruence|exact H3|exact I]|intros _; cbn; now apply H2].
      * intros ((H1 & H2 & H3 & H4) & H5). ands; [exact H1| |exact H3|exact I|congruence]. split; [intros _|reflexivity].
        assert (Z : [(i, hi)] <> []) by discriminate. exact (H5 Z).
    + rewrite (end_bound_cons (i, hi) (y :: r)) by discriminate. split.
      * intros (H1 & H2 & H3 & H4 & H5). ands; auto.
        -- intros _ E. apply H2 in E. discriminate.
        -- intros _. apply H5. discriminate.
      * intros ((H1 & H2 & H3 & H4) & H5). ands; auto.
        -- split; [discriminate|]. intros E. exfalso. apply H2; [discriminate|assumption].
        -- intros _. apply H5. discriminate.
Qed.
Lemma fseg_app m : forall a b lo, a <> [] ->
  (fseg m lo (a ++ b) <-> fseg m lo a /\ (b <> [] -> end_bound a <> None) /\ fseg m (end_bound a) b).
Proof.
  induction a as [|[i hi] a IH]; intros b lo Ha; [congruence|]. cbn [app fseg].
  destruct a as [|y a].
  - cbn. split; [intros (H1 & H2 & H3 & H4); ands; auto; congruence|].
    intros ((H1 & H2 & H3 & _) & H4 & H5). ands; auto.
  - rewrite IH by discriminate. rewrite (end_bound_cons (i, hi) (y :: a)) by discriminate. cbn [app]. split.
    + intros (H1 & H2 & H3 & H4 & H5 & H6). ands; auto. intros _. apply H2. discriminate.
    + intros ((H1 & H2 & H3 & H4) & H5 & H6). ands; auto. intros _. apply H2. discriminate.
Qed.
Lemma fseg_ext m m' : forall L lo, (forall i, In i (ids L) -> m' i = m i) -> fseg m lo L -> fseg m' lo L.
Proof.
  induction L as [|[i hi] r IH]; intros lo HE H; [exact I|]. cbn [fseg] in *.
  destruct H as (H1 & H2 & H3 & H4). ands; auto.
  - intros k v. rewrite HE by now left. apply H1.
  - apply IH; auto. intros j Hj. apply HE. now right.
Qed.
(** The keys of a row lie between its bounds. *)
Lemma over_trans lo x k : over lo x -> (x < k)%Z -> over lo k.
Proof. destruct lo; cbn; [lia|auto]. Qed.
Lemma fseg_keys m : forall L lo, fseg m lo L ->
  (L <> [] -> forall x, end_bound L = Some x -> over lo x) /\
  forall k v, In (k, v) (flat_map (fun i => n_ents (m i)) (ids L)) -> over lo k /\ (L <> [] -> upto (end_bound L) k).
Proof.
  induction L as [|[i hi] r IH]; intros lo H; [split; [congruence|intros k v []]|].
  cbn [fseg] in H. destruct H as (H1 & H2 & H3 & H4). destruct (IH _ H4) as [K1 K2].
  destruct r as [|y r].
  - split; [intros _ x E; apply H3; exact E|]. intros k v Hk. cbn in Hk. rewrite app_nil_r in Hk. apply H1 in Hk. tauto.
  - destruct hi as [x|]; [|exfalso; apply H2; [discriminate|reflexivity]].
    assert (Hyr : y :: r <> []) by discriminate. assert (Hx := H3 x eq_refl). rewrite (end_bound_cons (i, Some x) (y :: r)) by discriminate. split.
    + intros _ z E. apply over_trans with x; [assumption|]. apply (K1 Hyr z E).
    + intros k v Hk. cbn [ids map fst flat_map] in Hk. apply in_app_iff in Hk. destruct Hk as [Hk|Hk].
      * apply H1 in Hk. destruct Hk as [Q1 Q2]. split; [assumption|]. intros _. cbn in Q2.
        destruct (end_bound (y :: r)) as [z|] eqn:E; [|exact I]. cbn.
        specialize (K1 Hyr z eq_refl). cbn in K1. lia.
      * apply K2 in Hk. destruct Hk as [Q1 Q2]. split; [now apply over_trans with x|]. intros _. apply Q2. discriminate.
Qed.

Definition ents (m : mem_t) (l : list nat) := flat_map (fun i => n_ents (m i)) l.
Lemma val_app m l1 l2 k : val m (l1 ++ l2) k = match val m l1 k with Some v => Some v | None => val m l2 k end.
Proof.
  unfold val. rewrite flat_map_app.
  induction (flat_map (fun i => n_ents (m i)) l1) as [|e l IH]; cbn; [reflexivity|].
  destruct (fst e =? k)%Z; [reflexivity|apply IH].
Qed.
Lemma val_none m l k : (forall v, ~ In (k, v) (ents m l)) -> val m l k = None.
Proof.
  intros H. unfold val. destruct (find _ _) as [[k' v]|] eqn:E; [|reflexivity].
  apply find_some in E. destruct E as [E1 E2]. cbn in E2. apply Z.eqb_eq in E2. subst. exfalso. exact (H v E1).
Qed.
Lemma val_ext m m' l k : (forall i, In i l -> m' i = m i) -> val m' l k = val m l k.
Proof.
  intros H. unfold val. replace (flat_map (fun i => n_ents (m' i)) l) with (flat_map (fun i => n_ents (m i)) l); [reflexivity|].
  induction l as [|i l IH]; [reflexivity|]. cbn. rewrite H by now left. f_equal. apply IH. intros j Hj. apply H. now right.
Qed.

(** Routing. *)
Lemma home_none m : forall L lo k, fseg m lo L -> L <> [] -> uptob (end_bound L) k = false ->
  find (fun x => uptob (snd x) k) L = None.
Proof.
  induction L as [|[i hi] r IH]; intros lo k H HL Hk; [reflexivity|].
  destruct r as [|y r]; [cbn in *; now rewrite Hk|].
  assert (Hyr : y :: r <> []) by discriminate.
  cbn [fseg] in H. destruct H as (_ & H2 & _ & H4). rewrite end_bound_cons in Hk by assumption.
  change (find (fun x => uptob (snd x) k) ((i, hi) :: y :: r)) with
    (if uptob hi k then Some (i, hi) else find (fun x => uptob (snd x) k) (y :: r)).
  rewrite (IH _ _ H4 Hyr Hk). destruct hi as [x|]; [|exfalso; now apply H2].
  destruct (fseg_keys m (y :: r) (Some x) H4) as [K1 _]. destruct (end_bound (y :: r)) as [z|]; [|discriminate Hk].
  specialize (K1 Hyr z eq_refl). cbn in K1, Hk |- *.
  destruct (k <=? x)%Z eqn:E; [|reflexivity]. apply Z.leb_le in E. apply Z.leb_gt in Hk. lia.
Qed.
Lemma home_some : forall L k, L <> [] -> uptob (end_bound L) k = true ->
  exists x, find (fun x => uptob (snd x) k) L = Some x /\ In x L.
Proof.
  induction L as [|[i hi] r IH]; intros k HL Hk; [congruence|]. cbn [find snd].
  destruct (uptob hi k) eqn:E; [eexists; split; [reflexivity|now left]|].
  destruct r as [|y r]; [cbn in Hk; congruence|]. rewrite end_bound_cons in Hk by discriminate.
  destruct (IH k ltac:(discriminate) Hk) as (x & X1 & X2). exists x. split; [assumption|now right].
Qed.
Lemma find_app {A} (p : A -> bool) a b : find p (a ++ b) = match find p a with Some x => Some x | None => find p b end.
Proof. induction a as [|x a IH]; cbn; [reflexivity|]. destruct (p x); [reflexivity|apply IH]. Qed.

(** ** Old or new, group by group *)
Section Choose.
Variable pick : nat -> bool.
Definition gpick (g : group) : layout :=
  if pick (match fst g with (h, _) :: _ => h | [] => 0%nat end) then snd g else fst g.
Definition gfine (g : group) : Prop := exists h ho hc ot ct,
  g = ((h, ho) :: ot, (h, hc) :: ct) /\ end_bound (fst g) = end_bound (snd g).

Lemma pick_ne g : gfine g -> gpick g <> [] /\ fst g <> [] /\ snd g <> [] /\ end_bound (gpick g) = end_bound (fst g).
Proof.
  intros (h & ho & hc & ot & ct & -> & E). unfold gpick. cbn [fst snd] in *. destruct (pick h); ands; try discriminate; auto.
Qed.
Lemma flat_ne (f : group -> layout) G : (forall g, In g G -> f g <> []) -> flat_map f G = [] -> G = [].
Proof. destruct G as [|g G]; [auto|]. intros H E. cbn in E. apply app_eq_nil in E. destruct (H g (or_introl eq_refl)). tauto. Qed.

Definition ghome (G : list group) (k : Z) : option group := find (fun g => uptob (end_bound (fst g)) k) G.
Definition gnew (G : list group) (k : Z) : bool :=
  match ghome G k with
  | Some g => pick (match fst g with (h, _) :: _ => h | [] => 0%nat end)
  | None => false
  end.
Lemma home_in (f : group -> layout) m : forall G lo k i,
  (forall g, In g G -> f g <> [] /\ end_bound (f g) = end_bound (fst g)) ->
  fseg m lo (flat_map f G) -> home (flat_map f G) k = Some i ->
  exists g, ghome G k = Some g /\ In g G /\ In i (ids (f g)).
Proof.
  induction G as [|g G IH]; intros lo k i HG HF Hh; [discriminate|].
  destruct (HG g (or_introl eq_refl)) as [N1 N2]. cbn [flat_map] in *.
  apply fseg_app in HF; [|assumption]. destruct HF as (F1 & F2 & F3).
  unfold home in Hh. rewrite find_app in Hh. unfold ghome. cbn [find]. rewrite <- N2.
  destruct (uptob (end_bound (f g)) k) eqn:E.
  - destruct (home_some (f g) k N1 E) as (x & X1 & X2). rewrite X1 in Hh. cbn in Hh. injection Hh as <-.
    exists g. ands; [reflexivity|now left|now apply in_map].
  - rewrite (home_none m (f g) lo k F1 N1 E) in Hh.
    destruct (IH (end_bound (f g)) k i) as (g' & Q1 & Q2 & Q3); [intros z Hz; apply HG; now right|assumption|exact Hh|].
    exists g'. ands; [exact Q1|now right|exact Q3].
Qed.
Lemma same_group (f : group -> layout) : forall G, NoDup (ids (flat_map f G)) -> forall g1 g2 i,
  In g1 G -> In g2 G -> In i (ids (f g1)) -> In i (ids (f g2)) -> g1 = g2.
Proof.
  assert (Q : forall G g i, In g G -> In i (ids (f g)) -> In i (ids (flat_map f G))).
  { intros G g i Hg Hi. unfold ids in *. apply in_map_iff in Hi. destruct Hi as (z & Z1 & Z2).
    apply in_map_iff. exists z. split; [assumption|]. apply in_flat_map. eauto. }
  induction G as [|g G IH]; intros ND g1 g2 i H1 H2 I1 I2; [destruct H1|].
  cbn [flat_map] in ND. rewrite ids_app in ND.
  assert (Hd : forall x, In x (ids (f g)) -> ~ In x (ids (flat_map f G))).
  { intros x Hx. exact (proj2 (nodup_mid [] _ _ ND x Hx)). }
  assert (HN : NoDup (ids (flat_map f G))) by (clear - ND; induction (ids (f g)); [assumption|inversion ND; auto]).
  destruct H1 as [<-|H1], H2 as [<-|H2]; auto.
  - exfalso. apply (Hd i I1). eauto.
  - exfalso. apply (Hd i I2). eauto.
  - eapply IH; eauto.
Qed.

Lemma pick_fseg m m0 m1 : forall G lo, (forall g, In g G -> gfine g) ->
  (forall g i, In g G -> In i (ids (gpick g)) -> m i = (if pick (match fst g with (h, _) :: _ => h | [] => 0%nat end) then m1 i else m0 i)) ->
  fseg m0 lo (flat_map gfst G) -> fseg m1 lo (flat_map gsnd G) ->
  fseg m lo (flat_map gpick G) /\ end_bound (flat_map gpick G) = end_bound (flat_map gfst G) /\
  forall k, val m (ids (flat_map gpick G)) k =
            if gnew G k then val m1 (ids (flat_map gsnd G)) k else val m0 (ids (flat_map gfst G)) k.
Proof.
  induction G as [|g G IH]; intros lo HG HM H0 H1; [cbn; auto|].
  assert (Hg := HG g (or_introl eq_refl)). destruct (pick_ne g Hg) as (N1 & N2 & N3 & N4).
  assert (N5 : end_bound (fst g) = end_bound (snd g)) by (destruct Hg as (h & ho & hc & ot & ct & _ & E); exact E).
  cbn [flat_map] in *. rewrite fseg_app in H0 by assumption. rewrite fseg_app in H1 by assumption.
  destruct H0 as (A1 & A2 & A3). destruct H1 as (B1 & B2 & B3). rewrite <- N5 in B2, B3.
  destruct (IH (end_bound (fst g)) (fun z Hz => HG z (or_intror Hz)) (fun z i Hz => HM z i (or_intror Hz)) A3 B3) as (C1 & C2 & C3).
  assert (Hpn : flat_map gpick G <> [] -> flat_map gfst G <> []).
  { intros Z1 Z2. apply flat_ne in Z2; [subst; now apply Z1|]. intros z Hz. apply pick_ne. apply HG. now right. }
  assert (Hpf : forall x, x <> [] -> flat_map gfst G = [] -> flat_map gpick G = [] /\ flat_map gsnd G = [] /\ x <> (@nil (nat * option Z))).
  { intros x Hx Z. apply flat_ne in Z; [subst; auto|]. intros z Hz. apply pick_ne. apply HG. now right. }
  assert (Hm : forall i, In i (ids (gpick g)) -> m i = (if pick (match fst g with (h, _) :: _ => h | [] => 0%nat end) then m1 i else m0 i)).
  { intros i Hi. apply HM; [now left|assumption]. }
  assert (P1 : fseg m lo (gpick g)).
  { unfold gpick in *. destruct (pick _); (eapply fseg_ext; [|eassumption]); auto. }
  ands.
  - apply fseg_app; [assumption|]. ands; auto.
    + intros Z. rewrite N4. apply A2. auto.
    + now rewrite N4.
  - destruct (flat_map gfst G) as [|y r] eqn:E.
    + destruct (Hpf (gpick g) N1 eq_refl) as (Z1 & _). rewrite Z1, !app_nil_r. assumption.
    + rewrite (end_bound_app (fst g)) by discriminate. rewrite <- C2. apply end_bound_app.
      intros Z. apply flat_ne in Z; [subst; discriminate|]. intros z Hz. apply pick_ne. apply HG. now right.
  - intros k. rewrite !ids_app, !val_app.
    assert (Hv : val m (ids (gpick g)) k = if pick (match fst g with (h, _) :: _ => h | [] => 0%nat end)
                                           then val m1 (ids (snd g)) k else val m0 (ids (fst g)) k).
    { unfold gpick in *. destruct (pick _); apply val_ext; auto. }
    unfold gnew, ghome. cbn [find].
    destruct (fseg_keys _ _ _ A1) as [_ KA]. destruct (fseg_keys _ _ _ B1) as [_ KB]. destruct (fseg_keys _ _ _ P1) as [_ KP].
    destruct (fseg_keys _ _ _ A3) as [_ KA3]. destruct (fseg_keys _ _ _ B3) as [_ KB3]. destruct (fseg_keys _ _ _ C1) as [_ KC3].
    destruct (end_bound (fst g)) as [x|] eqn:EX.
    + destruct (Z_le_gt_dec k x) as [Hk|Hk].
      * (* only this group can have it *)
        rewrite (val_none m (ids (flat_map gpick G))) by (intros v Hv'; apply KC3 in Hv'; destruct Hv' as [Z _]; cbn in Z; lia).
        rewrite (val_none m0 (ids (flat_map gfst G))) by (intros v Hv'; apply KA3 in Hv'; destruct Hv' as [Z _]; cbn in Z; lia).
        rewrite (val_none m1 (ids (flat_map gsnd G))) by (intros v Hv'; apply KB3 in Hv'; destruct Hv' as [Z _]; cbn in Z; lia).
        cbn [uptob]. replace (k <=? x)%Z with true by (symmetry; now apply Z.leb_le).
        rewrite Hv. destruct (pick _); [now destruct (val m1 _ k)|now destruct (val m0 _ k)].
      * rewrite (val_none m (ids (gpick g))) by (intros v Hv'; apply KP in Hv'; destruct Hv' as [_ Z]; specialize (Z N1); rewrite N4 in Z; cbn in Z; lia).
        rewrite (val_none m0 (ids (fst g))) by (intros v Hv'; apply KA in Hv'; destruct Hv' as [_ Z]; specialize (Z N2); rewrite ?EX in Z; cbn in Z; lia).
        rewrite (val_none m1 (ids (snd g))) by (intros v Hv'; apply KB in Hv'; destruct Hv' as [_ Z]; specialize (Z N3); rewrite <- ?N5 in Z; cbn in Z; lia).
        cbn [uptob]. replace (k <=? x)%Z with false by (symmetry; apply Z.leb_gt; lia).
        apply C3.
    + assert (Z : flat_map gfst G = []) by (destruct (flat_map gfst G); [reflexivity|exfalso; apply A2; [discriminate|reflexivity]]).
      destruct (Hpf (gpick g) N1 Z) as (Z1 & Z2 & _). rewrite Z, Z1, Z2. cbn [uptob].
      rewrite Hv. destruct (pick _); [now destruct (val m1 _ k)|now destruct (val m0 _ k)].
Qed.

Lemma pick_path m m0 m1 : forall G a, (forall g, In g G -> gfine g) ->
  (forall g i, In g G -> In i (ids (gpick g)) -> m i = (if pick (match fst g with (h, _) :: _ => h | [] => 0%nat end) then m1 i else m0 i)) ->
  path m0 a (ids (flat_map gfst G)) None -> path m1 a (ids (flat_map gsnd G)) None ->
  path m a (ids (flat_map gpick G)) None.
Proof.
  induction G as [|g G IH]; intros a HG HM H0 H1; [cbn in *; inversion H0; constructor|].
  assert (Hg := HG g (or_introl eq_refl)).
  assert (Hm : forall i, In i (ids (gpick g)) -> m i = (if pick (match fst g with (h, _) :: _ => h | [] => 0%nat end) then m1 i else m0 i)).
  { intros i Hi. apply HM; [now left|assumption]. }
  cbn [flat_map] in *. rewrite ids_app in *. apply path_app in H0, H1. destruct H0 as [b [A1 A2]]. destruct H1 as [b' [B1 B2]].
  assert (Hb : b = b').
  { destruct G as [|g2 G].
    - cbn in A2, B2. inversion A2. inversion B2. congruence.
    - destruct (HG g2 (or_intror (or_introl eq_refl))) as (h & ho & hc & ot & ct & E & _).
      cbn [flat_map] in A2, B2. rewrite E in A2, B2. cbn in A2, B2. inversion A2. inversion B2. congruence. }
  subst b'. apply path_app. exists b. split.
  - unfold gpick in *. destruct (pick _); (eapply path_ext; [|eassumption]); auto.
  - apply IH; auto.
    + intros z Hz. apply HG. now right.
    + intros z i Hz. apply HM. now right.
Qed.
End Choose.

Section Final.
Variable isnew : nat -> bool.
Variable lvl : nat -> nat.
Variable pos : nat -> Z.
Variable ismeta : nat -> bool.
Variable v : nat.

Lemma gi_init m L : start_ok v isnew lvl m L ->
  GI isnew lvl v ismeta [] [] (fun _ => false) (above (wb_init isnew)) (ups empty) L L (map (fun x => ([x], [x])) L).
Proof.
  intros (H1 & H2 & H3 & H4 & H5). constructor.
  - clear. induction L as [|x L IH]; [reflexivity|]. cbn. now rewrite <- IH.
  - clear. induction L as [|x L IH]; [reflexivity|]. cbn. now rewrite <- IH.
  - intros g Hg. apply in_map_iff in Hg. destruct Hg as ([i hi] & <- & Hi).
    apply (in_map fst) in Hi. apply H5 in Hi. destruct Hi as [Hi1 Hi2].
    exists i, hi, hi, [], []. ands; auto; try (intros b []; fail). cbn. congruence.
  - assumption.
  - intros i Hi. apply H5. tauto.
  - intros g h ho ot _ _ u H. discriminate.
Qed.

Theorem crash_thm : forall l m0 L0 L w j order worder d evs s landed,
  strict isnew lvl pos ismeta [] [] (map wop_of l) = true ->
  roots_written (map wop_of l) -> written (map wop_of l) <> [] ->
  start_ok v isnew lvl m0 L0 -> lsteps v lvl isnew m0 L0 l L ->
  wrunj (wb_init isnew) (map wop_of l) = Some (w, j) -> Permutation worder (w_list w) ->
  qd_ok evs -> frun true (flush_init w worder) evs = Some s ->
  (forall x, In x order <-> In x (named j)) -> rebuild ismeta j order = Some d ->
  consistent (history s) landed ->
  let disk := disk_after m0 (lrun m0 l) (merged (map wop_of l)) landed in
  exists L' (new : Z -> bool), path disk (head (ids L0)) (ids L') None /\ fits disk None L' /\
    (forall k, val disk (ids L') k = if new k then val (lrun m0 l) (ids L) k else val m0 (ids L0) k) /\
    (forall k1 k2, home L0 k1 = home L0 k2 \/ home L k1 = home L k2 -> new k1 = new k2) /\
    (f_fin s = 1%nat -> ids L' = ids L /\ forall k, val disk (ids L') k = val (lrun m0 l) (ids L) k) /\
    (forall b, In b (ids L0) \/ In b (ids L) ->
       (In b (ids L') <-> decide d landed b <> Deleted /\ decide d landed b <> Dropped)).
Proof.
  intros l m0 L0 L w j order worder d evs s landed HS HRW HW HSt HT HJ HP HQ HF HO HB HC disk.
  assert (HGI := gi_init _ _ HSt). destruct HSt as (S1 & S2 & S3 & S4 & S5).
  destruct (run_gi isnew lvl pos ismeta v l [] [] [] [] _ _ _ m0 L0 L0 _ L (rinv_init isnew lvl pos ismeta) HS HT HGI S3 S4)
    as (w0 & j0 & d0 & intro & roots & gone & G & E & P & R & I & HG & HP1 & HH & HF1 & HOut).
  rewrite HJ in E. injection E as <- <-. cbn [orb app] in *.
  destruct R as [HL HN HD Hnw Hfr Hg].
  destruct (modify_all_ok isnew lvl pos ismeta order d0 HD) as (d' & M & HD' & Hids & X & Hfree & Hout & N2 & F2).
  unfold rebuild in HB. rewrite P, M in HB. destruct (forallb _ order); [|discriminate]. injection HB as ->.
  set (FF := merged (map wop_of l)) in *.
  assert (HidsN : forall x, In x (d_ids d) <-> In x (named j)).
  { intros x. rewrite Hids, I. cbn. tauto. }
  assert (Hup : forall b h, nxt (ups d0) FF b h -> ups d b = Some h).
  { intros b h Hn. assert (Hn' : nxt (ups d) (frd d) b h).
    { apply X. revert Hn. apply nxt_ext; auto. intros y. unfold frd. symmetry. apply Hfr. }
    apply nxt_unfold in Hn'. destruct Hn' as [y [Y1 Y2]].
    assert (Hb : In b order) by (apply HO, HidsN; apply (di_up _ _ _ _ _ HD') in Y1; tauto).
    assert (Hy : frd d y = false) by (unfold frd; rewrite F2; exact (Hfree b y Hb Y1)).
    rewrite Hy in Y2. congruence. }
  assert (Hrf : forall b, rb_freed (d_buf d b) = FF b) by (intros b; rewrite F2; apply Hfr).
  assert (Hrn : forall b, rb_new (d_buf d b) = isnew b && mem b intro) by (intros b; rewrite N2; apply Hnw).
  assert (HD43 := c43_children_first_each_once isnew lvl pos (map wop_of l) w worder evs s
                 (strict_legal _ _ _ _ _ _ _ HS) HRW HW (wrunj_wrun _ _ _ _ HJ) HP HQ HF).
  destruct HD43 as (HDf & _ & _ & _ & HFin & _).
  assert (HIs : forall x h1 h2, history s = h1 ++ Done x :: h2 -> In (Issue x) h1).
  { intros x h1 h2 E. unfold history in E.
    assert (E' : f_log s = rev h2 ++ Done x :: rev h1).
    { rewrite <- (rev_involutive (f_log s)), E, rev_app_distr. cbn. now rewrite <- app_assoc. }
    apply in_rev. refine (run_issued true evs (flush_init w worder) s HF _ _ x _ _ E').
    - intros y [].
    - intros y [|z h] h' Z; discriminate Z. }
  assert (HDn : forall b h, nxt (above w) FF b h -> done_first (history s) b h).
  { intros b h Hu. induction Hu as [b u U1 U2|b f u U1 U2 U3 IH]; [now apply HDf|].
    intros h1 h2 E. assert (Hf : In (Done f) h1) by (eapply IH; exact E).
    apply in_split in Hf. destruct Hf as [a1 [a2 Ea]]. subst h1.
    rewrite <- app_assoc in E. cbn in E.
    assert (Hi := HIs f a1 _ E). apply in_split in Hi. destruct Hi as [c1 [c2 Ec]]. subst a1.
    rewrite <- app_assoc in E. cbn in E.
    assert (Z := HDf b f U1 _ _ E). rewrite !in_app_iff. auto. }
  assert (Hland : forall b h, nxt (above w) FF b h -> landed h = true -> landed b = true).
  { intros b h Hn Hl. apply HC in Hl. apply in_split in Hl. destruct Hl as (h1 & h2 & El).
    apply HC. rewrite El. apply in_app_iff. left. exact (HDn b h Hn h1 h2 El). }
  destruct HG as [G1 G2 G3 G4 G5 _].
  assert (Hfine : forall g, In g G -> gfine g).
  { intros g Hg2. destruct (G3 g Hg2) as (h & ho & hc & ot & ct & W1 & W2 & _). exists h, ho, hc, ot, ct. auto. }
  assert (Hmem : forall g i, In g G -> In i (ids (gpick landed g)) ->
            disk i = (if landed (match fst g with (h, _) :: _ => h | [] => 0%nat end) then lrun m0 l i else m0 i)).
  { intros g i Hg2 Hi. destruct (G3 g Hg2) as (h & ho & hc & ot & ct & W1 & W2 & W3 & W4 & WW & W5 & W6).
    subst g. unfold gpick in Hi. cbn [fst snd] in *. unfold disk, disk_after. destruct (landed h) eqn:El; cbn in Hi.
    - destruct Hi as [<-|Hi]; [now rewrite El, W4|]. destruct (W5 i Hi) as (Y1 & Y2 & Y3 & Y4 & _).
      rewrite (Hland _ _ Y4 El), Y3. reflexivity.
    - destruct Hi as [<-|Hi]; [now rewrite El|]. destruct (W6 i Hi) as (Y1 & _). now rewrite Y1, andb_false_r. }
  rewrite HH in HP1. rewrite G1 in S3, S4. rewrite <- G1 in S3 at 1. rewrite G2 in HP1, HF1.
  apply fits_fseg in S4, HF1. destruct S4 as [S4 S4']. destruct HF1 as [HF1 HF1'].
  destruct (pick_fseg landed disk m0 (lrun m0 l) G None Hfine Hmem S4 HF1) as (K1 & K2 & K3).
  assert (HGne : G <> []) by (intros ->; cbn in G1; contradiction).
  assert (Hpath : path disk (head (ids L0)) (ids (flat_map (gpick landed) G)) None)
    by exact (pick_path landed disk m0 (lrun m0 l) G _ Hfine Hmem S3 HP1).
  assert (Hne : forall (f : group -> layout) m, flat_map f G <> [] -> fseg m None (flat_map f G) ->
            end_bound (flat_map f G) = None -> forall k, exists i, home (flat_map f G) k = Some i).
  { intros f m Z1 Z2 Z3 k. destruct (home_some (flat_map f G) k Z1) as (x & X1 & X2); [now rewrite Z3|].
    unfold home. rewrite X1. cbn. eauto. }
  assert (Hff : flat_map gfst G <> [] /\ flat_map gsnd G <> []).
  { split; intros Z; apply flat_ne in Z; try contradiction; intros g Hg2; now apply (pick_ne landed g (Hfine g Hg2)). }
  assert (Hsame : forall k1 k2, home L0 k1 = home L0 k2 \/ home L k1 = home L k2 -> gnew landed G k1 = gnew landed G k2).
  { intros k1 k2 HHm. destruct Hff as [Hff1 Hff2].
    assert (Hone : forall (f : group -> layout) m, flat_map f G <> [] -> fseg m None (flat_map f G) ->
              end_bound (flat_map f G) = None -> NoDup (ids (flat_map f G)) ->
              (forall g, In g G -> f g <> [] /\ end_bound (f g) = end_bound (fst g)) ->
              home (flat_map f G) k1 = home (flat_map f G) k2 -> gnew landed G k1 = gnew landed G k2).
    { intros f m Z1 Z2 Z3 Z4 Z5 Z6. destruct (Hne f m Z1 Z2 Z3 k1) as [i Hi].
      assert (Hi2 := Hi). rewrite Z6 in Hi2.
      destruct (home_in f m G None k1 i Z5 Z2 Hi) as (g1 & Q1 & Q2 & Q3).
      destruct (home_in f m G None k2 i Z5 Z2 Hi2) as (g2 & R1 & R2 & R3).
      unfold gnew. rewrite Q1, R1. now rewrite (same_group f G Z4 g1 g2 i Q2 R2 Q3 R3). }
    destruct HHm as [HHm|HHm].
    - rewrite G1 in HHm. apply (Hone gfst m0 Hff1 S4 (S4' Hff1)); [exact (eq_ind _ (fun z => NoDup (ids z)) S2 _ G1)| |exact HHm].
      intros g Hg2. split; [now apply (pick_ne landed g (Hfine g Hg2))|reflexivity].
    - rewrite G2 in HHm. apply (Hone gsnd (lrun m0 l) Hff2 HF1 (HF1' Hff2)); [exact (eq_ind _ (fun z => NoDup (ids z)) G4 _ G2)| |exact HHm].
      intros g Hg2. split; [now apply (pick_ne landed g (Hfine g Hg2))|].
      destruct (Hfine g Hg2) as (h & ho & hc & ot & ct & W1 & W2). now symmetry. }
  exists (flat_map (gpick landed) G), (gnew landed G). rewrite <- G1 in K3, K2, S4'. rewrite <- G2 in K3.
  ands; auto.
  - apply fits_fseg. split; [assumption|]. intros _. rewrite K2. auto.
  - intros Hfin.
    assert (Hwl : forall b, In b (written (map wop_of l)) -> landed b = true).
    { intros b Hb. apply HC. destruct HFin as [HFin _]. specialize (HFin Hfin b Hb).
      unfold dones in HFin. apply in_flat_map in HFin. destruct HFin as ([z|z] & Z1 & Z2); [destruct Z2|].
      destruct Z2 as [->|[]]. assumption. }
    assert (EQ : flat_map (gpick landed) G = flat_map (gpick landed) G /\ ids (flat_map (gpick landed) G) = ids L).
    { split; [reflexivity|]. rewrite G2. clear - G3 Hwl. induction G as [|g G IH]; [reflexivity|].
      cbn [flat_map]. rewrite !ids_app. f_equal; [|apply IH; intros z Hz; apply G3; now right].
      destruct (G3 g (or_introl eq_refl)) as (h & ho & hc & ot & ct & W1 & W2 & W3 & W4 & WW & W5 & W6).
      subst g. unfold gpick. cbn [fst snd]. destruct (landed h) eqn:El; [reflexivity|].
      assert (Z : ot ++ ct = []).
      { destruct (ot ++ ct) eqn:Ez; [reflexivity|]. rewrite Hwl in El; [discriminate|]. apply WW. discriminate. }
      apply app_eq_nil in Z. destruct Z as [-> ->]. reflexivity. }
    destruct EQ as [_ EQ]. split; [exact EQ|]. intros k. rewrite EQ. apply val_ext. intros i Hi.
    unfold disk, disk_after. destruct (landed i && negb (FF i)) eqn:El; [reflexivity|].
    assert (Hfi : FF i = false).
    { rewrite G2 in Hi. unfold ids in Hi. apply in_map_iff in Hi. destruct Hi as ([i' z] & Z1 & Z2). cbn in Z1. subst i'.
      apply in_flat_map in Z2. destruct Z2 as (g & Z2 & Z3).
      destruct (G3 g Z2) as (h & ho & hc & ot & ct & W1 & W2 & W3 & W4 & WW & W5 & W6).
      subst g. destruct Z3 as [Z3|Z3]; [congruence|]. apply (in_map fst) in Z3. apply W5 in Z3. destruct Z3 as (_ & _ & Z3 & _). exact Z3. }
    symmetry. apply HOut. intros Z. apply Hwl in Z. rewrite Z, Hfi in El. discriminate.
  - intros b Hb.
    (* the group of b *)
    assert (HgB : exists g, In g G /\ (In b (ids (fst g)) \/ In b (ids (snd g)))).
    { destruct Hb as [Hb|Hb]; [rewrite G1 in Hb|rewrite G2 in Hb]; unfold ids in Hb; apply in_map_iff in Hb;
        destruct Hb as ([i z] & Z1 & Z2); cbn in Z1; subst i; apply in_flat_map in Z2; destruct Z2 as (g & Z2 & Z3);
        exists g; (split; [assumption|]); apply (in_map fst) in Z3; auto. }
    assert (Hfate : forall g, In g G ->
              (In b (ids (gpick landed g)) -> decide d landed b <> Deleted /\ decide d landed b <> Dropped) /\
              (~ In b (ids (gpick landed g)) -> In b (ids (fst g)) \/ In b (ids (snd g)) ->
               ~ (decide d landed b <> Deleted /\ decide d landed b <> Dropped))).
    { intros g Hg2. destruct (G3 g Hg2) as (h & ho & hc & ot & ct & W1 & W2 & W3 & W4 & WW & W5 & W6). subst g.
      assert (Dh : decide d landed h = Untouched) by (unfold decide; rewrite Hrf, W4, Hrn, W3; reflexivity).
      assert (Dc : In b (ids ct) -> decide d landed b = if landed b && landed h then Committed else Dropped).
      { intros Hi. destruct (W5 b Hi) as (Y1 & Y2 & Y3 & Y4 & Y5 & _). apply Hup in Y5. unfold ups in Y5.
        unfold decide. rewrite Hrf, Y3, Hrn, Y1, Y5. rewrite (proj2 (mem_iff b intro) Y2). cbn [andb committed].
        now rewrite !Hrf, Y3, W4. }
      assert (Do : In b (ids ot) -> decide d landed b = if landed h then Deleted else Restored).
      { intros Hi. destruct (W6 b Hi) as (Y1 & Y2 & Y3). apply Hup in Y3. unfold ups in Y3.
        assert (Hnd0 : d_ids d <> []).
        { intros Z. assert (Q := di_up _ _ _ _ _ HD' b h Y3). destruct Q as (_ & _ & Q). rewrite Z in *. firstorder. }
        unfold decide. rewrite Hrf, Y1, Hrn, Y2. destruct (length (d_ids d)) as [|n] eqn:En; [apply length_zero_iff_nil in En; contradiction|].
        cbn [andb committed]. rewrite !Hrf, Y1, Y3. cbn [committed]. rewrite Hrf, W4. reflexivity. }
      assert (Lc : In b (ids ct) -> landed h = true -> landed b = true).
      { intros Hi. apply Hland. now apply W5. }
      unfold gpick. cbn [fst snd]. destruct (landed h) eqn:El; cbn [ids map fst].
      - split.
        + intros [<-|Hi]; [rewrite Dh; split; discriminate|]. rewrite (Dc Hi), (Lc Hi eq_refl). split; discriminate.
        + intros Hni [[<-|Hi]|[<-|Hi]]; try (exfalso; apply Hni; now left); [|exfalso; apply Hni; now right].
          rewrite (Do Hi). intros [Z _]. congruence.
      - split.
        + intros [<-|Hi]; [rewrite Dh; split; discriminate|]. rewrite (Do Hi). split; discriminate.
        + intros Hni [[<-|Hi]|[<-|Hi]]; try (exfalso; apply Hni; now left); [exfalso; apply Hni; now right|].
          rewrite (Dc Hi), andb_false_r. intros [_ Z]. congruence. }
    split.
    + intros Hin. unfold ids in Hin. apply in_map_iff in Hin. destruct Hin as ([i z] & Z1 & Z2). cbn in Z1. subst i.
      apply in_flat_map in Z2. destruct Z2 as (g & Z2 & Z3). apply (in_map fst) in Z3. apply (proj1 (Hfate g Z2)). exact Z3.
    + intros Hd. destruct HgB as (g & Hg1 & Hg2).
      destruct (in_dec Nat.eq_dec b (ids (gpick landed g))) as [Hi|Hi].
      * unfold ids in *. apply in_map_iff in Hi. destruct Hi as (z & Z1 & Z2). apply in_map_iff. exists z. split; [assumption|].
        apply in_flat_map. eauto.
      * exfalso. exact (proj2 (Hfate g Hg1) Hi Hg2 Hd).
Qed.
End Final.
