(** Starting keeps the invariants. *)
From stdpp Require Import gmap.
From Verif Require Import GrpLifeModel GrpLifeSpec GrpLifeProofs GrpLifeProofs2.
Open Scope N_scope.

Lemma crash_inv s s' : Glob s -> step s ECrash = Some s' -> Inv s'.
Proof. intros G E. cbn in E. injection E as <-. split; [eapply glob_same; eauto|reflexivity]. Qed.

Lemma boot_inv s s' : Glob s -> md s = Off -> step s EBoot = Some s' -> Inv s'.
Proof.
  intros G M E. cbn in E. rewrite M in E. injection E as <-. split; [eapply glob_same; eauto|].
  unfold inv_md. cbn. split; [|split; [|split; [|split]]].
  - constructor; cbn; auto. intros g r H. now rewrite lookup_empty in H.
  - intros x. cbn. split; [|tauto]. intros H. split; auto.
  - intros g _. apply lookup_empty.
  - intros g r H X. contradict X. apply elem_of_dom. eauto.
  - intros g r Q. now rewrite lookup_empty in Q.
Qed.

Lemma bootrd_inv s s' g t : Inv s -> md s = BRds t -> step s (EBootRd g) = Some s' -> Inv s'.
Proof.
  intros [G I] M E. cbn in E. unfold inv_md in I. rewrite M in E, I. destruct I as (B & U & I1 & I2 & I3).
  destruct (decide (g ∈ t)) as [T|T]; [|discriminate].
  destruct (rds s !! g) as [r|] eqn:Q; [|discriminate].
  destruct (r_pend r) eqn:P; injection E as <-; destruct r as [ld pd]; cbn in P; subst pd.
  - split.
    + destruct G. constructor; cbn; auto.
      * intros k x. destruct (decide (k = g)) as [->|N]; rewrite ?lookup_delete, ?lookup_delete_ne by auto; [discriminate|eauto].
      * intros k k' x. destruct (decide (k = g)) as [->|N], (decide (k' = g)) as [->|N'];
          rewrite ?lookup_delete, ?lookup_delete_ne by auto; try discriminate; eauto.
      * intros k x v L. destruct (decide (k = g)) as [->|N]; rewrite ?lookup_delete, ?lookup_delete_ne by auto; [|eauto].
        apply g_live in L. destruct L. congruence.
      * intros k x. destruct (decide (k = g)) as [->|N]; rewrite ?lookup_delete, ?lookup_delete_ne by auto; [discriminate|eauto].
    + unfold inv_md. cbn. destruct B as [B1 B2 B3]. split; [|split; [|split; [|split]]].
      * constructor; cbn; auto. intros k r H. rewrite lookup_delete_ne; auto.
        intros ->. rewrite I1 in H by auto. discriminate.
      * exact U.
      * intros k X. apply elem_of_difference in X as [X _]. auto.
      * intros k r H X. apply lookup_delete_Some in H as [N H]. apply I2; auto. set_solver.
      * exact I3.
  - destruct B as [B1 B2 B3]. assert (DV : ld ∈ devs s) by exact (g_open s G g ld Q).
    assert (LD : lds s ∪ {[ld]} = devs s) by set_solver.
    split; [eapply glob_same; eauto|].
    unfold inv_md. cbn. split; [|split; [|split; [|split]]].
    + constructor; cbn; auto. intros k r. destruct (decide (k = g)) as [->|N];
        rewrite ?lookup_insert, ?lookup_insert_ne by auto; [|auto]. intros [= <-]. auto.
    + intros x. cbn. rewrite elem_of_difference, elem_of_singleton, (U x). split.
      * intros [[H1 H2] H3]. split; auto. intros k r. destruct (decide (k = g)) as [->|N];
          rewrite ?lookup_insert, ?lookup_insert_ne by auto; [|eauto]. intros [= <-]. cbn. auto.
      * intros [H1 H2]. split; [split; auto|].
        -- intros k r H. destruct (decide (k = g)) as [->|N]; [rewrite I1 in H by auto; discriminate|].
           apply (H2 k). rewrite lookup_insert_ne by auto. exact H.
        -- intros ->. apply (H2 g (Grp ld Active false 0)); [apply lookup_insert|reflexivity].
    + intros k X. apply elem_of_difference in X as [X Y]. rewrite lookup_insert_ne by set_solver. auto.
    + intros k r H X. destruct (decide (k = g)) as [->|N].
      * rewrite lookup_insert. rewrite Q in H. injection H as <-. auto.
      * rewrite lookup_insert_ne by auto. apply I2; auto. set_solver.
    + intros k r. destruct (decide (k = g)) as [->|N]; rewrite ?lookup_insert, ?lookup_insert_ne by auto; [|eauto].
      intros [= <-]. reflexivity.
Qed.

Lemma bootcfg_inv s s' g t : Inv s -> md s = BCfgs t -> step s (EBootCfg g) = Some s' -> Inv s'.
Proof.
  intros [G I] M E. cbn in E. unfold inv_md in I. rewrite M in E, I. destruct I as (B & U & I1 & I2 & I3 & I4).
  destruct (decide (g ∈ t)) as [T|T]; [|discriminate].
  destruct (cfgs s !! g) as [v|] eqn:Q; [|discriminate].
  destruct (gs s !! g) as [r|] eqn:P; injection E as <-; destruct B as [B1 B2 B3].
  - split; [eapply glob_same; eauto|]. unfold inv_md. cbn. split; [|split; [|split; [|split; [|split]]]].
    + constructor; cbn; auto. intros k x. destruct (decide (k = g)) as [->|N];
        rewrite ?lookup_insert, ?lookup_insert_ne by auto; [|auto]. intros [= <-]. cbn. now apply B3.
    + intros x. cbn. rewrite (U x). split; intros [H1 H2]; split; auto; intros k y H.
      * destruct (decide (k = g)) as [->|N]; [rewrite lookup_insert in H|rewrite lookup_insert_ne in H by auto]; [|eauto].
        injection H as <-. cbn. eauto.
      * destruct (decide (k = g)) as [->|N].
        -- assert (y = r) as -> by congruence.
           exact (H2 g (Grp (g_ld r) (g_st r) true v) (lookup_insert _ _ _)).
        -- apply (H2 k). now rewrite lookup_insert_ne by auto.
    + intros k H. destruct (decide (k = g)) as [->|N]; rewrite ?lookup_insert, ?lookup_insert_ne by auto; [eauto|auto].
    + intros k x H X. apply elem_of_difference in X as [X Y].
      rewrite lookup_insert_ne in H by set_solver. eauto.
    + intros k x H X. destruct (decide (k = g)) as [->|N].
      * rewrite lookup_insert in H. injection H as <-. exact Q.
      * rewrite lookup_insert_ne in H by auto. apply I3; auto. set_solver.
    + intros k H X. destruct (decide (k = g)) as [->|N]; rewrite ?lookup_insert, ?lookup_insert_ne by auto; [eauto|].
      apply I4; auto. set_solver.
  - split.
    + destruct G. constructor; cbn; auto. intros k x w L. pose proof (g_live _ _ _ L) as [L1 L2]. split; auto.
      destruct (decide (k = g)) as [->|N]; rewrite ?lookup_delete, ?lookup_delete_ne by auto; auto.
      destruct (I1 g) as [y Y]; [eauto|congruence].
    + unfold inv_md. cbn. split; [|split; [|split; [|split; [|split]]]].
      * constructor; cbn; auto.
      * exact U.
      * exact I1.
      * intros k x H X. apply elem_of_difference in X as [X Y]. eauto.
      * intros k x H X. rewrite lookup_delete_ne by congruence. apply I3; auto. 
        intros Y. apply X. apply elem_of_difference. split; auto. intros Z. apply elem_of_singleton in Z as ->. congruence.
      * intros k [x H] X. apply lookup_delete_Some in H as [N H]. apply I4; [eauto|]. set_solver.
Qed.

Lemma bootdel_inv s s' x t : Inv s -> md s = BUnop t -> step s (EBootDel x) = Some s' -> Inv s'.
Proof.
  intros [G I] M E. cbn in E. unfold inv_md in I. rewrite M in E, I. destruct I as (B & U & I1 & I2 & I3).
  destruct (decide (x ∈ t)) as [T|T]; [|discriminate]. destruct B as [B1 B2 B3].
  pose proof (proj1 (U x) T) as [UX UY]. unfold destroy_dev in E. rewrite B1 in E. rewrite decide_True in E by auto.
  injection E as <-. split.
  - destruct G. constructor; cbn; auto.
    + intros y Y. apply elem_of_difference in Y as [Y _]. auto.
    + intros k ld H. apply elem_of_difference. split; [eauto|]. intros Y. apply elem_of_singleton in Y as ->.
      destruct (I1 k) as [r R]; [eauto|]. apply (UY k r R). destruct (B3 k r R) as [Z _]. congruence.
  - unfold inv_md. cbn. split; [|split; [|split; [|split]]]; auto.
    + constructor; cbn; auto.
    + intros y. cbn. rewrite !elem_of_difference, (U y). tauto.
Qed.

(** Whether somebody has the log device can be decided. *)
Lemma gs_owner (m : gmap N grp) (x : N) : (exists g r, m !! g = Some r /\ g_ld r = x) \/ ~ (exists g r, m !! g = Some r /\ g_ld r = x).
Proof.
  destruct (decide (map_Forall (fun _ r => g_ld r <> x) m)) as [F|F].
  - right. intros (g & r & R & Y). exact (F g r R Y).
  - left. apply map_not_Forall in F; [|apply _]. destruct F as (g & r & R & Y). exists g, r. split; auto.
    destruct (decide (g_ld r = x)); [auto|contradiction].
Qed.

Lemma bootnext_inv s s' : Inv s -> step s EBootNext = Some s' -> Inv s'.
Proof.
  intros [G I] E. cbn in E. unfold inv_md in I. destruct (md s) as [|t|t|t| |] eqn:M; try discriminate.
  - destruct (decide (t = ∅)) as [->|]; [|discriminate]. injection E as <-.
    destruct I as (B & U & I1 & I2 & I3). destruct B as [B1 B2 B3].
    split; [eapply glob_same; eauto|]. unfold inv_md. cbn. split; [|split; [|split; [|split; [|split]]]].
    + constructor; cbn; auto.
    + exact U.
    + intros k [r H]. destruct (I2 k r H) as [-> _]; [set_solver|eauto].
    + intros k r H X. eauto.
    + intros k r H X. rewrite not_elem_of_dom in X. rewrite X. unfold ofc. now rewrite (I3 k r H).
    + intros k H X. rewrite not_elem_of_dom in X. rewrite X in H. destruct H. discriminate.
  - destruct (decide (t = ∅)) as [->|]; [|discriminate].
    destruct I as (B & U & I1 & I2 & I3 & I4). destruct B as [B1 B2 B3].
    rewrite decide_True in E by set_solver. injection E as <-.
    split; [eapply glob_same; eauto|]. unfold inv_md. cbn. split; [|split; [|split; [|split]]]; auto.
    + constructor; cbn; auto.
    + intros k r H. apply I3; auto. set_solver.
    + intros k H. apply I4; auto. set_solver.
  - destruct (decide (t = ∅)) as [->|]; [|discriminate]. injection E as <-.
    destruct I as (B & U & I1 & I2 & I3). destruct B as [B1 B2 B3].
    assert (S : start_ok (out s) (report <$> gs s)).
    { split; [|split].
      - intros g ld v L. destruct (g_live s G g ld v L) as [L1 L2]. destruct (I1 g) as [r R]; [eauto|].
        rewrite lookup_fmap, R. cbn. unfold report. destruct (B3 g r R) as [B4 _].
        pose proof (I2 g r R) as C. rewrite L2 in C. unfold ofc in C. destruct (g_lis r); [|discriminate]. congruence.
      - intros g x H. rewrite lookup_fmap in H. destruct (gs s !! g) as [r|] eqn:R; [|discriminate].
        destruct (B3 g r R) as [B4 _]. exact (g_ask s G g _ B4).
      - intros g g' ld b v b' v' H H'. rewrite lookup_fmap in H, H'.
        destruct (gs s !! g) as [r|] eqn:R; [|discriminate]. destruct (gs s !! g') as [r'|] eqn:R'; [|discriminate].
        destruct (B3 g r R) as [B4 _], (B3 g' r' R') as [B5 _]. cbn in H, H'. unfold report in *.
        apply (g_inj s G g g' ld); congruence. }
    split.
    + pose proof (g_live s G) as GL. destruct G. constructor; cbn; auto.
      intros g ld v. rewrite lookup_fmap. destruct (gs s !! g) as [r|] eqn:R; cbn.
      * unfold report. destruct (g_lis r) eqn:T; [|apply GL]. intros [= <- <-].
        destruct (B3 g r R) as [B4 _]. split; auto. rewrite (I2 g r R). unfold ofc. now rewrite T.
      * apply GL.
    + unfold inv_md. cbn. constructor; cbn.
      * exact B1.
      * intros g. unfold rowok. cbn. rewrite B2, lookup_empty. cbn.
        destruct (gs s !! g) as [r|] eqn:R.
        -- destruct (B3 g r R) as [B4 B5]. rewrite B5. cbn. split; auto. split; [auto|]. exact (g_open s G g _ B4).
        -- split.
           ++ destruct (rds s !! g) eqn:Q; auto. destruct (I1 g) as [y Y]; [eauto|congruence].
           ++ destruct (cfgs s !! g) eqn:Q; auto. destruct (I3 g) as [y Y]; [eauto|congruence].
      * intros g g' x. unfold owns. cbn. rewrite B2, !lookup_empty. cbn.
        destruct (gs s !! g) as [r|] eqn:R; [|discriminate]. destruct (gs s !! g') as [r'|] eqn:R'; [|discriminate].
        cbn. intros [= <-] [= E]. destruct (B3 g r R) as [B4 _], (B3 g' r' R') as [B5 _].
        apply (g_inj s G g g' (g_ld r)); congruence.
      * intros g x. unfold owns. cbn. rewrite B2, !lookup_empty. cbn.
        destruct (gs s !! g) as [r|] eqn:R; [|discriminate]. cbn. intros [= <-].
        destruct (B3 g r R) as [B4 _]. apply (g_devs s G). exact (g_open s G g _ B4).
      * intros x X. destruct (gs_owner (gs s) x) as [(g & r & R & Y)|NO].
        -- exists g. unfold owns. cbn. rewrite B2, lookup_empty. cbn. rewrite R. cbn. now rewrite Y.
        -- exfalso. assert (Z : x ∈ (∅ : gset N)) by (apply U; split; auto; intros g r R Y; apply NO; eauto). set_solver.
Qed.

Lemma step_inv s s' e : (forall g, e <> EGcEarly g) -> Inv s -> step s e = Some s' -> Inv s'.
Proof.
  intros NE I E. pose proof I as [G J]. unfold inv_md in J. destruct e as [g|g|g|g|g v|g|g| | |g|g|x|].
  - destruct (md s) eqn:M; try (cbn in E; rewrite M in E; discriminate). eapply create_inv; eauto.
  - destruct (md s) eqn:M; try (cbn in E; rewrite M in E; discriminate). eapply leave_inv; eauto.
  - destruct (md s) eqn:M; try (cbn in E; rewrite M in E; discriminate). eapply gc_inv; eauto.
  - exfalso. exact (NE g eq_refl).
  - destruct (md s) eqn:M; try (cbn in E; rewrite M in E; discriminate). eapply save_inv; eauto.
  - destruct (md s) eqn:M; try (cbn in E; rewrite M in E; discriminate). eapply call_inv; eauto.
  - destruct (md s) eqn:M; try (cbn in E; rewrite M in E; discriminate). cbn in E. rewrite M in E.
    destruct (fl s !! g) as [p|] eqn:F; [|discriminate].
    destruct p; try (eapply adv_c; [| | | |exact F|exact E]; auto; exact Logic.I);
      (eapply adv_d; [| | | |exact F|exact E]; auto; exact Logic.I).
  - eapply crash_inv; eauto.
  - destruct (md s) eqn:M; try (cbn in E; rewrite M in E; discriminate). eapply boot_inv; eauto.
  - destruct (md s) eqn:M; try (cbn in E; rewrite M in E; discriminate). eapply bootrd_inv; eauto.
  - destruct (md s) eqn:M; try (cbn in E; rewrite M in E; discriminate). eapply bootcfg_inv; eauto.
  - destruct (md s) eqn:M; try (cbn in E; rewrite M in E; discriminate). eapply bootdel_inv; eauto.
  - eapply bootnext_inv; eauto.
Qed.

Lemma run_inv l : forall s s', no_early l -> Inv s -> run s l = Some s' -> Inv s'.
Proof.
  induction l as [|e l IH]; intros s s' N I E; cbn in E.
  - injection E as <-. exact I.
  - destruct (step s e) as [s1|] eqn:E1; [|discriminate]. apply (IH s1 s'); auto.
    + intros g X. apply (N g). now right.
    + eapply step_inv; [|exact I|exact E1]. intros g ->. apply (N g). left.
Qed.
