(** Every step keeps the invariants. *)
From stdpp Require Import gmap.
From Verif Require Import GrpLifeModel GrpLifeSpec GrpLifeProofs.
Open Scope N_scope.

Ltac dd := repeat match goal with
  | |- context [decide (?a = ?a)] => rewrite (decide_True (P := a = a)) by reflexivity
  | N : ?k <> ?g |- context [decide (?g = ?k)] => rewrite (decide_False (P := g = k)) by congruence
  | N : ?k <> ?g |- context [decide (?k = ?g)] => rewrite (decide_False (P := k = g)) by congruence
  end.

Ltac upd := cbn; rewrite ?lookup_insert, ?lookup_delete.
Ltac other := let k := fresh "k" in let N := fresh "N" in intros k N; cbn;
  rewrite ?lookup_insert_ne, ?lookup_delete_ne by congruence; dd; auto.

Lemma row_rd f m ld c a d l : row f m (Some (Rd ld false)) c a d l -> own f m = Some ld.
Proof.
  destruct f as [p|]; [destruct p as [|x|x|x|x| | | | | |]|]; cbn.
  1-3: intros (_ & H & _); discriminate.
  1-2: intros (_ & H & _); congruence.
  1: intros (x & -> & _ & H & _); cbn; congruence.
  1-5: intros (x & _ & _ & H & _); discriminate.
  destruct m as [x|]; intros (H & _); [|discriminate]. cbn. congruence.
Qed.

(** Events that change neither what is on disk nor what was seen. *)
Lemma glob_same s s' : Glob s -> last s' = last s -> devs s' = devs s -> rds s' = rds s -> cfgs s' = cfgs s ->
  out s' = out s -> Glob s'.
Proof. intros [] E1 E2 E3 E4 E5. constructor; rewrite ?E1, ?E2, ?E3, ?E4, ?E5; assumption. Qed.

Lemma create_inv s s' g : Glob s -> RunI s -> md s = Run -> step s (ECreate g) = Some s' -> Inv s'.
Proof.
  intros G R M E. cbn in E. rewrite M in E.
  destruct (fl s !! g) eqn:F; [discriminate|]. destruct (gs s !! g) eqn:Q; [discriminate|]. injection E as <-.
  pose proof (u_row s R g) as W. unfold rowok in W. rewrite F, Q in W. cbn in W. destruct W as [W1 W2].
  split.
  - destruct G. constructor; cbn; auto. intros k ld H. destruct (decide (g = k)); eauto.
  - unfold inv_md. cbn. rewrite M. eapply (run_upd s _ g G R).
    + other.
    + exact (u_lds s R).
    + unfold rowok. upd. dd. rewrite Q. cbn. auto.
    + cbn. lia.
    + unfold owns. upd. discriminate.
    + intros; cbn; tauto.
    + intros x _. unfold owns. rewrite F, Q. discriminate.
Qed.

Lemma leave_inv s s' g : Glob s -> RunI s -> md s = Run -> step s (ELeave g) = Some s' -> Inv s'.
Proof.
  intros G R M E. cbn in E. rewrite M in E.
  destruct (fl s !! g) eqn:F; [discriminate|]. destruct (gs s !! g) as [r|] eqn:Q; [|discriminate].
  destruct (g_st r) eqn:T; [|discriminate]. injection E as <-.
  pose proof (u_row s R g) as W. unfold rowok in W. rewrite F, Q in W. cbn in W. rewrite T in W. cbn in W. destruct W as (W1 & W2 & W3).
  split.
  - eapply glob_same; eauto.
  - unfold inv_md. cbn. rewrite M. eapply (run_upd s _ g G R).
    + other.
    + exact (u_lds s R).
    + unfold rowok. upd. eexists. split; [reflexivity|]. cbn. auto.
    + cbn. lia.
    + unfold owns. upd. rewrite F, Q. cbn. auto.
    + intros; cbn; tauto.
    + unfold owns. upd. rewrite F, Q. cbn. auto.
Qed.

Lemma gc_inv s s' g : Glob s -> RunI s -> md s = Run -> step s (EGc g) = Some s' -> Inv s'.
Proof.
  intros G R M E. cbn in E. rewrite M in E.
  destruct (fl s !! g) eqn:F; [discriminate|]. destruct (gs s !! g) as [r|] eqn:Q; [|discriminate].
  destruct (g_st r) eqn:T; [discriminate|]. injection E as <-.
  pose proof (u_row s R g) as W. unfold rowok in W. rewrite F, Q in W. cbn in W. rewrite T in W. cbn in W. destruct W as (W1 & W2 & W3).
  split.
  - eapply glob_same; eauto.
  - unfold inv_md. cbn. rewrite M. eapply (run_upd s _ g G R).
    + other.
    + exact (u_lds s R).
    + unfold rowok. upd. exists r. auto.
    + cbn. lia.
    + unfold owns. upd. rewrite F. cbn. auto.
    + intros; cbn; tauto.
    + unfold owns. upd. rewrite F. cbn. auto.
Qed.

Lemma call_inv s s' g : Glob s -> RunI s -> md s = Run -> step s (ECall g) = Some s' -> Inv s'.
Proof.
  intros G R M E. cbn in E. rewrite M in E.
  destruct (fl s !! g) eqn:F; [discriminate|]. destruct (gs s !! g) as [r|] eqn:Q; [|discriminate].
  destruct (g_lis r); injection E as <-.
  - split; auto. unfold inv_md. now rewrite M.
  - split; [eapply glob_same; eauto|reflexivity].
Qed.

Lemma save_inv s s' g v : Glob s -> RunI s -> md s = Run -> step s (ESave g v) = Some s' -> Inv s'.
Proof.
  intros G R M E. cbn in E. rewrite M in E.
  destruct (fl s !! g) eqn:F; [discriminate|]. destruct (gs s !! g) as [r|] eqn:Q; [|discriminate].
  pose proof (u_row s R g) as W. unfold rowok in W. rewrite F, Q in W. cbn in W. destruct W as (W1 & W2 & W3).
  unfold ofc in W2.
  destruct (g_lis r) eqn:T; injection E as <-; split.
  - pose proof (g_live s G g) as L. destruct G. constructor; cbn; auto.
    intros k ld w. destruct (decide (g = k)) as [->|N].
    + destruct (live (out s) k) as [[ld0 v0]|] eqn:L0; [|discriminate]. intros [= <- <-].
      destruct (L _ _ eq_refl) as [L1 _]. rewrite lookup_insert. auto.
    + rewrite lookup_insert_ne by auto. eauto.
  - unfold inv_md. cbn. rewrite M. eapply (run_upd s _ g G R).
    + other.
    + exact (u_lds s R).
    + unfold rowok. upd. rewrite F. cbn. unfold ofc. cbn. auto.
    + cbn. lia.
    + unfold owns. upd. rewrite F, Q. cbn. auto.
    + intros; cbn; tauto.
    + unfold owns. upd. rewrite F, Q. cbn. auto.
  - pose proof (g_live s G g) as L. destruct G. constructor; cbn; auto.
    intros k ld w. destruct (decide (g = k)) as [->|N]; [|eauto].
    destruct (live (out s) k) as [[ld0 v0]|] eqn:L0; [|discriminate].
    destruct (L _ _ eq_refl) as [_ L1]. congruence.
  - unfold inv_md. cbn. rewrite M. eapply (run_upd s _ g G R).
    + other.
    + exact (u_lds s R).
    + unfold rowok. upd. rewrite F. cbn. unfold ofc. cbn. auto.
    + cbn. lia.
    + unfold owns. upd. rewrite F, Q. cbn. auto.
    + intros; cbn; tauto.
    + unfold owns. upd. rewrite F, Q. cbn. auto.
Qed.

Lemma dead_inv s : Glob s -> Inv (dead s NoListener).
Proof. intros G. split; [eapply glob_same; eauto|reflexivity]. Qed.

Lemma adv_c s s' g p : match p with C0 | C1 _ | C2 _ | C3 _ | C4 _ => True | _ => False end ->
  Glob s -> RunI s -> md s = Run -> fl s !! g = Some p -> advance s g p = Some s' -> Inv s'.
Proof.
  intros P G R M F E. pose proof (u_row s R g) as W. unfold rowok in W. rewrite F in W.
  pose proof (u_bnd s R g) as BN. unfold owns in BN. rewrite F in BN.
  destruct p as [|ld|ld|ld|ld| | | | | |]; try contradiction; cbn in W, E.
  - (* C0 *) injection E as <-. destruct W as (W1 & W2 & W3 & W4). split.
    + destruct G. constructor; cbn; auto.
      * intros x X. pose proof (g_devs x X). lia.
      * intros x [<-|X]; [lia|]. pose proof (g_new x X). lia.
      * constructor; auto. intros X. pose proof (g_new _ X). lia.
    + unfold inv_md. cbn. rewrite M. eapply (run_upd s _ g G R).
      * other.
      * exact (u_lds s R).
      * unfold rowok. upd. repeat split; auto. intros X. pose proof (g_devs s G _ X). lia.
      * cbn. lia.
      * unfold owns. upd. intros x [= <-]. right. lia.
      * intros; cbn; tauto.
      * unfold owns. rewrite F. discriminate.
  - (* C1 *) destruct W as (W1 & W2 & W3 & W4 & W5). rewrite (u_lds s R) in E.
    rewrite decide_False in E by auto. injection E as <-. specialize (BN _ eq_refl). split.
    + destruct G. constructor; cbn; auto.
      * intros x X. apply elem_of_union in X as [X|X]; auto. apply elem_of_singleton in X as ->. lia.
      * intros k x X. apply elem_of_union. left. eauto.
    + unfold inv_md. cbn. rewrite M. eapply (run_upd s _ g G R).
      * other.
      * reflexivity.
      * unfold rowok. upd. repeat split; auto. set_solver.
      * cbn. lia.
      * unfold owns. upd. rewrite F. cbn. auto.
      * unfold owns. upd. rewrite F. cbn. intros x N _. set_unfold. naive_solver.
      * unfold owns. upd. rewrite F. cbn. auto.
  - (* C2 *) destruct W as (W1 & W2 & W3 & W4 & W5). rewrite W2 in E. injection E as <-. split.
    + pose proof (u_inj s R) as INJ. pose proof (u_row s R) as ROW.
      assert (FR : forall k, rds s !! k = Some (Rd ld false) -> k = g).
      { intros k K. apply (INJ _ _ ld).
        - pose proof (ROW k) as W. unfold rowok in W. rewrite K in W. unfold owns.
          exact (row_rd _ _ _ _ _ _ _ W).
        - unfold owns. now rewrite F. }
      destruct G. constructor; cbn; auto.
      * intros k x. destruct (decide (k = g)) as [->|N]; rewrite ?lookup_insert, ?lookup_insert_ne by auto; [|eauto].
        intros [= <-]. auto.
      * intros k k' x. destruct (decide (k = g)) as [->|N], (decide (k' = g)) as [->|N'];
          rewrite ?lookup_insert, ?lookup_insert_ne by auto; auto.
        -- intros [= <-] X. symmetry. auto.
        -- intros X [= <-]. auto.
        -- eauto.
      * intros k x v L. destruct (decide (k = g)) as [->|N]; rewrite ?lookup_insert, ?lookup_insert_ne by auto; [|eauto].
        apply g_live in L. destruct L. congruence.
      * intros k x. destruct (decide (k = g)) as [->|N]; rewrite ?lookup_insert, ?lookup_insert_ne by auto; eauto.
    + unfold inv_md. cbn. rewrite M. eapply (run_upd s _ g G R).
      * other.
      * exact (u_lds s R).
      * unfold rowok. upd. repeat split; auto.
      * cbn. lia.
      * unfold owns. upd. rewrite F. cbn. auto.
      * intros; cbn; tauto.
      * unfold owns. upd. rewrite F. cbn. auto.
  - (* C3 *) destruct W as (W1 & W2 & W3 & W4). rewrite W3 in E. injection E as <-. split.
    + destruct G. constructor; cbn; auto.
      intros k x v L. destruct (decide (k = g)) as [->|N]; rewrite ?lookup_insert, ?lookup_insert_ne by auto; [|eauto].
      apply g_live in L. destruct L. congruence.
    + unfold inv_md. cbn. rewrite M. eapply (run_upd s _ g G R).
      * other.
      * exact (u_lds s R).
      * unfold rowok. upd. repeat split; auto.
      * cbn. lia.
      * unfold owns. upd. rewrite F. cbn. auto.
      * intros; cbn; tauto.
      * unfold owns. upd. rewrite F. cbn. auto.
  - (* C4 *) destruct W as (W1 & W2 & W3 & W4). injection E as <-. split.
    + destruct G. constructor; cbn; auto.
      intros k x v. destruct (decide (g = k)) as [->|N]; [|eauto]. intros [= <- <-]. auto.
    + unfold inv_md. cbn. rewrite M. eapply (run_upd s _ g G R).
      * other.
      * exact (u_lds s R).
      * unfold rowok. upd. repeat split; auto.
      * cbn. lia.
      * unfold owns. upd. rewrite F. cbn. auto.
      * intros; cbn; tauto.
      * unfold owns. upd. rewrite F. cbn. auto.
Qed.

Lemma adv_d s s' g p : match p with L1 | D0 | D1 | D2 | D3 | D4 => True | _ => False end ->
  Glob s -> RunI s -> md s = Run -> fl s !! g = Some p -> advance s g p = Some s' -> Inv s'.
Proof.
  intros P G R M F E. pose proof (u_row s R g) as W. unfold rowok in W. rewrite F in W.
  pose proof (u_bnd s R g) as BN. unfold owns in BN. rewrite F in BN.
  destruct p as [|ld|ld|ld|ld| | | | | |]; try contradiction; cbn in W, E; destruct W as (r & W1 & W2 & W).
  - (* L1 *) destruct W as (W3 & W4 & W5). rewrite W1 in E. injection E as <-. split.
    + destruct G. constructor; cbn; auto.
      * intros k x. destruct (decide (k = g)) as [->|N]; rewrite ?lookup_insert, ?lookup_insert_ne by auto; [discriminate|eauto].
      * intros k k' x. destruct (decide (k = g)) as [->|N], (decide (k' = g)) as [->|N'];
          rewrite ?lookup_insert, ?lookup_insert_ne by auto; try discriminate; eauto.
      * intros k x v. destruct (decide (g = k)) as [->|N]; [discriminate|]. rewrite lookup_insert_ne by auto. eauto.
      * intros k x. destruct (decide (g = k)) as [->|N]; rewrite ?lookup_insert, ?lookup_insert_ne by auto; [discriminate|eauto].
    + unfold inv_md. cbn. rewrite M. eapply (run_upd s _ g G R).
      * other.
      * exact (u_lds s R).
      * unfold rowok. upd. rewrite W1. cbn. rewrite W2. auto.
      * cbn. lia.
      * unfold owns. upd. rewrite F. cbn. auto.
      * intros; cbn; tauto.
      * unfold owns. upd. rewrite F. cbn. auto.
  - (* D0 *) destruct W as (W3 & W4 & W5). rewrite W1 in E. destruct (g_lis r) eqn:T; injection E as <-; [|now apply dead_inv].
    split.
    + destruct G. constructor; cbn; auto.
    + unfold inv_md. cbn. rewrite M. eapply (run_upd s _ g G R).
      * other.
      * exact (u_lds s R).
      * unfold rowok. upd. exists r. auto.
      * cbn. lia.
      * unfold owns. upd. rewrite F. cbn. auto.
      * intros; cbn; tauto.
      * unfold owns. upd. rewrite F. cbn. auto.
  - (* D1 *) destruct W as (W3 & W4 & W5). injection E as <-. split.
    + destruct G. constructor; cbn; auto.
      intros k x v L. destruct (decide (k = g)) as [->|N]; rewrite ?lookup_delete, ?lookup_delete_ne by auto; [|eauto].
      apply g_live in L. destruct L. congruence.
    + unfold inv_md. cbn. rewrite M. eapply (run_upd s _ g G R).
      * other.
      * exact (u_lds s R).
      * unfold rowok. upd. exists r. auto.
      * cbn. lia.
      * unfold owns. upd. rewrite F. cbn. auto.
      * intros; cbn; tauto.
      * unfold owns. upd. rewrite F. cbn. auto.
  - (* D2 *) destruct W as (W3 & W4 & W5). rewrite W1 in E. unfold destroy_dev in E. rewrite (u_lds s R) in E.
    rewrite decide_True in E by auto. injection E as <-. split.
    + pose proof (u_inj s R) as INJ. pose proof (u_row s R) as ROW.
      assert (FR : forall k, rds s !! k = Some (Rd (g_ld r) false) -> False).
      { intros k K. assert (k = g) as ->.
        { apply (INJ _ _ (g_ld r)).
          - pose proof (ROW k) as W. unfold rowok in W. rewrite K in W. unfold owns.
            exact (row_rd _ _ _ _ _ _ _ W).
          - unfold owns. rewrite F, W1. reflexivity. }
        congruence. }
      destruct G. constructor; cbn; auto.
      * intros x X. apply elem_of_difference in X as [X _]. auto.
      * intros k x X. apply elem_of_difference. split; [eauto|]. intros Y. apply elem_of_singleton in Y as ->. eauto.
    + unfold inv_md. cbn. rewrite M. eapply (run_upd s _ g G R).
      * other.
      * reflexivity.
      * unfold rowok. upd. exists r. auto.
      * cbn. lia.
      * unfold owns. upd. discriminate.
      * unfold owns. upd. rewrite F, W1. cbn. intros x N _. set_unfold. naive_solver.
      * unfold owns. upd. rewrite F, W1. cbn. intros x X [= <-]. set_solver.
  - (* D3 *) destruct W as (W3 & W4). injection E as <-. split.
    + destruct G. constructor; cbn; auto.
      * intros k x. destruct (decide (k = g)) as [->|N]; rewrite ?lookup_delete, ?lookup_delete_ne by auto; [discriminate|eauto].
      * intros k k' x. destruct (decide (k = g)) as [->|N], (decide (k' = g)) as [->|N'];
          rewrite ?lookup_delete, ?lookup_delete_ne by auto; try discriminate; eauto.
      * intros k x v L. destruct (decide (k = g)) as [->|N]; rewrite ?lookup_delete, ?lookup_delete_ne by auto; [|eauto].
        apply g_live in L. destruct L. congruence.
      * intros k x. destruct (decide (k = g)) as [->|N]; rewrite ?lookup_delete, ?lookup_delete_ne by auto; [discriminate|eauto].
    + unfold inv_md. cbn. rewrite M. eapply (run_upd s _ g G R).
      * other.
      * exact (u_lds s R).
      * unfold rowok. upd. exists r. auto.
      * cbn. lia.
      * unfold owns. upd. discriminate.
      * intros; cbn; tauto.
      * unfold owns. rewrite F. discriminate.
  - (* D4 *) destruct W as (W3 & W4). injection E as <-. split.
    + destruct G. constructor; cbn; auto.
    + unfold inv_md. cbn. rewrite M. eapply (run_upd s _ g G R).
      * other.
      * exact (u_lds s R).
      * unfold rowok. upd. cbn. auto.
      * cbn. lia.
      * unfold owns. upd. discriminate.
      * intros; cbn; tauto.
      * unfold owns. rewrite F. discriminate.
Qed.
