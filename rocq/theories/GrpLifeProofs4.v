(** Further invariants: without a crash between the two superblocks of a creation every group has its
    listener; without any crash every group that is destroyed is announced. *)
From stdpp Require Import gmap.
From Verif Require Import GrpLifeModel GrpLifeSpec GrpLifeProofs GrpLifeProofs2 GrpLifeProofs3.
Open Scope N_scope.

Definition J (s : st) : Prop :=
  (forall g ld, rds s !! g = Some (Rd ld false) -> is_Some (cfgs s !! g) \/ exists x, fl s !! g = Some (C3 x))
  /\ (md s = Run -> forall g r, gs s !! g = Some r -> g_lis r = true)
  /\ (forall w, md s <> Dead w).

Ltac ins k g := destruct (decide (k = g)) as [->|];
  rewrite ?lookup_insert, ?lookup_delete, ?lookup_insert_ne, ?lookup_delete_ne by congruence.

Lemma adv_j s s' g p : RunI s -> md s = Run -> fl s !! g = Some p -> J s -> advance s g p = Some s' -> J s'.
Proof.
  intros R M F (J1 & J2 & J3) E. specialize (J2 M).
  pose proof (u_row s R g) as W. unfold rowok in W. rewrite F in W.
  destruct p as [|ld|ld|ld|ld| | | | | |]; cbn in W, E.
  - injection E as <-. split; [|split]; cbn; auto; try congruence. intros k x. ins k g; eauto.
    destruct W as (_ & -> & _). discriminate.
  - rewrite (u_lds s R), decide_False in E by tauto. injection E as <-. split; [|split]; cbn; auto; try congruence. intros k x. ins k g; eauto.
    destruct W as (_ & -> & _). discriminate.
  - destruct W as (_ & W & _). rewrite W in E. injection E as <-. split; [|split]; cbn; auto; try congruence. intros k x. ins k g; eauto.
  - destruct W as (_ & _ & W & _). rewrite W in E. injection E as <-. split; [|split]; cbn; auto; try congruence. intros k x. ins k g; eauto.
  - injection E as <-. split; [|split]; cbn; try congruence.
    + intros k x. ins k g; eauto. destruct W as (_ & _ & -> & _). eauto.
    + intros _ k x. ins k g; [|eauto]. intros [= <-]. reflexivity.
  - destruct W as (r & W & _). rewrite W in E. injection E as <-. split; [|split]; cbn; auto; try congruence. intros k x. ins k g; eauto. discriminate.
  - destruct W as (r & W & _ & W2 & _). rewrite W in E. rewrite (J2 g r W) in E. injection E as <-. split; [|split]; cbn; auto; try congruence.
    intros k x. ins k g; eauto. rewrite W2. discriminate.
  - destruct W as (r & _ & _ & W & _). injection E as <-. split; [|split]; cbn; auto; try congruence. intros k x. ins k g; eauto. congruence.
  - destruct W as (r & W & _ & W2 & _). rewrite W in E. injection E as <-. unfold destroy_dev.
    destruct (decide _); (split; [|split]); cbn; auto; try congruence; intros k x; ins k g; eauto; congruence.
  - injection E as <-. split; [|split]; cbn; auto; try congruence. intros k x. ins k g; eauto. discriminate.
  - destruct W as (r & W & _ & W2 & _). injection E as <-. split; [|split]; cbn; try congruence.
    + intros k x. ins k g; eauto. congruence.
    + intros _ k x. ins k g; [discriminate|eauto].
Qed.

Lemma step_j s s' e : (forall g, e <> EGcEarly g) -> Inv s ->
  (e = ECrash -> forall g ld, fl s !! g <> Some (C3 ld)) -> J s -> step s e = Some s' -> J s'.
Proof.
  intros NE [G I] T (J1 & J2 & J3) E. unfold inv_md in I. destruct e as [g|g|g|g|g v|g|g| | |g|g|x|]; cbn in E.
  - destruct (md s) eqn:M; try discriminate. specialize (J2 eq_refl).
    destruct (fl s !! g) eqn:F; [discriminate|]. destruct (gs s !! g) eqn:Q; [discriminate|]. injection E as <-.
    split; [|split]; cbn; auto; try congruence. intros k x. ins k g; eauto. intros H. destruct (J1 _ _ H) as [|[y Y]]; [auto|congruence].
  - destruct (md s) eqn:M; try discriminate. specialize (J2 eq_refl).
    destruct (fl s !! g) eqn:F; [discriminate|]. destruct (gs s !! g) as [r|] eqn:Q; [|discriminate].
    destruct (g_st r); [|discriminate]. injection E as <-.
    split; [|split]; cbn; try congruence.
    + intros k x. ins k g; eauto. intros H. destruct (J1 _ _ H) as [|[y Y]]; [auto|congruence].
    + intros _ k x. ins k g; [|eauto]. intros [= <-]. cbn. eauto.
  - destruct (md s) eqn:M; try discriminate. specialize (J2 eq_refl).
    destruct (fl s !! g) eqn:F; [discriminate|]. destruct (gs s !! g) as [r|] eqn:Q; [|discriminate].
    destruct (g_st r); [discriminate|]. injection E as <-.
    split; [|split]; cbn; auto; try congruence. intros k x. ins k g; eauto. intros H. destruct (J1 _ _ H) as [|[y Y]]; [auto|congruence].
  - exfalso. exact (NE g eq_refl).
  - destruct (md s) eqn:M; try discriminate. specialize (J2 eq_refl).
    destruct (fl s !! g) eqn:F; [discriminate|]. destruct (gs s !! g) as [r|] eqn:Q; [|discriminate].
    rewrite (J2 g r Q) in E. injection E as <-. split; [|split]; cbn; try congruence.
    + intros k x. ins k g; eauto.
    + intros _ k x. ins k g; [|eauto]. intros [= <-]. reflexivity.
  - destruct (md s) eqn:M; try discriminate. specialize (J2 eq_refl).
    destruct (fl s !! g) eqn:F; [discriminate|]. destruct (gs s !! g) as [r|] eqn:Q; [|discriminate].
    rewrite (J2 g r Q) in E. injection E as <-. rewrite <- M in *. split; [|split]; auto.
  - destruct (md s) eqn:M; try discriminate. destruct (fl s !! g) as [p|] eqn:F; [|discriminate].
    apply (adv_j s s' g p I M F); auto. split; [|split]; rewrite ?M; auto.
  - injection E as <-. split; [|split]; cbn; try discriminate. intros k x H. left.
    destruct (J1 k x H) as [|[y Y]]; auto. exfalso. exact (T eq_refl _ _ Y).
  - destruct (md s) eqn:M; try discriminate. injection E as <-. split; [|split]; cbn; try discriminate.
    intros k x H. destruct (J1 k x H) as [|[y Y]]; auto.
    rewrite I, lookup_empty in Y. discriminate.
  - destruct (md s) eqn:M; try discriminate. destruct (decide _); [|discriminate].
    destruct (rds s !! g) as [r|] eqn:Q; [|discriminate]. destruct I as ([B1 B2 B3] & _).
    destruct (r_pend r) eqn:P; injection E as <-; (split; [|split]); cbn; try discriminate; auto.
    intros k x. ins k g; [discriminate|eauto].
  - destruct (md s) eqn:M; try discriminate. destruct (decide _); [|discriminate].
    destruct (cfgs s !! g) as [v|] eqn:Q; [|discriminate]. destruct I as ([B1 B2 B3] & U & I1 & _).
    destruct (gs s !! g) as [r|] eqn:P; injection E as <-; (split; [|split]); cbn; try discriminate; auto.
    intros k x H. ins k g; [|eauto]. destruct (I1 g) as [y Y]; [eauto|congruence].
  - destruct (md s) eqn:M; try discriminate. destruct (decide _); [|discriminate]. injection E as <-.
    unfold destroy_dev. destruct (decide _); (split; [|split]); cbn; try discriminate; auto.
  - destruct (md s) as [|t|t|t| |] eqn:M; try discriminate.
    + destruct (decide _); [|discriminate]. injection E as <-. split; [|split]; cbn; try discriminate; auto.
    + destruct (decide (t = ∅)); [|discriminate]. destruct I as ([B1 B2 B3] & _).
      rewrite decide_True in E by set_solver. injection E as <-. split; [|split]; cbn; try discriminate; auto.
    + destruct (decide (t = ∅)); [|discriminate]. destruct I as ([B1 B2 B3] & U & I1 & I2 & I3).
      injection E as <-. split; [|split]; cbn; try discriminate; auto.
      intros _ g r Q. destruct (B3 g r Q) as [B4 _]. destruct (J1 _ _ B4) as [[v V]|[y Y]].
      * rewrite (I2 g r Q) in V. unfold ofc in V. destruct (g_lis r); [auto|discriminate].
      * rewrite B2, lookup_empty in Y. discriminate.
Qed.

(** No crash comes between the write of a group's superblock and that of its raft config. *)
Fixpoint whole (s : st) (l : list ev) : Prop :=
  match l with
  | [] => True
  | e :: l => (e = ECrash -> forall g ld, fl s !! g <> Some (C3 ld))
              /\ match step s e with Some s' => whole s' l | None => True end
  end.

Lemma run_j l : forall s s', no_early l -> Inv s -> J s -> whole s l -> run s l = Some s' -> J s'.
Proof.
  induction l as [|e l IH]; intros s s' N I Hj W E; cbn in E, W.
  - injection E as <-. exact Hj.
  - destruct W as [T W]. destruct (step s e) as [s1|] eqn:E1; [|discriminate].
    assert (NE : forall g, e <> EGcEarly g) by (intros g ->; apply (N g); left).
    apply (IH s1 s'); auto.
    + intros g X. apply (N g). now right.
    + eapply step_inv; eauto.
    + eapply step_j; eauto.
Qed.

Lemma init_j : J init.
Proof. split; [|split]; cbn; discriminate. Qed.

(** Without crashes: what is left is announced before it is gone. *)
Definition K (s : st) : Prop :=
  md s = Run \/ (exists w, md s = Dead w).
Definition K1 (s : st) : Prop := forall g, left_ (out s) g = true -> told (out s) g = true \/ is_Some (rds s !! g).

Definition K2 (s : st) : Prop := forall g, match fl s !! g with Some D1 | Some D2 | Some D3 | Some D4 => told (out s) g = true | _ => True end.

Lemma step_k s s' e : (forall g, e <> EGcEarly g) -> e <> ECrash -> Inv s -> K s -> K1 s -> K2 s -> step s e = Some s' -> K s' /\ K1 s' /\ K2 s'.
Proof.
  intros NE NC [G I] HK H1 H2 E. destruct HK as [M|[w M]]; [|destruct e; cbn in E; try rewrite M in E; try discriminate; congruence].
  unfold inv_md in I. rewrite M in I.
  destruct e as [g|g|g|g|g v|g|g| | |g|g|x|]; cbn in E; try rewrite M in E; try discriminate; try congruence.
  - destruct (fl s !! g) eqn:F; [discriminate|]. destruct (gs s !! g) eqn:Q; [discriminate|]. injection E as <-.
    split; [|split]; [now left| |].
    + intros k. cbn. destruct (decide (g = k)); [discriminate|apply H1].
    + intros k. cbn. ins k g; [exact Logic.I|]. rewrite decide_False by congruence. apply H2.
  - destruct (fl s !! g) eqn:F; [discriminate|]. destruct (gs s !! g) as [r|] eqn:Q; [|discriminate].
    destruct (g_st r); [|discriminate]. injection E as <-. split; [|split]; [now left|exact H1|].
    intros k. cbn. ins k g; [exact Logic.I|apply H2].
  - destruct (fl s !! g) eqn:F; [discriminate|]. destruct (gs s !! g) as [r|] eqn:Q; [|discriminate].
    destruct (g_st r); [discriminate|]. injection E as <-. split; [|split]; [now left|exact H1|].
    intros k. cbn. ins k g; [exact Logic.I|apply H2].
  - destruct (fl s !! g) eqn:F; [discriminate|]. destruct (gs s !! g) as [r|] eqn:Q; [|discriminate].
    destruct (g_lis r); injection E as <-; (split; [|split]; [now left|exact H1|exact H2]).
  - destruct (fl s !! g) eqn:F; [discriminate|]. destruct (gs s !! g) as [r|] eqn:Q; [|discriminate].
    destruct (g_lis r); injection E as <-; (split; [|split]; [|exact H1|exact H2]); [now left|right; now exists NoListener].
  - destruct (fl s !! g) as [p|] eqn:F; [|discriminate]. pose proof (u_row s I g) as W. unfold rowok in W. rewrite F in W.
    pose proof (H2 g) as T. rewrite F in T.
    destruct p as [|ld|ld|ld|ld| | | | | |]; cbn in W, E.
    + injection E as <-. split; [|split]; [now left|exact H1|]. intros k. cbn. ins k g; [exact Logic.I|apply H2].
    + destruct (decide _); injection E as <-; (split; [|split]); [right; now exists DupDev|exact H1|exact H2|now left|exact H1|].
      intros k. cbn. ins k g; [exact Logic.I|apply H2].
    + destruct (rds s !! g) eqn:Q; injection E as <-; (split; [|split]); [right; now exists DupSb|exact H1|exact H2|now left| |].
      * intros k. cbn. ins k g; [eauto|apply H1].
      * intros k. cbn. ins k g; [exact Logic.I|apply H2].
    + destruct (cfgs s !! g) eqn:Q; injection E as <-; (split; [|split]); [right; now exists DupSb|exact H1|exact H2|now left|exact H1|].
      intros k. cbn. ins k g; [exact Logic.I|apply H2].
    + injection E as <-. split; [|split]; [now left|exact H1|]. intros k. cbn. ins k g; [exact Logic.I|apply H2].
    + destruct (gs s !! g) as [r|]; [|discriminate]. injection E as <-. split; [|split]; [now left| |].
      * intros k. cbn. ins k g; [eauto|]. rewrite decide_False by congruence. apply H1.
      * intros k. cbn. ins k g; [exact Logic.I|apply H2].
    + destruct (gs s !! g) as [r|]; [|discriminate]. destruct (g_lis r); injection E as <-; (split; [|split]).
      * now left.
      * intros k. cbn. destruct (decide (g = k)); [auto|apply H1].
      * intros k. cbn. ins k g; [now rewrite decide_True|]. rewrite decide_False by congruence. apply H2.
      * right. now exists NoListener.
      * exact H1.
      * exact H2.
    + injection E as <-. split; [|split]; [now left|exact H1|]. intros k. cbn. ins k g; [exact T|apply H2].
    + destruct (gs s !! g) as [r|]; [|discriminate]. injection E as <-. unfold destroy_dev.
      destruct (decide _); (split; [|split]); try (now left); try exact H1; intros k; cbn; ins k g; try exact T; apply H2.
    + injection E as <-. split; [|split]; [now left| |].
      * intros k. cbn. ins k g; [auto|apply H1].
      * intros k. cbn. ins k g; [exact T|apply H2].
    + injection E as <-. split; [|split]; [now left|exact H1|]. intros k. cbn. ins k g; [exact Logic.I|apply H2].
Qed.

Lemma run_k l : forall s s', no_early l -> ECrash ∉ l -> Inv s -> K s -> K1 s -> K2 s -> run s l = Some s' -> K1 s'.
Proof.
  induction l as [|e l IH]; intros s s' N C I HK H1 H2 E; cbn in E.
  - injection E as <-. exact H1.
  - destruct (step s e) as [s1|] eqn:E1; [|discriminate].
    assert (NE : forall g, e <> EGcEarly g) by (intros g ->; apply (N g); left).
    assert (NC : e <> ECrash) by (intros ->; apply C; left).
    destruct (step_k s s1 e NE NC I HK H1 H2 E1) as (HK' & H1' & H2').
    apply (IH s1 s'); auto.
    + intros g X. apply (N g). now right.
    + intros X. apply C. now right.
    + eapply step_inv; eauto.
Qed.
