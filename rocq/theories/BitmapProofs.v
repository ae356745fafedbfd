(** Proofs about the persisted bitmap model. *)
From Coq Require Import NArith ZArith List Lia Bool.
From Coq Require Import ZifyBool ZifyNat ZifyN.
From Verif Require Import Base ExtSpec ExtFacts BitmapModel BitmapSpec.
Import ListNotations.
Local Open Scope N_scope.

Lemma range_in : forall n s b, In b (range s n) <-> s <= b < s + N.of_nat n.
Proof. induction n as [|n IH]; intros s b; cbn [range In]; [lia|]. rewrite IH. lia. Qed.
Lemma blks_of_in : forall x b, In b (blks_of x) <-> inside b x = true.
Proof. intros [s n] b. unfold blks_of, inside. rewrite range_in. cbn [fst snd]. lia. Qed.
Lemma is_reset_spec : forall bm x, is_reset bm x = true <-> (forall b, inside b x = true -> bm b = false).
Proof.
  intros bm x. unfold is_reset. rewrite forallb_forall. split; intros H b Hb.
  - apply blks_of_in, H in Hb. now apply negb_true_iff.
  - apply blks_of_in, H in Hb. now apply negb_true_iff.
Qed.
Lemma covers_app : forall l m b, covers (l ++ m) b = covers l b || covers m b.
Proof. intros. unfold covers. apply existsb_app. Qed.
Lemma reset_fold : forall l bm b, fold_left reset_bits l bm b = negb (covers l b) && bm b.
Proof.
  induction l as [|x l IH]; intros bm b; [reflexivity|]. cbn [fold_left]. rewrite IH. unfold reset_bits, covers. cbn [existsb].
  destruct (inside b x), (existsb (inside b) l), (bm b); reflexivity.
Qed.
Lemma covers_holders : forall l b, covers l b = true <-> (0 < holders b l)%nat.
Proof.
  induction l as [|x l IH]; intros b; [cbn; split; [discriminate|lia]|].
  rewrite holders_cons. unfold covers in *. cbn [existsb]. rewrite orb_true_iff, IH.
  destruct (inside b x); intuition (try lia; try discriminate).
Qed.

Lemma reapply_spec : forall l bm d st, (forall b, (holders b l <= 1)%nat) ->
  (forall b, bm b = true -> covers l b = false) ->
  exists bm', reapply (Bst bm None d None st) l =
     Some (Bst bm' None (match l with [] => d | _ => true end) None st) /\
     forall b, bm' b = bm b || covers l b.
Proof.
  induction l as [|x l IH]; intros bm d st H1 H2; cbn [reapply].
  - exists bm. split; [reflexivity|]. intros b. now rewrite orb_false_r.
  - unfold reserve_on_disk. cbn [b_list b_bm b_copy b_stored set_pieces].
    assert (Hr : is_reset bm x = true).
    { apply is_reset_spec. intros b Hb. destruct (bm b) eqn:E; [|reflexivity]. apply H2 in E.
      unfold covers in E. cbn [existsb] in E. rewrite Hb in E. discriminate. }
    rewrite Hr.
    destruct (IH (set_bits bm x) true st) as [bm' [E F]].
    + intros b. specialize (H1 b). rewrite holders_cons in H1. lia.
    + intros b Hb. unfold set_bits in Hb. destruct (covers l b) eqn:Ec; [|reflexivity].
      destruct (inside b x) eqn:Ei.
      * apply covers_holders in Ec. specialize (H1 b). rewrite holders_cons, Ei in H1. lia.
      * apply H2 in Hb. unfold covers in *. cbn [existsb] in Hb. rewrite Ei in Hb. cbn in Hb. congruence.
    + exists bm'. split; [destruct l; exact E|]. intros b. rewrite F. unfold set_bits, covers. cbn [existsb].
      destruct (inside b x), (bm b), (existsb (inside b) l); reflexivity.
Qed.

Definition binv (s : bst) (t : truth) : Prop :=
  (t_commits t = true -> b_dirty s = true) /\
  match b_list s, b_copy s with
  | None, None =>
      (forall b, b_bm s b = t_now t b) /\
      (b_dirty s = false -> forall b, t_now t b = true -> stored_bit s b = true) /\
      (forall b, t_begin t b = true -> stored_bit s b = true) /\
      (t_due t = true -> t_flushing t = false) /\
      (t_due t = true -> forall b, stored_bit s b = t_begin t b)
  | Some l, Some c =>
      b_dirty s = true /\ t_flushing t = true /\
      (forall b, c b = t_begin t b) /\ (forall b, t_now t b = b_bm s b || covers l b) /\
      (forall b, b_bm s b = true -> covers l b = false) /\ (forall b, (holders b l <= 1)%nat) /\
      (forall b, covers l b = true -> t_in_flush t b = true) /\ (l = [] -> forall b, t_now t b = true -> t_begin t b = true) /\
      (l = [] -> t_commits t = false)
  | _, _ => False
  end.

Lemma bstep_inv : forall s t o, binv s t -> legal t o -> exists s', bstep s o = Some s' /\ binv s' (tstep t o).
Proof.
  intros s t o [I0 I] Hl. destruct s as [bm li di cp st]. cbn [b_list b_copy b_bm b_dirty] in *.
  destruct li as [l|], cp as [c|]; try contradiction.
  - destruct I as [I1 [I2 [I3 [I4 [I5 [I6 [I7 [I8 I9]]]]]]]]. subst di.
    destruct o as [p|p| |]; cbn [bstep legal] in *.
    + destruct Hl as [x [-> [Hx Hf]]]. unfold reserve_on_disk. cbn [b_list firstn].
      eexists. split; [reflexivity|]. unfold binv. cbn [b_list b_copy b_bm b_dirty t_now t_begin t_in_flush t_flushing t_commits t_due tstep].
      assert (Hc : forall b, covers [x] b = inside b x) by (intros b; unfold covers; cbn; apply orb_false_r).
      ands; auto.
      * intros b. rewrite covers_app, I4. destruct (covers [x] b), (bm b), (covers l b); reflexivity.
      * intros b Hb. rewrite covers_app, (I5 b Hb), Hc. cbn. destruct (inside b x) eqn:E; [|reflexivity].
        apply Hf in E. rewrite I4, Hb in E. discriminate.
      * intros b. rewrite holders_app, holders_cons, holders_nil. specialize (I6 b).
        destruct (inside b x) eqn:E; [|lia]. apply Hf in E. rewrite I4 in E. apply orb_false_iff in E. destruct E as [_ E].
        destruct (holders b l) eqn:Eh; [lia|]. assert (covers l b = true) by (apply covers_holders; lia). congruence.
      * intros b. rewrite covers_app, I2. intros H. apply orb_true_iff in H. destruct H as [H|H].
        -- rewrite (I7 b H). apply orb_true_r.
        -- rewrite H. reflexivity.
      * intros H. destruct l; discriminate.
      * intros H. destruct l; discriminate.
    + eexists. split; [reflexivity|]. unfold binv, free_on_disk. cbn [b_list b_copy b_bm b_dirty t_now t_begin t_in_flush t_flushing t_commits t_due tstep].
      ands; auto.
      * intros b. rewrite I4, reset_fold. destruct (covers l b) eqn:E.
        -- apply I7 in E. assert (covers p b = false).
           { destruct (covers p b) eqn:Ep; [|reflexivity]. apply Hl in Ep. congruence. }
           rewrite H, !orb_true_r. reflexivity.
        -- rewrite !orb_false_r. reflexivity.
      * intros b Hb. rewrite reset_fold in Hb. apply andb_true_iff in Hb. destruct Hb. auto.
      * intros He b Hb. apply andb_true_iff in Hb. destruct Hb. auto.
    + congruence.
    + unfold flush_end. cbn [b_copy b_list b_bm].
      destruct (reapply_spec l bm false (Some c) I6 I5) as [bm' [E F]]. rewrite E. eexists. split; [reflexivity|].
      unfold binv, stored_bit. cbn [b_list b_copy b_bm b_dirty b_stored t_now t_begin t_in_flush t_flushing t_commits t_due tstep].
      ands; auto.
      * intros Hc. destruct l; [|reflexivity]. rewrite I9 in Hc by reflexivity. discriminate.
      * intros b. rewrite F, I4. reflexivity.
      * intros Hd b Hb. destruct l; [|discriminate]. rewrite I3. apply I8; auto.
      * intros b Hb. now rewrite I3.
  - destruct I as [I1 [I2 [I3 [I4 I5]]]].
    destruct o as [p|p| |]; cbn [bstep legal] in *.
    + destruct Hl as [x [-> [Hx Hf]]]. unfold reserve_on_disk. cbn [b_list b_bm set_pieces].
      assert (Hr : is_reset bm x = true). { apply is_reset_spec. intros b Hb. rewrite I1. auto. }
      rewrite Hr. eexists. split; [reflexivity|].
      unfold binv, stored_bit in *. cbn [b_list b_copy b_bm b_dirty b_stored t_now t_begin t_in_flush t_flushing t_commits t_due tstep] in *.
      ands; auto; try discriminate.
      intros b. unfold set_bits, covers. cbn [existsb]. rewrite I1, orb_false_r. destruct (inside b x); reflexivity.
    + eexists. split; [reflexivity|]. unfold binv, free_on_disk, stored_bit in *. cbn [b_list b_copy b_bm b_dirty b_stored t_now t_begin t_in_flush t_flushing t_commits t_due tstep] in *.
      ands; auto.
      * intros b. now rewrite reset_fold, I1.
      * intros Hd b Hb. apply andb_true_iff in Hb. destruct Hb. auto.
    + unfold flush_begin. cbn [b_dirty b_list b_bm b_stored]. destruct di.
      * eexists. split; [reflexivity|]. unfold binv, stored_bit in *. cbn [b_list b_copy b_bm b_dirty b_stored t_now t_begin t_in_flush t_flushing t_commits t_due tstep] in *.
        ands; auto; try (intros b; rewrite ?I1, ?orb_false_r; auto; fail).
      * eexists. split; [reflexivity|]. unfold binv, stored_bit in *. cbn [b_list b_copy b_bm b_dirty b_stored t_now t_begin t_in_flush t_flushing t_commits t_due tstep] in *.
        assert (Hnc : t_commits t = false) by (destruct (t_commits t); [specialize (I0 eq_refl); discriminate|reflexivity]).
        rewrite Hnc. ands; auto; try discriminate.
    + unfold flush_end. cbn [b_copy]. eexists. split; [reflexivity|].
      unfold binv, stored_bit in *. cbn [b_list b_copy b_bm b_dirty b_stored t_now t_begin t_in_flush t_flushing t_commits t_due tstep] in *.
      ands; auto.
Qed.

Lemma brun_inv : forall l s t, binv s t -> legal_run t l -> exists s' t', brun s t l = Some (s', t') /\ binv s' t'.
Proof.
  induction l as [|o l IH]; intros s t Hi Hl; cbn [brun legal_run] in *; [eauto|].
  destruct Hl as [H1 H2]. destruct (bstep_inv s t o Hi H1) as [s1 [E1 Hi1]]. rewrite E1. now apply IH.
Qed.

Lemma recovered_inv : forall bm, binv (recovered bm) (truth_of bm).
Proof. intros bm. unfold binv, recovered, truth_of, stored_bit. cbn. ands; auto; try discriminate. Qed.
Lemma fresh_inv : binv fresh (truth_of (fun _ => false)).
Proof. unfold binv, fresh, truth_of, stored_bit. cbn. ands; auto; try discriminate. Qed.

Lemma c10_lemma : forall bm ops, legal_run (truth_of bm) ops ->
  exists s t, brun (recovered bm) (truth_of bm) ops = Some (s, t) /\
    (t_flushing t = false -> 
       (forall b, b_bm s b = t_now t b) /\
       (forall b, t_begin t b = true -> stored_bit s b = true) /\
       (t_due t = true -> forall b, stored_bit s b = t_begin t b)).
Proof.
  intros bm ops Hl. destruct (brun_inv ops _ _ (recovered_inv bm) Hl) as [s [t [E [_ I]]]].
  exists s, t. split; [exact E|]. intros Hf. destruct (b_list s), (b_copy s); try contradiction.
  - destruct I as [_ [I _]]. congruence.
  - destruct I as [I1 [I2 [I3 [I4 I5]]]]. ands; auto.
Qed.

Lemma c10_fresh_lemma : forall ops, legal_run (truth_of (fun _ => false)) ops ->
  exists s t, brun fresh (truth_of (fun _ => false)) ops = Some (s, t) /\
    (t_flushing t = false -> 
       (forall b, b_bm s b = t_now t b) /\
       (forall b, t_begin t b = true -> stored_bit s b = true) /\
       (t_due t = true -> forall b, stored_bit s b = t_begin t b)).
Proof.
  intros ops Hl. destruct (brun_inv ops _ _ fresh_inv Hl) as [s [t [E [_ I]]]].
  exists s, t. split; [exact E|]. intros Hf. destruct (b_list s), (b_copy s); try contradiction.
  - destruct I as [_ [I _]]. congruence.
  - destruct I as [I1 [I2 [I3 [I4 I5]]]]. ands; auto.
Qed.
