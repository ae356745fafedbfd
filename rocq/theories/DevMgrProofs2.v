(** * What holds of the drives after any history of starts. *)
From Coq Require Import List Arith Lia Bool.
From Verif Require Import DevMgrModel DevMgrSpec DevMgrProofs.
Import ListNotations.

(** First blocks of the drives in use: [G], [C] are the highest generation and drive id. *)
Definition hv (D : disks) (G C U N : nat) : Prop :=
  (forall d b, valid (D d) = Some b -> gen (fh b) <= G /\ cur (fh b) <= C /\ pid b <= C /\ uuid (fh b) = U /\ puuid b = U /\
     npd (fh b) = N /\ (gen (fh b) = G -> cur (fh b) = C)) /\
  (exists d b, valid (D d) = Some b /\ gen (fh b) = G) /\
  (forall d b d' b', valid (D d) = Some b -> valid (D d') = Some b' -> pid b = pid b' -> d = d').
Definition ckv (c : cfg) (D : disks) : Prop :=
  (forall d, used D d -> NoDup (map fst (chk (D d))) /\ (forall v, In v (vinf (D d)) -> v < nv c) /\ forall x v, In (x, v) (chk (D d)) -> v < nv c) /\
  (forall x d v d' v', held D x d v -> held D x d' v' -> d = d').
Definition bv (c : cfg) (base : list nat) (D : disks) : Prop :=
  (forall d, In d base -> used D d) /\
  forall v d, v < nv c -> In d (pool c (vt c v) base) -> In v (vinf (D d)).
Definition live (c : cfg) (base : list nat) (D : disks) : Prop :=
  (exists G C U, hv D G C U (length base)) /\ ckv c D /\ bv c base D.
Definition memok (c : cfg) (D : disks) (m : mem) : Prop :=
  NoDup (map fst (all m)) /\ (forall id d, In (id, d) (all m) <-> known D d id) /\
  (forall d, In d (devs m) <-> used D d) /\ (forall v, In v (vds m) <-> v < nv c) /\
  NoDup (map cid (cs m)) /\ (forall x d v, In (x, d, v) (cs m) <-> held D x d v).
Definition inv (c : cfg) (base : list nat) (s : st) : Prop :=
  (forall d, ~ used (dk s) d) /\ mm s = None \/
  live c base (dk s) /\ forall m, mm s = Some m -> memok c (dk s) m.

(** Drives in use stay so, with their ids and chunks. *)
Definition keeps (D D' : disks) : Prop :=
  forall d b, valid (D d) = Some b -> (exists b', valid (D' d) = Some b' /\ pid b' = pid b) /\ incl (chk (D d)) (chk (D' d)).
Lemma keeps_tran A B C : keeps A B -> keeps B C -> keeps A C.
Proof.
  intros H K d b V. destruct (H d b V) as ((b1 & V1 & P1) & I1). destruct (K d b1 V1) as ((b2 & V2 & P2) & I2).
  split; [exists b2; split; congruence|]. eapply incl_tran; eauto.
Qed.
Lemma keeps_refl D : keeps D D.
Proof. intros d b V. split; [eauto|apply incl_refl]. Qed.

Lemma valid_fb x b : valid x = Some b -> fb x = Some b /\ done b = true.
Proof. unfold valid. destruct (fb x) as [b'|]; [|discriminate]. destruct (done b') eqn:E; [|discriminate]. intros H. injection H as ->. auto. Qed.
Lemma valid_none D d : ~ used D d <-> valid (D d) = None.
Proof.
  unfold used. split.
  - destruct (valid (D d)) as [b|]; auto. intros H. contradict H. eauto.
  - intros -> (b & H). discriminate.
Qed.
Lemma valid_eq x y : fb x = fb y -> valid x = valid y.
Proof. unfold valid. now intros ->. Qed.

(** Only drives that are not in use change. *)
Lemma live_same c base D D' : live c base D -> (forall d, used D d -> D' d = D d) -> (forall d, ~ used D d -> ~ used D' d) -> live c base D'.
Proof.
  intros ((G & C & U & H1 & (d0 & b0 & V0 & E0) & H3) & (K1 & K2) & B1 & B2) S N.
  assert (V : forall d b, valid (D' d) = Some b <-> valid (D d) = Some b).
  { intros d b. split; intros V.
    - assert (u : used D d). { destruct (valid (D d)) as [b1|] eqn:E; [eexists; eauto|]. apply valid_none in E. apply N in E. destruct E. eexists; eauto. }
      now rewrite <- (S d u).
    - rewrite S; auto. eexists; eauto. }
  assert (u : forall d, used D' d -> used D d) by (intros d (b & X); exists b; now apply V).
  split; [|split].
  - exists G, C, U. split; [intros d b X; apply (H1 d), V, X|]. split; [exists d0, b0; split; auto; now apply V|].
    intros d b d' b' X Y. apply V in X, Y. eauto.
  - split; [intros d X; rewrite S by auto; auto|]. intros x d v d' v' (X & X1) (Y & Y1). rewrite S in X1, Y1 by auto.
    apply (K2 x d v d' v'); split; auto.
  - split; [intros d X; destruct (B1 d X) as (b & Y); exists b; now apply V|]. intros v d X Y.
    rewrite S; auto. apply B1. now apply (pool_incl c (vt c v)).
Qed.

Lemma exact_ckv c D L k : exact D L k -> small c D L -> (forall d, used D d -> In d L) -> ckv c D.
Proof.
  intros E S u. split.
  - intros d X. split; [now apply E, u|]. apply S. now apply u.
  - intros x d v d' v' (X & X1) (Y & Y1). destruct E as (N & E & _).
    assert (P : In (x, d, v) k) by (apply E; auto). assert (Q : In (x, d', v') k) by (apply E; auto).
    assert (R : (d, v) = (d', v')); [|congruence].
    apply (nodup_fst (map (fun y => (cid y, (cdv y, cvd y))) k) x).
    + rewrite map_map. cbn. exact N.
    + apply in_map_iff. exists (x, d, v). auto.
    + apply in_map_iff. exists (x, d', v'). auto.
Qed.

(** The writes between formatting and committing. *)
Lemma live_trail c base D L k ws k' : live c base D -> exact D L k -> small c D L -> (forall d, used D d -> In d L) ->
  trail c L k ws k' -> live c base (applies D ws) /\ keeps D (applies D ws).
Proof.
  intros ((G & C & U & H) & _ & B1 & B2) E S u T.
  destruct (trail_exact c L k ws k' T D E S) as (E' & S' & F & _).
  assert (V : forall d, valid (applies D ws d) = valid (D d)) by (intros d; apply valid_eq, F).
  assert (u' : forall d, used (applies D ws) d <-> used D d) by (intros d; unfold used; now rewrite V).
  split.
  - split; [|split].
    + exists G, C, U. destruct H as (H1 & (d0 & b0 & V0 & E0) & H3). split; [intros d b; rewrite V; apply H1|].
      split; [exists d0, b0; now rewrite V|]. intros d b d' b'. rewrite !V. apply H3.
    + eapply exact_ckv; eauto. intros d X. apply u, u', X.
    + split; [intros d X; now apply u', B1|]. intros v d X Y. apply F. auto.
  - intros d b X. rewrite V. split; [eauto|]. apply F.
Qed.

(** A commit that reached some drives. *)
Lemma hv_commit D L (a : list (nat * nat)) g c U N :
  (forall d, used D d -> In d L) -> incl (map snd a) L -> a <> [] ->
  (forall d b, In d L -> fb (D d) = Some b -> uuid (fh b) = U /\ puuid b = U /\ npd (fh b) = N /\ pid b <= c) ->
  (forall d, In d L -> fb (D d) <> None) ->
  (forall d b d' b', In d L -> In d' L -> fb (D d) = Some b -> fb (D d') = Some b' -> pid b = pid b' -> d = d') ->
  (forall d b, valid (D d) = Some b -> gen (fh b) <= g /\ cur (fh b) <= c /\ (gen (fh b) = g -> cur (fh b) = c)) ->
  let D' := applies D (map (fun p => WCommit (snd p) g c) a) in
  hv D' g c U N /\ (forall d, used D' d <-> used D d \/ In d (map snd a)) /\
  (forall d, chk (D' d) = chk (D d) /\ vinf (D' d) = vinf (D d)) /\ keeps D D' /\
  (forall d b, fb (D d) = Some b -> exists b', fb (D' d) = Some b' /\ pid b' = pid b).
Proof.
  intros u I Ne B0 B1 J V D'.
  assert (E : forall d, D' d = if memb d (map snd a) then com g c (D d) else D d) by (intros d; apply commit_all).
  assert (X : forall d, chk (D' d) = chk (D d) /\ vinf (D' d) = vinf (D d)).
  { intros d. rewrite E. destruct (memb _ _); auto. unfold com. destruct (fb (D d)); auto. }
  assert (Y : forall d b, fb (D d) = Some b -> exists b', fb (D' d) = Some b' /\ pid b' = pid b).
  { intros d b F. rewrite E. destruct (memb _ _); [|eauto]. unfold com. rewrite F. cbn. eauto. }
  assert (W : forall d b', valid (D' d) = Some b' ->
     (In d (map snd a) /\ exists b, fb (D d) = Some b /\ b' = FBlk true (Hdr g (npd (fh b)) c (uuid (fh b))) (pid b) (puuid b)) \/
     (~ In d (map snd a) /\ valid (D d) = Some b')).
  { intros d b'. rewrite E. destruct (memb d (map snd a)) eqn:M.
    - apply memb_in in M. assert (Z : fb (D d) <> None) by auto. unfold com. destruct (fb (D d)) as [b|]; [|congruence].
      unfold valid. cbn. intros Q. injection Q as <-. left. split; auto. eauto.
    - apply memb_no in M. auto. }
  assert (W' : forall d, In d (map snd a) -> exists b, fb (D d) = Some b /\ valid (D' d) = Some (FBlk true (Hdr g (npd (fh b)) c (uuid (fh b))) (pid b) (puuid b))).
  { intros d M. assert (Z : fb (D d) <> None) by auto. destruct (fb (D d)) as [b|] eqn:Q; [|congruence].
    exists b. split; auto. rewrite E. apply memb_in in M. rewrite M. unfold com. rewrite Q. reflexivity. }
  assert (P : forall d b', valid (D' d) = Some b' -> In d L /\ exists b, fb (D d) = Some b /\ pid b' = pid b).
  { intros d b' Q. destruct (W d b' Q) as [(M & b & F & ->)|(M & F)].
    - split; auto. exists b. auto.
    - split; [apply u; eexists; eauto|]. exists b'. split; auto. now apply valid_fb in F. }
  split; [|split; [|split; [|split]]]; auto.
  - split; [|split].
    + intros d b' Q. destruct (W d b' Q) as [(M & b & F & ->)|(M & F)]; cbn.
      * destruct (B0 d b (I d M) F) as (? & ? & ? & ?). auto 10.
      * destruct (V d b' F) as (? & ? & ?). apply valid_fb in F as F'. destruct F' as (F' & _).
        assert (Hd : In d L) by (apply u; eexists; eauto). destruct (B0 d b' Hd F') as (? & ? & ? & ?). auto 10.
    + destruct a as [|p a]; [congruence|]. destruct (W' (snd p)) as (b & F & Q); [now left|].
      exists (snd p). eexists. split; [exact Q|reflexivity].
    + intros d b d' b' Q Q' R. destruct (P d b Q) as (I1 & b1 & F1 & R1). destruct (P d' b' Q') as (I2 & b2 & F2 & R2).
      apply (J d b1 d' b2); auto. congruence.
  - intros d. split.
    + intros (b & Q). destruct (W d b Q) as [(M & _)|(_ & F)]; auto. left. eexists; eauto.
    + intros [(b & Q)|M]; [|destruct (W' d M) as (b & _ & Q); eexists; eauto].
      destruct (memb d (map snd a)) eqn:M; [apply memb_in in M; destruct (W' d M) as (b1 & _ & Q1); eexists; eauto|].
      exists b. rewrite E, M. auto.
  - intros d b Q. split; [|destruct (X d) as (-> & _); apply incl_refl].
    destruct (memb d (map snd a)) eqn:M.
    + apply memb_in in M. destruct (W' d M) as (b1 & F & Q1). eexists. split; [exact Q1|]. cbn. apply valid_fb in Q. destruct Q as (Q & _). congruence.
    + exists b. rewrite E, M. auto.
Qed.
Lemma live_chk c base D D' : live c base D -> (exists G C U, hv D' G C U (length base)) ->
  (forall d, chk (D' d) = chk (D d) /\ vinf (D' d) = vinf (D d)) -> ckv c D' -> (forall d, used D d -> used D' d) -> live c base D'.
Proof.
  intros (_ & _ & B1 & B2) H X K u. split; auto. split; auto. split; auto.
  intros v d P Q. destruct (X d) as (_ & ->). auto.
Qed.
