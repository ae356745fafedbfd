(** Proofs about the fixed-size allocator model. *)
From Coq Require Import NArith ZArith List Lia Bool.
From Coq Require Import ZifyBool ZifyNat ZifyN.
From Verif Require Import Base FixedModel FixedSpec.
Import ListNotations.
Local Open Scope N_scope.

Lemma mem_in : forall b l, mem b l = true <-> In b l.
Proof.
  intros b l. unfold mem. rewrite existsb_exists. split.
  - intros [x [H E]]. apply N.eqb_eq in E. now subst.
  - intros H. exists b. split; [exact H|apply N.eqb_refl].
Qed.
Lemma mem_not : forall b l, mem b l = false <-> ~ In b l.
Proof. intros b l. rewrite <- mem_in. destruct (mem b l); intuition congruence. Qed.
Lemma drop_in : forall b x l, In x (drop b l) <-> In x l /\ x <> b.
Proof. intros. unfold drop. rewrite filter_In. rewrite negb_true_iff, N.eqb_neq. intuition congruence. Qed.
Lemma drop_mem : forall b x l, mem x (drop b l) = mem x l && negb (x =? b).
Proof.
  intros. apply eq_true_iff_eq. rewrite andb_true_iff, !mem_in, drop_in, negb_true_iff, N.eqb_neq. tauto.
Qed.

Lemma copies_app : forall b l m, copies b (l ++ m) = (copies b l + copies b m)%nat.
Proof. induction l; intros; cbn [copies app]; [reflexivity|]. rewrite IHl. lia. Qed.
Lemma copies_in : forall b l, (0 < copies b l)%nat <-> In b l.
Proof.
  intros b; induction l as [|x l IH]; cbn [copies In]; [lia|]. rewrite <- IH. destruct (N.eqb_spec b x); subst; intuition lia.
Qed.
Lemma copies_filter : forall b f l, copies b (filter f l) = if f b then copies b l else O.
Proof.
  intros b f; induction l as [|x l IH]; cbn [copies filter]; [now destruct (f b)|].
  destruct (f x) eqn:E; cbn [copies]; rewrite IH; (destruct (N.eqb_spec b x); [subst b; rewrite ?E; lia|destruct (f b); lia]).
Qed.
Lemma copies_upto : forall n b s, copies b (upto s n) = if (s <=? b) && (b <? s + N.of_nat n) then 1%nat else O.
Proof.
  induction n as [|n IH]; intros b s; cbn [upto copies].
  - destruct ((s <=? b) && (b <? s + N.of_nat 0)) eqn:E; lia.
  - rewrite IH. destruct (N.eqb_spec b s);
    destruct ((s + 1 <=? b) && (b <? s + 1 + N.of_nat n)) eqn:E1;
    destruct ((s <=? b) && (b <? s + N.of_nat (S n))) eqn:E2; lia.
Qed.
Lemma copies_remove1 : forall b x l, In x l -> copies b (remove1 x l) = (copies b l - if N.eqb b x then 1 else 0)%nat.
Proof.
  intros b x; induction l as [|y l IH]; intros H; [contradiction|]. cbn [remove1 copies].
  destruct (N.eqb_spec x y).
  - subst. lia.
  - destruct H as [H|H]; [congruence|]. cbn [copies]. rewrite IH by assumption.
    apply copies_in in H. destruct (N.eqb_spec b x); subst; [|lia].
    destruct (N.eqb_spec x y); [congruence|]. lia.
Qed.

(** Blocks that [alloc] can still hand out. *)
Definition usable (s : fixed) : list N := filter (fun b => negb (mem b (f_resv s))) (f_q s).

Lemma rotate_spec : forall q done resv, rotate (length q) (q ++ done) resv = done ++ filter (fun b => negb (mem b resv)) q.
Proof.
  induction q as [|b q IH]; intros done resv; cbn [length rotate filter app].
  - now rewrite app_nil_r.
  - destruct (mem b resv) eqn:E; cbn [negb].
    + apply IH.
    + rewrite <- app_assoc, IH, <- app_assoc. reflexivity.
Qed.
Lemma rotate_all : forall q resv, rotate (length q) q resv = filter (fun b => negb (mem b resv)) q.
Proof. intros. rewrite <- (app_nil_r q) at 2. now rewrite rotate_spec. Qed.

Lemma filter_all : forall (f : N -> bool) l, (forall x, In x l -> f x = true) -> filter f l = l.
Proof.
  induction l as [|x l IH]; intros H; [reflexivity|]. cbn. rewrite (H x (or_introl eq_refl)).
  f_equal. apply IH. intros y Hy. apply H. now right.
Qed.

Definition inv (u : user) : Prop :=
  let s := u_alloc u in
  (forall b, (copies b (f_q s) <= 1)%nat) /\
  (forall b, copies b (usable s) + copies b (u_owned u) = if N.ltb b (f_total s) then 1 else 0)%nat /\
  (forall b, In b (f_q s) -> b < f_total s) /\
  (forall b, In b (f_resv s) -> In b (u_owned u) /\ In b (u_replayed u)) /\
  (f_active s = true -> f_resv s = []).

Lemma pop_spec : forall q resv active o q' rv', (forall b, (copies b q <= 1)%nat) ->
  pop q resv active = (o, q', rv') -> (active = true -> resv = []) ->
  (forall b, (copies b q' <= 1)%nat) /\ (forall b, In b q' -> In b q) /\ (forall b, In b rv' -> In b resv) /\
  (active = true -> rv' = []) /\
  (forall b, copies b (filter (fun b => negb (mem b resv)) q) =
     (copies b (filter (fun b => negb (mem b rv')) q') + match o with Some x => if N.eqb b x then 1 else 0 | None => 0 end)%nat) /\
  (o = None -> q' = []).
Proof.
  induction q as [|x q IH]; intros resv active o q' rv' Hn H Ha; cbn [pop] in H.
  - injection H as <- <- <-. ands; auto.
  - assert (Hn' : forall b, (copies b q <= 1)%nat).
    { intros b. specialize (Hn b). cbn [copies] in Hn. lia. }
    assert (Hx : ~ In x q).
    { intros Hin. apply copies_in in Hin. specialize (Hn x). cbn [copies] in Hn. rewrite N.eqb_refl in Hn. lia. }
    destruct (negb active && mem x resv) eqn:E.
    + apply andb_true_iff in E. destruct E as [E1 E2]. apply negb_true_iff in E1. subst active.
      destruct (IH _ _ _ _ _ Hn' H) as [A [B [C [D [F G]]]]]; [discriminate|].
      ands; auto.
      * intros b Hb. right. auto.
      * intros b Hb. apply C in Hb. apply drop_in in Hb. tauto.
      * intros b. rewrite <- F. cbn [filter]. rewrite E2. cbn [negb].
        rewrite !copies_filter, drop_mem. destruct (N.eqb_spec b x); [|now rewrite andb_true_r].
        subst. rewrite E2. cbn.
        destruct (copies x q) eqn:Ec; [reflexivity|]. exfalso. apply Hx. apply copies_in. lia.
    + injection H as <- <- <-. ands; auto.
      * intros b Hb. now right.
      * intros b. cbn [filter].
        assert (Em : mem x resv = false).
        { destruct active; [rewrite Ha by reflexivity; reflexivity|]. exact E. }
        rewrite Em. cbn [negb copies]. lia.
      * discriminate.
Qed.

Lemma usable_le : forall s b, (copies b (usable s) <= copies b (f_q s))%nat.
Proof. intros s b. unfold usable. rewrite copies_filter. destruct (negb _); lia. Qed.

(** A duplicate-free list of blocks below [total] is at most [total] long. *)
Lemma len_bound : forall l total, (forall b, (copies b l <= 1)%nat) -> (forall b, In b l -> b < total) ->
  N.of_nat (length l) <= total.
Proof.
  intros l total H1 H2.
  assert (Hnd : NoDup l).
  { clear H2. induction l as [|x l IH]; constructor.
    - intros Hin. apply copies_in in Hin. specialize (H1 x). cbn [copies] in H1. rewrite N.eqb_refl in H1. lia.
    - apply IH. intros b. specialize (H1 b). cbn [copies] in H1. lia. }
  assert (Hinc : incl l (upto 0 (N.to_nat total))).
  { intros b Hb. apply copies_in. rewrite copies_upto. specialize (H2 b Hb).
    destruct ((0 <=? b) && (b <? 0 + N.of_nat (N.to_nat total))) eqn:E; lia. }
  pose proof (NoDup_incl_length Hnd Hinc) as Hl.
  assert (Hu : forall n s, length (upto s n) = n) by (induction n; intros; cbn; congruence).
  rewrite Hu in Hl. lia.
Qed.

Lemma ustep_inv : forall u o, inv u -> legal u o -> inv (ustep u o).
Proof.
  intros [s ow rp] o Hi Hl.
  destruct Hi as [I1 [I2 [I3 [I4 I5]]]]. cbn [u_alloc u_owned u_replayed] in *. destruct o as [|b|b|].
  - cbn [ustep u_alloc]. unfold alloc. destruct (pop (f_q s) (f_resv s) (f_active s)) as [[o q'] rv'] eqn:E.
    destruct (pop_spec _ _ _ _ _ _ I1 E I5) as [A [B [C [D [F G]]]]].
    assert (Hb2 : forall b, (copies b (filter (fun b => negb (mem b rv')) q') +
              (match o with Some x => if N.eqb b x then 1 else 0 | None => 0 end + copies b ow) =
              if N.ltb b (f_total s) then 1 else 0)%nat).
    { intros b. rewrite Nat.add_assoc, <- F. apply (I2 b). }
    destruct o as [x|]; unfold inv, usable; cbn [u_alloc u_owned u_replayed f_q f_resv f_total f_active copies]; ands; auto.
    + intros b Hb. apply C in Hb. apply I4 in Hb. cbn. tauto.
  - cbn [legal u_alloc u_owned u_replayed] in Hl. destruct Hl as [Hin Hrp].
    assert (Hq : ~ In b (f_q s)).
    { intros Hin'. specialize (I2 b). apply copies_in in Hin, Hin'.
      assert (Hm : mem b (f_resv s) = false).
      { destruct (f_active s) eqn:Ea.
        - rewrite I5 by reflexivity. reflexivity.
        - apply mem_not. intros Hc. apply I4 in Hc. now apply Hrp. }
      unfold usable in I2. rewrite copies_filter, Hm in I2. cbn in I2.
      destruct (b <? f_total s); lia. }
    assert (Hbt : b < f_total s).
    { specialize (I2 b). apply copies_in in Hin. destruct (N.ltb_spec b (f_total s)); lia. }
    assert (Hq1 : forall x, (copies x (f_q s ++ [b]) <= 1)%nat).
    { intros x. rewrite copies_app. cbn [copies]. specialize (I1 x). destruct (N.eqb_spec x b); [|lia].
      subst. destruct (copies b (f_q s)) eqn:Ec; [lia|]. exfalso. apply Hq. apply copies_in. lia. }
    assert (Hq3 : forall x, In x (f_q s ++ [b]) -> x < f_total s).
    { intros x Hx. rewrite in_app_iff in Hx. destruct Hx as [Hx|[<-|[]]]; auto. }
    assert (Hlen : N.of_nat (length (f_q s)) <? f_total s = true).
    { pose proof (len_bound _ _ Hq1 Hq3) as Hb. rewrite app_length in Hb. cbn in Hb. lia. }
    cbn [ustep u_alloc u_owned u_replayed]. unfold free. rewrite Hlen.
    unfold inv, usable. cbn [u_alloc u_owned u_replayed f_q f_resv f_total f_active]. ands; auto.
    + intros x. rewrite copies_filter, copies_app, copies_remove1 by assumption.
      specialize (I2 x). unfold usable in I2. rewrite copies_filter in I2. cbn [copies].
      assert (Hmx : mem x (if f_active s then f_resv s else drop b (f_resv s)) = mem x (f_resv s) && negb (x =? b)).
      { destruct (f_active s) eqn:Ea; [rewrite I5 by reflexivity; reflexivity|]. apply drop_mem. }
      rewrite Hmx. destruct (N.eqb_spec x b).
      * subst. rewrite andb_false_r. cbn [negb].
        destruct (copies b (f_q s)) eqn:Ec; [|exfalso; apply Hq; apply copies_in; lia].
        apply copies_in in Hin. destruct (negb (mem b (f_resv s))); destruct (N.ltb_spec b (f_total s)); lia.
      * rewrite andb_true_r. destruct (negb (mem x (f_resv s))); lia.
    + intros x Hx. destruct (f_active s) eqn:Ea.
      * rewrite I5 in Hx by reflexivity. contradiction.
      * apply drop_in in Hx. destruct Hx as [Hx Hne]. apply I4 in Hx. destruct Hx as [Hx1 Hx2]. split; [|assumption].
        apply copies_in. rewrite copies_remove1 by assumption. apply copies_in in Hx1.
        destruct (N.eqb_spec x b); [congruence|]. lia.
    + intros Ea. rewrite Ea. auto.
  - cbn [legal u_alloc] in Hl. destruct Hl as [Hbt Hact].
    cbn [ustep u_alloc u_owned u_replayed]. unfold reserve_on_cache. rewrite Hact.
    unfold inv, usable. cbn [u_alloc u_owned u_replayed f_q f_resv f_total f_active].
    assert (Hmx : forall x, mem x (if mem b (f_resv s) then f_resv s else b :: f_resv s) = (x =? b) || mem x (f_resv s)).
    { intros x. destruct (mem b (f_resv s)) eqn:E; [|reflexivity].
      destruct (N.eqb_spec x b); [|reflexivity]. now subst. }
    ands; auto.
    + intros x. rewrite copies_filter, Hmx. specialize (I2 x). unfold usable in I2. rewrite copies_filter in I2.
      destruct (N.eqb_spec x b).
      * subst. cbn [orb negb]. destruct (mem b ow) eqn:Eo.
        -- apply mem_in, copies_in in Eo. destruct (N.ltb_spec b (f_total s)); destruct (negb (mem b (f_resv s))); lia.
        -- apply mem_not in Eo. cbn [copies]. rewrite N.eqb_refl.
           destruct (copies b ow) eqn:Ec; [|exfalso; apply Eo; apply copies_in; lia].
           destruct (N.ltb_spec b (f_total s)); lia.
      * cbn [orb]. destruct (mem b ow); cbn [copies]; [lia|]. destruct (N.eqb_spec x b); [congruence|]. lia.
    + intros x Hx. apply mem_in in Hx. rewrite Hmx in Hx. apply orb_true_iff in Hx. destruct Hx as [Hx|Hx].
      * apply N.eqb_eq in Hx. subst. split; [|now left]. destruct (mem b ow) eqn:Eo; [now apply mem_in|now left].
      * apply mem_in in Hx. apply I4 in Hx. destruct Hx as [H1 H2]. split; [destruct (mem b ow); cbn; tauto|now right].
    + congruence.
  - cbn [ustep u_alloc u_owned u_replayed]. unfold recovery_completed.
    assert (Hq : match f_resv s with [] => f_q s | _ => rotate (length (f_q s)) (f_q s) (f_resv s) end = usable s).
    { unfold usable. destruct (f_resv s) eqn:E.
      - symmetry. apply filter_all. reflexivity.
      - apply rotate_all. }
    rewrite Hq. unfold inv. cbn [u_alloc u_owned u_replayed f_q f_resv f_total f_active]. ands; auto.
    + intros b. pose proof (usable_le s b). specialize (I1 b). lia.
    + intros b. unfold usable at 1. cbn [f_q f_resv]. rewrite filter_all by reflexivity. apply I2.
    + intros b Hb. apply I3. apply copies_in. apply copies_in in Hb. pose proof (usable_le s b). lia.
    + intros b [].
Qed.

Lemma start_inv : forall total p bm, inv (start total p bm).
Proof.
  intros total p bm. unfold inv, start, load, usable. cbn [u_alloc u_owned u_replayed f_q f_resv f_total f_active].
  ands; auto.
  - intros b. rewrite copies_filter, copies_upto. destruct (negb p || negb (bm b)); destruct ((0 <=? b) && (b <? 0 + N.of_nat (N.to_nat total))); lia.
  - intros b. rewrite !copies_filter, copies_upto. cbn [mem existsb negb].
    assert (E : (0 <=? b) && (b <? 0 + N.of_nat (N.to_nat total)) = (b <? total)) by lia. rewrite E.
    destruct p, (bm b), (b <? total); reflexivity.
  - intros b Hb. apply copies_in in Hb. rewrite copies_filter, copies_upto in Hb.
    destruct (negb p || negb (bm b)); [|lia]. destruct ((0 <=? b) && (b <? 0 + N.of_nat (N.to_nat total))) eqn:E; lia.
  - intros b [].
Qed.

Lemma urun_inv : forall l u, inv u -> legal_run u l -> inv (urun u l).
Proof.
  induction l as [|o l IH]; intros u Hi Hl; [exact Hi|]. destruct Hl as [H1 H2].
  cbn [urun fold_left]. apply IH; [now apply ustep_inv|exact H2].
Qed.

Lemma urun_total : forall l u, f_total (u_alloc (urun u l)) = f_total (u_alloc u).
Proof.
  induction l as [|o l IH]; intros u; [reflexivity|]. cbn [urun fold_left]. fold (urun (ustep u o) l). rewrite IH.
  destruct o as [|b|b|]; cbn [ustep].
  - unfold alloc. destruct (pop _ _ _) as [[[x|] q] rv]; reflexivity.
  - reflexivity.
  - unfold reserve_on_cache. cbn. destruct (f_active (u_alloc u)); reflexivity.
  - reflexivity.
Qed.

Lemma c09_owner_lemma : forall total p bm ops, legal_run (start total p bm) ops ->
  forall b, (copies b (u_owned (urun (start total p bm) ops)) <= 1)%nat.
Proof.
  intros total p bm ops Hl b. pose proof (urun_inv ops _ (start_inv total p bm) Hl) as [_ [I2 _]].
  specialize (I2 b). destruct (b <? _); lia.
Qed.

Lemma c09_conserve_lemma : forall total p bm ops, legal_run (start total p bm) (ops ++ [Recovered]) ->
  let u := urun (start total p bm) (ops ++ [Recovered]) in
  forall b, (copies b (f_q (u_alloc u)) + copies b (u_owned u) = if N.ltb b total then 1 else 0)%nat.
Proof.
  intros total p bm ops Hl u b. pose proof (urun_inv _ _ (start_inv total p bm) Hl) as Hi. fold u in Hi.
  pose proof (urun_total (ops ++ [Recovered]) (start total p bm)) as Ht. fold u in Ht. cbn in Ht.
  destruct Hi as [_ [I2 [_ [_ I5]]]].
  assert (Ha : f_active (u_alloc u) = true).
  { subst u. unfold urun. rewrite fold_left_app. reflexivity. }
  specialize (I2 b). unfold usable in I2. rewrite I5 in I2 by exact Ha. rewrite filter_all in I2 by reflexivity.
  rewrite Ht in I2. exact I2.
Qed.

Lemma active_mono : forall l u, f_active (u_alloc u) = true -> f_active (u_alloc (urun u l)) = true.
Proof.
  induction l as [|o l IH]; intros u H; [exact H|]. cbn [urun fold_left]. apply IH.
  destruct o as [|b|b|]; cbn [ustep].
  - unfold alloc. destruct (pop _ _ _) as [[[x|] q] rv]; exact H.
  - exact H.
  - unfold reserve_on_cache. cbn. rewrite H. exact H.
  - reflexivity.
Qed.

Lemma c09_active_lemma : forall total p bm ops, legal_run (start total p bm) ops ->
  let u := urun (start total p bm) ops in f_active (u_alloc u) = true ->
  forall b, (copies b (f_q (u_alloc u)) + copies b (u_owned u) = if N.ltb b total then 1 else 0)%nat.
Proof.
  intros total p bm ops Hl u Ha b. pose proof (urun_inv _ _ (start_inv total p bm) Hl) as Hi. fold u in Hi.
  pose proof (urun_total ops (start total p bm)) as Ht. fold u in Ht. cbn in Ht.
  destruct Hi as [_ [I2 [_ [_ I5]]]].
  specialize (I2 b). unfold usable in I2. rewrite I5 in I2 by exact Ha. rewrite filter_all in I2 by reflexivity.
  rewrite Ht in I2. exact I2.
Qed.

Lemma c09_full_lemma : forall total p bm ops s, legal_run (start total p bm) ops ->
  alloc (u_alloc (urun (start total p bm) ops)) = (s, None) ->
  forall b, b < total -> In b (u_owned (urun (start total p bm) ops)).
Proof.
  intros total p bm ops s Hl Ha b Hb. pose proof (urun_inv _ _ (start_inv total p bm) Hl) as Hi.
  pose proof (urun_total ops (start total p bm)) as Ht. cbn in Ht.
  set (u := urun _ _) in *. destruct Hi as [I1 [I2 [_ [_ I5]]]].
  unfold alloc in Ha. destruct (pop _ _ _) as [[o q'] rv'] eqn:E. injection Ha as _ ->.
  destruct (pop_spec _ _ _ _ _ _ I1 E I5) as [_ [_ [_ [_ [F G]]]]].
  specialize (F b). rewrite (G eq_refl) in F. cbn in F. specialize (I2 b). unfold usable in I2. rewrite F, Ht in I2.
  apply copies_in. destruct (N.ltb_spec b total); lia.
Qed.

Lemma c09_double_free_witness : exists ops, 
  (copies 0 (u_owned (urun (start 4 true (fun _ => false)) ops)) = 2)%nat.
Proof. exists [Recovered; Alloc; Free 0; Alloc; Alloc; Alloc; Free 0; Alloc; Alloc]. vm_compute. reflexivity. Qed.

Lemma c09_replay_free_witness : exists ops,
  (forall b, In (Free b) ops -> In (Replay b) ops) /\
  (copies 1 (u_owned (urun (start 4 true (fun b => N.eqb b 0)) ops)) = 2)%nat.
Proof.
  exists [Replay 1; Free 1; Recovered; Alloc; Alloc; Alloc; Alloc]. split.
  - intros b H. cbn in *. intuition congruence.
  - vm_compute. reflexivity.
Qed.
