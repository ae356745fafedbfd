(** * Proofs about the rebuilding of the dependency links: the journal is processed. *)
From Coq Require Import ZArith List Bool Arith Lia.
From Verif Require Import Base WbModel WbSpec WbProofs DagModel DagSpec DagProofs.
Import ListNotations.

Lemma cnt_add : forall f g d r u l, NoDup l -> In d l ->
  f d = None -> g d = Some r -> (forall b, b <> d -> g b = f b) ->
  Z.of_nat (cnt g u l) = (Z.of_nat (cnt f u l) + (if Nat.eqb r u then 1 else 0))%Z.
Proof.
  intros f g d r u l HN HI Hf Hg Ho. induction l as [|b l IH]; [destruct HI|].
  inversion HN as [|x y Hb HN']; subst x y. rewrite !cnt_cons.
  destruct (Nat.eq_dec b d) as [->|Hne].
  - rewrite Hf, Hg. cbn [isup].
    rewrite (cnt_ext g f u l) by (intros b Hb'; apply Ho; intros ->; contradiction).
    destruct (Nat.eqb r u); lia.
  - destruct HI as [E|HI]; [congruence|]. rewrite Ho by assumption. specialize (IH HN' HI).
    destruct (isup (f b) u); lia.
Qed.

Section Dag.
Variable isnew : nat -> bool.
Variable lvl : nat -> nat.
Variable pos : nat -> Z.
Variable ismeta : nat -> bool.
Notation lower := (lower lvl pos).

Definition ups (d : dag) (b : nat) : option nat := rb_up (d_buf d b).

Record DInv (d : dag) : Prop := mkD {
  di_new : forall b, rb_new (d_buf d b) = true -> isnew b = true;
  di_some : forall b, rb_new (d_buf d b) = true \/ rb_freed (d_buf d b) = true -> ups d b <> None;
  di_up : forall b u, ups d b = Some u ->
            isnew u = false /\ lower b u /\ In b (d_ids d) /\ In u (d_ids d);
  di_nd : NoDup (d_ids d);
  di_cnt : forall u, rb_wait (d_buf d u) = Z.of_nat (cnt (ups d) u (d_ids d));
  di_meta : forall b, ismeta b = true -> ups d b = None }.

Lemma dinv_empty : DInv empty.
Proof.
  constructor; try easy.
  - intros b [H|H]; discriminate.
  - constructor.
Qed.

(** Buffers not in the map are as freshly made ones. *)
Lemma absent_fresh : forall d b, DInv d -> ~ In b (d_ids d) -> d_buf d b = fresh.
Proof.
  intros d b HD Hb. destruct (d_buf d b) as [nw fr up wt] eqn:E.
  assert (Hu : up = None).
  { destruct up as [u|]; [|reflexivity]. exfalso. apply Hb.
    apply (di_up _ HD b u). unfold ups. now rewrite E. }
  subst up. unfold fresh. f_equal.
  - destruct nw; [|reflexivity]. exfalso. apply (di_some _ HD b); [left|unfold ups]; now rewrite E.
  - destruct fr; [|reflexivity]. exfalso. apply (di_some _ HD b); [right|unfold ups]; now rewrite E.
  - assert (H := di_cnt _ HD b). rewrite E in H. cbn in H. rewrite H.
    assert (Hz : cnt (ups d) b (d_ids d) = 0%nat).
    { apply cnt_zero_iff. intros x Hx Ex. apply (di_up _ HD) in Ex. tauto. }
    now rewrite Hz.
Qed.

(** [find]/[insert] at the head of rec_to_buf. *)
Definition put (d : dag) (b : nat) : dag :=
  if mem b (d_ids d) then d else Dag (b :: d_ids d) (upd_r (d_buf d) b (fun _ => fresh)).
Lemma put_ok : forall d b, DInv d ->
  DInv (put d b) /\ (forall x, In x (d_ids (put d b)) <-> x = b \/ In x (d_ids d)) /\
  (forall x, d_buf (put d b) x = d_buf d x).
Proof.
  intros d b HD. unfold put. destruct (mem b (d_ids d)) eqn:Em.
  - apply mem_iff in Em. ands; auto. intros x. split; [auto|]. intros [->|H]; assumption.
  - apply mem_false in Em.
    assert (HB : forall x, upd_r (d_buf d) b (fun _ => fresh) x = d_buf d x).
    { intros x. destruct (Nat.eq_dec x b) as [->|Hx].
      - rewrite updr_same. symmetry. now apply absent_fresh.
      - now apply updr_other. }
    assert (HU : forall x, ups (Dag (b :: d_ids d) (upd_r (d_buf d) b (fun _ => fresh))) x = ups d x).
    { intros x. unfold ups; cbn [d_buf]. now rewrite HB. }
    ands.
    + destruct HD as [H1 H2 H3 H4 H5 H6]. constructor; cbn [d_ids d_buf].
      * intros x. rewrite HB. apply H1.
      * intros x. rewrite HB, HU. apply H2.
      * intros x u. rewrite HU. intros E. apply H3 in E. cbn. tauto.
      * now constructor.
      * intros u. rewrite HB, H5, cnt_cons, HU. f_equal.
        rewrite (cnt_ext (ups (Dag _ _)) (ups d)) by (intros; apply HU).
        replace (isup (ups d b) u) with false; [reflexivity|].
        symmetry. apply not_true_is_false. rewrite isup_iff. intros E. apply H3 in E. tauto.
      * intros x. rewrite HU. apply H6.
    + intros x. cbn. split; [intros [->|H]; auto|intros [->|H]; auto].
    + exact HB.
Qed.

(** Where a link to [u] goes. *)
Definition rreal (d : dag) (u : nat) : option nat :=
  if rb_new (d_buf d u) || rb_freed (d_buf d u) then ups d u else Some u.

Lemma relink_ok : forall d b r, DInv d -> In b (d_ids d) -> In r (d_ids d) ->
  isnew r = false -> lower b r -> ismeta b = false -> ups d b <> Some r ->
  let d' := Dag (d_ids d) (relink (d_buf d) b r) in
  DInv d' /\ ups d' b = Some r /\ (forall x, x <> b -> ups d' x = ups d x) /\
  (forall x, rb_new (d_buf d' x) = rb_new (d_buf d x)) /\
  (forall x, rb_freed (d_buf d' x) = rb_freed (d_buf d x)).
Proof.
  intros d b r HD Hb Hr Hrn Hlo Hm Hne d'.
  assert (Hbr : b <> r) by (intros ->; now apply lower_irrefl in Hlo).
  assert (HN : forall x, rb_new (d_buf d' x) = rb_new (d_buf d x)).
  { intros x. unfold d', relink, upd_r; cbn [d_buf].
    destruct (rb_up (d_buf d b)) as [o|]; destruct (Nat.eqb x b), (Nat.eqb x r); cbn;
      try reflexivity; destruct (Nat.eqb x o); reflexivity. }
  assert (HF : forall x, rb_freed (d_buf d' x) = rb_freed (d_buf d x)).
  { intros x. unfold d', relink, upd_r; cbn [d_buf].
    destruct (rb_up (d_buf d b)) as [o|]; destruct (Nat.eqb x b), (Nat.eqb x r); cbn;
      try reflexivity; destruct (Nat.eqb x o); reflexivity. }
  assert (HU : forall x, x <> b -> ups d' x = ups d x).
  { intros x Hx. apply Nat.eqb_neq in Hx. unfold ups, d', relink, upd_r; cbn [d_buf]. rewrite Hx.
    destruct (rb_up (d_buf d b)) as [o|]; destruct (Nat.eqb x r); cbn;
      try reflexivity; destruct (Nat.eqb x o); reflexivity. }
  assert (HB : ups d' b = Some r) by (unfold ups, d', relink; cbn [d_buf]; now rewrite updr_same).
  assert (HW : forall x, rb_wait (d_buf d' x) =
     (rb_wait (d_buf d x) - (if isup (ups d b) x then 1 else 0) + (if Nat.eqb r x then 1 else 0))%Z).
  { intros x. unfold d', relink, ups; cbn [d_buf].
    set (m1 := match rb_up (d_buf d b) with Some o => upd_r (d_buf d) o (r_wait (-1)) | None => d_buf d end).
    assert (H1 : rb_wait (m1 x) = (rb_wait (d_buf d x) - (if isup (rb_up (d_buf d b)) x then 1 else 0))%Z).
    { unfold m1. destruct (rb_up (d_buf d b)) as [o|]; cbn [isup]; [|lia].
      unfold upd_r. rewrite (Nat.eqb_sym x o). destruct (Nat.eqb o x); cbn [r_wait rb_wait]; lia. }
    assert (H2 : rb_wait (upd_r m1 r (r_wait 1) x) = (rb_wait (m1 x) + (if Nat.eqb r x then 1 else 0))%Z).
    { unfold upd_r. rewrite (Nat.eqb_sym x r). destruct (Nat.eqb r x); cbn [r_wait rb_wait]; lia. }
    rewrite <- H1, <- H2. unfold upd_r at 1. destruct (Nat.eqb x b); reflexivity. }
  ands; auto. destruct HD as [H1 H2 H3 H4 H5 H6]. constructor; auto.
  - intros x. rewrite HN. apply H1.
  - intros x. rewrite HN, HF. intros H. destruct (Nat.eq_dec x b) as [->|Hx]; [congruence|].
    rewrite HU by assumption. now apply H2.
  - intros x u E. destruct (Nat.eq_dec x b) as [->|Hx].
    + rewrite HB in E. injection E as <-. auto.
    + rewrite HU in E by assumption. now apply H3.
  - intros u. rewrite HW, H5. change (d_ids d') with (d_ids d). destruct (ups d b) as [o|] eqn:Eo.
    + assert (X := cnt_move (ups d) (ups d') b o r u (d_ids d) H4 Hb Eo HB HU).
      rewrite X. cbn [isup]. lia.
    + assert (X := cnt_add (ups d) (ups d') b r u (d_ids d) H4 Hb Eo HB HU).
      rewrite X. cbn [isup]. lia.
  - intros x Hx. rewrite HU; [now apply H6|]. intros ->. congruence.
Qed.

Lemma rec_to_buf_ok : forall d b u, DInv d -> In u (d_ids d) -> lower b u -> ismeta b = false ->
  (isnew u = true -> rb_new (d_buf d u) = true) ->
  exists d', rec_to_buf d b (Some u) = Some d' /\ DInv d' /\
    (forall x, In x (d_ids d') <-> x = b \/ In x (d_ids d)) /\
    ups d' b = rreal d u /\ (forall x, x <> b -> ups d' x = ups d x) /\
    (forall x, rb_new (d_buf d' x) = rb_new (d_buf d x)) /\
    (forall x, rb_freed (d_buf d' x) = rb_freed (d_buf d x)).
Proof.
  intros d b u HD Hu Hlo Hm Hn. unfold rec_to_buf. change (if mem b (d_ids d) then d else _) with (put d b).
  destruct (put_ok d b HD) as [P1 [P2 P3]]. rewrite !P3.
  change (if rb_new (d_buf d u) || rb_freed (d_buf d u) then rb_up (d_buf d u) else Some u)
    with (rreal d u).
  change (rb_up (d_buf d b)) with (ups d b).
  assert (HU : forall x, ups (put d b) x = ups d x) by (intros; unfold ups; now rewrite P3).
  assert (HR : exists r, rreal d u = Some r /\ isnew r = false /\ lower b r /\ In r (d_ids d)).
  { unfold rreal. destruct (rb_new (d_buf d u) || rb_freed (d_buf d u)) eqn:E.
    - apply orb_true_iff in E. apply (di_some _ HD) in E. destruct (ups d u) as [r|] eqn:Er; [|congruence].
      apply (di_up _ HD) in Er. destruct Er as [R1 [R2 [R3 R4]]]. exists r. ands; auto.
      eapply lower_trans; eassumption.
    - apply orb_false_iff in E. destruct E as [E _]. exists u. ands; auto.
      destruct (isnew u); [|reflexivity]. rewrite Hn in E; [discriminate|reflexivity]. }
  destruct HR as [r [HR [R1 [R2 R3]]]]. rewrite HR.
  destruct (same (ups d b) (Some r)) eqn:Es.
  - apply same_iff in Es. eexists. split; [reflexivity|]. ands; auto.
    + rewrite HU. exact Es.
    + intros x. now rewrite P3.
    + intros x. now rewrite P3.
  - assert (Es' : ups d b <> Some r) by (rewrite <- same_iff; congruence).
    destruct (relink_ok (put d b) b r P1) as [K1 [K2 [K3 [K4 K5]]]]; auto.
    + apply P2. now left.
    + apply P2. now right.
    + rewrite HU. exact Es'.
    + eexists. split; [reflexivity|]. ands; auto.
      * intros x Hx. rewrite K3 by assumption. apply HU.
      * intros x. rewrite K4. now rewrite P3.
      * intros x. rewrite K5. now rewrite P3.
Qed.

Lemma flag_ok : forall d b (f : rbuf -> rbuf), DInv d ->
  (forall x, rb_up (f x) = rb_up x) -> (forall x, rb_wait (f x) = rb_wait x) ->
  (forall x, rb_new (f x) = true -> rb_new x = true \/ isnew b = true) -> ups d b <> None ->
  let d' := Dag (d_ids d) (upd_r (d_buf d) b f) in
  DInv d' /\ (forall x, ups d' x = ups d x).
Proof.
  intros d b f HD F1 F2 F3 HB d'.
  assert (HU : forall x, ups d' x = ups d x).
  { intros x. unfold ups, d'; cbn [d_buf]. destruct (Nat.eq_dec x b) as [->|Hx].
    - rewrite updr_same. apply F1.
    - now rewrite updr_other. }
  split; [|exact HU]. destruct HD as [H1 H2 H3 H4 H5 H6]. constructor; auto.
  - intros x. unfold d'; cbn [d_buf]. destruct (Nat.eq_dec x b) as [->|Hx].
    + rewrite updr_same. intros H. apply F3 in H. destruct H; auto.
    + rewrite updr_other by assumption. apply H1.
  - intros x. rewrite HU. unfold d'; cbn [d_buf]. destruct (Nat.eq_dec x b) as [->|Hx]; [auto|].
    rewrite updr_other by assumption. apply H2.
  - intros x u. rewrite HU. apply H3.
  - intros u. rewrite (cnt_ext (ups d') (ups d)) by (intros; apply HU). cbn [d_ids d']. rewrite <- H5.
    unfold d'; cbn [d_buf]. destruct (Nat.eq_dec u b) as [->|Hx].
    + rewrite updr_same. apply F2.
    + now rewrite updr_other.
  - intros x. rewrite HU. apply H6.
Qed.

Lemma put_news_ok : forall l d c, DInv d -> In c (d_ids d) ->
  (isnew c = true -> rb_new (d_buf d c) = true) ->
  (forall n, In n l -> lower n c /\ isnew n = true /\ ismeta n = false) ->
  exists d', put_news d (Some c) l = Some d' /\ DInv d' /\
    (forall x, In x (d_ids d') <-> In x l \/ In x (d_ids d)) /\
    (forall x, In x l -> ups d' x = rreal d c) /\ (forall x, ~ In x l -> ups d' x = ups d x) /\
    (forall x, rb_new (d_buf d' x) = rb_new (d_buf d x) || mem x l) /\
    (forall x, rb_freed (d_buf d' x) = rb_freed (d_buf d x)).
Proof.
  induction l as [|n l IH]; intros d c HD HC HN Hl; cbn [put_news].
  - exists d. ands; auto.
    + intros x. cbn. tauto.
    + intros x [].
    + intros x. cbn. now rewrite orb_false_r.
  - destruct (Hl n (or_introl eq_refl)) as [L1 [L2 L3]].
    assert (Hnc : c <> n) by (intros ->; now apply lower_irrefl in L1).
    destruct (rec_to_buf_ok d n c HD HC L1 L3 HN) as [d1 [E [D1 [I1 [U1 [U2 [N1 F1]]]]]]].
    rewrite E.
    assert (HR0 : rreal d c <> None).
    { unfold rreal. destruct (rb_new (d_buf d c) || rb_freed (d_buf d c)) eqn:Eo; [|discriminate].
      apply orb_true_iff in Eo. now apply (di_some _ HD). }
    destruct (flag_ok d1 n r_new D1) as [D2 U3]; try reflexivity; [auto|rewrite U1; assumption|].
    set (d2 := Dag (d_ids d1) (upd_r (d_buf d1) n r_new)) in *.
    assert (HN2 : forall x, x <> n -> rb_new (d_buf d2 x) = rb_new (d_buf d x)).
    { intros x Hx. unfold d2; cbn [d_buf]. rewrite updr_other by assumption. apply N1. }
    assert (HF2 : forall x, rb_freed (d_buf d2 x) = rb_freed (d_buf d x)).
    { intros x. rewrite <- F1. unfold d2; cbn [d_buf]. destruct (Nat.eq_dec x n) as [->|Hx].
      - now rewrite updr_same.
      - now rewrite updr_other. }
    assert (HR : rreal d2 c = rreal d c).
    { unfold rreal. rewrite HN2, HF2, U3, U2 by assumption. reflexivity. }
    destruct (IH d2 c D2) as [d' [E' [G1 [G2 [G3 [G4 [G5 G6]]]]]]].
    { unfold d2; cbn [d_ids]. apply I1. now right. }
    { intros H. rewrite HN2 by assumption. auto. }
    { intros; apply Hl; now right. }
    exists d'. ands; auto.
    + intros x. rewrite G2. unfold d2; cbn [d_ids]. rewrite I1. cbn. intuition.
    + intros x Hx. destruct (in_dec Nat.eq_dec x l) as [Hxl|Hxl]; [now rewrite G3|].
      destruct Hx as [<-|Hx]; [|contradiction]. now rewrite G4, U3.
    + intros x Hx. rewrite G4 by (intros H; apply Hx; now right). rewrite U3. apply U2.
      intros ->. apply Hx. now left.
    + intros x. rewrite G5. cbn [mem existsb]. fold (mem x l).
      destruct (Nat.eq_dec x n) as [->|Hx].
      * unfold d2; cbn [d_buf]. rewrite updr_same, Nat.eqb_refl. cbn. now rewrite orb_true_r.
      * rewrite HN2 by assumption. apply Nat.eqb_neq in Hx. now rewrite Hx.
    + intros x. now rewrite G6.
Qed.

Lemma put_freeds_ok : forall l d c, DInv d -> In c (d_ids d) ->
  (isnew c = true -> rb_new (d_buf d c) = true) ->
  (forall n, In n l -> lower n c /\ ismeta n = false) ->
  exists d', put_freeds d (Some c) l = Some d' /\ DInv d' /\
    (forall x, In x (d_ids d') <-> In x l \/ In x (d_ids d)) /\
    (forall x, In x l -> ups d' x = rreal d c) /\ (forall x, ~ In x l -> ups d' x = ups d x) /\
    (forall x, rb_new (d_buf d' x) = rb_new (d_buf d x)) /\
    (forall x, rb_freed (d_buf d' x) = rb_freed (d_buf d x) || mem x l).
Proof.
  induction l as [|n l IH]; intros d c HD HC HN Hl; cbn [put_freeds].
  - exists d. ands; auto.
    + intros x. cbn. tauto.
    + intros x [].
    + intros x. cbn. now rewrite orb_false_r.
  - destruct (Hl n (or_introl eq_refl)) as [L1 L3].
    assert (Hnc : c <> n) by (intros ->; now apply lower_irrefl in L1).
    destruct (rec_to_buf_ok d n c HD HC L1 L3 HN) as [d1 [E [D1 [I1 [U1 [U2 [N1 F1]]]]]]].
    rewrite E.
    assert (HR0 : rreal d c <> None).
    { unfold rreal. destruct (rb_new (d_buf d c) || rb_freed (d_buf d c)) eqn:Eo; [|discriminate].
      apply orb_true_iff in Eo. now apply (di_some _ HD). }
    destruct (flag_ok d1 n r_freed D1) as [D2 U3]; try reflexivity; [auto|rewrite U1; assumption|].
    set (d2 := Dag (d_ids d1) (upd_r (d_buf d1) n r_freed)) in *.
    assert (HF2 : forall x, x <> n -> rb_freed (d_buf d2 x) = rb_freed (d_buf d x)).
    { intros x Hx. unfold d2; cbn [d_buf]. rewrite updr_other by assumption. apply F1. }
    assert (HN2 : forall x, rb_new (d_buf d2 x) = rb_new (d_buf d x)).
    { intros x. rewrite <- N1. unfold d2; cbn [d_buf]. destruct (Nat.eq_dec x n) as [->|Hx].
      - now rewrite updr_same.
      - now rewrite updr_other. }
    assert (HR : rreal d2 c = rreal d c).
    { unfold rreal. rewrite HN2, HF2, U3, U2 by assumption. reflexivity. }
    destruct (IH d2 c D2) as [d' [E' [G1 [G2 [G3 [G4 [G5 G6]]]]]]].
    { unfold d2; cbn [d_ids]. apply I1. now right. }
    { intros H. rewrite HN2. auto. }
    { intros; apply Hl; now right. }
    exists d'. ands; auto.
    + intros x. rewrite G2. unfold d2; cbn [d_ids]. rewrite I1. cbn. intuition.
    + intros x Hx. destruct (in_dec Nat.eq_dec x l) as [Hxl|Hxl]; [now rewrite G3|].
      destruct Hx as [<-|Hx]; [|contradiction]. now rewrite G4, U3.
    + intros x Hx. rewrite G4 by (intros H; apply Hx; now right). rewrite U3. apply U2.
      intros ->. apply Hx. now left.
    + intros x. now rewrite G5.
    + intros x. rewrite G6. cbn [mem existsb]. fold (mem x l).
      destruct (Nat.eq_dec x n) as [->|Hx].
      * unfold d2; cbn [d_buf]. rewrite updr_same, Nat.eqb_refl. cbn. now rewrite orb_true_r.
      * rewrite HF2 by assumption. apply Nat.eqb_neq in Hx. now rewrite Hx.
Qed.

(** The record of a split or merge. *)
Lemma process_tx_ok : forall d P c news freeds, DInv d ->
  isnew P = false -> lower c P -> ismeta c = false ->
  rb_new (d_buf d c) = isnew c -> rb_freed (d_buf d c) = false ->
  (forall n, In n news -> lower n c /\ isnew n = true /\ ismeta n = false) ->
  (forall f, In f freeds -> lower f c /\ ismeta f = false /\ ~ In f news) ->
  exists d', process d (Rec (Some P) (Some c) news freeds) = Some d' /\ DInv d' /\
    (forall x, In x (d_ids d') <-> x = P \/ x = c \/ In x news \/ In x freeds \/ In x (d_ids d)) /\
    ups d' c = (if rb_freed (d_buf d P) then ups d P else Some P) /\
    (forall x, In x news \/ In x freeds -> ups d' x = if isnew c then ups d' c else Some c) /\
    (forall x, x <> c -> ~ In x news -> ~ In x freeds -> ups d' x = ups d x) /\
    (forall x, rb_new (d_buf d' x) = rb_new (d_buf d x) || mem x news) /\
    (forall x, rb_freed (d_buf d' x) = rb_freed (d_buf d x) || mem x freeds).
Proof.
  intros d P c news freeds HD HP Hlo Hm Hcn Hcf Hnw Hfr.
  unfold process. cbn [r_parent r_child r_news r_freeds put_opt].
  unfold rec_to_buf at 1. fold (put d P).
  destruct (put_ok d P HD) as [P1 [P2 P3]].
  assert (HU : forall x, ups (put d P) x = ups d x) by (intros; unfold ups; now rewrite P3).
  assert (HPn : rb_new (d_buf d P) = false).
  { destruct (rb_new (d_buf d P)) eqn:E; [|reflexivity]. apply (di_new _ HD) in E. congruence. }
  destruct (rec_to_buf_ok (put d P) c P P1) as [d1 [E1 [D1 [I1 [U1 [U2 [N1 F1]]]]]]]; auto.
  { apply P2. now left. }
  { congruence. }
  rewrite E1.
  assert (Hcc : ~ In c news) by (intros H; apply Hnw in H; destruct H as [H _]; now apply lower_irrefl in H).
  assert (Hcf' : ~ In c freeds) by (intros H; apply Hfr in H; destruct H as [H _]; now apply lower_irrefl in H).
  destruct (put_news_ok news d1 c D1) as [d2 [E2 [D2 [I2 [U3 [U4 [N2 F2]]]]]]]; auto.
  { apply I1. now left. }
  { intros H. now rewrite N1, P3, Hcn. }
  rewrite E2.
  assert (HN2 : rb_new (d_buf d2 c) = isnew c).
  { rewrite N2, N1, P3, Hcn, (proj2 (mem_false c news)) by assumption. now rewrite orb_false_r. }
  destruct (put_freeds_ok freeds d2 c D2) as [d3 [E3 [D3 [I3 [U5 [U6 [N3 F3]]]]]]]; auto.
  { apply I2. right. apply I1. now left. }
  { intros H. now rewrite HN2. }
  { intros n Hn. destruct (Hfr n Hn) as [X1 [X2 X3]]. auto. }
  exists d3. split; [exact E3|].
  assert (HUc : ups d3 c = ups d1 c) by (rewrite U6, U4 by assumption; reflexivity).
  assert (HR1 : rreal d1 c = if isnew c then ups d3 c else Some c).
  { unfold rreal. rewrite N1, F1, P3, Hcn, Hcf, orb_false_r, HUc. reflexivity. }
  assert (HR2 : rreal d2 c = if isnew c then ups d3 c else Some c).
  { unfold rreal. rewrite HN2, F2, F1, P3, Hcf, orb_false_r. rewrite HUc, U4 by assumption. reflexivity. }
  ands; auto.
  - intros x. rewrite I3, I2, I1, P2. intuition.
  - rewrite HUc, U1. unfold rreal. rewrite P3, HPn, HU. reflexivity.
  - intros x Hx. destruct (in_dec Nat.eq_dec x freeds) as [H|H]; [now rewrite U5|].
    destruct Hx as [Hx|Hx]; [|contradiction]. rewrite U6 by assumption. now rewrite U3.
  - intros x X1 X2 X3. rewrite U6, U4, U2 by assumption. apply HU.
  - intros x. now rewrite N3, N2, N1, P3.
  - intros x. now rewrite F3, F2, F1, P3.
Qed.

(** The record of a root change. *)
Lemma process_root_ok : forall d m r, DInv d ->
  isnew m = false -> lower r m -> ismeta r = false -> rb_freed (d_buf d m) = false ->
  exists d', process d (if isnew r then Rec (Some m) None [r] [] else Rec (Some m) (Some r) [] []) = Some d' /\
    DInv d' /\ (forall x, In x (d_ids d') <-> x = m \/ x = r \/ In x (d_ids d)) /\
    ups d' r = Some m /\ (forall x, x <> r -> ups d' x = ups d x) /\
    (forall x, rb_new (d_buf d' x) = rb_new (d_buf d x) || (Nat.eqb x r && isnew r)) /\
    (forall x, rb_freed (d_buf d' x) = rb_freed (d_buf d x)).
Proof.
  intros d m r HD Hmn Hlo Hr Hmf.
  destruct (put_ok d m HD) as [P1 [P2 P3]].
  assert (HU : forall x, ups (put d m) x = ups d x) by (intros; unfold ups; now rewrite P3).
  assert (Hn0 : rb_new (d_buf d m) = false).
  { destruct (rb_new (d_buf d m)) eqn:E; [|reflexivity]. apply (di_new _ HD) in E. congruence. }
  assert (HR : rreal (put d m) m = Some m).
  { unfold rreal. now rewrite P3, Hn0, Hmf. }
  destruct (isnew r) eqn:En.
  - unfold process. cbn [r_parent r_child r_news r_freeds put_opt].
    unfold rec_to_buf. fold (put d m).
    destruct (put_news_ok [r] (put d m) m P1) as [d2 [E2 [D2 [I2 [U3 [U4 [N2 F2]]]]]]]; auto.
    { apply P2. now left. }
    { congruence. }
    { intros n [<-|[]]. auto. }
    rewrite E2. cbn [put_freeds]. exists d2. split; [reflexivity|]. ands; auto.
    + intros x. rewrite I2, P2. cbn. intuition.
    + rewrite U3 by (now left). exact HR.
    + intros x Hx. rewrite U4; [apply HU|]. intros [H|[]]. congruence.
    + intros x. rewrite N2, P3. cbn. now rewrite orb_false_r, andb_true_r.
    + intros x. now rewrite F2, P3.
  - unfold process. cbn [r_parent r_child r_news r_freeds put_opt].
    unfold rec_to_buf at 1. fold (put d m).
    destruct (rec_to_buf_ok (put d m) r m P1) as [d1 [E1 [D1 [I1 [U1 [U2 [N1 F1]]]]]]]; auto.
    { apply P2. now left. }
    { congruence. }
    rewrite E1. cbn [put_news put_freeds]. exists d1. split; [reflexivity|]. ands; auto.
    + intros x. rewrite I1, P2. intuition.
    + now rewrite U1.
    + intros x Hx. rewrite U2 by assumption. apply HU.
    + intros x. now rewrite N1, P3, andb_false_r, orb_false_r.
    + intros x. now rewrite F1, P3.
Qed.

(** ** The walk over freed buffers, and the checks *)
Lemma skip_ok : forall d, DInv d -> forall n b (seen : list nat),
  In b (d_ids d) -> NoDup seen -> incl seen (d_ids d) ->
  (forall s, In s seen -> s = b \/ lower s b) -> (length (d_ids d) <= n + length seen)%nat ->
  In b seen -> rb_freed (d_buf d b) = true ->
  exists r, skip_freed n (d_buf d) (Some b) = Some (Some r) /\ rb_freed (d_buf d r) = false /\
    lower b r /\ isnew r = false /\ In r (d_ids d).
Proof.
  intros d HD. induction n as [|n IH]; intros b seen Hb HN Hi Hs Hl Hbs Hf; cbn [skip_freed]; rewrite Hf.
  - exfalso. assert (H : ups d b <> None) by (apply (di_some _ HD); auto).
    destruct (ups d b) as [u|] eqn:E; [|congruence]. apply (di_up _ HD) in E.
    destruct E as [E1 [E2 [E3 E4]]].
    assert (Hu : ~ In u seen).
    { intros H'. destruct (Hs u H') as [->|H2]; [now apply lower_irrefl in E2|].
      assert (X := lower_trans lvl pos _ _ _ E2 H2). now apply lower_irrefl in X. }
    assert (HN' : NoDup (u :: seen)) by (now constructor).
    assert (Hi' : incl (u :: seen) (d_ids d)) by (intros x [<-|Hx]; auto).
    assert (X := NoDup_incl_length HN' Hi'). cbn in X. cbn in Hl. lia.
  - assert (H : ups d b <> None) by (apply (di_some _ HD); auto).
    change (rb_up (d_buf d b)) with (ups d b).
    destruct (ups d b) as [u|] eqn:E; [|congruence]. apply (di_up _ HD) in E.
    destruct E as [E1 [E2 [E3 E4]]]. destruct (rb_freed (d_buf d u)) eqn:Eu.
    + assert (Hu : ~ In u seen).
      { intros H'. destruct (Hs u H') as [->|H2]; [now apply lower_irrefl in E2|].
        assert (X := lower_trans lvl pos _ _ _ E2 H2). now apply lower_irrefl in X. }
      destruct (IH u (u :: seen)) as [r [R1 [R2 [R3 [R4 R5]]]]]; auto.
      * now constructor.
      * intros x [<-|Hx]; auto.
      * intros s [<-|Hx]; [now left|]. right. destruct (Hs s Hx) as [->|H2]; [assumption|].
        eapply lower_trans; eassumption.
      * cbn. lia.
      * now left.
      * exists r. ands; auto. eapply lower_trans; eassumption.
    + exists u. destruct n; cbn [skip_freed]; rewrite Eu; ands; auto.
Qed.

Lemma modify_ok : forall d b, DInv d ->
  exists d', modify d b = Some d' /\ DInv d' /\ d_ids d' = d_ids d /\
    (forall x, x <> b -> ups d' x = ups d x) /\
    skip_freed (length (d_ids d)) (d_buf d) (ups d b) = Some (ups d' b) /\
    (forall u, ups d' b = Some u -> rb_freed (d_buf d u) = false) /\
    (ups d b = None <-> ups d' b = None) /\
    (forall x, rb_new (d_buf d' x) = rb_new (d_buf d x)) /\
    (forall x, rb_freed (d_buf d' x) = rb_freed (d_buf d x)).
Proof.
  intros d b HD. unfold modify. change (rb_up (d_buf d b)) with (ups d b).
  destruct (ups d b) as [u|] eqn:Eu.
  - destruct (di_up _ HD _ _ Eu) as [H1 [H2 [H3 H4]]].
    destruct (rb_freed (d_buf d u)) eqn:Ef.
    + assert (HS : skip_freed (length (d_ids d)) (d_buf d) (Some u) =
                   match rb_up (d_buf d u) with
                   | Some v => skip_freed (length (d_ids d) - 1) (d_buf d) (Some v) | None => Some None end).
      { destruct (length (d_ids d)) as [|k] eqn:El.
        - destruct (d_ids d); [destruct H3|discriminate].
        - cbn [skip_freed]. rewrite Ef. replace (S k - 1)%nat with k by lia.
          destruct (rb_up (d_buf d u)); [reflexivity|]. destruct k; reflexivity. }
      destruct (skip_ok d HD (length (d_ids d)) u [u]) as [r [R1 [R2 [R3 [R4 R5]]]]]; auto.
      { constructor; [intros []|constructor]. }
      { intros x [<-|[]]; assumption. }
      { intros s [<-|[]]. now left. }
      { cbn. lia. }
      { now left. }
      rewrite R1. destruct (same (Some r) (Some u)) eqn:Es.
      * apply same_iff in Es. injection Es as ->. now apply lower_irrefl in R3.
      * assert (Hbr : lower b r) by (eapply lower_trans; eassumption).
        destruct (relink_ok d b r) as [K1 [K2 [K3 [K4 K5]]]]; auto.
        { destruct (ismeta b) eqn:Em; [|reflexivity]. rewrite (di_meta _ HD b Em) in Eu. discriminate. }
        { rewrite Eu. intros E. injection E as ->. now apply lower_irrefl in R3. }
        eexists. split; [reflexivity|]. ands; auto.
        -- now rewrite K2.
        -- intros x. rewrite K2. intros E. injection E as <-. assumption.
        -- rewrite K2. split; discriminate.
    + assert (HS : skip_freed (length (d_ids d)) (d_buf d) (Some u) = Some (Some u)).
      { destruct (length (d_ids d)); cbn [skip_freed]; now rewrite Ef. }
      rewrite HS. cbn [same]. rewrite Nat.eqb_refl. exists d. ands; auto.
      * now rewrite Eu.
      * intros x. rewrite Eu. intros E. injection E as <-. assumption.
      * rewrite Eu. split; discriminate.
  - assert (HS : skip_freed (length (d_ids d)) (d_buf d) None = Some None)
      by (destruct (length (d_ids d)); reflexivity).
    rewrite HS. cbn [same]. exists d. ands; auto.
    + now rewrite Eu.
    + rewrite Eu. discriminate.
    + rewrite Eu. split; auto.
Qed.

(** Following the links over the buffers of [g]. *)
Inductive nxt (f : nat -> option nat) (g : nat -> bool) : nat -> nat -> Prop :=
| NHere b u : f b = Some u -> g u = false -> nxt f g b u
| NOver b u v : f b = Some u -> g u = true -> nxt f g u v -> nxt f g b v.

Lemma skip_nxt : forall m n u r, skip_freed n m (Some u) = Some (Some r) ->
  (rb_freed (m u) = false /\ u = r) \/
  (rb_freed (m u) = true /\ nxt (fun x => rb_up (m x)) (fun x => rb_freed (m x)) u r).
Proof.
  intros m. induction n as [|n IH]; intros u r H; cbn [skip_freed] in H;
    destruct (rb_freed (m u)) eqn:E; try discriminate; try (left; split; [reflexivity|congruence]).
  right. split; [reflexivity|]. destruct (rb_up (m u)) as [v|] eqn:Ev.
  - destruct (IH v r H) as [[F ->]|[F X]].
    + now apply NHere.
    + eapply NOver; eassumption.
  - destruct n; discriminate H.
Qed.

Lemma nxt_det : forall f g b u, nxt f g b u -> forall v, nxt f g b v -> u = v.
Proof.
  intros f g b u H. induction H as [b u H1 H2|b u v H1 H2 H3 IH]; intros z Hz;
    inversion Hz; subst; try congruence. apply IH. congruence.
Qed.

Lemma nxt_freed : forall f g b u, nxt f g b u -> g u = false.
Proof. intros f g b u H. induction H; assumption. Qed.

(** The links found by following do not change when one link is moved up. *)
Lemma nxt_move : forall f f' g b, (forall x, x <> b -> f' x = f x) ->
  (forall r, f' b = Some r -> (g r = false /\ nxt f g b r)) -> (f b = None -> f' b = None) ->
  (f b <> None -> f' b <> None) ->
  forall x u, nxt f g x u <-> nxt f' g x u.
Proof.
  intros f f' g b Ho Hb Hn1 Hn2 x u. split.
  - intros H. induction H as [x u H1 H2|x u v H1 H2 H3 IH].
    + destruct (Nat.eq_dec x b) as [->|Hx].
      * destruct (f' b) as [r|] eqn:E; [|exfalso; apply Hn2; congruence].
        destruct (Hb r eq_refl) as [G1 G2].
        assert (u = r) as -> by (eapply nxt_det; [|exact G2]; now apply NHere). now apply NHere.
      * apply NHere; [now rewrite Ho|assumption].
    + destruct (Nat.eq_dec x b) as [->|Hx].
      * destruct (f' b) as [r|] eqn:E; [|exfalso; apply Hn2; congruence].
        destruct (Hb r eq_refl) as [G1 G2].
        assert (v = r) as -> by (eapply nxt_det; [|exact G2]; eapply NOver; eassumption). now apply NHere.
      * eapply NOver; [rewrite Ho by assumption; exact H1|assumption|assumption].
  - intros H. induction H as [x u H1 H2|x u v H1 H2 H3 IH].
    + destruct (Nat.eq_dec x b) as [->|Hx]; [now apply Hb|].
      apply NHere; [now rewrite <- Ho|assumption].
    + destruct (Nat.eq_dec x b) as [->|Hx].
      * destruct (Hb _ H1) as [G1 G2]. congruence.
      * eapply NOver; [rewrite <- Ho by assumption; exact H1|assumption|assumption].
Qed.

Definition frd (d : dag) (b : nat) : bool := rb_freed (d_buf d b).

Lemma nxt_ext : forall f f' g g', (forall x, f x = f' x) -> (forall x, g x = g' x) ->
  forall b u, nxt f g b u -> nxt f' g' b u.
Proof.
  intros f f' g g' Hf Hg b u H. induction H.
  - apply NHere; [now rewrite <- Hf|now rewrite <- Hg].
  - eapply NOver; [rewrite <- Hf; exact H|now rewrite <- Hg|assumption].
Qed.

Lemma modify_all_ok : forall order d, DInv d ->
  exists d', modify_all d order = Some d' /\ DInv d' /\ d_ids d' = d_ids d /\
    (forall b u, nxt (ups d) (frd d) b u <-> nxt (ups d') (frd d') b u) /\
    (forall b u, In b order -> ups d' b = Some u -> frd d u = false) /\
    (forall b, ~ In b order -> ups d' b = ups d b) /\
    (forall x, rb_new (d_buf d' x) = rb_new (d_buf d x)) /\
    (forall x, rb_freed (d_buf d' x) = rb_freed (d_buf d x)).
Proof.
  induction order as [|b l IH]; intros d HD; cbn [modify_all].
  - exists d. ands; auto; [reflexivity|intros b u []].
  - destruct (modify_ok d b HD) as [d1 [E [D1 [I1 [U1 [S1 [F1 [O1 [N1 G1]]]]]]]]].
    rewrite E. destruct (IH d1 D1) as [d2 [E2 [D2 [I2 [X2 [F2 [U2 [N2 G2]]]]]]]].
    exists d2. ands; auto.
    + congruence.
    + intros x u. rewrite <- X2.
      assert (HX : nxt (ups d) (frd d) x u <-> nxt (ups d1) (frd d) x u).
      { apply nxt_move with (b := b); auto.
        - intros r Hr. split; [now apply F1|].
          rewrite Hr in S1. destruct (ups d b) as [v|] eqn:Ev.
          + destruct (skip_nxt _ _ _ _ S1) as [[K1 <-]|[K1 K2]].
            * apply NHere; [assumption|exact K1].
            * eapply NOver; [exact Ev|exact K1|]. exact K2.
          + destruct (length (d_ids d)); discriminate S1.
        - intros H. now apply O1.
        - intros H H'. apply H. now apply O1. }
      rewrite HX. split; apply nxt_ext; auto; intros y; unfold frd; now rewrite G1.
    + intros x u Hx Hu. destruct (in_dec Nat.eq_dec x l) as [Hl|Hl].
      * unfold frd. rewrite <- G1. exact (F2 x u Hl Hu).
      * destruct Hx as [<-|Hx]; [|contradiction]. rewrite U2 in Hu by assumption. now apply F1.
    + intros x Hx. rewrite U2 by (intros H; apply Hx; now right). apply U1. intros ->. apply Hx. now left.
    + intros x. now rewrite N2, N1.
    + intros x. now rewrite G2, G1.
Qed.

Lemma sane_ok : forall d, DInv d -> (forall b u, ups d b = Some u -> frd d u = false) ->
  forall b, sane ismeta (d_buf d) b = true.
Proof.
  intros d HD HF b. unfold sane. change (rb_up (d_buf d b)) with (ups d b).
  apply andb_true_iff. split.
  - destruct (ups d b) as [u|] eqn:E; [|reflexivity].
    assert (HF' := HF _ _ E). unfold frd in HF'. rewrite HF'.
    destruct (di_up _ HD _ _ E) as [H1 [H2 [H3 H4]]].
    replace (rb_new (d_buf d u)) with false.
    2: { symmetry. apply not_true_is_false. intros H. apply (di_new _ HD) in H. congruence. }
    replace (ismeta b) with false.
    2: { symmetry. apply not_true_is_false. intros H. rewrite (di_meta _ HD b H) in E. discriminate. }
    cbn. apply negb_true_iff, Z.eqb_neq. rewrite (di_cnt _ HD).
    intros Hz. assert (Hz' : cnt (ups d) u (d_ids d) = 0%nat) by lia.
    rewrite cnt_zero_iff in Hz'. exact (Hz' b H3 E).
  - destruct (rb_freed (d_buf d b)) eqn:Ef; [|reflexivity]. cbn. apply Z.eqb_eq.
    rewrite (di_cnt _ HD). assert (Hz : cnt (ups d) b (d_ids d) = 0%nat).
    { apply cnt_zero_iff. intros x _ E. apply HF in E. unfold frd in E. congruence. }
    now rewrite Hz.
Qed.
End Dag.
