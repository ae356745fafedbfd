(** * Proofs about the index write-back cache: links. *)
From Coq Require Import ZArith List Bool Arith Lia.
From Verif Require Import Base WbModel WbSpec.
Import ListNotations.

Lemma mem_iff : forall b l, mem b l = true <-> In b l.
Proof.
  intros b l. unfold mem. rewrite existsb_exists. split.
  - intros [x [Hx E]]. apply Nat.eqb_eq in E. now subst.
  - intros H. exists b. split; [assumption|apply Nat.eqb_refl].
Qed.
Lemma mem_false : forall b l, mem b l = false <-> ~ In b l.
Proof. intros b l. rewrite <- mem_iff. destruct (mem b l); split; congruence. Qed.

Lemma upd_same : forall m i f, upd m i f i = f (m i).
Proof. intros. unfold upd. now rewrite Nat.eqb_refl. Qed.
Lemma upd_other : forall m i f j, j <> i -> upd m i f j = m j.
Proof. intros m i f j H. unfold upd. apply Nat.eqb_neq in H. now rewrite H. Qed.

(** Number of elements of [l] whose link is [u]. *)
Definition isup (o : option nat) (u : nat) : bool :=
  match o with Some x => Nat.eqb x u | None => false end.
Definition cnt (f : nat -> option nat) (u : nat) (l : list nat) : nat :=
  length (filter (fun b => isup (f b) u) l).

Lemma isup_iff : forall o u, isup o u = true <-> o = Some u.
Proof.
  intros [x|] u; cbn; [|split; discriminate]. rewrite Nat.eqb_eq. split; congruence.
Qed.

Lemma cnt_cons : forall f u b l, cnt f u (b :: l) = ((if isup (f b) u then 1 else 0) + cnt f u l)%nat.
Proof. intros. unfold cnt. cbn [filter]. destruct (isup (f b) u); reflexivity. Qed.

Lemma cnt_ext : forall f g u l, (forall b, In b l -> f b = g b) -> cnt f u l = cnt g u l.
Proof.
  intros f g u l H. induction l as [|b l IH]; [reflexivity|]. rewrite !cnt_cons.
  rewrite H by (now left). rewrite IH; [reflexivity|]. intros; apply H; now right.
Qed.

Lemma cnt_move : forall f g d u0 r u l, NoDup l -> In d l ->
  f d = Some u0 -> g d = Some r -> (forall b, b <> d -> g b = f b) ->
  Z.of_nat (cnt g u l) =
  (Z.of_nat (cnt f u l) - (if Nat.eqb u0 u then 1 else 0) + (if Nat.eqb r u then 1 else 0))%Z.
Proof.
  intros f g d u0 r u l HN HI Hf Hg Ho. induction l as [|b l IH]; [destruct HI|].
  inversion HN as [|x y Hb HN']; subst x y. rewrite !cnt_cons.
  destruct (Nat.eq_dec b d) as [->|Hne].
  - rewrite Hf, Hg. cbn [isup].
    rewrite (cnt_ext g f u l) by (intros b Hb'; apply Ho; intros ->; contradiction).
    destruct (Nat.eqb u0 u), (Nat.eqb r u); lia.
  - destruct HI as [E|HI]; [congruence|]. rewrite Ho by assumption. specialize (IH HN' HI).
    destruct (isup (f b) u); lia.
Qed.

Lemma cnt_pos : forall f u l, (cnt f u l <> 0)%nat -> exists d, In d l /\ f d = Some u.
Proof.
  intros f u l H. unfold cnt in H.
  destruct (filter _ l) as [|d q] eqn:E; [cbn in H; congruence|].
  assert (HI : In d (filter (fun b => isup (f b) u) l)) by (rewrite E; now left).
  apply filter_In in HI. destruct HI as [HI HU]. apply isup_iff in HU. eauto.
Qed.

Lemma cnt_zero_iff : forall f u l, cnt f u l = 0%nat <-> forall d, In d l -> f d <> Some u.
Proof.
  intros f u l. split.
  - intros H d Hd E. unfold cnt in H. apply length_zero_iff_nil in H.
    assert (HI : In d (filter (fun b => isup (f b) u) l)).
    { apply filter_In. split; [assumption|]. now apply isup_iff. }
    rewrite H in HI. destruct HI.
  - intros H. destruct (Nat.eq_dec (cnt f u l) 0) as [E|E]; [assumption|].
    destruct (cnt_pos _ _ _ E) as [d [Hd HU]]. exfalso. exact (H d Hd HU).
Qed.

Section Links.
Variable isnew : nat -> bool.
Variable lvl : nat -> nat.
Variable pos : nat -> Z.

Definition lower (d u : nat) : Prop :=
  (lvl d < lvl u)%nat \/ (lvl d = lvl u /\ (pos u < pos d)%Z).
Lemma lower_trans : forall a b c, lower a b -> lower b c -> lower a c.
Proof. clear isnew. unfold lower. intros. lia. Qed.
Lemma lower_irrefl : forall a, ~ lower a a.
Proof. clear isnew. unfold lower. intros. lia. Qed.

Definition counted (f : nat -> option nat) (m : bufs) : Prop :=
  exists lk, NoDup lk /\ (forall b, In b lk <-> f b <> None) /\
             forall u, b_wait (m u) = Z.of_nat (cnt f u lk).

Record LInv (intro roots : list nat) (w : wb) : Prop := mkL {
  li_new : forall b, b_new (w_buf w b) = isnew b;
  li_up : forall d u, above w d = Some u -> isnew u = false /\ lower d u /\ In u (w_list w);
  li_intro : forall b, In b intro -> above w b <> None;
  li_cnt : counted (above w) (w_buf w);
  li_nd : NoDup (w_list w);
  li_st : forall b, (In b (w_list w) /\ b_st (w_buf w b) = Dirty /\ b_cp (w_buf w b) = true) \/
                    (~ In b (w_list w) /\ b_st (w_buf w b) = Clean);
  li_count : w_count w = Z.of_nat (length (w_list w));
  li_down : forall d, above w d <> None -> In d (w_list w) \/ In d roots }.

Lemma linv_init : LInv [] [] (wb_init isnew).
Proof.
  constructor; cbn; try easy.
  - exists []. ands; [constructor|split; [intros []|intros H; exfalso; apply H; reflexivity]|].
    intros. reflexivity.
  - constructor.
  - intros b. right. auto.
Qed.

Lemma linv_weaken : forall intro roots intro' roots' w, LInv intro roots w ->
  (forall b, In b intro' -> In b intro \/ above w b <> None) -> incl roots roots' ->
  LInv intro' roots' w.
Proof.
  intros intro roots intro' roots' w [] HI HR. constructor; auto.
  - intros b Hb. destruct (HI b Hb); auto.
  - intros d Hd. destruct (li_down0 d Hd); auto.
Qed.

Lemma write_linv : forall intro roots w b, LInv intro roots w ->
  LInv intro roots (write_node w b) /\
  (forall x, In x (w_list (write_node w b)) <-> In x (w_list w) \/ x = b) /\
  (forall x, above (write_node w b) x = above w x).
Proof.
  intros intro roots w b [Hn Hu Hi Hc Hd Hs Hk Hw]. unfold write_node.
  destruct (Hs b) as [[HI [E E2]]|[HI E]]; rewrite E.
  - assert (HE : forall x, w_buf (mkWb (upd (w_buf w) b (set_st Dirty)) (w_list w) (w_count w)) x =
                           w_buf w x).
    { intros x. cbn [w_buf]. destruct (Nat.eq_dec x b) as [->|Hx]; [|now rewrite upd_other].
      rewrite upd_same. unfold set_st. rewrite <- E. now destruct (w_buf w b). }
    assert (HA : forall x, above (mkWb (upd (w_buf w) b (set_st Dirty)) (w_list w) (w_count w)) x =
                           above w x) by (intros; unfold above; now rewrite HE).
    split; [|split].
    + constructor; cbn [w_list w_count]; auto.
      * intros x. now rewrite HE.
      * intros d u. rewrite HA. apply Hu.
      * intros x Hx. rewrite HA. auto.
      * destruct Hc as [lk [H1 [H2 H3]]]. exists lk. ands; auto.
        -- intros x. rewrite HA. apply H2.
        -- intros u. rewrite HE, H3. f_equal. apply cnt_ext. intros; now rewrite HA.
      * intros x. rewrite HE. apply Hs.
      * intros d. rewrite HA. apply Hw.
    + intros x. cbn [w_list]. split; [auto|]. intros [H| ->]; assumption.
    + exact HA.
  - set (w' := mkWb (upd (w_buf w) b dirty_it) (w_list w ++ [b]) (w_count w + 1)).
    assert (HA : forall x, above w' x = above w x).
    { intros x. unfold above, w'; cbn [w_buf]. destruct (Nat.eq_dec x b) as [->|Hx].
      - now rewrite upd_same.
      - now rewrite upd_other. }
    assert (HL : forall x, In x (w_list w') <-> In x (w_list w) \/ x = b).
    { intros x. unfold w'; cbn [w_list]. rewrite in_app_iff. cbn. intuition. }
    split; [|split; assumption]. constructor.
    + intros x. unfold w'; cbn [w_buf]. destruct (Nat.eq_dec x b) as [->|Hx].
      * rewrite upd_same. cbn. apply Hn.
      * rewrite upd_other by assumption. apply Hn.
    + intros d u. rewrite HA. intros H. destruct (Hu d u H) as [H1 [H2 H3]]. ands; auto.
      apply HL. now left.
    + intros x Hx. rewrite HA. auto.
    + destruct Hc as [lk [H1 [H2 H3]]]. exists lk. ands; auto.
      * intros x. rewrite HA. apply H2.
      * intros u. rewrite (cnt_ext (above w') (above w)) by (intros; apply HA). rewrite <- H3.
        unfold w'; cbn [w_buf]. destruct (Nat.eq_dec u b) as [->|Hx].
        -- now rewrite upd_same.
        -- now rewrite upd_other.
    + unfold w'; cbn [w_list]. apply NoDup_Add with (a := b) (l := w_list w).
      * rewrite <- (app_nil_r (w_list w)) at 1. apply Add_app.
      * split; assumption.
    + intros x. unfold w'; cbn [w_buf w_list]. destruct (Nat.eq_dec x b) as [->|Hx].
      * left. rewrite upd_same. ands; [apply in_app_iff; right; now left|reflexivity|reflexivity].
      * rewrite upd_other by assumption. rewrite in_app_iff. cbn. destruct (Hs x); intuition congruence.
    + unfold w'; cbn [w_list w_count]. rewrite app_length, Hk. cbn. lia.
    + intros d. rewrite HA. intros H. destruct (Hw d H); [left; apply HL; now left|now right].
Qed.

Lemma write_all_linv : forall l intro roots w, LInv intro roots w ->
  LInv intro roots (fold_left write_node l w) /\
  (forall x, In x (w_list (fold_left write_node l w)) <-> In x (w_list w) \/ In x l) /\
  (forall x, above (fold_left write_node l w) x = above w x).
Proof.
  induction l as [|b l IH]; intros intro roots w HL; cbn [fold_left].
  - ands; auto. intros x. cbn. intuition.
  - destruct (write_linv _ _ _ b HL) as [H1 [H2 H3]].
    destruct (IH _ _ _ H1) as [H4 [H5 H6]]. ands; [assumption| |].
    + intros x. rewrite H5, H2. cbn. intuition.
    + intros x. now rewrite H6, H3.
Qed.

Lemma free_linv : forall intro roots w b, LInv intro roots w ->
  LInv intro roots (free_buf w b) /\ w_list (free_buf w b) = w_list w /\
  (forall x, above (free_buf w b) x = above w x) /\
  (forall x, b_wait (w_buf (free_buf w b) x) = b_wait (w_buf w x)).
Proof.
  intros intro roots w b [Hn Hu Hi Hc Hd Hs Hk Hw].
  assert (HE : forall (T : Type) (f : buf -> T), (forall x, f (set_freed x) = f x) ->
     forall x, f (w_buf (free_buf w b) x) = f (w_buf w x)).
  { intros T f Hf x. cbn [free_buf w_buf]. destruct (Nat.eq_dec x b) as [->|Hx].
    - rewrite upd_same. apply Hf.
    - now rewrite upd_other. }
  assert (HA : forall x, above (free_buf w b) x = above w x) by (intros x; apply (HE _ b_up); reflexivity).
  ands; [|reflexivity|exact HA|apply (HE _ b_wait); reflexivity].
  constructor; auto.
  - intros x. rewrite (HE _ b_new) by reflexivity. apply Hn.
  - intros d u. rewrite HA. apply Hu.
  - intros x Hx. rewrite HA. auto.
  - destruct Hc as [lk [H1 [H2 H3]]]. exists lk. ands; auto.
    + intros x. rewrite HA. apply H2.
    + intros u. rewrite (HE _ b_wait) by reflexivity. rewrite H3. f_equal.
      apply cnt_ext. intros; now rewrite HA.
  - intros x. rewrite (HE _ b_st), (HE _ b_cp) by reflexivity. apply Hs.
  - intros d. rewrite HA. apply Hw.
Qed.

Lemma free_all_linv : forall l intro roots w, LInv intro roots w ->
  LInv intro roots (fold_left free_buf l w) /\ w_list (fold_left free_buf l w) = w_list w /\
  (forall x, above (fold_left free_buf l w) x = above w x).
Proof.
  induction l as [|b l IH]; intros intro roots w HL; cbn [fold_left]; [auto|].
  destruct (free_linv _ _ _ b HL) as [H1 [H2 [H3 _]]].
  destruct (IH _ _ _ H1) as [H4 [H5 H6]]. ands; [assumption|congruence|].
  intros x. now rewrite H6, H3.
Qed.

(** The buffer a link to [up] really goes to. *)
Definition real (w : wb) (up : nat) : option nat :=
  if isnew up then above w up else Some up.


Lemma link_linv : forall intro roots w up down sib,
  LInv intro roots w -> In up (w_list w) -> (isnew up = true -> above w up <> None) ->
  lower down up -> In down (w_list w) \/ In down roots ->
  exists w', link_buf w up down sib = Some w' /\ LInv intro roots w' /\
    w_list w' = w_list w /\
    (forall x, x <> down -> above w' x = above w x) /\
    above w' down = (match above w down with
                     | Some u => if sib then real w up else Some u
                     | None => real w up
                     end) /\ above w' down <> None.
Proof.
  intros intro roots w up down sib HL HI HK HLo HD.
  assert (HR : exists r, real w up = Some r /\ isnew r = false /\ lower down r /\ In r (w_list w)).
  { unfold real. destruct (isnew up) eqn:E.
    - destruct (above w up) as [r|] eqn:Eu; [|exfalso; now apply HK].
      destruct (li_up _ _ _ HL _ _ Eu) as [H1 [H2 H3]]. exists r. ands; auto.
      eapply lower_trans; eassumption.
    - exists up. auto. }
  destruct HR as [r [HR [HRn [HRl HRi]]]].
  assert (Hrd : r <> down) by (intros ->; now apply lower_irrefl in HRl).
  assert (Hreal : (if b_new (w_buf w up) then b_up (w_buf w up) else Some up) = Some r).
  { rewrite (li_new _ _ _ HL). exact HR. }
  unfold link_buf. rewrite Hreal. change (b_up (w_buf w down)) with (above w down). rewrite HR.
  destruct HL as [Hn Hu Hi Hc Hd Hs Hk Hw].
  (* adding the link, given what the counters are *)
  assert (HADD : forall m : bufs,
    (forall x, b_new (m x) = b_new (w_buf w x)) -> (forall x, b_st (m x) = b_st (w_buf w x)) ->
    (forall x, b_cp (m x) = b_cp (w_buf w x)) -> (forall x, b_up (m x) = above w x) ->
    let w' := mkWb (upd (upd m down (set_up (Some r))) r (add_wait 1)) (w_list w) (w_count w) in
    counted (above w') (w_buf w') ->
    LInv intro roots w' /\ w_list w' = w_list w /\
    (forall x, x <> down -> above w' x = above w x) /\ above w' down = Some r).
  { intros m M1 M2 M3 M4 w' HC.
    assert (HE : forall (T : Type) (f : buf -> T), (forall x, f (set_up (Some r) x) = f x) ->
       (forall x, f (add_wait 1 x) = f x) -> forall x, f (w_buf w' x) = f (m x)).
    { intros T f F1 F2 x. unfold w'; cbn [w_buf].
      destruct (Nat.eq_dec x r) as [->|Hx].
      - rewrite upd_same, F2, upd_other by assumption. reflexivity.
      - rewrite upd_other by assumption. destruct (Nat.eq_dec x down) as [->|Hx'].
        + rewrite upd_same. apply F1.
        + now rewrite upd_other. }
    assert (HA : forall x, x <> down -> above w' x = above w x).
    { intros x Hx. unfold above at 1, w'; cbn [w_buf]. destruct (Nat.eq_dec x r) as [->|Hxr].
      - rewrite upd_same. cbn. rewrite upd_other by assumption. apply M4.
      - rewrite !upd_other by assumption. apply M4. }
    assert (HAd : above w' down = Some r).
    { unfold above, w'; cbn [w_buf]. rewrite upd_other by congruence. rewrite upd_same. reflexivity. }
    ands; [|reflexivity|assumption|assumption]. constructor; auto.
    - intros x. rewrite (HE _ b_new) by reflexivity. rewrite M1. apply Hn.
    - intros d u H. destruct (Nat.eq_dec d down) as [->|Hx].
      + rewrite HAd in H. injection H as <-. auto.
      + rewrite HA in H by assumption. now apply Hu.
    - intros x Hx. destruct (Nat.eq_dec x down) as [->|Hne]; [congruence|].
      rewrite HA by assumption. auto.
    - intros x. rewrite (HE _ b_st), (HE _ b_cp) by reflexivity. rewrite M2, M3. apply Hs.
    - intros d H. destruct (Nat.eq_dec d down) as [->|Hx]; [exact HD|].
      rewrite HA in H by assumption. now apply Hw. }
  destruct (above w down) as [u|] eqn:Eu.
  - destruct (negb sib || Nat.eqb u r) eqn:Et.
    + exists w. ands; auto; [constructor; auto| |].
      * rewrite Eu. destruct sib; cbn in Et; [|reflexivity]. apply Nat.eqb_eq in Et. congruence.
      * congruence.
    + apply orb_false_iff in Et. destruct Et as [Es Et]. apply Nat.eqb_neq in Et.
      destruct sib; [|discriminate].
      edestruct (HADD (upd (w_buf w) u (add_wait (-1)))) as [G1 [G2 [G3 G4]]].
      1-4: intros x; unfold upd, above; destruct (Nat.eqb x u); reflexivity.
      2: { eexists. split; [reflexivity|]. ands; auto. congruence. }
      destruct Hc as [lk [H1 [H2 H3]]]. exists lk.
      assert (Hlk : In down lk) by (apply H2; congruence).
      match goal with |- context [above ?w0] => set (w' := w0) end.
      assert (HA : forall x, x <> down -> above w' x = above w x).
      { intros x Hx. unfold above, w'; cbn [w_buf]. unfold upd.
        destruct (Nat.eqb x r); cbn; rewrite (proj2 (Nat.eqb_neq x down)) by assumption;
          destruct (Nat.eqb x u); reflexivity. }
      assert (HAd : above w' down = Some r).
      { unfold above, w'; cbn [w_buf]. rewrite upd_other by congruence. now rewrite upd_same. }
      ands; [assumption| |].
      * intros b. destruct (Nat.eq_dec b down) as [->|Hx].
        -- split; [congruence|auto].
        -- rewrite HA by assumption. apply H2.
      * intros x. rewrite (cnt_move (above w) (above w') down u r x lk) by auto.
        rewrite <- H3. unfold w'; cbn [w_buf].
        destruct (Nat.eq_dec x r) as [->|Hxr].
        -- rewrite upd_same. cbn [add_wait b_wait]. rewrite upd_other by assumption.
           rewrite upd_other by congruence.
           rewrite Nat.eqb_refl, (proj2 (Nat.eqb_neq u r)) by assumption. lia.
        -- rewrite upd_other by assumption. rewrite (proj2 (Nat.eqb_neq r x)) by congruence.
           replace (b_wait (upd (upd (w_buf w) u (add_wait (-1))) down (set_up (Some r)) x))
             with (b_wait (upd (w_buf w) u (add_wait (-1)) x)).
           2: { destruct (Nat.eq_dec x down) as [->|Hxd];
                  [now rewrite upd_same|now rewrite (upd_other _ down)]. }
           destruct (Nat.eq_dec x u) as [->|Hxu].
           ++ rewrite upd_same, Nat.eqb_refl. cbn. lia.
           ++ rewrite upd_other, (proj2 (Nat.eqb_neq u x)) by congruence. lia.
  - edestruct (HADD (w_buf w)) as [G1 [G2 [G3 G4]]]; try reflexivity.
    2: { eexists. split; [reflexivity|]. ands; auto. congruence. }
    destruct Hc as [lk [H1 [H2 H3]]]. exists (down :: lk).
    assert (Hlk : ~ In down lk) by (rewrite H2; congruence).
    match goal with |- context [above ?w0] => set (w' := w0) end.
    assert (HA : forall x, x <> down -> above w' x = above w x).
    { intros x Hx. unfold above, w'; cbn [w_buf]. unfold upd.
      destruct (Nat.eqb x r); cbn; rewrite (proj2 (Nat.eqb_neq x down)) by assumption; reflexivity. }
    assert (HAd : above w' down = Some r).
    { unfold above, w'; cbn [w_buf]. rewrite upd_other by congruence. now rewrite upd_same. }
    ands.
    + now constructor.
    + intros b. cbn [In]. destruct (Nat.eq_dec b down) as [->|Hx].
      * split; [congruence|auto].
      * rewrite HA by assumption. rewrite <- H2. split; [intros [?|?]; [congruence|assumption]|auto].
    + intros x. rewrite cnt_cons, HAd. cbn [isup].
      rewrite (cnt_ext (above w') (above w)) by (intros b Hb; apply HA; intros ->; contradiction).
      rewrite Nat2Z.inj_add, <- H3. unfold w'; cbn [w_buf].
      destruct (Nat.eq_dec x r) as [->|Hxr].
      * rewrite upd_same. cbn [add_wait b_wait]. rewrite upd_other by assumption.
        rewrite Nat.eqb_refl. lia.
      * rewrite upd_other by assumption. rewrite (proj2 (Nat.eqb_neq r x)) by congruence.
        destruct (Nat.eq_dec x down) as [->|Hxd]; [rewrite upd_same; cbn; lia|].
        rewrite upd_other by assumption. lia.
Qed.

Lemma link_all_linv : forall l intro roots w c,
  LInv intro roots w -> In c (w_list w) -> (isnew c = true -> above w c <> None) ->
  (forall n, In n l -> lower n c /\ In n (w_list w) /\ n <> c /\ above w n = None) -> NoDup l ->
  exists w', link_all w c l = Some w' /\ LInv intro roots w' /\ w_list w' = w_list w /\
    (forall x, ~ In x l -> above w' x = above w x) /\
    (forall x, In x l -> above w' x = real w c).
Proof.
  induction l as [|n l IH]; intros intro roots w c HL HI HK Hl HN; cbn [link_all].
  - exists w. ands; auto. intros x [].
  - inversion HN as [|x y Hn HN']; subst x y.
    destruct (Hl n (or_introl eq_refl)) as [L1 [L2 [L3 L4]]].
    destruct (link_linv _ _ _ c n true HL HI HK L1 (or_introl L2)) as [w1 [E [H1 [H2 [H3 [H4 H5]]]]]].
    rewrite E. rewrite L4 in H4.
    destruct (IH intro roots w1 c) as [w2 [E2 [G1 [G2 [G3 G4]]]]]; auto.
    + now rewrite H2.
    + intros Hc. rewrite H3 by congruence. auto.
    + intros x Hx. destruct (Hl x (or_intror Hx)) as [K1 [K2 [K3 K4]]]. rewrite H2. ands; auto.
      rewrite H3; [assumption|]. intros ->. contradiction.
    + exists w2. ands; auto; [congruence| |].
      * intros x Hx. rewrite G3 by (intros H; apply Hx; now right). apply H3.
        intros ->. apply Hx. now left.
      * assert (HRc : real w1 c = real w c).
        { unfold real. destruct (isnew c); [|reflexivity]. apply H3. congruence. }
        intros x [->|Hx]; [rewrite G3, H4 by assumption; reflexivity|].
        now rewrite G4, HRc.
Qed.

Lemma wait_listed : forall intro roots w f, LInv intro roots w ->
  b_wait (w_buf w f) <> 0%Z -> In f (w_list w).
Proof.
  intros intro roots w f HL Hf. destruct (li_cnt _ _ _ HL) as [lk [H1 [H2 H3]]].
  rewrite H3 in Hf. destruct (cnt_pos (above w) f lk) as [d [Hd HU]]; [lia|].
  now apply (li_up _ _ _ HL) in HU.
Qed.

(** A freed node that is linked: it is relinked to [c] or [c]'s up buffer, and
    is not new (a new node is never waited for). *)
Lemma link_freed_linv : forall l intro roots w c,
  LInv intro roots w -> In c (w_list w) -> (isnew c = true -> above w c <> None) ->
  (forall n, In n l -> lower n c) ->
  exists w', link_freed w c l = Some w' /\ LInv intro roots w' /\ w_list w' = w_list w /\
    (forall x, ~ In x l \/ isnew x = true -> above w' x = above w x) /\
    (forall x, above w x <> None -> above w' x <> None).
Proof.
  induction l as [|n l IH]; intros intro roots w c HL HI HK Hl; cbn [link_freed].
  - exists w. ands; auto.
  - destruct (Z.eqb_spec (b_wait (w_buf w n)) 0) as [Ez|Ez].
    + destruct (IH intro roots w c HL HI HK) as [w2 [E2 [G1 [G2 [G3 G4]]]]].
      { intros; apply Hl; now right. }
      exists w2. ands; auto. intros x Hx. apply G3. destruct Hx as [Hx|Hx]; [|now right].
      left. intros H. apply Hx. now right.
    + assert (Hn : In n (w_list w)) by (eapply wait_listed; eassumption).
      assert (Hold : isnew n = false).
      { destruct (li_cnt _ _ _ HL) as [lk [H1 [H2 H3]]]. rewrite H3 in Ez.
        destruct (cnt_pos (above w) n lk) as [d [Hd HU]]; [lia|].
        now apply (li_up _ _ _ HL) in HU. }
      assert (Hlo := Hl n (or_introl eq_refl)).
      assert (Hnc : n <> c) by (intros ->; now apply lower_irrefl in Hlo).
      destruct (link_linv _ _ _ c n true HL HI HK Hlo (or_introl Hn))
        as [w1 [E [H1 [H2 [H3 [H4 H5]]]]]].
      rewrite E.
      destruct (IH intro roots w1 c) as [w2 [E2 [G1 [G2 [G3 G4]]]]]; auto.
      * now rewrite H2.
      * intros Hc. rewrite H3 by congruence. auto.
      * intros; apply Hl; now right.
      * exists w2. ands; auto; [congruence| |].
        -- intros x Hx. assert (Hxn : x <> n).
           { destruct Hx as [Hx|Hx]; [intros ->; apply Hx; now left|congruence]. }
           rewrite G3, H3; auto. destruct Hx as [Hx|Hx]; [|now right].
           left. intros H. apply Hx. now right.
        -- intros x Hx. apply G4. destruct (Nat.eq_dec x n) as [->|Hxn]; [assumption|].
           now rewrite H3.
Qed.

Lemma known_above : forall intro roots w b, LInv intro roots w -> known isnew intro b = true ->
  isnew b = true -> above w b <> None.
Proof.
  intros intro roots w b HL HK Hn. unfold known in HK. rewrite Hn in HK. cbn in HK.
  apply (proj1 (mem_iff b intro)) in HK. exact (li_intro _ _ _ HL b HK).
Qed.

Lemma nodupb_ok : forall l, nodupb l = true -> NoDup l.
Proof.
  induction l as [|x l IH]; intros H; [constructor|]. cbn in H.
  apply andb_true_iff in H. destruct H as [H1 H2]. constructor; [|auto].
  apply negb_true_iff in H1. now apply mem_false in H1.
Qed.

(** What one operation does to the links. *)
Lemma exec_linv : forall intro roots w o, LInv intro roots w ->
  legal_op isnew lvl pos intro o = true ->
  (forall n, isnew n = true -> ~ In n intro -> above w n = None) ->
  exists w', wexec w o = Some w' /\
    LInv (intro_op intro o) (match o with ORoot _ r => r :: roots | _ => roots end) w' /\
    (forall x, In x (w_list w') <-> In x (w_list w) \/ In x (written_op o)) /\
    (forall n, isnew n = true -> ~ In n (intro_op intro o) -> above w' n = None) /\
    (forall x, above w x <> None -> isnew x = true -> above w' x = above w x) /\
    match o with
    | OTransact p c news freeds =>
        (forall n, In n news -> above w' n = if isnew c then above w' c else Some c) /\
        (~ In c freeds -> above w' c = match above w c with Some u => Some u | None => real w p end) /\
        (forall x, x <> c -> ~ In x news -> ~ In x freeds -> above w' x = above w x)
    | ORoot m r =>
        above w' r = (match above w r with Some u => Some u | None => Some m end) /\
        (forall x, x <> r -> above w' x = above w x)
    | _ => forall x, above w' x = above w x
    end.
Proof.
  intros intro roots w o HL HO HN. destruct o as [b|p c news freeds|m r|b]; cbn [wexec intro_op].
  - destruct (write_linv _ _ _ b HL) as [H1 [H2 H3]]. eexists. split; [reflexivity|].
    ands; auto.
    + intros x. rewrite H2. cbn. intuition.
    + intros n Hn Hi. rewrite H3. auto.
  - cbn [legal_op] in HO. apply andb_true_iff in HO. destruct HO as [HO Hfr].
    apply andb_true_iff in HO. destruct HO as [HO Hnw].
    apply andb_true_iff in HO. destruct HO as [HO Hnd].
    apply andb_true_iff in HO. destruct HO as [HO Hlv].
    apply andb_true_iff in HO. destruct HO as [Hkp Hkc].
    apply Nat.ltb_lt in Hlv. apply nodupb_ok in Hnd.
    rewrite forallb_forall in Hfr, Hnw.
    assert (Hnw' : forall n, In n news -> isnew n = true /\ ~ In n intro /\ lower n c).
    { intros n Hn. specialize (Hnw n Hn).
      apply andb_true_iff in Hnw. destruct Hnw as [Hnw Hp].
      apply andb_true_iff in Hnw. destruct Hnw as [Hnw Hl].
      apply andb_true_iff in Hnw. destruct Hnw as [Hnw Hi].
      apply negb_true_iff in Hi. apply (proj1 (mem_false n intro)) in Hi.
      apply Nat.eqb_eq in Hl. apply Z.ltb_lt in Hp. ands; auto. right. auto. }
    assert (Hfr' : forall f, In f freeds -> lower f c).
    { intros f Hf. specialize (Hfr f Hf). apply andb_true_iff in Hfr. destruct Hfr as [Hl Hp].
      apply Nat.eqb_eq in Hl. apply Z.ltb_lt in Hp. right. auto. }
    destruct (write_all_linv news _ _ _ HL) as [A1 [A2 A3]].
    set (w1 := fold_left write_node news w) in *.
    destruct (write_linv _ _ _ c A1) as [B1 [B2 B3]].
    destruct (write_linv _ _ _ p B1) as [C1 [C2 C3]].
    set (w2 := write_node (write_node w1 c) p) in *.
    destruct (free_all_linv freeds _ _ _ C1) as [D1 [D2 D3]].
    set (w3 := fold_left free_buf freeds w2) in *.
    assert (HA : forall x, above w3 x = above w x) by (intros; now rewrite D3, C3, B3, A3).
    assert (HLs : forall x, In x (w_list w3) <-> In x (w_list w) \/ In x (news ++ [c; p])).
    { intros x. rewrite D2, C2, B2, A2, in_app_iff. cbn. intuition. }
    assert (Hcp : c <> p) by (intros ->; lia).
    assert (HcI : In c (w_list w3)) by (apply HLs; right; apply in_app_iff; right; cbn; auto).
    assert (HpI : In p (w_list w3)) by (apply HLs; right; apply in_app_iff; right; cbn; auto).
    unfold transact_bufs.
    destruct (link_linv intro roots w3 p c false D1 HpI) as [w4 [E4 [F1 [F2 [F3 [F4 F5]]]]]].
    { intros Hn. rewrite HA. eapply known_above; eassumption. }
    { now left. }
    { now left. }
    rewrite E4.
    assert (Hnc : forall n, In n news -> n <> c).
    { intros n Hn ->. destruct (Hnw' c Hn) as [K1 [K2 K3]]. now apply lower_irrefl in K3. }
    destruct (link_all_linv news intro roots w4 c F1) as [w5 [E5 [G1 [G2 [G3 G4]]]]]; auto.
    { now rewrite F2. }
    { intros n Hn. destruct (Hnw' n Hn) as [K1 [K2 K3]]. ands; auto.
      - rewrite F2. apply HLs. right. apply in_app_iff. now left.
      - rewrite F3 by auto. rewrite HA. auto. }
    rewrite E5.
    destruct (link_freed_linv freeds intro roots w5 c G1) as [w6 [E6 [I1 [I2 [I3 I4]]]]]; auto.
    { now rewrite G2, F2. }
    { intros _. rewrite G3; [assumption|]. intros Hc. now apply (Hnc c). }
    exists w6. split; [exact E6|].
    assert (Hc6 : ~ In c freeds \/ isnew c = true -> above w6 c = above w4 c).
    { intros H. rewrite I3 by assumption. apply G3. intros Hc. now apply (Hnc c). }
    assert (Hn6 : forall n, In n news -> above w6 n = if isnew c then above w6 c else Some c).
    { intros n Hn. rewrite I3 by (right; apply Hnw'; assumption). rewrite G4 by assumption.
      unfold real. destruct (isnew c) eqn:Ec; [|reflexivity]. symmetry. apply Hc6. now right. }
    assert (Hx6 : forall x, x <> c -> ~ In x news -> (~ In x freeds \/ isnew x = true) ->
              above w6 x = above w x).
    { intros x X1 X2 X3. rewrite I3 by assumption. rewrite G3 by assumption.
      rewrite F3 by assumption. apply HA. }
    ands.
    + eapply linv_weaken; [exact I1| |apply incl_refl].
      intros b Hb. apply in_app_iff in Hb. destruct Hb as [Hb|Hb]; [right|now left].
      apply I4. rewrite G4 by assumption. unfold real. destruct (isnew c); [assumption|discriminate].
    + intros x. rewrite I2, G2, F2. apply HLs.
    + intros n Hn Hi. assert (H1 : ~ In n news /\ ~ In n intro).
      { split; intros H; apply Hi; apply in_app_iff; auto. }
      destruct H1 as [H1 H2]. rewrite Hx6; auto.
      intros ->. apply H2. unfold known in Hkc. rewrite Hn in Hkc. cbn in Hkc.
      now apply (proj1 (mem_iff c intro)) in Hkc.
    + intros x Hx Hnx. destruct (in_dec Nat.eq_dec x news) as [Hi|Hi].
      { exfalso. apply Hx. apply HN; [assumption|]. now apply Hnw'. }
      destruct (Nat.eq_dec x c) as [->|Hxc]; [|now apply Hx6; auto].
      rewrite Hc6 by (now right). rewrite F4, HA. now destruct (above w c).
    + exact Hn6.
    + intros Hcf. rewrite Hc6 by (now left). rewrite F4, HA. destruct (above w c); [reflexivity|].
      unfold real. destruct (isnew p); [apply HA|reflexivity].
    + auto.
  - cbn [legal_op] in HO. apply andb_true_iff in HO. destruct HO as [Hm Hlv].
    apply negb_true_iff in Hm. apply Nat.ltb_lt in Hlv.
    destruct (write_linv _ _ _ m HL) as [B1 [B2 B3]].
    assert (W : LInv intro (r :: roots) (write_node w m)).
    { eapply linv_weaken; [exact B1|intros b Hb; now left|]. intros x Hx. now right. }
    unfold transact_bufs.
    destruct (link_linv intro (r :: roots) (write_node w m) m r false W) as [w4 [E4 [F1 [F2 [F3 [F4 F5]]]]]].
    { apply B2. now right. }
    { congruence. }
    { now left. }
    { right. now left. }
    rewrite E4. cbn [link_all link_freed]. exists w4. split; [reflexivity|].
    rewrite B3 in F4. unfold real in F4. rewrite Hm in F4. ands.
    + eapply linv_weaken; [exact F1| |apply incl_refl].
      intros b [->|Hb]; [now right|now left].
    + intros x. rewrite F2, B2. cbn. intuition.
    + intros n Hn Hi. cbn in Hi. rewrite F3 by (intros ->; auto). rewrite B3. auto.
    + intros x Hx _. destruct (Nat.eq_dec x r) as [->|Hxr].
      * rewrite F4. now destruct (above w r).
      * now rewrite F3, B3.
    + exact F4.
    + intros x Hx. now rewrite F3, B3.
  - destruct (free_linv _ _ _ b HL) as [H1 [H2 [H3 _]]]. eexists. split; [reflexivity|].
    ands; auto.
    + intros x. rewrite H2. cbn. intuition.
    + intros n Hn Hi. rewrite H3. auto.
Qed.

Definition intro_ops (intro : list nat) (l : list wop) : list nat := fold_left intro_op l intro.
Definition roots_of (l : list wop) : list nat :=
  flat_map (fun o => match o with ORoot _ r => [r] | _ => [] end) l.

Lemma run_linv : forall l intro roots w, LInv intro roots w ->
  legal isnew lvl pos intro l = true ->
  (forall n, isnew n = true -> ~ In n intro -> above w n = None) ->
  exists w' roots', wrun w l = Some w' /\ LInv (intro_ops intro l) roots' w' /\
    (forall x, In x roots' <-> In x roots \/ In x (roots_of l)) /\
    (forall x, In x (w_list w') <-> In x (w_list w) \/ In x (written l)) /\
    (forall n, isnew n = true -> ~ In n (intro_ops intro l) -> above w' n = None) /\
    (forall x, above w x <> None -> isnew x = true -> above w' x = above w x).
Proof.
  induction l as [|o l IH]; intros intro roots w HL HG HN.
  - exists w, roots. cbn. ands; auto; intros; intuition.
  - cbn [legal] in HG. apply andb_true_iff in HG. destruct HG as [HO HG].
    destruct (exec_linv _ _ _ _ HL HO HN) as [w1 [E [H1 [H2 [H3 [H4 _]]]]]].
    destruct (IH _ _ _ H1 HG H3) as [w2 [roots2 [E2 [G1 [G2 [G3 [G4 G5]]]]]]].
    exists w2, roots2. cbn [wrun]. rewrite E. ands; auto.
    + intros x. rewrite G2. unfold roots_of. cbn [flat_map]. rewrite in_app_iff.
      destruct o; cbn; intuition.
    + intros x. rewrite G3, H2. unfold written. cbn [flat_map]. rewrite in_app_iff. intuition.
    + intros x Hx Hn. rewrite G5, H4; auto. now rewrite H4.
Qed.

(** No cycle. *)
Lemma climb_lower : forall intro roots w n b u, LInv intro roots w ->
  climb w (S n) b = Some u -> lower b u.
Proof.
  intros intro roots w n. induction n as [|n IH]; intros b u HL H; cbn [climb] in H.
  - destruct (above w b) as [x|] eqn:E; [|discriminate]. injection H as <-.
    now apply (li_up _ _ _ HL).
  - destruct (above w b) as [x|] eqn:E; [|discriminate].
    assert (H1 : lower b x) by (now apply (li_up _ _ _ HL)).
    eapply lower_trans; [exact H1|]. apply (IH x u HL). exact H.
Qed.
End Links.
