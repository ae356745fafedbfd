(** Proofs about versions of node buffers. *)
From Coq Require Import List Arith Lia Bool.
From Verif Require Import NodeBufModel NodeBufSpec.
Import ListNotations.

Lemma upd_eq {A} (f : nat -> A) k x : upd f k x k = x.
Proof. unfold upd. now rewrite Nat.eqb_refl. Qed.

Lemma upd_ne {A} (f : nat -> A) k x y : y <> k -> upd f k x y = f y.
Proof. intros N. unfold upd. apply Nat.eqb_neq in N. now rewrite N. Qed.

(** *** Changes *)

Lemma asof_snoc : forall h d k b b' c v,
  asof d (h ++ [(b', c, v)]) k b = if (b' =? b) && (c <=? k) then v else asof d h k b.
Proof.
  induction h as [|[[b0 c0] v0] h IH]; intros; cbn [app asof].
  - destruct ((b' =? b) && (c <=? k)); reflexivity.
  - apply IH.
Qed.

Lemma latest_snoc : forall h d b b' c v,
  latest d (h ++ [(b', c, v)]) b = if b' =? b then v else latest d h b.
Proof.
  induction h as [|[[b0 c0] v0] h IH]; intros; cbn [app latest].
  - destruct (b' =? b); reflexivity.
  - apply IH.
Qed.

Lemma asof_same : forall h d k k' b,
  (forall c v, In (b, c, v) h -> c <= k <-> c <= k') ->
  asof d h k b = asof d h k' b.
Proof.
  induction h as [|[[b0 c0] v0] h IH]; intros d k k' b E; cbn [asof]; [reflexivity|].
  destruct (Nat.eqb_spec b0 b) as [->|N]; cbn [andb].
  - assert (X := E c0 v0 (or_introl eq_refl)).
    replace (c0 <=? k') with (c0 <=? k).
    + apply IH. intros c v I. apply (E c v). now right.
    + destruct (Nat.leb_spec c0 k), (Nat.leb_spec c0 k'); lia.
  - apply IH. intros c v I. apply (E c v). now right.
Qed.

Lemma latest_asof : forall h d k b,
  (forall c v, In (b, c, v) h -> c <= k) -> latest d h b = asof d h k b.
Proof.
  induction h as [|[[b0 c0] v0] h IH]; intros d k b E; cbn [asof latest]; [reflexivity|].
  destruct (Nat.eqb_spec b0 b) as [->|N]; cbn [andb].
  - assert (X := E c0 v0 (or_introl eq_refl)). apply Nat.leb_le in X. rewrite X.
    apply IH. intros c v I. apply (E c v). now right.
  - apply IH. intros c v I. apply (E c v). now right.
Qed.

Lemma hist_app l l' : hist (l ++ l') = hist l ++ hist l'.
Proof. induction l as [|[] l IH]; cbn; rewrite ?IH; reflexivity. Qed.

(** *** The invariant *)

Definition unclean (s : state) (i : nat) : Prop := bst (bufs s i) <> CLEAN.

(** Something of the previous CP is still to be written to block [b]. *)
Definition owed (s : state) (b : nat) : Prop :=
  (exists i, i < nb s /\ bblk (bufs s i) = b /\ unclean s i /\ S (bdirt (bufs s i)) = cur s) \/
  (exists n c, cache s b = Some n /\ npend (nodes s n) = true /\
               nlock (nodes s n) = Some c /\ S c = cur s).

Definition isp (s : state) (i : nat) : bool :=
  negb (clean (bufs s i)) && (S (bdirt (bufs s i)) =? cur s).

Record Inv (d : nat -> nat) (s : state) (h : list change) : Prop := MkInv {
  i_cur : 1 <= cur s;
  i_ph : ph s <> Idle -> 2 <= cur s;
  i_hcp : forall b c v, In (b, c, v) h -> c <= cur s;
  i_cache : forall b n, cache s b = Some n -> n < nn s /\ nblk (nodes s n) = b;
  i_nbuf : forall n, n < nn s -> nbuf (nodes s n) < nb s /\
                                 bblk (bufs s (nbuf (nodes s n))) = nblk (nodes s n);
  i_unc : forall n, n < nn s -> cache s (nblk (nodes s n)) <> Some n -> nlock (nodes s n) = None;
  i_lock : forall n c, n < nn s -> nlock (nodes s n) = Some c ->
           bdirt (bufs s (nbuf (nodes s n))) = c /\
           (c = cur s \/ (S c = cur s /\ ph s = Draining));
  i_pend : forall n, n < nn s -> npend (nodes s n) = true -> nlock (nodes s n) <> None;
  i_none : forall b i, cache s b = None -> i < nb s -> bblk (bufs s i) = b -> ~ unclean s i;
  i_val : forall b n, cache s b = Some n -> bval (bufs s (nbuf (nodes s n))) = latest d h b;
  i_dle : forall i, i < nb s -> bdirt (bufs s i) <= cur s;
  i_dirt : forall i, i < nb s -> unclean s i ->
           bdirt (bufs s i) = cur s \/ (S (bdirt (bufs s i)) = cur s /\ ph s <> Idle);
  i_uc : forall i, i < nb s -> unclean s i -> bdirt (bufs s i) = cur s ->
         exists n, cache s (bblk (bufs s i)) = Some n /\ nbuf (nodes s n) = i;
  i_up : forall i, i < nb s -> unclean s i -> S (bdirt (bufs s i)) = cur s ->
         bval (bufs s i) = asof d h (cur s - 1) (bblk (bufs s i));
  i_up1 : forall i j, i < nb s -> j < nb s -> unclean s i -> unclean s j ->
          S (bdirt (bufs s i)) = cur s -> S (bdirt (bufs s j)) = cur s ->
          bblk (bufs s i) = bblk (bufs s j) -> i = j;
  i_one : forall b n j, cache s b = Some n -> j < nb s -> bblk (bufs s j) = b -> unclean s j ->
          j = nbuf (nodes s n) \/
          (S (bdirt (bufs s j)) = cur s /\ bdirt (bufs s (nbuf (nodes s n))) = cur s);
  i_flush : forall i, i < nb s -> bst (bufs s i) = FLUSHING ->
            S (bdirt (bufs s i)) = cur s /\ ph s = Flushing;
  i_hc : forall b v, In (b, cur s, v) h ->
         exists n, cache s b = Some n /\ bdirt (bufs s (nbuf (nodes s n))) = cur s /\
                   (unclean s (nbuf (nodes s n)) \/ npend (nodes s n) = true);
  i_hp : forall b c v, ph s = Draining -> S c = cur s -> In (b, c, v) h -> owed s b;
  i_disk1 : forall b, owed s b -> disk s b = asof d h (cur s - 2) b;
  i_disk2 : forall b, ~ owed s b -> disk s b = asof d h (cur s - 1) b;
  i_dlc : NoDup (dlc s);
  i_dlc1 : forall i, In i (dlc s) -> i < nb s /\ unclean s i /\ bdirt (bufs s i) = cur s;
  i_cntc : cntc s = length (dlc s);
  i_dlc2 : forall i, i < nb s -> unclean s i -> bdirt (bufs s i) = cur s -> In i (dlc s);
  i_dlp : NoDup (dlp s);
  i_dlpb : forall i, In i (dlp s) -> i < nb s;
  i_dlp1 : ph s = Draining -> forall i, In i (dlp s) -> isp s i = true;
  i_dlp2 : forall i, i < nb s -> unclean s i -> S (bdirt (bufs s i)) = cur s -> In i (dlp s);
  i_cntp : ph s <> Idle -> cntp s = length (filter (isp s) (dlp s)) }.

Lemma clean_iff s i : clean (bufs s i) = true <-> ~ unclean s i.
Proof.
  unfold clean, unclean. destruct (bst (bufs s i)).
  - split; intros; [intros X; now apply X | reflexivity].
  - split; intros; [discriminate | exfalso; now apply H].
  - split; intros; [discriminate | exfalso; now apply H].
Qed.

Lemma clean_nuc s i : clean (bufs s i) = false <-> unclean s i.
Proof.
  unfold clean, unclean. destruct (bst (bufs s i)); split; intros; try discriminate; try reflexivity.
  exfalso; now apply H.
Qed.

Lemma isp_iff s i : isp s i = true <-> unclean s i /\ S (bdirt (bufs s i)) = cur s.
Proof.
  unfold isp. rewrite andb_true_iff, negb_true_iff, clean_nuc, Nat.eqb_eq. reflexivity.
Qed.

Lemma init_inv d : Inv d (init d) [].
Proof.
  split; cbn; intros; try contradiction; try lia; try discriminate; try constructor; try reflexivity.
Qed.

Lemma latest_prev d s h b : Inv d s h -> (forall v, ~ In (b, cur s, v) h) ->
  latest d h b = asof d h (cur s - 1) b.
Proof.
  intros I N. rewrite (latest_asof h d (cur s)) by (intros c v X; eapply i_hcp; eauto).
  apply asof_same. intros c v X. assert (c <= cur s) by (eapply i_hcp; eauto).
  assert (c <> cur s) by (intros ->; now apply (N v)). lia.
Qed.

Lemma asof_prev d s h b : Inv d s h -> 2 <= cur s ->
  (forall c v, S c = cur s -> ~ In (b, c, v) h) ->
  asof d h (cur s - 1) b = asof d h (cur s - 2) b.
Proof.
  intros I C N. apply asof_same. intros c v X.
  assert (S c <> cur s) by (intros E; now apply (N c v)). lia.
Qed.

(** Case split on an [upd] in the goal or hypotheses. *)
Ltac up k a :=
  let E := fresh "E" in
  destruct (Nat.eq_dec a k) as [E|E];
  [ rewrite E in *; rewrite ?upd_eq in * | rewrite ?(upd_ne _ _ _ _ E) in * ].

Ltac uu := unfold owed, unclean, isp, clean in *; cbn [nodes nn bufs nb cache disk cur ph dlc cntc dlp cntp
  set_nodes set_bufs bblk bval bst bdirt nblk nbuf nlock npend] in *.

Lemma get_inv d s h b : Inv d s h -> Inv d (get s b) h.
Proof.
  intros I. unfold get. destruct (cache s b) as [n|] eqn:C; [assumption|].
  assert (NC : forall v, ~ In (b, cur s, v) h).
  { intros v X. destruct (i_hc _ _ _ I b v X) as (n & X1 & _). congruence. }
  assert (NO : ~ owed s b).
  { intros [(i & H1 & H2 & H3 & H4)|(n & c & H1 & _)]; [|congruence].
    eapply (i_none _ _ _ I b i); eauto. }
  assert (NB : forall n, n < nn s -> nbuf (nodes s n) <> nb s).
  { intros n L. destruct (i_nbuf _ _ _ I n L). lia. }
  assert (NN : forall b' n, cache s b' = Some n -> n <> nn s /\ nbuf (nodes s n) <> nb s).
  { intros b' n L. destruct (i_cache _ _ _ I _ _ L). split; [lia|auto]. }
  assert (OW : forall s', s' = St (upd (nodes s) (nn s) (Node b (nb s) None false)) (S (nn s))
         (upd (bufs s) (nb s) (Buf b (disk s b) CLEAN 0)) (S (nb s))
         (upd (cache s) b (Some (nn s)))
         (disk s) (cur s) (ph s) (dlc s) (cntc s) (dlp s) (cntp s) ->
         forall b', owed s' b' <-> owed s b').
  { intros s' -> b'. unfold owed, unclean. cbn. split.
    - intros [(i & H1 & H2 & H3 & H4)|(n & c & H1 & H2 & H3 & H4)].
      + left. exists i. up (nb s) i; [now elim H3|]. repeat split; auto; lia.
      + up b b'.
        * injection H1 as <-. rewrite upd_eq in H2. discriminate.
        * right. destruct (NN _ _ H1) as [X _]. rewrite upd_ne in H2, H3 by assumption. eauto 6.
    - intros [(i & H1 & H2 & H3 & H4)|(n & c & H1 & H2 & H3 & H4)].
      + left. exists i. rewrite upd_ne by lia. repeat split; auto.
      + right. exists n, c. destruct (NN _ _ H1) as [X _]. rewrite !upd_ne by congruence. auto. }
  specialize (OW _ eq_refl).
  constructor; try exact (i_cur _ _ _ I); try exact (i_ph _ _ _ I); try exact (i_hcp _ _ _ I).
  - cbn. intros b' n X. up b b'.
    + injection X as <-. rewrite ?upd_eq. cbn. auto.
    + destruct (i_cache _ _ _ I _ _ X). rewrite upd_ne by lia. auto.
  - cbn. intros n L. up (nn s) n.
    + cbn. rewrite ?upd_eq. cbn. auto.
    + destruct (i_nbuf _ _ _ I n ltac:(lia)). rewrite upd_ne by lia. auto.
  - cbn. intros n L. up (nn s) n; [reflexivity|]. intros X. apply (i_unc _ _ _ I); [lia|].
    intros Y. apply X. rewrite upd_ne; [assumption|]. congruence.
  - cbn. intros n c L. up (nn s) n; [discriminate|]. intros X. rewrite upd_ne by (apply NB; lia).
    apply (i_lock _ _ _ I); [lia|assumption].
  - cbn. intros n L. up (nn s) n; [discriminate|]. apply (i_pend _ _ _ I). lia.
  - cbn. intros b' i X L. up b b'; [discriminate|]. unfold unclean. cbn. up (nb s) i.
    + cbn. intros _ Y. now apply Y.
    + intros Y. eapply (i_none _ _ _ I b' i); eauto. lia.
  - cbn. intros b' n X. up b b'.
    + injection X as <-. rewrite ?upd_eq. cbn. rewrite ?upd_eq. cbn.
      rewrite (i_disk2 _ _ _ I _ NO). symmetry. apply latest_prev; assumption.
    + destruct (NN _ _ X). rewrite ?(upd_ne (nodes s)), ?(upd_ne (bufs s)) by assumption. now apply (i_val _ _ _ I).
  - cbn. intros i L. up (nb s) i; [cbn; lia|]. apply (i_dle _ _ _ I). lia.
  - unfold unclean. cbn. intros i L. up (nb s) i; [intros Y; now elim Y|]. apply (i_dirt _ _ _ I). lia.
  - unfold unclean. cbn. intros i L. up (nb s) i; [intros Y; now elim Y|]. intros X Y.
    destruct (i_uc _ _ _ I i ltac:(lia) X Y) as (n & Z1 & Z2). exists n.
    rewrite !upd_ne; [auto| |congruence]. apply (NN _ _ Z1).
  - unfold unclean. cbn. intros i L. up (nb s) i; [intros Y; now elim Y|]. apply (i_up _ _ _ I). lia.
  - unfold unclean. cbn. intros i j L1 L2. up (nb s) i; [intros Y; now elim Y|].
    up (nb s) j; [intros _ Y; now elim Y|]. apply (i_up1 _ _ _ I); lia.
  - unfold unclean. cbn. intros b' n j X L. up (nb s) j; [cbn; intros _ Y; now elim Y|]. intros Y Z.
    up b b'.
    + exfalso. eapply (i_none _ _ _ I b j); eauto. lia.
    + destruct (NN _ _ X). rewrite ?(upd_ne (nodes s)), ?(upd_ne (bufs s)) by assumption. eapply (i_one _ _ _ I); eauto. lia.
  - cbn. intros i L. up (nb s) i; [discriminate|]. apply (i_flush _ _ _ I). lia.
  - unfold unclean. cbn. intros b' v X. destruct (i_hc _ _ _ I b' v X) as (n & Y1 & Y2).
    exists n. destruct (NN _ _ Y1). rewrite ?(upd_ne (nodes s)), ?(upd_ne (bufs s)), ?(upd_ne (cache s)) by (assumption || congruence). auto.
  - intros b' c v X1 X2 X3. apply OW. eapply (i_hp _ _ _ I); eauto.
  - intros b' X. apply OW in X. apply (i_disk1 _ _ _ I); assumption.
  - intros b' X. rewrite OW in X. apply (i_disk2 _ _ _ I); assumption.
  - exact (i_dlc _ _ _ I).
  - unfold unclean. cbn. intros i X. destruct (i_dlc1 _ _ _ I i X) as (Y & Z). rewrite upd_ne by lia. split; [lia|exact Z].
  - exact (i_cntc _ _ _ I).
  - unfold unclean. cbn. intros i L. up (nb s) i; [intros Y; now elim Y|]. apply (i_dlc2 _ _ _ I). lia.
  - exact (i_dlp _ _ _ I).
  - cbn. intros i X. generalize (i_dlpb _ _ _ I i X). lia.
  - unfold isp. cbn. intros X i Y. generalize (i_dlpb _ _ _ I i Y). intros Z. rewrite upd_ne by lia.
    apply (i_dlp1 _ _ _ I X i Y).
  - unfold unclean. cbn. intros i L. up (nb s) i; [intros Y; now elim Y|]. apply (i_dlp2 _ _ _ I). lia.
  - cbn. intros X. rewrite (i_cntp _ _ _ I X). f_equal. apply filter_ext_in. intros i Y.
    generalize (i_dlpb _ _ _ I i Y). intros Z. unfold isp. cbn. rewrite upd_ne by lia. reflexivity.
Qed.

(** Two cached nodes with the same buffer are the same. *)
Lemma cached_inj d s h n m b b' : Inv d s h -> cache s b = Some n -> cache s b' = Some m ->
  nbuf (nodes s n) = nbuf (nodes s m) -> n = m /\ b = b'.
Proof.
  intros I X Y E. destruct (i_cache _ _ _ I _ _ X) as [L1 B1]. destruct (i_cache _ _ _ I _ _ Y) as [L2 B2].
  destruct (i_nbuf _ _ _ I _ L1) as [_ Z1]. destruct (i_nbuf _ _ _ I _ L2) as [_ Z2].
  rewrite E in Z1. assert (b = b') by congruence. subst b'. split; congruence.
Qed.

Lemma locked_cached d s h n c : Inv d s h -> n < nn s -> nlock (nodes s n) = Some c ->
  cache s (nblk (nodes s n)) = Some n.
Proof.
  intros I L X. destruct (cache s (nblk (nodes s n))) as [m|] eqn:C.
  - destruct (Nat.eq_dec m n) as [->|N]; [reflexivity|].
    rewrite (i_unc _ _ _ I n L) in X by congruence. discriminate.
  - rewrite (i_unc _ _ _ I n L) in X by congruence. discriminate.
Qed.

(** Only the holder of the lock changes. *)
Lemma relock_inv d s h n lk : Inv d s h -> n < nn s -> npend (nodes s n) = false ->
  (forall c, lk = Some c -> cache s (nblk (nodes s n)) = Some n /\
     bdirt (bufs s (nbuf (nodes s n))) = c /\ (c = cur s \/ (S c = cur s /\ ph s = Draining))) ->
  Inv d (set_nodes s (upd (nodes s) n (Node (nblk (nodes s n)) (nbuf (nodes s n)) lk false))) h.
Proof.
  intros I L P K.
  set (s' := set_nodes s _).
  assert (NB : forall m, nbuf (nodes s' m) = nbuf (nodes s m)).
  { intros m. cbn. up n m; reflexivity. }
  assert (NK : forall m, nblk (nodes s' m) = nblk (nodes s m)).
  { intros m. cbn. up n m; reflexivity. }
  assert (NP : forall m, npend (nodes s' m) = npend (nodes s m)).
  { intros m. cbn. up n m; [now rewrite P|reflexivity]. }
  assert (OW : forall b, owed s' b <-> owed s b).
  { intros b. split; (intros [X|(m & c & X1 & X2 & X3 & X4)]; [left; exact X|]; right; exists m, c).
    - rewrite NP in X2. cbn in X3. up n m; [congruence|]. auto.
    - rewrite NP. cbn. up n m; [congruence|]. auto. }
  constructor; try exact (i_cur _ _ _ I); try exact (i_ph _ _ _ I); try exact (i_hcp _ _ _ I).
  - intros b m X. rewrite NK. exact (i_cache _ _ _ I b m X).
  - intros m X. rewrite NB, NK. exact (i_nbuf _ _ _ I m X).
  - intros m X. rewrite NK. cbn. up n m.
    + cbn. intros Y. destruct lk as [c|]; [|reflexivity]. destruct (K c eq_refl). contradiction.
    + apply (i_unc _ _ _ I); assumption.
  - intros m c X. rewrite NB. cbn. up n m.
    + cbn. intros ->. apply (K c eq_refl).
    + apply (i_lock _ _ _ I); assumption.
  - intros m X. cbn. up n m; [discriminate|]. apply (i_pend _ _ _ I); assumption.
  - exact (i_none _ _ _ I).
  - intros b m. rewrite NB. apply (i_val _ _ _ I).
  - exact (i_dle _ _ _ I).
  - exact (i_dirt _ _ _ I).
  - intros i X1 X2 X3. destruct (i_uc _ _ _ I i X1 X2 X3) as (m & Y1 & Y2). exists m. rewrite NB. auto.
  - exact (i_up _ _ _ I).
  - exact (i_up1 _ _ _ I).
  - intros b m j. rewrite NB. apply (i_one _ _ _ I).
  - exact (i_flush _ _ _ I).
  - intros b v X. destruct (i_hc _ _ _ I b v X) as (m & Y). exists m. rewrite NB, NP. exact Y.
  - intros b c v X1 X2 X3. apply OW. eapply (i_hp _ _ _ I); eauto.
  - intros b X. apply OW in X. apply (i_disk1 _ _ _ I); assumption.
  - intros b X. rewrite OW in X. apply (i_disk2 _ _ _ I); assumption.
  - exact (i_dlc _ _ _ I).
  - exact (i_dlc1 _ _ _ I).
  - exact (i_cntc _ _ _ I).
  - exact (i_dlc2 _ _ _ I).
  - exact (i_dlp _ _ _ I).
  - exact (i_dlpb _ _ _ I).
  - exact (i_dlp1 _ _ _ I).
  - exact (i_dlp2 _ _ _ I).
  - exact (i_cntp _ _ _ I).
Qed.

(** A clean buffer is taken over by a newer CP. *)
Lemma redirt_inv d s h n c : Inv d s h -> n < nn s -> nlock (nodes s n) = None ->
  cache s (nblk (nodes s n)) = Some n ->
  let i := nbuf (nodes s n) in
  ~ unclean s i -> bdirt (bufs s i) < c -> c <= cur s ->
  Inv d (set_bufs s (upd (bufs s) i (Buf (bblk (bufs s i)) (bval (bufs s i)) (bst (bufs s i)) c))) h.
Proof.
  intros I L NL CA i CL D1 D2.
  set (s' := set_bufs s _).
  assert (BK : forall j, bblk (bufs s' j) = bblk (bufs s j)).
  { intros j. cbn. up i j; reflexivity. }
  assert (BV : forall j, bval (bufs s' j) = bval (bufs s j)).
  { intros j. cbn. up i j; reflexivity. }
  assert (BS : forall j, bst (bufs s' j) = bst (bufs s j)).
  { intros j. cbn. up i j; reflexivity. }
  assert (UN : forall j, unclean s' j <-> unclean s j).
  { intros j. unfold unclean. rewrite BS. reflexivity. }
  assert (BD : forall j, unclean s j -> bdirt (bufs s' j) = bdirt (bufs s j)).
  { intros j X. cbn. up i j; [contradiction|reflexivity]. }
  assert (BD2 : forall m, cache s (nblk (nodes s m)) = Some m -> m <> n ->
     bdirt (bufs s' (nbuf (nodes s m))) = bdirt (bufs s (nbuf (nodes s m)))).
  { intros m X N. cbn. rewrite upd_ne; [reflexivity|]. intros E. apply N.
    apply (cached_inj _ _ _ _ _ _ _ I X CA E). }
  assert (OW : forall b, owed s' b <-> owed s b).
  { intros b. unfold owed. split; (intros [(j & X1 & X2 & X3 & X4)|X]; [left; exists j|right; exact X]).
    - apply UN in X3. rewrite BK in X2. rewrite (BD j X3) in X4. auto.
    - rewrite UN, BK, (BD j X3). auto. }
  constructor; try exact (i_cur _ _ _ I); try exact (i_ph _ _ _ I); try exact (i_hcp _ _ _ I);
    try exact (i_cache _ _ _ I); try exact (i_unc _ _ _ I); try exact (i_pend _ _ _ I).
  - intros m X. rewrite BK. exact (i_nbuf _ _ _ I m X).
  - intros m c' X Y. change (nodes s') with (nodes s); rewrite BD2; [apply (i_lock _ _ _ I); assumption| |].
    + eapply locked_cached; eauto.
    + intros ->. cbn in Y. congruence.
  - intros b j. rewrite BK, UN. apply (i_none _ _ _ I).
  - intros b m. rewrite BV. apply (i_val _ _ _ I).
  - intros j X. cbn. up i j; [exact D2|]. apply (i_dle _ _ _ I); assumption.
  - intros j X Y. apply UN in Y. rewrite (BD j Y). apply (i_dirt _ _ _ I); assumption.
  - intros j X Y. apply UN in Y. rewrite (BD j Y), BK. apply (i_uc _ _ _ I); assumption.
  - intros j X Y. apply UN in Y. rewrite (BD j Y), BK, BV. apply (i_up _ _ _ I); assumption.
  - intros j k X X' Y Y'. apply UN in Y, Y'. rewrite (BD j Y), (BD k Y'), !BK. apply (i_up1 _ _ _ I); assumption.
  - intros b m j X Y Z W. change (cache s b = Some m) in X. apply UN in W. rewrite BK in Z. rewrite (BD j W).
    destruct (i_one _ _ _ I b m j X Y Z W) as [->|[U V]]; [now left|]. right. split; [exact U|].
    destruct (Nat.eq_dec m n) as [->|N]; [fold i in V; lia|].
    change (nodes s') with (nodes s); rewrite BD2; [exact V| |exact N]. destruct (i_cache _ _ _ I _ _ X). congruence.
  - intros j X. rewrite BS. intros Y. rewrite BD; [apply (i_flush _ _ _ I); assumption|].
    unfold unclean. rewrite Y. discriminate.
  - intros b v X. destruct (i_hc _ _ _ I b v X) as (m & Y1 & Y2 & Y3). exists m. split; [exact Y1|].
    destruct (Nat.eq_dec m n) as [->|N]; [fold i in Y2; lia|].
    change (nodes s') with (nodes s); rewrite BD2; [split; [exact Y2|rewrite UN; exact Y3]| |exact N]. destruct (i_cache _ _ _ I _ _ Y1). congruence.
  - intros b c' v X1 X2 X3. apply OW. eapply (i_hp _ _ _ I); eauto.
  - intros b X. apply OW in X. apply (i_disk1 _ _ _ I); assumption.
  - intros b X. rewrite OW in X. apply (i_disk2 _ _ _ I); assumption.
  - exact (i_dlc _ _ _ I).
  - intros j X. destruct (i_dlc1 _ _ _ I j X) as (Y1 & Y2 & Y3). rewrite UN, (BD j Y2). auto.
  - exact (i_cntc _ _ _ I).
  - intros j X Y. apply UN in Y. rewrite (BD j Y). apply (i_dlc2 _ _ _ I); assumption.
  - exact (i_dlp _ _ _ I).
  - exact (i_dlpb _ _ _ I).
  - intros X j Y. assert (Z := i_dlp1 _ _ _ I X j Y). apply isp_iff in Z. destruct Z as [Z1 Z2].
    apply isp_iff. rewrite UN, (BD j Z1). auto.
  - intros j X Y. apply UN in Y. rewrite (BD j Y). apply (i_dlp2 _ _ _ I); assumption.
  - intros X. change (cntp s') with (cntp s). rewrite (i_cntp _ _ _ I X). f_equal. apply filter_ext.
    intros j. destruct (isp s j) eqn:Q.
    + apply isp_iff in Q. destruct Q as [Q1 Q2]. symmetry. apply isp_iff. rewrite UN, (BD j Q1). auto.
    + symmetry. apply not_true_iff_false. intros R. apply isp_iff in R. destruct R as [R1 R2].
      apply UN in R1. rewrite (BD j R1) in R2. assert (isp s j = true) by (apply isp_iff; auto). congruence.
Qed.

(** A dirty buffer is copied for a newer CP. *)
Lemma copy_inv d s h n : Inv d s h -> n < nn s -> nlock (nodes s n) = None ->
  cache s (nblk (nodes s n)) = Some n ->
  let i := nbuf (nodes s n) in
  unclean s i -> bdirt (bufs s i) < cur s ->
  Inv d (St (upd (nodes s) n (Node (nblk (nodes s n)) (nb s) None false)) (nn s)
            (upd (bufs s) (nb s) (Buf (bblk (bufs s i)) (bval (bufs s i)) CLEAN (cur s))) (S (nb s))
            (cache s) (disk s) (cur s) (ph s) (dlc s) (cntc s) (dlp s) (cntp s)) h.
Proof.
  intros I L NL CA i UC D1.
  destruct (i_nbuf _ _ _ I n L) as [LI BI]. fold i in LI, BI.
  set (s' := St _ _ _ _ _ _ _ _ _ _ _ _).
  assert (PE : npend (nodes s n) = false).
  { destruct (npend (nodes s n)) eqn:E; [|reflexivity]. elim (i_pend _ _ _ I n L E NL). }
  assert (NK : forall m, nblk (nodes s' m) = nblk (nodes s m)).
  { intros m. cbn. up n m; reflexivity. }
  assert (NLK : forall m, nlock (nodes s' m) = nlock (nodes s m)).
  { intros m. cbn. up n m; [now rewrite NL|reflexivity]. }
  assert (NP : forall m, npend (nodes s' m) = npend (nodes s m)).
  { intros m. cbn. up n m; [now rewrite PE|reflexivity]. }
  assert (NB : forall m, m <> n -> nbuf (nodes s' m) = nbuf (nodes s m)).
  { intros m N. cbn. now rewrite upd_ne. }
  assert (NBn : nbuf (nodes s' n) = nb s) by (cbn; now rewrite upd_eq).
  assert (OB : forall j, j < nb s -> bufs s' j = bufs s j).
  { intros j X. cbn. rewrite upd_ne by lia. reflexivity. }
  assert (UN : forall j, unclean s' j <-> unclean s j /\ j <> nb s).
  { intros j. unfold unclean. cbn. up (nb s) j; cbn; tauto. }
  assert (LT : forall j, j < S (nb s) -> unclean s' j -> j < nb s /\ unclean s j).
  { intros j X Y. apply UN in Y. destruct Y. split; [lia|assumption]. }
  assert (OW : forall b, owed s' b <-> owed s b).
  { intros b. unfold owed. split; (intros [(j & X1 & X2 & X3 & X4)|(m & c & X1 & X2 & X3 & X4)];
      [left; exists j|right; exists m, c]).
    - destruct (LT j X1 X3) as [Y1 Y2]. rewrite (OB j Y1) in X2, X4. auto.
    - rewrite NP in X2. rewrite NLK in X3. auto.
    - rewrite UN, (OB j X1). cbn. repeat split; auto; lia.
    - rewrite NP, NLK. auto. }
  assert (NBL : forall m, m < nn s -> m <> n -> bufs s' (nbuf (nodes s' m)) = bufs s (nbuf (nodes s m))).
  { intros m X N. rewrite (NB m N). apply OB. apply (i_nbuf _ _ _ I m X). }
  assert (CM : forall b m, cache s b = Some m -> b <> nblk (nodes s n) -> m <> n).
  { intros b m X N ->. destruct (i_cache _ _ _ I _ _ X). congruence. }
  constructor; try exact (i_cur _ _ _ I); try exact (i_ph _ _ _ I); try exact (i_hcp _ _ _ I).
  - intros b m X. rewrite NK. exact (i_cache _ _ _ I b m X).
  - intros m X. rewrite NK. destruct (Nat.eq_dec m n) as [->|N].
    + rewrite NBn. cbn. rewrite upd_eq. cbn. split; [lia|exact BI].
    + rewrite NBL by assumption. rewrite (NB m N). destruct (i_nbuf _ _ _ I m X). cbn. split; [lia|assumption].
  - intros m X. rewrite NK, NLK. apply (i_unc _ _ _ I); assumption.
  - intros m c X. rewrite NLK. intros Y. destruct (Nat.eq_dec m n) as [->|N]; [congruence|].
    rewrite NBL by assumption. apply (i_lock _ _ _ I); assumption.
  - intros m X. rewrite NP, NLK. apply (i_pend _ _ _ I); assumption.
  - intros b j X Y Z W. destruct (LT j Y W) as [Y1 W1]. rewrite (OB j Y1) in Z.
    exact (i_none _ _ _ I b j X Y1 Z W1).
  - intros b m X. destruct (Nat.eq_dec m n) as [->|N].
    + rewrite NBn. cbn. rewrite upd_eq. cbn. unfold i. apply (i_val _ _ _ I); exact X.
    + rewrite NBL; [apply (i_val _ _ _ I); exact X| |exact N]. apply (i_cache _ _ _ I _ _ X).
  - intros j X. cbn. up (nb s) j; [cbn; lia|]. apply (i_dle _ _ _ I). cbn in X. lia.
  - intros j X Y. destruct (LT j X Y) as [X1 Y1]. rewrite (OB j X1). apply (i_dirt _ _ _ I); assumption.
  - intros j X Y. destruct (LT j X Y) as [X1 Y1]. rewrite (OB j X1). intros Z.
    change (bdirt (bufs s j) = cur s) in Z.
    destruct (i_uc _ _ _ I j X1 Y1 Z) as (m & W1 & W2). exists m. split; [exact W1|].
    rewrite NB; [exact W2|]. intros ->. fold i in W2. rewrite <- W2 in Z. lia.
  - intros j X Y. destruct (LT j X Y) as [X1 Y1]. rewrite (OB j X1). apply (i_up _ _ _ I); assumption.
  - intros j k X X' Y Y'. destruct (LT j X Y) as [X1 Y1]. destruct (LT k X' Y') as [X2 Y2].
    rewrite (OB j X1), (OB k X2). apply (i_up1 _ _ _ I); assumption.
  - intros b m j X Y Z W. destruct (LT j Y W) as [Y1 W1]. rewrite (OB j Y1) in *.
    destruct (i_one _ _ _ I b m j X Y1 Z W1) as [E|[U V]].
    + destruct (Nat.eq_dec m n) as [->|N].
      * right. fold i in E. subst j. rewrite NBn. cbn. rewrite upd_eq. cbn. split; [|reflexivity].
        destruct (i_dirt _ _ _ I i Y1 W1) as [Q|[Q _]]; [lia|exact Q].
      * left. rewrite (NB m N). exact E.
    + destruct (Nat.eq_dec m n) as [->|N]; [fold i in V; lia|].
      right. rewrite NBL; [auto| |exact N]. apply (i_cache _ _ _ I _ _ X).
  - intros j X Y. assert (W : unclean s' j) by (unfold unclean; rewrite Y; discriminate).
    destruct (LT j X W) as [X1 Y1]. rewrite (OB j X1) in *. apply (i_flush _ _ _ I); assumption.
  - intros b v X. destruct (i_hc _ _ _ I b v X) as (m & Y1 & Y2 & Y3). exists m. split; [exact Y1|].
    assert (N : m <> n) by (intros ->; fold i in Y2; lia).
    destruct (i_cache _ _ _ I _ _ Y1) as [Z _].
    rewrite NBL by assumption. split; [exact Y2|]. rewrite NP. destruct Y3 as [Y3|Y3]; [left|right; exact Y3].
    apply UN. rewrite (NB m N). split; [exact Y3|]. destruct (i_nbuf _ _ _ I m Z). lia.
  - intros b c' v X1 X2 X3. apply OW. eapply (i_hp _ _ _ I); eauto.
  - intros b X. apply OW in X. apply (i_disk1 _ _ _ I); assumption.
  - intros b X. rewrite OW in X. apply (i_disk2 _ _ _ I); assumption.
  - exact (i_dlc _ _ _ I).
  - intros j X. destruct (i_dlc1 _ _ _ I j X) as (Y1 & Y2 & Y3). rewrite UN, (OB j Y1). cbn. repeat split; auto; lia.
  - exact (i_cntc _ _ _ I).
  - intros j X Y. destruct (LT j X Y) as [X1 Y1]. rewrite (OB j X1). apply (i_dlc2 _ _ _ I); assumption.
  - exact (i_dlp _ _ _ I).
  - intros j X. cbn. generalize (i_dlpb _ _ _ I j X). lia.
  - intros X j Y. assert (Z := i_dlp1 _ _ _ I X j Y). generalize (i_dlpb _ _ _ I j Y). intros W.
    unfold isp in *. rewrite (OB j W). exact Z.
  - intros j X Y. destruct (LT j X Y) as [X1 Y1]. rewrite (OB j X1). apply (i_dlp2 _ _ _ I); assumption.
  - intros X. change (cntp s') with (cntp s). rewrite (i_cntp _ _ _ I X). f_equal. apply filter_ext_in.
    intros j Y. generalize (i_dlpb _ _ _ I j Y). intros W. unfold isp. rewrite (OB j W). reflexivity.
Qed.

(** Only the values of [nodes] matter. *)
Lemma inv_ext d s h f : Inv d s h -> (forall m, f m = nodes s m) -> Inv d (set_nodes s f) h.
Proof.
  intros I E.
  assert (OW : forall b, owed (set_nodes s f) b <-> owed s b).
  { intros b. unfold owed, unclean. cbn.
    split; (intros [X|(m & c & X)]; [left; exact X|right; exists m, c]).
    - rewrite E in X. exact X.
    - rewrite E. exact X. }
  constructor; try exact (i_cur _ _ _ I); try exact (i_ph _ _ _ I); try exact (i_hcp _ _ _ I);
    try exact (i_none _ _ _ I); try exact (i_dle _ _ _ I); try exact (i_dirt _ _ _ I);
    try exact (i_up _ _ _ I); try exact (i_up1 _ _ _ I); try exact (i_flush _ _ _ I);
    try exact (i_dlc _ _ _ I); try exact (i_dlc1 _ _ _ I); try exact (i_cntc _ _ _ I);
    try exact (i_dlc2 _ _ _ I); try exact (i_dlp _ _ _ I); try exact (i_dlpb _ _ _ I);
    try exact (i_dlp1 _ _ _ I); try exact (i_dlp2 _ _ _ I); try exact (i_cntp _ _ _ I).
  - intros b m. cbn. rewrite E. apply (i_cache _ _ _ I).
  - intros m. cbn. rewrite E. apply (i_nbuf _ _ _ I).
  - intros m. cbn. rewrite E. apply (i_unc _ _ _ I).
  - intros m c. cbn. rewrite E. apply (i_lock _ _ _ I).
  - intros m. cbn. rewrite E. apply (i_pend _ _ _ I).
  - intros b m. cbn. rewrite E. apply (i_val _ _ _ I).
  - intros i X Y Z. destruct (i_uc _ _ _ I i X Y Z) as (m & W). exists m. cbn. rewrite E. exact W.
  - intros b m j. cbn. rewrite E. apply (i_one _ _ _ I).
  - intros b v X. destruct (i_hc _ _ _ I b v X) as (m & W). exists m. cbn. rewrite E. exact W.
  - intros b c v X1 X2 X3. apply OW. eapply (i_hp _ _ _ I); eauto.
  - intros b X. apply OW in X. apply (i_disk1 _ _ _ I); assumption.
  - intros b X. rewrite OW in X. apply (i_disk2 _ _ _ I); assumption.
Qed.

Lemma open_iff s c : open s c = true -> c = cur s \/ (S c = cur s /\ ph s = Draining).
Proof.
  unfold open. intros H. apply orb_true_iff in H. destruct H as [H|H].
  - left. now apply Nat.eqb_eq.
  - right. apply andb_true_iff in H. destruct H as [H1 H2]. split; [now apply Nat.eqb_eq|].
    destruct (ph s); try discriminate. reflexivity.
Qed.

Lemma lock_inv d s h n c : Inv d s h -> n < nn s -> open s c = true -> nlock (nodes s n) = None ->
  cache s (nblk (nodes s n)) = Some n -> Inv d (lock s n c) h.
Proof.
  intros I L O NL CA. apply open_iff in O.
  assert (PE : npend (nodes s n) = false).
  { destruct (npend (nodes s n)) eqn:E; [|reflexivity]. elim (i_pend _ _ _ I n L E NL). }
  unfold lock.
  destruct (Nat.eqb_spec (bdirt (bufs s (nbuf (nodes s n)))) c) as [E|E].
  { apply relock_inv; auto. intros c' [= <-]. auto. }
  destruct (Nat.ltb_spec c (bdirt (bufs s (nbuf (nodes s n))))) as [E2|E2]; [exact I|].
  destruct (clean (bufs s (nbuf (nodes s n)))) eqn:CL.
  - apply clean_iff in CL.
    assert (J := redirt_inv d s h n c I L NL CA CL ltac:(lia) ltac:(lia)).
    refine (relock_inv d _ h n (Some c) J L PE _).
    intros c' [= <-]. cbn. rewrite upd_eq. cbn. auto.
  - apply clean_nuc in CL.
    destruct (i_nbuf _ _ _ I n L) as [LI BI].
    destruct (i_dirt _ _ _ I _ LI CL) as [Q|[Q Q']]; [lia|].
    assert (c = cur s) by lia. subst c.
    assert (J := copy_inv d s h n I L NL CA CL ltac:(lia)).
    assert (K := relock_inv d _ h n (Some (cur s)) J L).
    cbn in K. rewrite upd_eq in K. cbn in K.
    specialize (K eq_refl).
    match type of K with ?A -> _ => assert (T : A) end.
    { intros c' [= <-]. rewrite ?upd_eq. cbn. auto. }
    specialize (K T).
    refine (inv_ext d _ h _ K _). intros m. cbn. unfold upd. destruct (m =? n); reflexivity.
Qed.

Lemma in_snoc (h : list change) x y : In x (h ++ [y]) <-> In x h \/ x = y.
Proof.
  rewrite in_app_iff. split; (intros [X|X]; [now left|right]).
  - destruct X as [X|[]]. now symmetry.
  - now left.
Qed.

Lemma asof_other d h b' c v k b : b' <> b \/ k < c -> asof d (h ++ [(b', c, v)]) k b = asof d h k b.
Proof.
  intros N. rewrite asof_snoc. destruct (Nat.eqb_spec b' b), (Nat.leb_spec c k); cbn; try reflexivity. lia.
Qed.

Lemma asof_this d h c v k b : c <= k -> asof d (h ++ [(b, c, v)]) k b = v.
Proof.
  intros L. rewrite asof_snoc, Nat.eqb_refl. apply Nat.leb_le in L. rewrite L. reflexivity.
Qed.

(** The holder changes the contents. *)
Lemma mod_inv d s h n c v : Inv d s h -> n < nn s -> nlock (nodes s n) = Some c ->
  let x := nodes s n in
  let y := bufs s (nbuf x) in
  Inv d (set_bufs (set_nodes s (upd (nodes s) n (Node (nblk x) (nbuf x) (nlock x) true)))
                (upd (bufs s) (nbuf x) (Buf (bblk y) v (bst y) (bdirt y)))) (h ++ [(nblk x, c, v)]).
Proof.
  intros I L LK x y. set (s' := set_bufs _ _).
  set (i := nbuf x). set (b0 := nblk x).
  assert (CA := locked_cached _ _ _ _ _ I L LK). fold x b0 in CA.
  destruct (i_lock _ _ _ I n c L LK) as [DI OP]. fold x i in DI.
  destruct (i_nbuf _ _ _ I n L) as [LI BI]. fold x i b0 in LI, BI.
  assert (NB : forall m, nbuf (nodes s' m) = nbuf (nodes s m)).
  { intros m. cbn. up n m; reflexivity. }
  assert (NK : forall m, nblk (nodes s' m) = nblk (nodes s m)).
  { intros m. cbn. up n m; reflexivity. }
  assert (NLK : forall m, nlock (nodes s' m) = nlock (nodes s m)).
  { intros m. cbn. up n m; reflexivity. }
  assert (NP : forall m, m <> n -> npend (nodes s' m) = npend (nodes s m)).
  { intros m N. cbn. now rewrite upd_ne. }
  assert (NPn : npend (nodes s' n) = true) by (cbn; now rewrite upd_eq).
  assert (BK : forall j, bblk (bufs s' j) = bblk (bufs s j)).
  { intros j. cbn. fold i. up i j; reflexivity. }
  assert (BS : forall j, bst (bufs s' j) = bst (bufs s j)).
  { intros j. cbn. fold i. up i j; reflexivity. }
  assert (BD : forall j, bdirt (bufs s' j) = bdirt (bufs s j)).
  { intros j. cbn. fold i. up i j; reflexivity. }
  assert (BV : forall j, j <> i -> bval (bufs s' j) = bval (bufs s j)).
  { intros j N. cbn. fold i. now rewrite upd_ne. }
  assert (BVi : bval (bufs s' i) = v) by (cbn; fold i; now rewrite upd_eq).
  assert (UN : forall j, unclean s' j <-> unclean s j).
  { intros j. unfold unclean. rewrite BS. reflexivity. }
  assert (ISP : forall j, isp s' j = isp s j).
  { intros j. unfold isp, clean. rewrite BS, BD. reflexivity. }
  assert (OW1 : forall b, owed s b -> owed s' b).
  { intros b [(j & X1 & X2 & X3 & X4)|(m & k & X1 & X2 & X3 & X4)]; [left; exists j|right; exists m, k].
    - rewrite BK, UN, BD. auto.
    - rewrite NLK. destruct (Nat.eq_dec m n) as [->|N]; [auto|rewrite (NP m N); auto]. }
  assert (OW2 : forall b, b <> b0 \/ c = cur s -> owed s' b -> owed s b).
  { intros b Q [(j & X1 & X2 & X3 & X4)|(m & k & X1 & X2 & X3 & X4)]; [left; exists j|right; exists m, k].
    - rewrite BK in X2. rewrite UN in X3. rewrite BD in X4. auto.
    - change (cache s b = Some m) in X1. change (S k = cur s) in X4.
      rewrite NLK in X3. destruct (Nat.eq_dec m n) as [->|N]; [|rewrite (NP m N) in X2; auto].
      exfalso. destruct (i_cache _ _ _ I _ _ X1) as [_ Z]. assert (k = c) by congruence.
      destruct Q as [Q|Q]; [apply Q; symmetry; exact Z|lia]. }
  (* what holds when the change is made for the previous CP *)
  assert (PREV : S c = cur s -> ph s = Draining /\ (forall w, ~ In (b0, cur s, w) h) /\
     (forall j, j < nb s -> bblk (bufs s j) = b0 -> unclean s j -> j = i)).
  { intros E. destruct OP as [OP|[_ OP]]; [lia|]. split; [exact OP|]. split.
    - intros w X. destruct (i_hc _ _ _ I b0 w X) as (m & Y1 & Y2 & _). assert (m = n) by congruence. subst m.
      fold x i in Y2. lia.
    - intros j X Y Z. destruct (i_one _ _ _ I b0 n j CA X Y Z) as [W|[_ W]]; [exact W|]. fold x i in W. lia. }
  constructor; try exact (i_cur _ _ _ I); try exact (i_ph _ _ _ I).
  - intros b k w X. apply in_snoc in X. destruct X as [X|X]; [exact (i_hcp _ _ _ I b k w X)|].
    injection X as -> -> ->. change (cur s') with (cur s). lia.
  - intros b m. rewrite NK. apply (i_cache _ _ _ I).
  - intros m. rewrite NB, NK, BK. apply (i_nbuf _ _ _ I).
  - intros m. rewrite NK, NLK. apply (i_unc _ _ _ I).
  - intros m k. rewrite NLK, NB, BD. apply (i_lock _ _ _ I).
  - intros m X. rewrite NLK. destruct (Nat.eq_dec m n) as [->|N]; [rewrite LK; discriminate|].
    rewrite (NP m N). apply (i_pend _ _ _ I). exact X.
  - intros b j. rewrite BK, UN. apply (i_none _ _ _ I).
  - intros b m X. change (cache s b = Some m) in X. rewrite NB, latest_snoc. fold b0.
    destruct (Nat.eqb_spec b0 b) as [<-|N].
    + assert (m = n) by congruence. subst m. exact BVi.
    + rewrite BV; [apply (i_val _ _ _ I); exact X|]. intros E. apply N.
      apply (cached_inj _ _ _ _ _ _ _ I CA X). symmetry. exact E.
  - intros j. rewrite BD. apply (i_dle _ _ _ I).
  - intros j. rewrite BD, UN. apply (i_dirt _ _ _ I).
  - intros j. rewrite BD, BK, UN. intros X Y Z. destruct (i_uc _ _ _ I j X Y Z) as (m & W). exists m. rewrite NB. exact W.
  - intros j X. rewrite BD, BK, UN. intros Y Z. change (cur s') with (cur s) in *. fold b0.
    destruct (Nat.eq_dec j i) as [->|N].
    + rewrite BVi, BI. symmetry. apply asof_this. lia.
    + rewrite (BV j N), asof_other; [apply (i_up _ _ _ I); assumption|].
      destruct (Nat.eq_dec b0 (bblk (bufs s j))) as [E|E]; [right|now left].
      destruct OP as [->|OP]; [lia|]. exfalso. apply N. destruct OP as [OP _].
      destruct (PREV OP) as (_ & _ & P3). apply P3; auto.
  - intros j k. rewrite !BD, !BK, !UN. apply (i_up1 _ _ _ I).
  - intros b m j. rewrite NB, !BD, BK, UN. apply (i_one _ _ _ I).
  - intros j. rewrite BS, BD. apply (i_flush _ _ _ I).
  - intros b w X. apply in_snoc in X. destruct X as [X|X].
    + destruct (i_hc _ _ _ I b w X) as (m & Y1 & Y2 & Y3). exists m. split; [exact Y1|].
      rewrite NB, BD, UN. split; [exact Y2|]. destruct Y3 as [Y3|Y3]; [now left|right].
      destruct (Nat.eq_dec m n) as [->|N]; [exact NPn|rewrite (NP m N); exact Y3].
    + injection X as -> E ->. exists n. split; [exact CA|]. rewrite NB, BD. fold x i.
      split; [rewrite DI; symmetry; exact E|right; exact NPn].
  - intros b k w X1 X2 X3. apply in_snoc in X3. destruct X3 as [X3|X3].
    + apply OW1. eapply (i_hp _ _ _ I); eauto.
    + injection X3 as -> -> ->. right. exists n, c. split; [exact CA|]. split; [exact NPn|]. rewrite NLK. auto.
  - intros b X. change (disk s b = asof d (h ++ [(b0, c, v)]) (cur s - 2) b).
    assert (C2 : cur s - 2 < c).
    { generalize (i_cur _ _ _ I). destruct OP as [OP|[OP PD]]; [lia|].
      assert (2 <= cur s) by (apply (i_ph _ _ _ I); rewrite PD; discriminate). lia. }
    rewrite asof_other by (right; exact C2).
    destruct (Nat.eq_dec b b0) as [->|N]; [|apply (i_disk1 _ _ _ I); apply OW2; auto].
    destruct OP as [OP|OP]; [apply (i_disk1 _ _ _ I); apply OW2; auto|].
    destruct OP as [OP PD]. destruct (PREV OP) as (_ & P2 & P3).
    assert (DEC : owed s b0 \/ ~ owed s b0).
    { destruct (npend (nodes s n)) eqn:PN.
      - left. right. exists n, c. auto.
      - destruct (clean (bufs s i)) eqn:CL.
        + right. apply clean_iff in CL. intros [(j & Y1 & Y2 & Y3 & Y4)|(m & k & Y1 & Y2 & Y3 & Y4)].
          * assert (j = i) by (apply P3; assumption). subst j. contradiction.
          * assert (m = n) by congruence. subst m. congruence.
        + left. left. apply clean_nuc in CL. exists i. repeat split; auto. rewrite DI. exact OP. }
    destruct DEC as [Y|Y]; [apply (i_disk1 _ _ _ I); exact Y|].
    rewrite (i_disk2 _ _ _ I _ Y). apply (asof_prev _ s); [exact I|apply (i_ph _ _ _ I); rewrite PD; discriminate|].
    intros k w E X'. apply Y. eapply (i_hp _ _ _ I); eauto.
  - intros b X. change (disk s b = asof d (h ++ [(b0, c, v)]) (cur s - 1) b).
    rewrite asof_other.
    + apply (i_disk2 _ _ _ I). intros Y. apply X. apply OW1. exact Y.
    + destruct (Nat.eq_dec b0 b) as [<-|N]; [right|now left]. destruct OP as [->|[OP PD]]; [generalize (i_cur _ _ _ I); lia|].
      exfalso. apply X. right. exists n, c. rewrite NLK. auto.
  - exact (i_dlc _ _ _ I).
  - intros j. rewrite BD, UN. apply (i_dlc1 _ _ _ I).
  - exact (i_cntc _ _ _ I).
  - intros j. rewrite BD, UN. apply (i_dlc2 _ _ _ I).
  - exact (i_dlp _ _ _ I).
  - exact (i_dlpb _ _ _ I).
  - intros X j. rewrite ISP. apply (i_dlp1 _ _ _ I X).
  - intros j. rewrite BD, UN. apply (i_dlp2 _ _ _ I).
  - intros X. change (cntp s') with (cntp s). rewrite (i_cntp _ _ _ I X). f_equal. apply filter_ext.
    intros j. symmetry. apply ISP.
Qed.

(** The holder writes the node; the lists of dirty buffers are left open. *)
Lemma write_gen d s h n c ca lc kc lp kp : Inv d s h -> n < nn s -> nlock (nodes s n) = Some c ->
  (forall b, ca b = cache s b) ->
  let x := nodes s n in
  let y := bufs s (nbuf x) in
  let s' := St (upd (nodes s) n (Node (nblk x) (nbuf x) (nlock x) false)) (nn s)
               (upd (bufs s) (nbuf x) (Buf (bblk y) (bval y) DIRTY (bdirt y))) (nb s)
               ca (disk s) (cur s) (ph s) lc kc lp kp in
  NoDup lc -> (forall i, In i lc -> i < nb s /\ unclean s' i /\ bdirt (bufs s' i) = cur s) ->
  kc = length lc ->
  (forall i, i < nb s -> unclean s' i -> bdirt (bufs s' i) = cur s -> In i lc) ->
  NoDup lp -> (forall i, In i lp -> i < nb s) ->
  (ph s = Draining -> forall i, In i lp -> isp s' i = true) ->
  (forall i, i < nb s -> unclean s' i -> S (bdirt (bufs s' i)) = cur s -> In i lp) ->
  (ph s <> Idle -> kp = length (filter (isp s') lp)) ->
  Inv d s' h.
Proof.
  intros I L LK CE x y s' F1 F2 F3 F4 F5 F6 F7 F8 F9.
  set (i := nbuf x). set (b0 := nblk x).
  assert (CA := locked_cached _ _ _ _ _ I L LK). fold x b0 in CA.
  destruct (i_lock _ _ _ I n c L LK) as [DI OP]. fold x i in DI.
  destruct (i_nbuf _ _ _ I n L) as [LI BI]. fold x i b0 in LI, BI.
  assert (NF : bst (bufs s i) <> FLUSHING).
  { intros X. destruct (i_flush _ _ _ I i LI X) as [Y1 Y2]. rewrite DI in Y1.
    destruct OP as [OP|[OP PD]]; [lia|congruence]. }
  assert (NB : forall m, nbuf (nodes s' m) = nbuf (nodes s m)).
  { intros m. cbn. up n m; reflexivity. }
  assert (NK : forall m, nblk (nodes s' m) = nblk (nodes s m)).
  { intros m. cbn. up n m; reflexivity. }
  assert (NLK : forall m, nlock (nodes s' m) = nlock (nodes s m)).
  { intros m. cbn. up n m; reflexivity. }
  assert (NP : forall m, m <> n -> npend (nodes s' m) = npend (nodes s m)).
  { intros m N. cbn. now rewrite upd_ne. }
  assert (NPn : npend (nodes s' n) = false) by (cbn; now rewrite upd_eq).
  assert (BK : forall j, bblk (bufs s' j) = bblk (bufs s j)).
  { intros j. cbn. fold i. up i j; reflexivity. }
  assert (BV : forall j, bval (bufs s' j) = bval (bufs s j)).
  { intros j. cbn. fold i. up i j; reflexivity. }
  assert (BD : forall j, bdirt (bufs s' j) = bdirt (bufs s j)).
  { intros j. cbn. fold i. up i j; reflexivity. }
  assert (UI : unclean s' i) by (unfold unclean; cbn; fold i; rewrite upd_eq; discriminate).
  assert (UN1 : forall j, unclean s j -> unclean s' j).
  { intros j X. destruct (Nat.eq_dec j i) as [->|N]; [exact UI|]. unfold unclean. cbn. fold i. now rewrite upd_ne. }
  assert (UN2 : forall j, unclean s' j -> j = i \/ unclean s j).
  { intros j. destruct (Nat.eq_dec j i) as [->|N]; [now left|]. unfold unclean. cbn. fold i. rewrite upd_ne by exact N. now right. }
  assert (LV : c = cur s \/ (bval (bufs s i) = asof d h (cur s - 1) b0 /\
               forall j, j < nb s -> bblk (bufs s j) = b0 -> unclean s j -> j = i)).
  { destruct OP as [OP|[OP PD]]; [now left|right]. split.
    - rewrite <- (latest_prev _ _ _ _ I); [apply (i_val _ _ _ I); exact CA|].
      intros w X. destruct (i_hc _ _ _ I b0 w X) as (m & Y1 & Y2 & _). assert (m = n) by congruence. subst m.
      fold x i in Y2. lia.
    - intros j X Y Z. destruct (i_one _ _ _ I b0 n j CA X Y Z) as [W|[_ W]]; [exact W|]. fold x i in W. lia. }
  (* owed for other blocks, and for this one *)
  assert (OW1 : forall b, owed s b -> owed s' b).
  { intros b [(j & X1 & X2 & X3 & X4)|(m & k & X1 & X2 & X3 & X4)].
    - left. exists j. rewrite BK, BD. auto.
    - destruct (Nat.eq_dec m n) as [->|N].
      + left. exists i. rewrite BK, BD. destruct (i_cache _ _ _ I _ _ X1) as [_ Z].
        repeat split; [exact LI|rewrite BI; exact Z|exact UI|]. rewrite DI. cbn. congruence.
      + right. exists m, k. rewrite NLK, (NP m N). cbn. rewrite CE. auto. }
  assert (OW2 : forall b, owed s' b -> owed s b \/ (b = b0 /\ S c = cur s)).
  { intros b [(j & X1 & X2 & X3 & X4)|(m & k & X1 & X2 & X3 & X4)].
    - rewrite BK in X2. rewrite BD in X4. destruct (UN2 j X3) as [->|X3'].
      + right. rewrite DI in X4. split; [congruence|exact X4].
      + left. left. exists j. auto.
    - cbn in X1. rewrite CE in X1. rewrite NLK in X3. destruct (Nat.eq_dec m n) as [->|N]; [congruence|].
      rewrite (NP m N) in X2. left. right. exists m, k. auto. }
  constructor; try exact (i_cur _ _ _ I); try exact (i_ph _ _ _ I); try exact (i_hcp _ _ _ I); try assumption.
  - intros b m. rewrite NK. cbn. rewrite CE. apply (i_cache _ _ _ I).
  - intros m. rewrite NB, NK, BK. apply (i_nbuf _ _ _ I).
  - intros m. rewrite NK, NLK. cbn. rewrite CE. apply (i_unc _ _ _ I).
  - intros m k. rewrite NLK, NB, BD. apply (i_lock _ _ _ I).
  - intros m X. rewrite NLK. destruct (Nat.eq_dec m n) as [->|N]; [congruence|].
    rewrite (NP m N). apply (i_pend _ _ _ I). exact X.
  - intros b j. rewrite BK. cbn. rewrite CE. intros X1 X2 X3 X4. destruct (UN2 j X4) as [->|X4'].
    + congruence.
    + exact (i_none _ _ _ I b j X1 X2 X3 X4').
  - intros b m. rewrite NB, BV. cbn. rewrite CE. apply (i_val _ _ _ I).
  - intros j. rewrite BD. apply (i_dle _ _ _ I).
  - intros j X Y. rewrite BD. destruct (UN2 j Y) as [->|Y']; [|apply (i_dirt _ _ _ I); assumption].
    rewrite DI. destruct OP as [OP|[OP PD]]; [now left|right]. split; [exact OP|]. cbn. rewrite PD. discriminate.
  - intros j X Y. rewrite BD, BK. cbn. rewrite CE. intros Z. destruct (UN2 j Y) as [->|Y'].
    + exists n. rewrite BI. split; [exact CA|]. rewrite upd_eq. reflexivity.
    + destruct (i_uc _ _ _ I j X Y' Z) as (m & W1 & W2). exists m. split; [exact W1|]. change (nbuf (nodes s' m) = j). rewrite NB. exact W2.
  - intros j X Y. rewrite BD, BK, BV. intros Z. destruct (UN2 j Y) as [->|Y']; [|apply (i_up _ _ _ I); assumption].
    rewrite DI in Z. destruct LV as [LV|[LV _]]; [cbn in Z; lia|]. rewrite BI. exact LV.
  - intros j k X1 X2 Y1 Y2. rewrite !BD, !BK. intros Z1 Z2 W.
    destruct (UN2 j Y1) as [->|Y1'], (UN2 k Y2) as [->|Y2'].
    + reflexivity.
    + rewrite DI in Z1. destruct LV as [LV|[_ LV]]; [cbn in Z1; lia|]. symmetry. apply LV; [exact X2|congruence|exact Y2'].
    + rewrite DI in Z2. destruct LV as [LV|[_ LV]]; [cbn in Z2; lia|]. apply LV; [exact X1|congruence|exact Y1'].
    + apply (i_up1 _ _ _ I); assumption.
  - intros b m j X Y Z W. rewrite BK in Z. rewrite NB, !BD. cbn in X. rewrite CE in X.
    destruct (UN2 j W) as [->|W']; [|apply (i_one _ _ _ I b m j X Y Z W')].
    left. assert (b = b0) by congruence. subst b. assert (m = n) by congruence. subst m. reflexivity.
  - intros j X Y. assert (Y' : bst (bufs s j) = FLUSHING).
    { cbn in Y. fold i in Y. destruct (Nat.eq_dec j i) as [->|N]; [rewrite upd_eq in Y; discriminate|].
      rewrite upd_ne in Y by exact N. exact Y. }
    rewrite BD. apply (i_flush _ _ _ I); assumption.
  - intros b w X. destruct (i_hc _ _ _ I b w X) as (m & Y1 & Y2 & Y3). exists m. rewrite NB, BD.
    split; [cbn; rewrite CE; exact Y1|]. split; [exact Y2|].
    destruct (Nat.eq_dec m n) as [->|N]; [left; exact UI|]. rewrite (NP m N).
    destruct Y3 as [Y3|Y3]; [left; apply UN1; exact Y3|now right].
  - intros b k w X1 X2 X3. apply OW1. eapply (i_hp _ _ _ I); eauto.
  - intros b X. change (disk s b = asof d h (cur s - 2) b).
    destruct (OW2 b X) as [Y|[-> Y]]; [apply (i_disk1 _ _ _ I); exact Y|].
    destruct OP as [OP|[OP PD]]; [lia|]. destruct LV as [LV|[LV1 LV2]]; [lia|].
    assert (DEC : owed s b0 \/ ~ owed s b0).
    { destruct (npend (nodes s n)) eqn:PN.
      - left. right. exists n, c. auto.
      - destruct (clean (bufs s i)) eqn:CL.
        + right. apply clean_iff in CL. intros [(j & Y1 & Y2 & Y3 & Y4)|(m & k & Y1 & Y2 & Y3 & Y4)].
          * assert (j = i) by (apply LV2; assumption). subst j. contradiction.
          * assert (m = n) by congruence. subst m. congruence.
        + left. left. apply clean_nuc in CL. exists i. repeat split; auto. rewrite DI. exact OP. }
    destruct DEC as [Z|Z]; [apply (i_disk1 _ _ _ I); exact Z|].
    rewrite (i_disk2 _ _ _ I _ Z). apply (asof_prev _ s); [exact I|apply (i_ph _ _ _ I); rewrite PD; discriminate|].
    intros k w E X'. apply Z. eapply (i_hp _ _ _ I); eauto.
  - intros b X. apply (i_disk2 _ _ _ I). intros Y. apply X. apply OW1. exact Y.
Qed.

Lemma filter_all {A} (f : A -> bool) l : (forall x, In x l -> f x = true) -> filter f l = l.
Proof.
  induction l as [|x l IH]; intros F; [reflexivity|]. cbn. rewrite (F x (or_introl eq_refl)).
  f_equal. apply IH. intros z Z. apply F. now right.
Qed.

Lemma NoDup_snoc {A} (l : list A) x : NoDup l -> ~ In x l -> NoDup (l ++ [x]).
Proof.
  intros N X. induction l as [|z l IH]; cbn; [constructor; [intros []|constructor]|].
  inversion N; subst. constructor.
  - rewrite in_app_iff. intros [Y|[Y|[]]]; [contradiction|]. subst. apply X. now left.
  - apply IH; [assumption|]. intros Y. apply X. now right.
Qed.

Lemma write_inv d s h n c : Inv d s h -> n < nn s -> nlock (nodes s n) = Some c -> Inv d (write s n c) h.
Proof.
  intros I L LK.
  assert (CA := locked_cached _ _ _ _ _ I L LK).
  destruct (i_lock _ _ _ I n c L LK) as [DI OP].
  destruct (i_nbuf _ _ _ I n L) as [LI BI].
  set (i := nbuf (nodes s n)) in *.
  assert (CE : forall b, upd (cache s) (nblk (nodes s n)) (Some n) b = cache s b).
  { intros b. unfold upd. destruct (Nat.eqb_spec b (nblk (nodes s n))) as [->|]; auto. }
  unfold write. fold i. destruct (clean (bufs s i)) eqn:CL.
  - apply clean_iff in CL.
    assert (NPL : ~ In i (dlc s)).
    { intros X. apply (i_dlc1 _ _ _ I) in X. tauto. }
    destruct (Nat.eqb_spec c (cur s)) as [E|E].
    + apply (write_gen d s h n c); auto; cbn; unfold isp, unclean, clean; cbn; fold i.
      * apply NoDup_snoc; [apply (i_dlc _ _ _ I)|exact NPL].
      * intros j X. apply in_app_iff in X. destruct X as [X|[<-|[]]].
        -- destruct (Nat.eq_dec j i) as [->|N]; [contradiction|]. rewrite upd_ne by exact N. apply (i_dlc1 _ _ _ I); exact X.
        -- rewrite upd_eq. cbn. repeat split; [exact LI|discriminate|congruence].
      * rewrite app_length, (i_cntc _ _ _ I). cbn. lia.
      * intros j X. destruct (Nat.eq_dec j i) as [->|N]; [intros; apply in_app_iff; right; now left|].
        rewrite upd_ne by exact N. intros Y Z. apply in_app_iff. left. apply (i_dlc2 _ _ _ I); assumption.
      * apply (i_dlp _ _ _ I).
      * apply (i_dlpb _ _ _ I).
      * intros X j Y. destruct (Nat.eq_dec j i) as [->|N].
        -- assert (Q := i_dlp1 _ _ _ I X i Y). apply isp_iff in Q. tauto.
        -- rewrite upd_ne by exact N. apply (i_dlp1 _ _ _ I X j Y).
      * intros j X. destruct (Nat.eq_dec j i) as [->|N]; [rewrite upd_eq; cbn; intros; lia|].
        rewrite upd_ne by exact N. apply (i_dlp2 _ _ _ I); assumption.
      * intros X. rewrite (i_cntp _ _ _ I X). f_equal. apply filter_ext. intros j. unfold isp, clean.
        destruct (Nat.eq_dec j i) as [->|N]; [|rewrite upd_ne by exact N; reflexivity].
        rewrite upd_eq.
        assert (NE : (S (bdirt (bufs s i)) =? cur s) = false) by (apply Nat.eqb_neq; lia).
        cbn in NE |- *. rewrite NE, ?andb_false_r. reflexivity.
    + destruct OP as [OP|[OP PD]]; [contradiction|].
      assert (NPP : ~ In i (dlp s)).
      { intros X. assert (Q := i_dlp1 _ _ _ I PD i X). apply isp_iff in Q. tauto. }
      assert (ALL : forall j, In j (dlp s ++ [i]) ->
        negb (clean (upd (bufs s) i (Buf (bblk (bufs s i)) (bval (bufs s i)) DIRTY (bdirt (bufs s i))) j)) &&
        (S (bdirt (upd (bufs s) i (Buf (bblk (bufs s i)) (bval (bufs s i)) DIRTY (bdirt (bufs s i))) j)) =? cur s) = true).
      { intros j Y. apply in_app_iff in Y. destruct (Nat.eq_dec j i) as [->|N].
        - rewrite upd_eq. apply andb_true_iff. split; [reflexivity|]. apply Nat.eqb_eq. cbn [bdirt]. lia.
        - rewrite upd_ne by exact N. destruct Y as [Y|[Y|[]]]; [|congruence]. apply (i_dlp1 _ _ _ I PD j Y). }
      apply (write_gen d s h n c); auto; cbn; unfold isp, unclean; cbn; fold i.
      * apply (i_dlc _ _ _ I).
      * intros j X. destruct (Nat.eq_dec j i) as [->|N]; [contradiction|]. rewrite upd_ne by exact N. apply (i_dlc1 _ _ _ I); exact X.
      * apply (i_cntc _ _ _ I).
      * intros j X. destruct (Nat.eq_dec j i) as [->|N]; [rewrite upd_eq; cbn; intros; lia|].
        rewrite upd_ne by exact N. apply (i_dlc2 _ _ _ I); assumption.
      * apply NoDup_snoc; [apply (i_dlp _ _ _ I)|exact NPP].
      * intros j X. apply in_app_iff in X. destruct X as [X|[<-|[]]]; [apply (i_dlpb _ _ _ I); exact X|exact LI].
      * intros j X. destruct (Nat.eq_dec j i) as [->|N]; [intros; apply in_app_iff; right; now left|].
        rewrite upd_ne by exact N. intros Y Z. apply in_app_iff. left. apply (i_dlp2 _ _ _ I); assumption.
      * intros X. rewrite (filter_all _ (dlp s ++ [i])); [|exact ALL].
        rewrite app_length. cbn. rewrite (i_cntp _ _ _ I X).
        rewrite (filter_all (isp s)); [lia|]. apply (i_dlp1 _ _ _ I PD).
  - apply clean_nuc in CL.
    assert (ST : bst (bufs s i) = DIRTY).
    { destruct (bst (bufs s i)) eqn:S1; [elim CL; exact S1|reflexivity|].
      destruct (i_flush _ _ _ I i LI S1) as [Y1 Y2]. destruct OP as [OP|[OP PD]]; [lia|congruence]. }
    assert (SM : forall j, upd (bufs s) i (Buf (bblk (bufs s i)) (bval (bufs s i)) DIRTY (bdirt (bufs s i))) j = bufs s j).
    { intros j. unfold upd. destruct (Nat.eqb_spec j i) as [->|]; [|reflexivity].
      rewrite <- ST. destruct (bufs s i); reflexivity. }
    apply (write_gen d s h n c); auto; cbn; unfold isp, unclean; cbn; fold i.
    + apply (i_dlc _ _ _ I).
    + intros j. rewrite SM. apply (i_dlc1 _ _ _ I).
    + apply (i_cntc _ _ _ I).
    + intros j. rewrite SM. apply (i_dlc2 _ _ _ I).
    + apply (i_dlp _ _ _ I).
    + apply (i_dlpb _ _ _ I).
    + intros X j. rewrite SM. apply (i_dlp1 _ _ _ I X).
    + intros j. rewrite SM. apply (i_dlp2 _ _ _ I).
    + intros X. rewrite (i_cntp _ _ _ I X). f_equal. apply filter_ext. intros j. rewrite SM. reflexivity.
Qed.

Lemma switch_inv d s h : Inv d s h -> ph s = Idle ->
  Inv d (St (nodes s) (nn s) (bufs s) (nb s) (cache s) (disk s) (S (cur s)) Draining
            [] 0 (dlc s) (cntc s)) h.
Proof.
  intros I PI. set (s' := St _ _ _ _ _ _ _ _ _ _ _ _).
  assert (UD : forall i, i < nb s -> unclean s i -> bdirt (bufs s i) = cur s).
  { intros i X Y. destruct (i_dirt _ _ _ I i X Y) as [Z|[_ Z]]; [exact Z|contradiction]. }
  assert (LD : forall n c, n < nn s -> nlock (nodes s n) = Some c ->
            bdirt (bufs s (nbuf (nodes s n))) = c /\ c = cur s).
  { intros n c X Y. destruct (i_lock _ _ _ I n c X Y) as [Z [W|[_ W]]]; [auto|congruence]. }
  assert (NO : forall b, ~ owed s b).
  { intros b [(i & X1 & X2 & X3 & X4)|(n & c & X1 & X2 & X3 & X4)].
    - rewrite (UD i X1 X3) in X4. lia.
    - destruct (i_cache _ _ _ I _ _ X1) as [Y _]. destruct (LD n c Y X3). lia. }
  assert (HC : forall b v, In (b, cur s, v) h -> owed s' b).
  { intros b v X. destruct (i_hc _ _ _ I b v X) as (n & Y1 & Y2 & Y3).
    destruct (i_cache _ _ _ I _ _ Y1) as [L B]. destruct (i_nbuf _ _ _ I n L) as [L2 B2].
    destruct Y3 as [Y3|Y3].
    - left. exists (nbuf (nodes s n)). repeat split; [exact L2|cbn; congruence|exact Y3|]. cbn. lia.
    - right. destruct (nlock (nodes s n)) as [c|] eqn:LK; [|elim (i_pend _ _ _ I n L Y3 LK)].
      exists n, c. repeat split; auto. cbn. destruct (LD n c L LK). lia. }
  constructor; try exact (i_cache _ _ _ I); try exact (i_nbuf _ _ _ I);
    try exact (i_unc _ _ _ I); try exact (i_pend _ _ _ I); try exact (i_none _ _ _ I); try exact (i_val _ _ _ I).
  - cbn. lia.
  - cbn. intros _. generalize (i_cur _ _ _ I). lia.
  - intros b c v X. cbn. generalize (i_hcp _ _ _ I b c v X). lia.
  - intros n c X Y. destruct (LD n c X Y) as [Z W]. split; [exact Z|right]. cbn. split; [lia|reflexivity].
  - intros i X. cbn. generalize (i_dle _ _ _ I i X). lia.
  - intros i X Y. right. cbn. rewrite (UD i X Y). split; [reflexivity|discriminate].
  - intros i X Y Z. cbn in Z. rewrite (UD i X Y) in Z. lia.
  - intros i X Y Z. cbn. destruct (i_uc _ _ _ I i X Y (UD i X Y)) as (n & W1 & W2). rewrite <- W2 at 1.
    rewrite (i_val _ _ _ I _ _ W1), Nat.sub_0_r. apply latest_asof. intros c v Q. apply (i_hcp _ _ _ I _ _ _ Q).
  - intros i j X1 X2 Y1 Y2 _ _ W. cbn in W.
    destruct (i_uc _ _ _ I i X1 Y1 (UD i X1 Y1)) as (n & Z1 & Z2).
    destruct (i_uc _ _ _ I j X2 Y2 (UD j X2 Y2)) as (m & Z3 & Z4). congruence.
  - intros b n j X Y Z W. left. cbn in *. destruct (i_uc _ _ _ I j Y W (UD j Y W)) as (m & Z1 & Z2). congruence.
  - intros i X Y. destruct (i_flush _ _ _ I i X Y) as [_ Z]. congruence.
  - intros b v X. exfalso. generalize (i_hcp _ _ _ I _ _ _ X). cbn. lia.
  - intros b c v _ X Y. cbn in X. injection X as ->. eapply HC; eauto.
  - intros b X. cbn. rewrite (i_disk2 _ _ _ I b (NO b)). f_equal.
  - intros b X. cbn. rewrite (i_disk2 _ _ _ I b (NO b)), Nat.sub_0_r.
    rewrite <- (latest_prev _ _ _ _ I).
    + apply latest_asof. intros c v Q. apply (i_hcp _ _ _ I _ _ _ Q).
    + intros v Q. apply X. eapply HC; eauto.
  - constructor.
  - intros i [].
  - reflexivity.
  - intros i X Y Z. cbn in Z. rewrite (UD i X Y) in Z. lia.
  - exact (i_dlc _ _ _ I).
  - intros i X. apply (i_dlc1 _ _ _ I i X).
  - intros _ i X. apply isp_iff. destruct (i_dlc1 _ _ _ I i X) as (Y1 & Y2 & Y3). split; [exact Y2|]. cbn. lia.
  - intros i X Y Z. apply (i_dlc2 _ _ _ I i X Y). apply UD; assumption.
  - intros _. cbn. rewrite filter_all; [apply (i_cntc _ _ _ I)|].
    intros i X. apply isp_iff. destruct (i_dlc1 _ _ _ I i X) as (Y1 & Y2 & Y3). split; [exact Y2|]. cbn. lia.
Qed.

Lemma start_inv d s h : Inv d s h -> ph s = Draining ->
  forallb (fun n => match nlock (nodes s n) with Some c => negb (S c =? cur s) | None => true end)
          (seq 0 (nn s)) = true ->
  Inv d (St (nodes s) (nn s) (bufs s) (nb s) (cache s) (disk s) (cur s) Flushing
            (dlc s) (cntc s) (dlp s) (cntp s)) h.
Proof.
  intros I PD F. rewrite forallb_forall in F.
  assert (Q : forall n c, n < nn s -> nlock (nodes s n) = Some c -> S c <> cur s).
  { intros n c X Y. assert (Q := F n). rewrite Y, in_seq in Q. specialize (Q ltac:(lia)).
    apply negb_true_iff, Nat.eqb_neq in Q. exact Q. }
  clear F.
  assert (PN : ph s <> Idle) by (rewrite PD; discriminate).
  destruct I. constructor; cbn in *; try assumption.
  - intros _. auto.
  - intros n c X Y. destruct (i_lock0 n c X Y) as [Z [W|[W _]]]; [auto|].
    elim (Q n c X Y W).
  - intros i X Y. destruct (i_dirt0 i X Y) as [Z|[Z _]]; [now left|right]. split; [exact Z|discriminate].
  - intros i X Y. destruct (i_flush0 i X Y). congruence.
  - intros b c v X. discriminate.
  - discriminate.
  - intros _. auto.
Qed.

Lemma finish_inv d s h : Inv d s h -> ph s = Flushing -> cntp s = 0 ->
  Inv d (St (nodes s) (nn s) (bufs s) (nb s) (cache s) (disk s) (cur s) Idle
            (dlc s) (cntc s) (dlp s) (cntp s)) h.
Proof.
  intros I PF C0.
  assert (PN : ph s <> Idle) by (rewrite PF; discriminate).
  assert (NU : forall i, i < nb s -> unclean s i -> bdirt (bufs s i) = cur s).
  { intros i X Y. destruct (i_dirt _ _ _ I i X Y) as [Z|[Z _]]; [exact Z|]. exfalso.
    assert (Q := i_dlp2 _ _ _ I i X Y Z). assert (K := i_cntp _ _ _ I PN). rewrite C0 in K.
    assert (In i (filter (isp s) (dlp s))) by (apply filter_In; split; [exact Q|apply isp_iff; auto]).
    destruct (filter (isp s) (dlp s)); [contradiction|discriminate]. }
  destruct I. constructor; cbn in *; try assumption.
  - intros X. now elim X.
  - intros n c X Y. destruct (i_lock0 n c X Y) as [Z [W|[_ W]]]; [auto|congruence].
  - intros i X Y. left. apply NU; assumption.
  - intros i X Y. exfalso. destruct (i_flush0 i X Y) as [Z _].
    rewrite NU in Z; [lia|exact X|]. unfold unclean. cbn. rewrite Y. discriminate.
  - intros b c v X. discriminate.
  - discriminate.
  - intros X. now elim X.
Qed.

Lemma pick_inv d s h i : Inv d s h -> ph s = Flushing -> In i (dlp s) -> bst (bufs s i) = DIRTY ->
  S (bdirt (bufs s i)) = cur s ->
  Inv d (set_bufs s (upd (bufs s) i (Buf (bblk (bufs s i)) (bval (bufs s i)) FLUSHING (bdirt (bufs s i))))) h.
Proof.
  intros I PF IN ST DI. set (s' := set_bufs _ _).
  assert (BK : forall j, bblk (bufs s' j) = bblk (bufs s j)).
  { intros j. cbn. up i j; reflexivity. }
  assert (BV : forall j, bval (bufs s' j) = bval (bufs s j)).
  { intros j. cbn. up i j; reflexivity. }
  assert (BD : forall j, bdirt (bufs s' j) = bdirt (bufs s j)).
  { intros j. cbn. up i j; reflexivity. }
  assert (BC : forall j, clean (bufs s' j) = clean (bufs s j)).
  { intros j. cbn. up i j; [unfold clean; rewrite ST|]; reflexivity. }
  assert (UN : forall j, unclean s' j <-> unclean s j).
  { intros j. rewrite <- !clean_nuc, BC. reflexivity. }
  assert (ISP : forall j, isp s' j = isp s j).
  { intros j. unfold isp. rewrite BC, BD. reflexivity. }
  assert (OW : forall b, owed s' b <-> owed s b).
  { intros b. split; (intros [(j & X1 & X2 & X3 & X4)|X]; [left; exists j|right; exact X]).
    - rewrite BK in X2. rewrite UN in X3. rewrite BD in X4. auto.
    - rewrite BK, UN, BD. auto. }
  constructor; try exact (i_cur _ _ _ I); try exact (i_ph _ _ _ I); try exact (i_hcp _ _ _ I);
    try exact (i_cache _ _ _ I); try exact (i_unc _ _ _ I); try exact (i_pend _ _ _ I);
    try exact (i_dlc _ _ _ I); try exact (i_cntc _ _ _ I); try exact (i_dlp _ _ _ I); try exact (i_dlpb _ _ _ I).
  - intros m. rewrite BK. apply (i_nbuf _ _ _ I).
  - intros m c. rewrite BD. apply (i_lock _ _ _ I).
  - intros b j. rewrite BK, UN. apply (i_none _ _ _ I).
  - intros b m. rewrite BV. apply (i_val _ _ _ I).
  - intros j. rewrite BD. apply (i_dle _ _ _ I).
  - intros j. rewrite BD, UN. apply (i_dirt _ _ _ I).
  - intros j. rewrite BD, UN, BK. apply (i_uc _ _ _ I).
  - intros j. rewrite BD, UN, BK, BV. apply (i_up _ _ _ I).
  - intros j k. rewrite !BD, !UN, !BK. apply (i_up1 _ _ _ I).
  - intros b m j. rewrite !BD, UN, BK. apply (i_one _ _ _ I).
  - intros j X. rewrite BD. cbn. up i j; [intros _; auto|]. apply (i_flush _ _ _ I); exact X.
  - intros b v X. destruct (i_hc _ _ _ I b v X) as (m & Y). exists m. rewrite BD, UN. exact Y.
  - intros b c v X1 X2 X3. apply OW. eapply (i_hp _ _ _ I); eauto.
  - intros b X. apply OW in X. apply (i_disk1 _ _ _ I); assumption.
  - intros b X. rewrite OW in X. apply (i_disk2 _ _ _ I); assumption.
  - intros j. rewrite BD, UN. apply (i_dlc1 _ _ _ I).
  - intros j. rewrite BD, UN. apply (i_dlc2 _ _ _ I).
  - intros X j. rewrite ISP. apply (i_dlp1 _ _ _ I X).
  - intros j. rewrite BD, UN. apply (i_dlp2 _ _ _ I).
  - intros X. change (cntp s') with (cntp s). rewrite (i_cntp _ _ _ I X). f_equal. apply filter_ext.
    intros j. symmetry. apply ISP.
Qed.

Lemma filter_drop (f g : nat -> bool) l i : NoDup l -> In i l -> f i = true -> g i = false ->
  (forall j, j <> i -> g j = f j) -> S (length (filter g l)) = length (filter f l).
Proof.
  intros N X F G E. induction l as [|z l IH]; [contradiction|]. inversion N as [|? ? N1 N2]; subst.
  cbn. destruct (Nat.eq_dec z i) as [->|NE].
  - rewrite F, G. cbn. f_equal. f_equal. apply filter_ext_in. intros j J. apply E. intros ->. contradiction.
  - destruct X as [X|X]; [congruence|]. rewrite (E z NE). destruct (f z); cbn; rewrite <- (IH N2 X); reflexivity.
Qed.

Lemma done_inv d s h i : Inv d s h -> i < nb s -> bst (bufs s i) = FLUSHING ->
  let y := bufs s i in
  Inv d (St (nodes s) (nn s) (upd (bufs s) i (Buf (bblk y) (bval y) CLEAN (bdirt y))) (nb s)
            (cache s) (upd (disk s) (bblk y) (bval y)) (cur s) (ph s)
            (dlc s) (cntc s) (dlp s) (cntp s - 1)) h.
Proof.
  intros I L ST y. set (s' := St _ _ _ _ _ _ _ _ _ _ _ _).
  destruct (i_flush _ _ _ I i L ST) as [DI PF].
  assert (UI : unclean s i) by (unfold unclean; rewrite ST; discriminate).
  assert (BK : forall j, bblk (bufs s' j) = bblk (bufs s j)).
  { intros j. cbn. up i j; reflexivity. }
  assert (BV : forall j, bval (bufs s' j) = bval (bufs s j)).
  { intros j. cbn. up i j; reflexivity. }
  assert (BD : forall j, bdirt (bufs s' j) = bdirt (bufs s j)).
  { intros j. cbn. up i j; reflexivity. }
  assert (UN : forall j, unclean s' j <-> unclean s j /\ j <> i).
  { intros j. unfold unclean. cbn. up i j; cbn; tauto. }
  assert (LD : forall n c, n < nn s -> nlock (nodes s n) = Some c -> c = cur s).
  { intros n c X Y. destruct (i_lock _ _ _ I n c X Y) as [Z [W|[_ W]]]; [auto|congruence]. }
  assert (OW : forall b, owed s' b <-> owed s b /\ b <> bblk y).
  { intros b. split.
    - intros [(j & X1 & X2 & X3 & X4)|(n & c & X1 & X2 & X3 & X4)].
      + rewrite BK in X2. apply UN in X3. rewrite BD in X4. destruct X3 as [X3 X5]. split.
        * left. exists j. auto.
        * intros E. apply X5. apply (i_up1 _ _ _ I); auto. rewrite X2. exact E.
      + exfalso. destruct (i_cache _ _ _ I _ _ X1) as [Z _]. rewrite (LD n c Z X3) in X4. cbn in X4. lia.
    - intros [[(j & X1 & X2 & X3 & X4)|(n & c & X1 & X2 & X3 & X4)] NE].
      + left. exists j. rewrite BK, UN, BD. repeat split; auto. intros ->. apply NE. symmetry. exact X2.
      + exfalso. destruct (i_cache _ _ _ I _ _ X1) as [Z _]. rewrite (LD n c Z X3) in X4. lia. }
  constructor; try exact (i_cur _ _ _ I); try exact (i_ph _ _ _ I); try exact (i_hcp _ _ _ I);
    try exact (i_cache _ _ _ I); try exact (i_unc _ _ _ I); try exact (i_pend _ _ _ I);
    try exact (i_dlc _ _ _ I); try exact (i_cntc _ _ _ I); try exact (i_dlp _ _ _ I); try exact (i_dlpb _ _ _ I).
  - intros m. rewrite BK. apply (i_nbuf _ _ _ I).
  - intros m c. rewrite BD. apply (i_lock _ _ _ I).
  - intros b j. rewrite BK, UN. intros X Y Z [W _]. exact (i_none _ _ _ I b j X Y Z W).
  - intros b m. rewrite BV. apply (i_val _ _ _ I).
  - intros j. rewrite BD. apply (i_dle _ _ _ I).
  - intros j X. rewrite BD, UN. intros [Y _]. apply (i_dirt _ _ _ I); assumption.
  - intros j X. rewrite BD, UN, BK. intros [Y _]. apply (i_uc _ _ _ I); assumption.
  - intros j X. rewrite BD, UN, BK, BV. intros [Y _]. apply (i_up _ _ _ I); assumption.
  - intros j k X1 X2. rewrite !BD, !UN, !BK. intros [Y1 _] [Y2 _]. apply (i_up1 _ _ _ I); assumption.
  - intros b m j X Y. rewrite !BD, UN, BK. intros Z [W _]. apply (i_one _ _ _ I b m j X Y Z W).
  - intros j X. rewrite BD. cbn. up i j; [discriminate|]. apply (i_flush _ _ _ I); exact X.
  - intros b v X. destruct (i_hc _ _ _ I b v X) as (m & Y1 & Y2 & Y3). exists m. rewrite BD, UN.
    split; [exact Y1|]. split; [exact Y2|]. destruct Y3 as [Y3|Y3]; [left|now right]. split; [exact Y3|].
    intros E. change (nbuf (nodes s m) = i) in E. rewrite E in Y2. lia.
  - intros b c v X. cbn in X. congruence.
  - intros b X. apply OW in X. destruct X as [X Y]. cbn. rewrite upd_ne by exact Y. apply (i_disk1 _ _ _ I); exact X.
  - intros b X. cbn. destruct (Nat.eq_dec b (bblk y)) as [->|N].
    + rewrite upd_eq. apply (i_up _ _ _ I); assumption.
    + rewrite upd_ne by exact N. apply (i_disk2 _ _ _ I). intros Y. apply X. apply OW. auto.
  - intros j X. destruct (i_dlc1 _ _ _ I j X) as (Y1 & Y2 & Y3). rewrite BD, UN. repeat split; auto.
    intros ->. lia.
  - intros j X. rewrite BD, UN. intros [Y _]. apply (i_dlc2 _ _ _ I); assumption.
  - intros X. cbn in X. congruence.
  - intros j X. rewrite BD, UN. intros [Y _]. apply (i_dlp2 _ _ _ I); assumption.
  - intros X. cbn. rewrite (i_cntp _ _ _ I X).
    rewrite <- (filter_drop (isp s) (isp s') (dlp s) i); [lia|apply (i_dlp _ _ _ I)| | | |].
    + apply (i_dlp2 _ _ _ I); assumption.
    + apply isp_iff. auto.
    + apply not_true_iff_false. rewrite isp_iff, UN. intros [[_ Q] _]. now apply Q.
    + intros j N. unfold isp, clean. cbn. rewrite upd_ne by exact N. reflexivity.
Qed.

Lemma evict_inv d s h b n : Inv d s h -> cache s b = Some n -> nlock (nodes s n) = None ->
  all_clean s b = true ->
  Inv d (St (nodes s) (nn s) (bufs s) (nb s) (upd (cache s) b None) (disk s) (cur s) (ph s)
            (dlc s) (cntc s) (dlp s) (cntp s)) h.
Proof.
  intros I CA NL AC. set (s' := St _ _ _ _ _ _ _ _ _ _ _ _).
  assert (AL : forall j, j < nb s -> bblk (bufs s j) = b -> ~ unclean s j).
  { intros j X Y. unfold all_clean in AC. rewrite forallb_forall in AC. specialize (AC j).
    rewrite in_seq in AC. specialize (AC ltac:(lia)). rewrite Y, Nat.eqb_refl in AC. cbn in AC. apply clean_iff. exact AC. }
  destruct (i_cache _ _ _ I _ _ CA) as [LN BN].
  assert (PE : npend (nodes s n) = false).
  { destruct (npend (nodes s n)) eqn:E; [|reflexivity]. elim (i_pend _ _ _ I n LN E NL). }
  assert (CS : forall b' m, cache s' b' = Some m -> cache s b' = Some m /\ b' <> b).
  { intros b' m X. cbn in X. up b b'; [discriminate|]. auto. }
  assert (CN : forall b', b' <> b -> cache s' b' = cache s b').
  { intros b' N. cbn. now rewrite upd_ne. }
  assert (OW : forall b', owed s' b' <-> owed s b').
  { intros b'. split; (intros [X|(m & c & X1 & X2)]; [left; exact X|right; exists m, c]).
    - destruct (CS _ _ X1). auto.
    - destruct (Nat.eq_dec b' b) as [->|N].
      + assert (m = n) by congruence. subst m. destruct X2. congruence.
      + rewrite (CN b' N). auto. }
  constructor; try exact (i_cur _ _ _ I); try exact (i_ph _ _ _ I); try exact (i_hcp _ _ _ I);
    try exact (i_nbuf _ _ _ I); try exact (i_lock _ _ _ I); try exact (i_pend _ _ _ I);
    try exact (i_dle _ _ _ I); try exact (i_dirt _ _ _ I); try exact (i_up _ _ _ I); try exact (i_up1 _ _ _ I);
    try exact (i_flush _ _ _ I);
    try exact (i_dlc _ _ _ I); try exact (i_dlc1 _ _ _ I); try exact (i_cntc _ _ _ I);
    try exact (i_dlc2 _ _ _ I); try exact (i_dlp _ _ _ I); try exact (i_dlpb _ _ _ I);
    try exact (i_dlp1 _ _ _ I); try exact (i_dlp2 _ _ _ I); try exact (i_cntp _ _ _ I).
  - intros b' m X. destruct (CS _ _ X). apply (i_cache _ _ _ I); assumption.
  - intros m X Y. change (cache s' (nblk (nodes s m)) <> Some m) in Y. change (nlock (nodes s m) = None).
    destruct (Nat.eq_dec (nblk (nodes s m)) b) as [E|N].
    + destruct (Nat.eq_dec m n) as [->|M]; [exact NL|]. apply (i_unc _ _ _ I); [exact X|]. rewrite E. congruence.
    + rewrite (CN _ N) in Y. apply (i_unc _ _ _ I); assumption.
  - intros b' j X Y Z. destruct (Nat.eq_dec b' b) as [->|N]; [exact (AL j Y Z)|].
    rewrite (CN _ N) in X. exact (i_none _ _ _ I b' j X Y Z).
  - intros b' m X. destruct (CS _ _ X). apply (i_val _ _ _ I); assumption.
  - intros j X Y Z. destruct (i_uc _ _ _ I j X Y Z) as (m & W1 & W2). exists m. split; [|exact W2].
    cbn. rewrite upd_ne; [exact W1|]. intros E. exact (AL j X E Y).
  - intros b' m j X. destruct (CS _ _ X). apply (i_one _ _ _ I); assumption.
  - intros b' v X. destruct (i_hc _ _ _ I b' v X) as (m & Y1 & Y2 & Y3). exists m. split; [|auto].
    cbn. rewrite upd_ne; [exact Y1|]. intros ->. assert (m = n) by congruence. subst m.
    destruct Y3 as [Y3|Y3]; [|congruence]. destruct (i_nbuf _ _ _ I n LN) as [Z1 Z2].
    apply (AL _ Z1); [congruence|exact Y3].
  - intros b' c v X1 X2 X3. apply OW. eapply (i_hp _ _ _ I); eauto.
  - intros b' X. apply OW in X. apply (i_disk1 _ _ _ I); assumption.
  - intros b' X. rewrite OW in X. apply (i_disk2 _ _ _ I); assumption.
Qed.

(** *** Every careful step keeps the invariant *)

Definition evhist (e : ev) : list change := hist [e].

Lemma holds_iff s n c : holds s n c = true <-> n < nn s /\ nlock (nodes s n) = Some c.
Proof.
  unfold holds. rewrite andb_true_iff, Nat.ltb_lt. destruct (nlock (nodes s n)) as [k|].
  - rewrite Nat.eqb_eq. split; intros [X Y]; split; congruence.
  - split; intros [X Y]; congruence.
Qed.

Lemma step_inv d s h e s' : Inv d s h -> careful s e = true -> step s e = Some s' ->
  Inv d s' (h ++ evhist e).
Proof.
  intros I C E. apply andb_true_iff in C. destruct C as [C1 C2].
  destruct e; cbn [step evhist hist] in *; rewrite ?app_nil_r.
  - injection E as <-. apply get_inv. exact I.
  - destruct ((n <? nn s) && open s c && _) eqn:G; [|discriminate]. injection E as <-.
    apply andb_true_iff in G. destruct G as [G G3]. apply andb_true_iff in G. destruct G as [G1 G2].
    apply Nat.ltb_lt in G1. apply lock_inv; auto.
    + destruct (nlock (nodes s n)); [discriminate|reflexivity].
    + unfold rule_use, is_cached in C1. destruct (cache s (nblk (nodes s n))) as [m|]; [|discriminate].
      apply Nat.eqb_eq in C1. now subst m.
  - destruct (holds s n c && (nblk (nodes s n) =? b)) eqn:G; [|discriminate]. injection E as <-.
    apply andb_true_iff in G. destruct G as [G1 G2]. apply holds_iff in G1. destruct G1 as [G1 G3].
    apply Nat.eqb_eq in G2. subst b. apply mod_inv; assumption.
  - destruct (holds s n c) eqn:G; [|discriminate]. injection E as <-. apply holds_iff in G. destruct G.
    apply write_inv; assumption.
  - destruct (holds s n c && negb (npend (nodes s n))) eqn:G; [|discriminate]. injection E as <-.
    apply andb_true_iff in G. destruct G as [G1 G2]. apply holds_iff in G1. destruct G1 as [G1 G3].
    apply negb_true_iff in G2. apply relock_inv; auto. intros k Q. discriminate.
  - destruct (ph s) eqn:P; try discriminate. injection E as <-. apply switch_inv; assumption.
  - destruct (ph s) eqn:P; try discriminate. destruct (forallb _ _) eqn:F; [|discriminate]. injection E as <-.
    apply start_inv; assumption.
  - destruct (ph s) eqn:P; try discriminate.
    destruct (existsb (Nat.eqb i) (dlp s) && _ && _) eqn:G; [|discriminate]. injection E as <-.
    apply andb_true_iff in G. destruct G as [G G3]. apply andb_true_iff in G. destruct G as [G1 G2].
    apply existsb_exists in G1. destruct G1 as (j & J1 & J2). apply Nat.eqb_eq in J2. subst j.
    apply Nat.eqb_eq in G3. apply pick_inv; auto. destruct (bst (bufs s i)); try discriminate. reflexivity.
  - destruct (bst (bufs s i)) eqn:B; try discriminate. destruct (Nat.ltb_spec i (nb s)); [|discriminate].
    injection E as <-. apply done_inv; assumption.
  - destruct (ph s) eqn:P; try discriminate. destruct (cntp s) eqn:K; [|discriminate]. injection E as <-.
    rewrite <- K. apply finish_inv; assumption.
  - unfold rule_use, rule_old in *. destruct (cache s b) as [n|] eqn:K; [|discriminate].
    destruct (clean _); [|discriminate]. injection E as <-.
    eapply evict_inv; eauto. destruct (nlock (nodes s n)); [discriminate|reflexivity].
Qed.

Lemma run_inv d : forall l s h s', Inv d s h -> run careful s l = Some s' -> Inv d s' (h ++ hist l).
Proof.
  induction l as [|e l IH]; intros s h s' I R; cbn [run] in R.
  - injection R as <-. cbn. rewrite app_nil_r. exact I.
  - destruct (careful s e) eqn:C; [|discriminate]. destruct (step s e) as [s1|] eqn:E; [|discriminate].
    assert (J := step_inv _ _ _ _ _ I C E). specialize (IH _ _ _ J R).
    replace (hist (e :: l)) with (evhist e ++ hist l); [rewrite app_assoc; exact IH|].
    unfold evhist. rewrite <- hist_app. reflexivity.
Qed.

Lemma reach_inv d l s : run careful (init d) l = Some s -> Inv d s (hist l).
Proof. intros R. exact (run_inv d l (init d) [] s (init_inv d) R). Qed.

Lemma run_app g l l' s : run g s (l ++ l') = match run g s l with Some s' => run g s' l' | None => None end.
Proof.
  revert s. induction l as [|e l IH]; intros s; [reflexivity|]. cbn.
  destruct (g s e); [|reflexivity]. destruct (step s e); [apply IH|reflexivity].
Qed.

(** *** Order of the changes *)

Lemma ordered_snoc h b c v : ordered h -> (forall c' v', In (b, c', v') h -> c' <= c) ->
  ordered (h ++ [(b, c, v)]).
Proof.
  intros O N a m z b1 c1 v1 c2 v2 E.
  destruct (exists_last (l := (b1, c2, v2) :: z) ltac:(discriminate)) as (z' & x & Z).
  assert (E2 : h ++ [(b, c, v)] = (a ++ (b1, c1, v1) :: m ++ z') ++ [x]).
  { rewrite E, Z, <- app_assoc. cbn. now rewrite <- app_assoc. }
  apply app_inj_tail in E2. destruct E2 as [E2 <-].
  destruct z' as [|y z']; cbn in Z.
  - injection Z as -> -> -> _. apply (N c1 v1). rewrite E2. apply in_app_iff. right. now left.
  - injection Z as <- Z. eapply (O a m z'). exact E2.
Qed.

Lemma run_ordered d : forall l s, run careful (init d) l = Some s -> ordered (hist l).
Proof.
  induction l as [|e l IH] using rev_ind; intros s R.
  - intros a m z b c v c' v' E. destruct a; discriminate.
  - rewrite run_app in R. destruct (run careful (init d) l) as [s0|] eqn:R0; [|discriminate].
    specialize (IH s0 eq_refl). assert (I := reach_inv _ _ _ R0). rewrite hist_app.
    destruct e; cbn [hist]; rewrite ?app_nil_r; try exact IH.
    cbn [run] in R. destruct (careful _ _); [|discriminate]. cbn [step] in R.
    destruct (holds s0 n c && (nblk (nodes s0 n) =? b)) eqn:G; [|discriminate].
    apply andb_true_iff in G. destruct G as [G1 G2]. apply holds_iff in G1. destruct G1 as [G1 G3].
    apply Nat.eqb_eq in G2. subst b.
    apply ordered_snoc; [exact IH|]. intros c' v' X.
    assert (LE := i_hcp _ _ _ I _ _ _ X).
    destruct (i_lock _ _ _ I n c G1 G3) as [DI OP].
    destruct (Nat.eq_dec c' (cur s0)) as [->|N]; [|destruct OP as [OP|[OP _]]; lia].
    destruct (i_hc _ _ _ I _ _ X) as (m & Y1 & Y2 & _).
    rewrite (locked_cached _ _ _ _ _ I G1 G3) in Y1. injection Y1 as <-. lia.
Qed.

(** *** Decidability *)

Lemma phase_eq_dec_idle (p : phase) : {p = Idle} + {p <> Idle}.
Proof. destruct p; [left|right|right]; congruence. Defined.

Lemma owed_dec s b : owed s b \/ ~ owed s b.
Proof.
  destruct (existsb (fun i => (bblk (bufs s i) =? b) && isp s i) (seq 0 (nb s))) eqn:E.
  - left. left. apply existsb_exists in E. destruct E as (i & X & Y). apply in_seq in X.
    apply andb_true_iff in Y. destruct Y as [Y Z]. apply Nat.eqb_eq in Y. apply isp_iff in Z.
    exists i. repeat split; try tauto; lia.
  - destruct (cache s b) as [n|] eqn:C.
    + destruct (npend (nodes s n)) eqn:P; [destruct (nlock (nodes s n)) as [c|] eqn:K;
        [destruct (Nat.eq_dec (S c) (cur s)) as [Q|Q]|]|].
      * left. right. exists n, c. auto.
      * right. intros [(i & X1 & X2 & X3 & X4)|(m & k & X1 & X2 & X3 & X4)]; [|congruence].
        apply not_true_iff_false in E. apply E. apply existsb_exists. exists i. split; [apply in_seq; lia|].
        apply andb_true_iff. split; [now apply Nat.eqb_eq|apply isp_iff; auto].
      * right. intros [(i & X1 & X2 & X3 & X4)|(m & k & X1 & X2 & X3 & X4)]; [|congruence].
        apply not_true_iff_false in E. apply E. apply existsb_exists. exists i. split; [apply in_seq; lia|].
        apply andb_true_iff. split; [now apply Nat.eqb_eq|apply isp_iff; auto].
      * right. intros [(i & X1 & X2 & X3 & X4)|(m & k & X1 & X2 & X3 & X4)]; [|congruence].
        apply not_true_iff_false in E. apply E. apply existsb_exists. exists i. split; [apply in_seq; lia|].
        apply andb_true_iff. split; [now apply Nat.eqb_eq|apply isp_iff; auto].
    + right. intros [(i & X1 & X2 & X3 & X4)|(m & k & X1 & X2 & X3 & X4)]; [|congruence].
      apply not_true_iff_false in E. apply E. apply existsb_exists. exists i. split; [apply in_seq; lia|].
      apply andb_true_iff. split; [now apply Nat.eqb_eq|apply isp_iff; auto].
Qed.
