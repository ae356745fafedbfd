(** * Proofs about chunks of a physical device. *)
From Coq Require Import Arith NArith List Lia Bool Permutation ZifyBool ZifyNat ZifyN.
From Verif Require Import Base ExtSpec ExtFacts BitmapModel BitmapProofs VarsizeModel VarsizeSpec VarsizeProofs PdevModel PdevSpec.
Import ListNotations.
Local Open Scope N_scope.

(** ** The sorted area *)
Fixpoint chain (cf : pcfg) (lo : N) (l : list ext) : Prop :=
  match l with
  | [] => True
  | x :: r => lo <= fst x /\ 0 < snd x /\ fst x + snd x <= p_end cf /\ chain cf (fst x + snd x) r
  end.

Lemma no_overlap : forall x y, 0 < snd x -> 0 < snd y -> ~ overlap x y ->
  fst x + snd x <= fst y \/ fst y + snd y <= fst x.
Proof. intros x y Hx Hy H. rewrite overlap_iff in H. lia. Qed.

Lemma overlap_sym : forall x y, overlap x y -> overlap y x.
Proof. intros x y [b [A B]]. now exists b. Qed.

Lemma chain_in : forall cf l lo x, chain cf lo l -> In x l -> lo <= fst x /\ 0 < snd x /\ fst x + snd x <= p_end cf.
Proof.
  induction l as [|y r IH]; intros lo x H Hx; [contradiction|]. cbn [chain] in H.
  destruct H as [A [B [C D]]]. destruct Hx as [->|Hx]; [lia|]. specialize (IH _ _ D Hx). lia.
Qed.

Lemma chain_lo : forall cf l lo lo', lo' <= lo -> chain cf lo l -> chain cf lo' l.
Proof. intros cf [|x r] lo lo' H C; cbn [chain] in *; [trivial|]. ands; try tauto. lia. Qed.

Lemma chain_insert : forall cf x l lo, chain cf lo l -> lo <= fst x -> 0 < snd x -> fst x + snd x <= p_end cf ->
  (forall y, In y l -> ~ overlap x y) -> chain cf lo (area_insert x l).
Proof.
  induction l as [|y r IH]; intros lo C Hl Hp He Ho; cbn [area_insert chain].
  - auto.
  - cbn [chain] in C. destruct C as [A [B [D F]]].
    assert (Hy := no_overlap x y Hp B (Ho y (or_introl eq_refl))).
    destruct (N.ltb_spec (fst x) (fst y)) as [E|E]; cbn [chain].
    + ands; auto; lia.
    + ands; auto. apply IH; auto; [lia|]. intros z Hz. apply Ho. now right.
Qed.

Lemma area_insert_perm : forall x l, Permutation (area_insert x l) (x :: l).
Proof.
  induction l as [|y r IH]; cbn [area_insert]; [auto|]. destruct (fst x <? fst y); [auto|].
  rewrite IH. apply perm_swap.
Qed.

Lemma chain_filter : forall cf f l lo, chain cf lo l -> chain cf lo (filter f l).
Proof.
  induction l as [|y r IH]; intros lo C; cbn [filter]; [trivial|]. cbn [chain] in C. destruct C as [A [B [D F]]].
  destruct (f y).
  - cbn [chain]. ands; auto.
  - apply chain_lo with (fst y + snd y); [lia|]. auto.
Qed.

Lemma chain_apart : forall cf l lo, chain cf lo l -> apart l.
Proof.
  induction l as [|y r IH]; intros lo C; cbn [apart]; [trivial|]. cbn [chain] in C. destruct C as [A [B [D F]]]. split.
  - intros z Hz Ho. apply overlap_iff in Ho. assert (H := chain_in _ _ _ _ F Hz). lia.
  - eauto.
Qed.

Lemma apart_perm : forall l l', Permutation l l' -> apart l -> apart l'.
Proof.
  intros l l' H. induction H as [|x l l' H IH|x y l|l l' l'' H1 IH1 H2 IH2]; intros A; cbn [apart] in *; auto.
  - destruct A as [A B]. split; auto. intros z Hz. apply A. now rewrite H.
  - destruct A as [A [B C]]. ands; auto.
    + intros z [E|Hz]; [subst z|now apply B]. intros Ho. apply (A _ (or_introl eq_refl)). now apply overlap_sym.
    + intros z Hz. apply A. now right.
Qed.

Lemma first_gap_ge : forall cf size l lo, chain cf lo l -> lo <= first_gap lo size l.
Proof.
  induction l as [|x r IH]; intros lo C; cbn [first_gap]; [lia|]. cbn [chain] in C. destruct C as [A [B [D F]]].
  destruct (N.leb_spec (lo + size) (fst x)); [lia|]. specialize (IH _ F). lia.
Qed.

Lemma first_gap_free : forall cf size l lo y, chain cf lo l -> In y l -> ~ overlap (first_gap lo size l, size) y.
Proof.
  induction l as [|x r IH]; intros lo y C Hy Ho; [contradiction|]. cbn [chain first_gap] in *. destruct C as [A [B [D F]]].
  destruct (N.leb_spec (lo + size) (fst x)) as [E|E].
  - apply overlap_iff in Ho. cbn [fst snd] in Ho. destruct Hy as [->|Hy]; [lia|].
    assert (H := chain_in _ _ _ _ F Hy). lia.
  - destruct Hy as [->|Hy]; [|eapply IH; eauto].
    apply overlap_iff in Ho. cbn [fst snd] in Ho. assert (H := first_gap_ge _ size _ _ F). lia.
Qed.

Lemma first_gap_least : forall cf size l lo s, chain cf lo l -> 0 < size -> lo <= s ->
  (forall y, In y l -> ~ overlap (s, size) y) -> first_gap lo size l <= s.
Proof.
  induction l as [|x r IH]; intros lo s C Hs Hl Ho; cbn [first_gap]; [lia|]. cbn [chain] in C. destruct C as [A [B [D F]]].
  assert (Hx := no_overlap (s, size) x Hs B (Ho x (or_introl eq_refl))). cbn [fst snd] in Hx.
  destruct (N.leb_spec (lo + size) (fst x)) as [E|E]; [lia|].
  apply IH; auto; [lia|]. intros y Hy. apply Ho. now right.
Qed.

(** ** Memory *)
Definition mok (cf : pcfg) (m : pmem) : Prop :=
  chain cf (p_start cf) (m_area m) /\ Permutation (ranges (m_chunks m)) (m_area m) /\
  NoDup (map fst (m_chunks m)) /\ Forall (fun c => fst c < p_nslots cf) (m_chunks m) /\
  incl (m_starts m) (map fst (m_area m)).

Lemma mok_placed : forall cf m, mok cf m -> placed_well cf (m_chunks m).
Proof.
  intros cf m [A [B [C _]]]. unfold placed_well. ands; auto.
  - apply Forall_perm with (m_area m); [now symmetry|]. rewrite Forall_forall. intros x Hx.
    assert (H := chain_in _ _ _ _ A Hx). unfold in_data_area. lia.
  - apply apart_perm with (m_area m); [now symmetry|]. eapply chain_apart; eauto.
Qed.

Lemma in_ranges_area : forall cf m c, mok cf m -> In c (m_chunks m) -> In (ci_ext (snd c)) (m_area m).
Proof.
  intros cf m c [A [B _]] H. eapply Permutation_in; [exact B|]. unfold ranges. now apply in_map with (f := fun c => ci_ext (snd c)).
Qed.

(** Different slots, different ranges. *)
Lemma apart_in : forall l c c', apart (ranges l) -> In c l -> In c' l -> fst c <> fst c' ->
  ~ overlap (ci_ext (snd c)) (ci_ext (snd c')).
Proof.
  induction l as [|d r IH]; intros c c' H Hc Hc' Hn; [contradiction|].
  cbn [ranges map apart] in H. destruct H as [A B].
  destruct Hc as [->|Hc], Hc' as [->|Hc'].
  - congruence.
  - apply A. now apply in_map with (f := fun c => ci_ext (snd c)).
  - intros Ho. apply (A (ci_ext (snd c))); [now apply in_map with (f := fun c => ci_ext (snd c))|now apply overlap_sym].
  - eapply IH; eauto.
Qed.

(** ** Adding a chunk *)
Lemma populate_ok : forall cf m vdev size id ord, mok cf m -> 0 < size ->
  (populate cf m vdev size id ord = Some None /\ ~ has_gap cf (m_chunks m) size) \/
  (exists s, populate cf m vdev size id ord =
      Some (Some (PMem (m_bm m) (area_insert (s, size) (m_area m)) (s :: m_starts m) (m_chunks m),
                  CInfo (s, size) vdev id ord true)) /\
    p_start cf <= s /\ s + size <= p_end cf /\ (forall x, In x (m_area m) -> ~ overlap (s, size) x) /\
    (forall t, p_start cf <= t -> t + size <= p_end cf -> (forall x, In x (m_area m) -> ~ overlap (t, size) x) -> s <= t)).
Proof.
  intros cf m vdev size id ord Hm Hs. destruct (Hm) as [A [B [C [D F]]]].
  unfold populate, find_next_chunk_area.
  destruct (N.ltb_spec (p_end cf) (first_gap (p_start cf) size (m_area m) + size)) as [E|E].
  - left. split; [reflexivity|]. intros [s [S1 [S2 S3]]].
    assert (H : first_gap (p_start cf) size (m_area m) <= s).
    { eapply first_gap_least; eauto. intros y Hy. apply S3. eapply Permutation_in; [symmetry; exact B|exact Hy]. }
    lia.
  - right. exists (first_gap (p_start cf) size (m_area m)).
    assert (G : forall x, In x (m_area m) -> ~ overlap (first_gap (p_start cf) size (m_area m), size) x)
      by (intros x Hx; eapply first_gap_free; eauto).
    replace (existsb (N.eqb (first_gap (p_start cf) size (m_area m))) (m_starts m)) with false.
    + ands; auto.
      * eapply first_gap_ge; eauto.
      * intros t T1 T2 T3. eapply first_gap_least; eauto.
    + symmetry. apply not_true_is_false. intros X. apply existsb_exists in X. destruct X as [s [X1 X2]].
      apply N.eqb_eq in X2. subst s. apply F in X1. apply in_map_iff in X1. destruct X1 as [x [X1 X2]].
      apply (G x X2). apply overlap_iff. cbn [fst snd].
      assert (H := chain_in _ _ _ _ A X2). lia.
Qed.

Lemma mok_add : forall cf m s size slot i bm, mok cf m -> 0 < size -> p_start cf <= s -> s + size <= p_end cf ->
  (forall x, In x (m_area m) -> ~ overlap (s, size) x) -> ci_ext i = (s, size) -> slot < p_nslots cf ->
  ~ In slot (map fst (m_chunks m)) ->
  mok cf (PMem bm (area_insert (s, size) (m_area m)) (s :: m_starts m) ((slot, i) :: m_chunks m)).
Proof.
  intros cf m s size slot i bm [A [B [C [D F]]]] Hs S1 S2 S3 Hi Hl Hn. unfold mok. cbn [m_area m_chunks m_starts].
  ands.
  - apply chain_insert; auto.
  - cbn [ranges map snd]. rewrite Hi. rewrite area_insert_perm. now apply perm_skip.
  - cbn [map fst]. now constructor.
  - now constructor.
  - assert (P : Permutation (map fst (area_insert (s, size) (m_area m))) (s :: map fst (m_area m))).
    { now rewrite area_insert_perm. }
    intros x [->|Hx].
    + eapply Permutation_in; [symmetry; exact P|now left].
    + eapply Permutation_in; [symmetry; exact P|right; now apply F].
Qed.

(** ** Removing a chunk *)
Lemma ext_eqb_eq : forall x y, ext_eqb x y = true <-> x = y.
Proof.
  intros [a b] [c d]. unfold ext_eqb. cbn [fst snd]. rewrite andb_true_iff, !N.eqb_eq. split.
  - intros [-> ->]; reflexivity.
  - intros H. now injection H as -> ->.
Qed.

Lemma filter_perm : forall A (f : A -> bool) l l', Permutation l l' -> Permutation (filter f l) (filter f l').
Proof.
  intros A f l l' H. induction H as [|x l l' H IH|x y l|l l' l'' H1 IH1 H2 IH2]; cbn [filter]; auto.
  - destruct (f x); auto.
  - destruct (f x), (f y); auto. apply perm_swap.
  - etransitivity; eauto.
Qed.

Lemma same_slot_range : forall cf m c c', mok cf m -> In c (m_chunks m) -> In c' (m_chunks m) ->
  ext_eqb (ci_ext (snd c')) (ci_ext (snd c)) = (fst c' =? fst c).
Proof.
  intros cf m c c' Hm Hc Hc'. destruct (mok_placed _ _ Hm) as [P1 [P2 P3]].
  destruct (N.eqb_spec (fst c') (fst c)) as [E|E].
  - apply ext_eqb_eq. f_equal. f_equal.
    assert (U : forall l, NoDup (map fst l) -> In c l -> In c' l -> c' = c).
    { clear - E. induction l as [|d r IH]; intros Hd H1 H2; [contradiction|]. cbn [map] in Hd.
      inversion Hd as [|? ? N1 N2]; subst. destruct H1 as [->|H1], H2 as [->|H2]; auto.
      - exfalso. apply N1. rewrite <- E. now apply in_map.
      - exfalso. apply N1. rewrite E. now apply in_map. }
    now apply (U (m_chunks m)).
  - apply not_true_is_false. intros X. apply ext_eqb_eq in X.
    apply (apart_in _ c' c P2 Hc' Hc E). rewrite X. apply overlap_iff.
    destruct Hm as [A [B _]].
    assert (H : In (ci_ext (snd c)) (m_area m)).
    { eapply Permutation_in; [exact B|]. now apply in_map with (f := fun c => ci_ext (snd c)). }
    assert (H' := chain_in _ _ _ _ A H). lia.
Qed.

Lemma NoDup_map_filter : forall A B (g : A -> B) f l, NoDup (map g l) -> NoDup (map g (filter f l)).
Proof.
  induction l as [|x r IH]; cbn [map filter]; intros H; [constructor|]. inversion H as [|? ? N1 N2]; subst.
  destruct (f x); [|auto]. cbn [map]. constructor; [|auto].
  intros X. apply N1. apply in_map_iff in X. destruct X as [y [Y1 Y2]]. apply filter_In in Y2.
  rewrite <- Y1. apply in_map. tauto.
Qed.

Lemma ranges_filter : forall f g l, (forall c, In c l -> g (ci_ext (snd c)) = f c) ->
  filter g (ranges l) = ranges (filter f l).
Proof.
  induction l as [|c r IH]; intros H; cbn [ranges map filter] in *; [reflexivity|].
  rewrite (H c (or_introl eq_refl)). unfold ranges in IH. rewrite IH by (intros; apply H; now right).
  destruct (f c); reflexivity.
Qed.

Lemma do_remove_mok : forall cf m c, mok cf m -> In c (m_chunks m) -> mok cf (fst (do_remove m c)).
Proof.
  intros cf m c Hm Hc. destruct (Hm) as [A [B [C [D F]]]]. unfold do_remove, mok. cbn [fst m_area m_chunks m_starts m_bm].
  ands.
  - now apply chain_filter.
  - unfold area_erase. rewrite <- (filter_perm _ _ _ _ B).
    rewrite (ranges_filter (fun y => negb (fst y =? fst c))); [reflexivity|].
    intros c' Hc'. f_equal. eapply same_slot_range; eauto.
  - now apply NoDup_map_filter.
  - rewrite Forall_forall in *. intros x Hx. apply filter_In in Hx. apply D. tauto.
  - intros s Hs. apply filter_In in Hs. destruct Hs as [H1 H2]. apply F in H1. apply in_map_iff in H1.
    destruct H1 as [x [X1 X2]]. apply in_map_iff. exists x. split; [exact X1|]. unfold area_erase. apply filter_In. split; [exact X2|].
    apply negb_true_iff. apply not_true_is_false. intros X. apply ext_eqb_eq in X. subst x. lia.
Qed.

(** ** Memory and disk *)
Definition rel (m : pmem) (d : pdisk) : Prop :=
  (forall s, d_bm d s = true -> m_bm m s = true) /\
  (forall s, m_bm m s = true -> exists i i', In (s, i) (m_chunks m) /\ d_slot d s = Some i' /\ ident i = ident i').

Definition disk_good (cf : pcfg) (d : pdisk) : Prop := exists m, mok cf m /\ rel m d.
Definition safe (cf : pcfg) (d : pdisk) (ws : list wr) : Prop := forall k, disk_good cf (wr_all d (firstn k ws)).

Lemma wr_all_app : forall d a b, wr_all d (a ++ b) = wr_all (wr_all d a) b.
Proof. intros d a b. unfold wr_all. apply fold_left_app. Qed.

Lemma safe_nil : forall cf d, disk_good cf d -> safe cf d [].
Proof. intros cf d H k. rewrite firstn_nil. exact H. Qed.

Lemma safe_app : forall cf d a b, safe cf d a -> safe cf (wr_all d a) b -> safe cf d (a ++ b).
Proof.
  intros cf d a b Ha Hb k. rewrite firstn_app, wr_all_app.
  destruct (Nat.le_gt_cases (length a) k) as [E|E].
  - rewrite firstn_all2 by exact E. apply Hb.
  - replace (k - length a)%nat with O by lia. cbn [firstn wr_all fold_left]. apply Ha.
Qed.

Lemma safe_one : forall cf d w, disk_good cf d -> disk_good cf (wr_disk d w) -> safe cf d [w].
Proof. intros cf d w H1 H2 k. destruct k as [|k]; cbn [firstn wr_all fold_left]; [exact H1|]. rewrite firstn_nil. exact H2. Qed.

Lemma rel_bitmap : forall m d, rel m d -> rel m (wr_disk d (WBitmap (m_bm m))).
Proof. intros m d [A B]. split; cbn [wr_disk d_bm d_slot]; auto. Qed.

Lemma put_slots_out : forall f b l s, ~ (b <= s < b + N.of_nat (length l)) -> put_slots f b l s = f s.
Proof. intros f b l s H. unfold put_slots. replace ((b <=? s) && (s <? b + N.of_nat (length l))) with false by lia. reflexivity. Qed.
Lemma put_slots_in : forall f b l s, b <= s < b + N.of_nat (length l) -> put_slots f b l s = nth_error l (N.to_nat (s - b)).
Proof. intros f b l s H. unfold put_slots. replace ((b <=? s) && (s <? b + N.of_nat (length l))) with true by lia. reflexivity. Qed.

(** A write of unused slots does not matter. *)
Lemma rel_infos_unused : forall m d b l, rel m d -> (forall s, b <= s < b + N.of_nat (length l) -> m_bm m s = false) ->
  rel m (wr_disk d (WInfos b l)).
Proof.
  intros m d b l [A B] H. split; cbn [wr_disk d_bm d_slot]; auto.
  intros s Hs. destruct (B s Hs) as [i [i' [X [Y Z]]]]. exists i, i'. ands; auto.
  rewrite put_slots_out; [exact Y|]. intros E. rewrite (H s E) in Hs. discriminate.
Qed.

Lemma ident_freed : forall i, ident (freed i) = ident i.
Proof. reflexivity. Qed.

Lemma in_unique : forall l (s : N) (i i' : cinfo), NoDup (map fst l) -> In (s, i) l -> In (s, i') l -> i = i'.
Proof.
  induction l as [|[t j] r IH]; intros s i i' Hd H1 H2; [contradiction|]. cbn [map fst] in Hd.
  inversion Hd as [|? ? N1 N2]; subst. destruct H1 as [H1|H1], H2 as [H2|H2].
  - congruence.
  - injection H1 as -> ->. exfalso. apply N1. now apply in_map with (f := fst) in H2.
  - injection H2 as -> ->. exfalso. apply N1. now apply in_map with (f := fst) in H1.
  - eauto.
Qed.

(** Rewriting a slot with the same identity does not matter. *)
Lemma rel_infos_same : forall cf m d c, mok cf m -> rel m d -> In c (m_chunks m) ->
  rel m (wr_disk d (WInfos (fst c) [freed (snd c)])).
Proof.
  intros cf m d [s i] Hm [A B] Hc. cbn [fst snd]. split; cbn [wr_disk d_bm d_slot]; auto.
  intros t Ht. destruct (B t Ht) as [j [j' [X [Y Z]]]].
  destruct (N.eq_dec t s) as [->|E].
  - exists j, (freed i). ands; auto.
    + rewrite put_slots_in by (cbn [length]; lia). replace (N.to_nat (s - s)) with O by lia. reflexivity.
    + rewrite ident_freed. f_equal. eapply in_unique; [apply Hm|exact X|exact Hc].
  - exists j, j'. ands; auto. rewrite put_slots_out; [exact Y|]. cbn [length]. lia.
Qed.

Lemma bit_off_spec : forall bm b s, bit_off bm b s = if s =? b then false else bm s.
Proof. intros bm b s. unfold bit_off, reset_bits, inside. cbn [fst snd].
  destruct (N.eqb_spec s b) as [E|E].
  - replace ((b <=? s) && (s <? b + 1)) with true by lia. reflexivity.
  - replace ((b <=? s) && (s <? b + 1)) with false by lia. reflexivity.
Qed.
Lemma bit_on_spec : forall bm b s, bit_on bm b s = if s =? b then true else bm s.
Proof. intros bm b s. unfold bit_on, set_bits, inside. cbn [fst snd].
  destruct (N.eqb_spec s b) as [E|E].
  - replace ((b <=? s) && (s <? b + 1)) with true by lia. reflexivity.
  - replace ((b <=? s) && (s <? b + 1)) with false by lia. reflexivity.
Qed.

Lemma do_remove_ok : forall cf m d c m' ws, mok cf m -> rel m d -> In c (m_chunks m) -> do_remove m c = (m', ws) ->
  mok cf m' /\ rel m' (wr_all d ws) /\ safe cf d ws /\
  (forall s, d_bm (wr_all d ws) s = m_bm m' s) /\
  m_bm m' = bit_off (m_bm m) (fst c) /\ m_chunks m' = filter (fun y => negb (fst y =? fst c)) (m_chunks m).
Proof.
  intros cf m d c m' ws Hm Hr Hc H.
  assert (Hm' := do_remove_mok _ _ _ Hm Hc). rewrite H in Hm'. cbn [fst] in Hm'.
  assert (R1 := rel_infos_same _ _ _ _ Hm Hr Hc).
  assert (R2 : rel m' (wr_disk (wr_disk d (WInfos (fst c) [freed (snd c)])) (WBitmap (m_bm m')))).
  { unfold do_remove in H. injection H as <- <-. destruct R1 as [A B]. split; cbn [wr_disk d_bm d_slot m_bm m_chunks] in *; auto.
    intros s Hs. rewrite bit_off_spec in Hs. destruct (N.eqb_spec s (fst c)) as [E|E]; [discriminate|].
    destruct (B s Hs) as [i [i' [X [Y Z]]]]. exists i, i'. ands; auto. apply filter_In. split; [exact X|]. cbn [fst]. lia. }
  unfold do_remove in H. injection H as <- <-. ands; auto.
  change (safe cf d ([WInfos (fst c) [freed (snd c)]] ++
       [WBitmap (bit_off (m_bm m) (fst c))])).
  apply safe_app.
  - apply safe_one; [exists m; auto|]. exists m; auto.
  - cbn [wr_all fold_left]. apply safe_one; [exists m; auto|]. eexists. split; [exact Hm'|exact R2].
Qed.

Lemma do_removes_ok : forall cf l m d m' ws, mok cf m -> rel m d -> incl l (m_chunks m) -> NoDup (map fst l) ->
  do_removes m l = (m', ws) ->
  mok cf m' /\ rel m' (wr_all d ws) /\ safe cf d ws /\
  (l <> [] -> forall s, d_bm (wr_all d ws) s = m_bm m' s) /\ (l = [] -> m' = m /\ ws = []) /\
  (forall s, m_bm m' s = m_bm m s && negb (existsb (fun c => fst c =? s) l)) /\
  (forall c, In c (m_chunks m') <-> In c (m_chunks m) /\ ~ In (fst c) (map fst l)).
Proof.
  induction l as [|c r IH]; intros m d m' ws Hm Hr Hi Hd H; cbn [do_removes] in H.
  - injection H as <- <-. ands; auto.
    + apply safe_nil. exists m; auto.
    + intros C; now contradiction C.
    + intros s. cbn [existsb negb]. now rewrite andb_true_r.
    + intros c. cbn [map In]. tauto.
  - destruct (do_remove m c) as [m1 w1] eqn:E1. destruct (do_removes m1 r) as [m2 w2] eqn:E2. injection H as <- <-.
    destruct (do_remove_ok cf m d c m1 w1 Hm Hr (Hi c (or_introl eq_refl)) E1) as [A1 [A2 [A3 [A4 [A5 A6]]]]].
    cbn [map] in Hd. inversion Hd as [|? ? N1 N2]; subst.
    destruct (IH m1 (wr_all d w1) m2 w2) as [B1 [B2 [B3 [B4 [B5 [B6 B7]]]]]]; auto.
    { intros x Hx. rewrite A6. apply filter_In. split; [apply Hi; now right|].
      apply negb_true_iff, N.eqb_neq. intros Z. apply N1. rewrite <- Z. now apply in_map. }
    rewrite wr_all_app. ands; auto.
    + now apply safe_app.
    + intros _. destruct r as [|c2 r2]; [|apply B4; discriminate]. destruct (B5 eq_refl) as [-> ->]. exact A4.
    + discriminate.
    + intros s. rewrite B6, A5, bit_off_spec. cbn [existsb].
      rewrite (N.eqb_sym s). destruct (fst c =? s); cbn [orb negb]; [now rewrite andb_false_r|reflexivity].
    + intros x. rewrite B7, A6, filter_In. cbn [map In]. rewrite negb_true_iff, N.eqb_neq. split.
      * intros [[X1 X2] X3]. split; [exact X1|]. intros [Z|Z]; [congruence|contradiction].
      * intros [X1 X2]. ands; auto.
Qed.

(** ** create_chunks *)
Lemma range_length : forall n s, length (range s n) = n.
Proof. induction n as [|n IH]; intros s; cbn [range length]; auto. Qed.

(** Made chunks are never placed further up than any row. *)
Definition lowest (cf : pcfg) (size : N) (l0 : list chunk) (made : list chunk) : Prop :=
  forall ts, row cf (p_start cf) size l0 ts -> forall j c t,
    nth_error made j = Some c -> nth_error ts j = Some t -> fst (ci_ext (snd c)) <= t.

Lemma row_lo : forall cf size l ts lo j t, row cf lo size l ts -> nth_error ts j = Some t -> lo <= t.
Proof.
  induction ts as [|t0 r IH]; intros lo j t H Hj; [now destruct j|]. cbn [row] in H. destruct H as [A [B [C D]]].
  destruct j as [|j]; cbn [nth_error] in Hj; [injection Hj as <-; exact A|]. specialize (IH _ _ _ D Hj). lia.
Qed.

Lemma row_order : forall cf size l ts lo j k t u, row cf lo size l ts -> (j < k)%nat -> nth_error ts j = Some t ->
  nth_error ts k = Some u -> t + size <= u.
Proof.
  induction ts as [|t0 r IH]; intros lo j k t u H Hjk Hj Hk; [now destruct j|]. cbn [row] in H. destruct H as [A [B [C D]]].
  destruct k as [|k]; [lia|]. cbn [nth_error] in Hk. destruct j as [|j]; cbn [nth_error] in Hj.
  - injection Hj as <-. eapply row_lo; eauto.
  - apply (IH (t0 + size) j k); auto. lia.
Qed.

Lemma row_nth : forall cf size l ts lo j t, row cf lo size l ts -> nth_error ts j = Some t ->
  t + size <= p_end cf /\ (forall x, In x (ranges l) -> ~ overlap (t, size) x).
Proof.
  induction ts as [|t0 r IH]; intros lo j t H Hj; [now destruct j|]. cbn [row] in H. destruct H as [A [B [C D]]].
  destruct j as [|j]; cbn [nth_error] in Hj; [injection Hj as <-; auto|]. eapply IH; eauto.
Qed.

(** The next place of a row is free when the earlier chunks are lowest. *)
Lemma row_next_free : forall cf size l0 made ts t, lowest cf size l0 made ->
  Forall (fun c => snd (ci_ext (snd c)) = size) made -> row cf (p_start cf) size l0 ts ->
  nth_error ts (length made) = Some t -> forall x, In x (ranges made ++ ranges l0) -> ~ overlap (t, size) x.
Proof.
  intros cf size l0 made ts t Hl Hsz Hr Ht x Hx. apply in_app_or in Hx. destruct Hx as [Hx|Hx].
  - unfold ranges in Hx. apply in_map_iff in Hx. destruct Hx as [c [<- Hc]].
    rewrite Forall_forall in Hsz. specialize (Hsz c Hc).
    apply In_nth_error in Hc. destruct Hc as [j Hj].
    assert (Lj : (j < length made)%nat) by (apply nth_error_Some; congruence).
    destruct (nth_error ts j) as [u|] eqn:Eu.
    + assert (H1 := Hl ts Hr j c u Hj Eu). assert (H2 := row_order _ _ _ _ _ _ _ _ _ Hr Lj Eu Ht).
      intros Ho. apply overlap_iff in Ho. cbn [fst snd] in Ho. lia.
    + apply nth_error_None in Eu. assert (length made < length ts)%nat by (apply nth_error_Some; congruence). lia.
  - destruct (row_nth _ _ _ _ _ _ _ Hr Ht) as [_ H]. now apply H.
Qed.

Lemma batch_ok : forall cf vdev size, 0 < size -> forall ids m slot ord made l0,
  mok cf m -> (forall s, slot <= s < slot + N.of_nat (length ids) -> ~ In s (map fst (m_chunks m))) ->
  slot + N.of_nat (length ids) <= p_nslots cf ->
  Permutation (m_chunks m) (made ++ l0) ->
  lowest cf size l0 made -> Forall (fun c => snd (ci_ext (snd c)) = size) made ->
  exists m' cs ok, batch cf m vdev size slot ord ids = Some (m', cs, ok) /\
  mok cf m' /\ m_bm m' = m_bm m /\ m_chunks m' = rev cs ++ m_chunks m /\
  map fst cs = range slot (length cs) /\
  map req cs = map (fun id => (size, vdev, id)) (firstn (length cs) ids) /\
  (length cs <= length ids)%nat /\
  (ok = true -> length cs = length ids) /\
  lowest cf size l0 (made ++ cs) /\ Forall (fun c => snd (ci_ext (snd c)) = size) (made ++ cs) /\
  (ok = false -> (length cs < length ids)%nat /\ ~ has_gap cf (m_chunks m') size).
Proof.
  intros cf vdev size Hs. induction ids as [|id r IH]; intros m slot ord made l0 Hm Hn Hl Hp Hlow Hsz; cbn [batch].
  - exists m, [], true. rewrite app_nil_r. cbn [rev app length map range firstn]. ands; auto. discriminate.
  - destruct (populate_ok cf m vdev size id ord Hm Hs) as [[E G]|[s [E [S1 [S2 [S3 S4]]]]]]; rewrite E.
    + exists m, [], false. rewrite app_nil_r. cbn [rev app length map range firstn]. ands; auto; try lia; try discriminate.
      intros _. split; [lia|exact G].
    + cbn [m_bm m_area m_starts m_chunks]. cbn [length] in Hn, Hl.
      set (i := CInfo (s, size) vdev id ord true) in *.
      set (m1 := PMem (m_bm m) (area_insert (s, size) (m_area m)) (s :: m_starts m) ((slot, i) :: m_chunks m)).
      assert (Hm1 : mok cf m1) by (apply mok_add; auto; [lia|apply Hn; lia]).
      destruct (IH m1 (slot + 1) (ord + 1) (made ++ [(slot, i)]) l0) as [m' [cs [ok [B0 [B1 [B2 [B3 [B4 [B5 [B6 [B7 [B8 [B9 B10]]]]]]]]]]]]]; auto.
      * intros t Ht. unfold m1. cbn [m_chunks map fst In]. intros [X|X]; [lia|]. apply (Hn t); [lia|exact X].
      * lia.
      * unfold m1. cbn [m_chunks]. rewrite <- app_assoc. cbn [app].
        rewrite <- Permutation_middle. now apply perm_skip.
      * intros ts Hts j c t Hj Ht. destruct (Nat.eq_dec j (length made)) as [->|Ej].
        -- rewrite nth_error_app2, Nat.sub_diag in Hj by lia. cbn [nth_error] in Hj. injection Hj as <-.
           cbn [snd i ci_ext fst]. apply S4.
           ++ eapply row_lo; eauto.
           ++ eapply row_nth; eauto.
           ++ intros x Hx. eapply row_next_free; eauto. unfold ranges. rewrite <- map_app. fold (ranges (made ++ l0)).
              destruct Hm as [_ [P _]]. eapply Permutation_in; [apply Permutation_map; exact Hp|].
              eapply Permutation_in; [symmetry; exact P|exact Hx].
        -- assert (Lj : (j < length (made ++ [(slot, i)]))%nat) by (apply nth_error_Some; congruence).
           rewrite app_length in Lj. cbn [length] in Lj. rewrite nth_error_app1 in Hj by lia. eapply Hlow; eauto.
      * apply Forall_app. split; [exact Hsz|]. constructor; [reflexivity|constructor].
      * fold m1. rewrite B0. exists m', ((slot, i) :: cs), ok. cbn [length]. ands; auto.
        -- rewrite B3. unfold m1. cbn [m_chunks rev]. now rewrite <- app_assoc.
        -- cbn [map range fst]. now rewrite B4.
        -- cbn [map firstn]. rewrite B5. reflexivity.
        -- lia.
        -- rewrite <- app_assoc in B8. exact B8.
        -- rewrite <- app_assoc in B9. exact B9.
        -- intros O. destruct (B10 O) as [X Y]. split; [lia|exact Y].
Qed.

Definition sync (m : pmem) : Prop := forall c, In c (m_chunks m) -> m_bm m (fst c) = true.

(** A write of chunk infos into slots that are unused on disk. *)
Definition quiet (bm : bits) (w : wr) : Prop :=
  match w with WInfos b l => forall s, b <= s < b + N.of_nat (length l) -> bm s = false | WBitmap _ => False end.

Lemma quiet_bm : forall bm ws d, Forall (quiet bm) ws -> d_bm (wr_all d ws) = d_bm d.
Proof.
  induction ws as [|w r IH]; intros d H; [reflexivity|]. inversion H as [|? ? Q R]; subst. cbn [wr_all fold_left].
  change (fold_left wr_disk r (wr_disk d w)) with (wr_all (wr_disk d w) r). rewrite IH by exact R.
  destruct w; [reflexivity|contradiction].
Qed.

Lemma quiet_slot : forall bm ws d s, Forall (quiet bm) ws -> bm s = true -> d_slot (wr_all d ws) s = d_slot d s.
Proof.
  induction ws as [|w r IH]; intros d s H Hs; [reflexivity|]. inversion H as [|? ? Q R]; subst. cbn [wr_all fold_left].
  change (fold_left wr_disk r (wr_disk d w)) with (wr_all (wr_disk d w) r). rewrite IH by assumption.
  destruct w as [b l|]; [|contradiction]. cbn [wr_disk d_slot]. apply put_slots_out. intros E. cbn [quiet] in Q.
  rewrite Q in Hs by exact E. discriminate.
Qed.

Lemma in_range : forall n s x, In x (range s n) <-> s <= x < s + N.of_nat n.
Proof.
  induction n as [|n IH]; intros s x; cbn [range In]; [lia|]. rewrite IH. lia.
Qed.

Lemma range_nth : forall n s j x, nth_error (range s n) j = Some x -> x = s + N.of_nat j /\ (j < n)%nat.
Proof.
  induction n as [|n IH]; intros s j x H; [now destruct j|]. destruct j as [|j]; cbn [range nth_error] in H.
  - injection H as <-. lia.
  - apply IH in H. lia.
Qed.

Lemma create_loop_ok : forall cf vdev size d0 l0 bm0, 0 < size ->
  forall fuel ids m ord made ws,
  (length ids <= fuel)%nat ->
  mok cf m -> rel m (wr_all d0 ws) -> sync m -> safe cf d0 ws ->
  Permutation (m_chunks m) (made ++ l0) ->
  (made = [] -> forall s, d_bm (wr_all d0 ws) s = m_bm m s) ->
  lowest cf size l0 made -> Forall (fun c => snd (ci_ext (snd c)) = size) made ->
  Forall (quiet bm0) ws -> (forall s, bm0 s = true -> m_bm m s = true) ->
  exists m' made' ws' ok, create_loop cf fuel m vdev size ord ids made ws = Some (m', made ++ made', ws', ok) /\
    mok cf m' /\ rel m' (wr_all d0 ws') /\ safe cf d0 ws' /\
    Permutation (m_chunks m') ((made ++ made') ++ l0) /\
    map req made' = map (fun id => (size, vdev, id)) (firstn (length made') ids) /\
    (ok = true -> sync m' /\ length made' = length ids /\ (forall s, d_bm (wr_all d0 ws') s = m_bm m' s) /\
       exists wi, ws' = wi ++ [WBitmap (m_bm m')] /\ Forall (quiet bm0) wi) /\
    (ok = false -> (forall c, In c (m_chunks m') -> m_bm m' (fst c) = false -> In c (made ++ made')) /\
       (made ++ made' = [] -> forall s, d_bm (wr_all d0 ws') s = m_bm m' s) /\
       (length made' < length ids)%nat /\ lowest cf size l0 (made ++ made') /\
       Forall (fun c => snd (ci_ext (snd c)) = size) (made ++ made') /\
       ((forall s, s < p_nslots cf -> In s (map fst (m_chunks m'))) \/ ~ has_gap cf (m_chunks m') size)).
Proof.
  intros cf vdev size d0 l0 bm0 Hs. induction fuel as [|fuel IH]; intros ids m ord made ws Hf Hm Hr Hy Hsafe Hp Hdb Hlow Hsz Hq Hb0.
  - destruct ids; [|cbn [length] in Hf; lia]. cbn [create_loop].
    exists m, [], (ws ++ [WBitmap (m_bm m)]), true. rewrite app_nil_r, wr_all_app. cbn [wr_all fold_left length map firstn].
    assert (R := rel_bitmap m _ Hr).
    ands; auto; try discriminate.
    + apply safe_app; auto. apply safe_one; exists m; auto.
    + intros _. ands; auto. exists ws. auto.
  - cbn [create_loop]. destruct ids as [|id0 r0].
    { exists m, [], (ws ++ [WBitmap (m_bm m)]), true. rewrite app_nil_r, wr_all_app. cbn [wr_all fold_left length map firstn].
      assert (R := rel_bitmap m _ Hr). ands; auto; try discriminate.
      + apply safe_app; auto. apply safe_one; exists m; auto.
      + intros _. ands; auto. exists ws. auto. }
    set (ids := id0 :: r0) in *. assert (Li : (0 < length ids)%nat) by (cbn [ids length]; lia).
    destruct (first_fit (p_nslots cf) (m_bm m) 0 (p_nslots cf) 1 (N.of_nat (length ids))) as [b n] eqn:Ef.
    destruct (first_fit_ok _ _ _ _ _ _ _ _ Ef) as [F1 F2]; [lia|lia|].
    destruct (N.eqb_spec n 0) as [En|En].
    + exists m, [], ws, false. rewrite app_nil_r. cbn [length map firstn]. ands; auto; try discriminate.
      intros _. ands; auto.
      * intros c Hc Hf0. rewrite Hy in Hf0 by exact Hc. discriminate.
      * left. intros s Hsl. destruct Hr as [_ R]. destruct (R s) as [i [i' [X _]]]; [apply F2; lia|].
        now apply in_map with (f := fst) in X.
    + destruct F1 as [F1|[F3 [F4 [F5 [F6 F7]]]]]; [contradiction|].
      assert (Lf : length (firstn (N.to_nat n) ids) = N.to_nat n) by (rewrite firstn_length; lia).
      destruct (batch_ok cf vdev size Hs (firstn (N.to_nat n) ids) m b ord made l0)
        as [m1 [cs [ok [B0 [B1 [B2 [B3 [B4 [B5 [B6 [B7 [B8 [B9 B10]]]]]]]]]]]]]; auto.
      { intros s Hsr X. apply in_map_iff in X. destruct X as [c [<- Hc]]. rewrite Lf in Hsr.
        assert (X := Hy c Hc). rewrite F7 in X by lia. discriminate. }
      { rewrite Lf. lia. }
      rewrite B0.
      assert (P1 : Permutation (m_chunks m1) ((made ++ cs) ++ l0)).
      { rewrite B3. rewrite <- Permutation_rev. rewrite Hp. rewrite <- app_assoc.
        rewrite app_assoc. rewrite (Permutation_app_comm cs made). now rewrite <- app_assoc. }
      assert (Rm1 : rel m1 (wr_all d0 ws)).
      { destruct Hr as [R1 R2]. split; rewrite B2; auto. intros s Hb. destruct (R2 s Hb) as [i [i' [X Y]]].
        exists i, i'. split; [rewrite B3; apply in_or_app; now right|exact Y]. }
      destruct ok.
      * specialize (B7 eq_refl). rewrite Lf in B7.
        set (m2 := PMem (set_bits (m_bm m1) (b, n)) (m_area m1) (m_starts m1) (m_chunks m1)).
        assert (Hm2 : mok cf m2) by exact B1.
        assert (Sb : forall s, m_bm m2 s = inside s (b, n) || m_bm m s).
        { intros s. unfold m2. cbn [m_bm]. unfold set_bits. rewrite B2. now destruct (inside s (b, n)). }
        assert (Lcs : N.of_nat (length (map snd cs)) = n) by (rewrite map_length; lia).
        assert (Ri : rel m1 (wr_disk (wr_all d0 ws) (WInfos b (map snd cs)))).
        { apply rel_infos_unused; auto. intros s Hsr. rewrite B2. apply F7. lia. }
        assert (R2 : rel m2 (wr_disk (wr_all d0 ws) (WInfos b (map snd cs)))).
        { destruct Ri as [R1 R2]. split.
          - intros s Hb. rewrite Sb. apply R1 in Hb. rewrite B2 in Hb. rewrite Hb. apply orb_true_r.
          - intros s Hb. rewrite Sb in Hb. destruct (inside s (b, n)) eqn:Ei.
            + unfold inside in Ei. cbn [fst snd] in Ei. cbn [wr_disk d_slot].
              rewrite put_slots_in by lia.
              destruct (nth_error cs (N.to_nat (s - b))) as [c|] eqn:Ec.
              2:{ apply nth_error_None in Ec. lia. }
              assert (Es : fst c = s).
              { assert (X : nth_error (map fst cs) (N.to_nat (s - b)) = Some (fst c)) by (rewrite nth_error_map, Ec; reflexivity).
                rewrite B4 in X. apply range_nth in X. lia. }
              exists (snd c), (snd c). ands; auto.
              * unfold m2. cbn [m_chunks]. rewrite B3. apply in_or_app. left. apply -> in_rev.
                rewrite <- Es. rewrite <- surjective_pairing. eapply nth_error_In; eauto.
              * rewrite nth_error_map, Ec. reflexivity.
            + cbn [orb] in Hb. unfold m2. cbn [m_chunks]. apply R2. now rewrite B2. }
        assert (W : wr_all d0 (ws ++ [WInfos b (map snd cs)]) = wr_disk (wr_all d0 ws) (WInfos b (map snd cs)))
          by (now rewrite wr_all_app).
        assert (Lsk : length (skipn (N.to_nat n) ids) = (length ids - N.to_nat n)%nat) by apply skipn_length.
        destruct (IH (skipn (N.to_nat n) ids) m2 (ord + n) (made ++ cs) (ws ++ [WInfos b (map snd cs)]))
          as [m' [made' [ws' [ok [C0 [C1 [C2 [C3 [C4 [C5 [C6 C7]]]]]]]]]]]; auto.
        { lia. }
        { rewrite W. exact R2. }
        { intros c Hc. rewrite Sb. unfold m2 in Hc. cbn [m_chunks] in Hc. rewrite B3 in Hc.
          apply in_app_or in Hc. destruct Hc as [Hc|Hc].
          - apply in_rev in Hc. apply in_map with (f := fst) in Hc. rewrite B4, in_range in Hc.
            replace (inside (fst c) (b, n)) with true by (unfold inside; cbn [fst snd]; lia). reflexivity.
          - rewrite (Hy c Hc). apply orb_true_r. }
        { apply safe_app; auto. apply safe_one; [exists m; auto|exists m1; auto]. }
        { intros X. apply app_eq_nil in X. destruct X as [_ X]. subst cs. cbn [length] in B7. lia. }
        { apply Forall_app. split; [exact Hq|]. constructor; [|constructor]. cbn [quiet]. intros s Hsr.
          destruct (bm0 s) eqn:E0; [|reflexivity]. apply Hb0 in E0. rewrite F7 in E0 by lia. discriminate. }
        { intros s Hb. rewrite Sb, (Hb0 s Hb). apply orb_true_r. }
        fold m2. exists m', (cs ++ made'), ws', ok. rewrite !app_assoc. ands; auto.
        -- rewrite map_app, B5, C5. rewrite app_length. rewrite firstn_firstn. rewrite <- map_app. f_equal.
           replace (Nat.min (length cs) (N.to_nat n)) with (length cs) by lia.
           rewrite B7. rewrite <- (firstn_skipn (N.to_nat n) ids) at 3. rewrite firstn_app, Lf.
           rewrite (firstn_all2 (n := N.to_nat n + length made')) by lia. f_equal. f_equal. lia.
        -- intros O. destruct (C6 O) as [X1 [X2 [X3 X4]]]. ands; auto. rewrite app_length. lia.
        -- intros O. destruct (C7 O) as [X1 [X2 [X3 [X4 [X5 X6]]]]]. ands; auto. rewrite app_length. lia.
      * exists m1, cs, ws, false. ands; auto; try discriminate.
        -- rewrite B5. f_equal. rewrite firstn_firstn. f_equal. lia.
        -- intros _. destruct (B10 eq_refl) as [X1 X2]. ands; auto.
           ++ intros c Hc Hf0. rewrite B3 in Hc. apply in_app_or in Hc. destruct Hc as [Hc|Hc].
              ** apply in_or_app. right. now apply in_rev.
              ** rewrite B2, (Hy c Hc) in Hf0. discriminate.
           ++ intros X. apply app_eq_nil in X. destruct X as [-> _]. rewrite B2. auto.
           ++ lia.
Qed.

Definition inv (cf : pcfg) (st : pmem * pdisk) : Prop :=
  mok cf (fst st) /\ rel (fst st) (snd st) /\ sync (fst st) /\ forall s, d_bm (snd st) s = m_bm (fst st) s.

Lemma lowest_nil : forall cf size l, lowest cf size l [].
Proof. intros cf size l ts _ j c t H. now destruct j. Qed.

Lemma NoDup_app_l : forall A (a b : list A), NoDup (a ++ b) -> NoDup a.
Proof. induction a as [|x a IH]; intros b H; [constructor|]. cbn [app] in H. inversion H as [|? ? N1 N2]; subst.
  constructor; [|eauto]. intros X. apply N1. apply in_or_app. now left. Qed.

Lemma create_chunks_ok : forall cf m d vdev size ids, inv cf (m, d) -> 0 < size ->
  exists m' ws ans, create_chunks cf m vdev size ids = Some (m', ws, ans) /\
    inv cf (m', wr_all d ws) /\ safe cf d ws /\
    (forall made, ans = Some made -> Permutation (m_chunks m') (made ++ m_chunks m) /\
       map req made = map (fun id => (size, vdev, id)) ids /\
       exists wi, ws = wi ++ [WBitmap (m_bm m')] /\ Forall (quiet (d_bm d)) wi) /\
    (ans = None -> (forall c, In c (m_chunks m') <-> In c (m_chunks m)) /\
       ((forall ts, row cf (p_start cf) size (m_chunks m) ts -> (length ts < length ids)%nat) \/
        (forall ss, slots_free cf (m_chunks m) ss -> (length ss < length ids)%nat))).
Proof.
  intros cf m d vdev size ids [Hm [Hr [Hy Hd]]] Hs. cbn [fst snd] in *.
  destruct (create_loop_ok cf vdev size d (m_chunks m) (d_bm d) Hs (length ids) ids m 0 [] [])
    as [m1 [made [ws [ok [C0 [C1 [C2 [C3 [C4 [C5 [C6 C7]]]]]]]]]]]; auto.
  { apply safe_nil. exists m; auto. }
  { apply lowest_nil. }
  { intros s Hb. now rewrite <- Hd. }
  cbn [app] in *. unfold create_chunks. rewrite C0. destruct ok.
  - destruct (C6 eq_refl) as [D1 [D2 [D3 [wi [D4 D5]]]]].
    exists m1, ws, (Some made). ands; auto; try discriminate.
    + unfold inv. cbn [fst snd]. ands; auto.
    + intros made' E. injection E as <-. ands; auto.
      * rewrite C5, D2, firstn_all. reflexivity.
      * exists wi; auto.
  - destruct (C7 eq_refl) as [D1 [D2 [D3 [D4 [D5 D6]]]]].
    destruct (do_removes m1 made) as [m2 w2] eqn:Er.
    assert (Nd : NoDup (map fst (made ++ m_chunks m))).
    { destruct C1 as [_ [_ [N _]]]. eapply Permutation_NoDup; [|exact N]. now apply Permutation_map. }
    assert (Hin : incl made (m_chunks m1)).
    { intros x Hx. eapply Permutation_in; [symmetry; exact C4|]. apply in_or_app. now left. }
    assert (Ndm : NoDup (map fst made)) by (rewrite map_app in Nd; eapply NoDup_app_l; eauto).
    destruct (do_removes_ok cf made m1 (wr_all d ws) m2 w2) as [E1 [E2 [E3 [E4 [E5 [E6 E7]]]]]]; auto.
    assert (Same : forall c, In c (m_chunks m2) <-> In c (m_chunks m)).
    { intros c. rewrite E7. split.
      - intros [X1 X2]. eapply Permutation_in in X1; [|exact C4]. apply in_app_or in X1. destruct X1 as [X1|X1]; [|exact X1].
        exfalso. apply X2. now apply in_map.
      - intros X. split.
        + eapply Permutation_in; [symmetry; exact C4|]. apply in_or_app. now right.
        + intros Y. rewrite map_app in Nd. clear - Nd X Y.
          induction (map fst made) as [|a r IH]; [contradiction|]. cbn [app] in Nd. inversion Nd as [|? ? N1 N2]; subst.
          destruct Y as [Y|Y]; [|auto]. apply N1. rewrite Y. apply in_or_app. right. now apply in_map. }
    exists m2, (ws ++ w2), None. rewrite wr_all_app. ands; auto; try discriminate.
    + unfold inv. cbn [fst snd]. ands; auto.
      * intros c Hc. rewrite E6. assert (Hc' := Hc). apply E7 in Hc'. destruct Hc' as [X1 X2].
        destruct (m_bm m1 (fst c)) eqn:Eb.
        -- cbn [andb]. apply negb_true_iff. apply not_true_is_false. intros X. apply existsb_exists in X.
           destruct X as [c' [Y1 Y2]]. apply X2. apply N.eqb_eq in Y2. rewrite <- Y2. now apply in_map.
        -- exfalso. apply X2. apply in_map. now apply D1.
      * destruct made as [|c0 r0].
        -- destruct (E5 eq_refl) as [-> ->]. cbn [wr_all fold_left]. now apply D2.
        -- apply E4. discriminate.
    + now apply safe_app.
    + intros _. split; [exact Same|]. destruct D6 as [D6|D6].
      * right. intros ss [S1 S2].
        assert (Hi : incl ss (map fst made)).
        { intros s Hsi. rewrite Forall_forall in S2. destruct (S2 s Hsi) as [S3 S4].
          specialize (D6 s S3). apply in_map_iff in D6. destruct D6 as [c [<- Hc]].
          eapply Permutation_in in Hc; [|exact C4]. apply in_app_or in Hc. destruct Hc as [Hc|Hc]; [now apply in_map|].
          exfalso. apply S4. now apply in_map. }
        apply NoDup_incl_length in Hi; [|exact S1]. rewrite map_length in Hi. lia.
      * left. intros ts Hts. destruct (Nat.lt_ge_cases (length ts) (length ids)) as [L|L]; [exact L|]. exfalso.
        destruct (nth_error ts (length made)) as [t|] eqn:Et.
        2:{ apply nth_error_None in Et. lia. }
        apply D6. exists t. ands.
        -- eapply row_lo; eauto.
        -- eapply row_nth; eauto.
        -- intros x Hx. eapply row_next_free; eauto. unfold ranges in *. rewrite <- map_app.
           eapply Permutation_in; [apply Permutation_map; exact C4|exact Hx].
Qed.

Lemma create_chunk_ok : forall cf m d id vdev size ord, inv cf (m, d) -> 0 < size ->
  (create_chunk cf m id vdev size ord = Some (m, [], None) /\ forall ss, slots_free cf (m_chunks m) ss -> ss = []) \/
  (exists m', create_chunk cf m id vdev size ord = Some (m', [], None) /\ ~ has_gap cf (m_chunks m) size /\
              m_chunks m' = m_chunks m) \/
  (exists m' b i, create_chunk cf m id vdev size ord = Some (m', [WInfos b [i]; WBitmap (m_bm m')], Some (b, i)) /\
     inv cf (m', wr_all d [WInfos b [i]; WBitmap (m_bm m')]) /\ safe cf d [WInfos b [i]; WBitmap (m_bm m')] /\
     m_chunks m' = (b, i) :: m_chunks m /\ req (b, i) = (size, vdev, id) /\ d_bm d b = false).
Proof.
  intros cf m d id vdev size ord [Hm [Hr [Hy Hd]]] Hs. cbn [fst snd] in *. unfold create_chunk.
  destruct (first_fit (p_nslots cf) (m_bm m) 0 (p_nslots cf) 1 1) as [b n] eqn:Ef.
  destruct (first_fit_ok _ _ _ _ _ _ _ _ Ef) as [F1 F2]; [lia|lia|].
  destruct (N.eqb_spec n 0) as [En|En].
  - left. split; [reflexivity|]. intros ss [S1 S2]. destruct ss as [|s r]; [reflexivity|]. exfalso.
    inversion S2 as [|? ? [S3 S4] S5]; subst. apply S4. destruct Hr as [_ R]. destruct (R s) as [i [i' [X _]]]; [apply F2; lia|].
    now apply in_map with (f := fst) in X.
  - right. destruct F1 as [F1|[F3 [F4 [F5 [F6 F7]]]]]; [contradiction|].
    set (m0 := PMem (bit_on (m_bm m) b) (m_area m) (m_starts m) (m_chunks m)).
    assert (Hm0 : mok cf m0) by exact Hm.
    destruct (populate_ok cf m0 vdev size id ord Hm0 Hs) as [[E G]|[s [E [S1 [S2 [S3 S4]]]]]]; rewrite E.
    + left. exists m0. auto.
    + right. cbn [m_bm m_area m_starts m_chunks m0]. set (i := CInfo (s, size) vdev id ord true).
      set (m' := PMem (bit_on (m_bm m) b) (area_insert (s, size) (m_area m)) (s :: m_starts m) ((b, i) :: m_chunks m)).
      assert (Bf : m_bm m b = false) by (apply F7; lia).
      assert (Hm' : mok cf m').
      { apply mok_add; auto; [lia|]. intros X. apply in_map_iff in X. destruct X as [c [X1 X2]].
        rewrite <- X1 in Bf. rewrite Hy in Bf by exact X2. discriminate. }
      assert (R1 : rel m (wr_disk d (WInfos b [i]))).
      { apply rel_infos_unused; auto. intros t Ht. cbn [length] in Ht. replace t with b by lia. exact Bf. }
      assert (R2 : rel m' (wr_disk d (WInfos b [i]))).
      { destruct R1 as [R1 R2]. split.
        - intros t Ht. unfold m'. cbn [m_bm]. rewrite bit_on_spec. destruct (t =? b); auto.
        - intros t Ht. unfold m' in *. cbn [m_bm m_chunks] in *. rewrite bit_on_spec in Ht.
          destruct (N.eqb_spec t b) as [Et|Et].
          + rewrite Et. exists i, i. ands; auto; [now left|]. cbn [wr_disk d_slot]. rewrite put_slots_in by (cbn [length]; lia).
            replace (N.to_nat (b - b)) with O by lia. reflexivity.
          + destruct (R2 t Ht) as [j [j' [X Y]]]. exists j, j'. split; [now right|exact Y]. }
      exists m', b, i. ands; auto.
      * unfold inv. cbn [fst snd wr_all fold_left]. ands; auto.
        -- now apply rel_bitmap.
        -- intros c [<-|Hc]; unfold m'; cbn [m_bm fst]; rewrite bit_on_spec; [now rewrite N.eqb_refl|].
           destruct (fst c =? b); auto.
      * change [WInfos b [i]; WBitmap (m_bm m')] with ([WInfos b [i]] ++ [WBitmap (m_bm m')]). apply safe_app.
        -- apply safe_one; [exists m; auto|exists m; auto].
        -- cbn [wr_all fold_left]. apply safe_one; [exists m; auto|]. exists m'. split; [exact Hm'|]. now apply rel_bitmap.
      * rewrite Hd. exact Bf.
Qed.

(** ** Restart *)
Lemma mok_weaken : forall cf bm bm' a st st' ch, mok cf (PMem bm a st ch) -> incl st' st -> mok cf (PMem bm' a st' ch).
Proof.
  intros cf bm bm' a st st' ch [A [B [C [D F]]]] H. unfold mok. cbn [m_area m_chunks m_starts] in *. ands; auto.
  intros x Hx. apply F. now apply H.
Qed.

Lemma load_slots_ok : forall cf d m0, mok cf m0 -> rel m0 d -> forall slots m,
  NoDup slots -> mok cf m -> m_starts m = [] -> (forall s i, In (s, i) (m_chunks m) -> d_bm d s = true /\ d_slot d s = Some i /\ ~ In s slots) ->
  exists m', load_slots d slots m = Some m' /\ mok cf m' /\ m_bm m' = m_bm m /\
    forall s i, In (s, i) (m_chunks m') <-> In (s, i) (m_chunks m) \/ (In s slots /\ d_bm d s = true /\ d_slot d s = Some i).
Proof.
  intros cf d m0 Hm0 [R1 R2]. induction slots as [|s r IH]; intros m Hnd Hm Hst Hc; cbn [load_slots].
  - exists m. ands; auto. intros s i. cbn [In]. tauto.
  - inversion Hnd as [|? ? N1 N2]; subst. destruct (d_bm d s) eqn:Eb.
    + destruct (R2 s (R1 s Eb)) as [i [i' [X [Y Z]]]]. rewrite Y.
      assert (Hc0 : In (ci_ext i) (m_area m0)) by (eapply (in_ranges_area cf m0 (s, i)); eauto).
      assert (Ei : ci_ext i' = ci_ext i) by (unfold ident in Z; congruence).
      destruct (ci_ext i') as [a z] eqn:Ea.
      assert (Bd := chain_in _ _ _ _ (proj1 Hm0) Hc0). rewrite <- Ei in Bd. cbn [fst snd] in Bd.
      assert (Ns : ~ In s (map fst (m_chunks m))).
      { intros Q. apply in_map_iff in Q. destruct Q as [[t j] [Q1 Q2]]. cbn [fst] in Q1. subst t.
        destruct (Hc _ _ Q2) as [_ [_ Q3]]. apply Q3. now left. }
      assert (Hm1 : mok cf (PMem (m_bm m) (area_insert (a, z) (m_area m)) [] ((s, i') :: m_chunks m))).
      { eapply mok_weaken with (bm := m_bm m); [apply (mok_add cf m a z s i' (m_bm m)); auto|].
        - lia.
        - lia.
        - lia.
        - intros x Hx Ho. destruct Hm as [_ [P _]]. eapply Permutation_in in Hx; [|symmetry; exact P].
          unfold ranges in Hx. apply in_map_iff in Hx. destruct Hx as [[t j] [Q1 Q2]]. cbn [snd] in Q1.
          destruct (Hc _ _ Q2) as [Q3 [Q4 Q5]]. destruct (R2 t (R1 t Q3)) as [k [k' [U [V W]]]].
          assert (Hne : s <> t) by (intros ->; apply Q5; now left).
          destruct (mok_placed _ _ Hm0) as [_ [Ap _]].
          apply (apart_in _ _ _ Ap X U Hne). cbn [snd]. rewrite <- Ei.
          replace (ci_ext k) with x; [exact Ho|]. rewrite Q4 in V. injection V as <-. unfold ident in W. congruence.
        - destruct Hm0 as [_ [_ [_ [Q _]]]]. rewrite Forall_forall in Q. apply (Q (s, i) X).
        - intros x []. }
      rewrite Hst. destruct (IH (PMem (m_bm m) (area_insert (a, z) (m_area m)) [] ((s, i') :: m_chunks m)))
        as [m' [L1 [L2 [L3 L4]]]]; auto.
      { cbn [m_chunks]. intros t j [Q|Q].
        - injection Q as <- <-. auto.
        - destruct (Hc _ _ Q) as [Q1 [Q2 Q3]]. ands; auto. intros Q4. apply Q3. now right. }
      exists m'. ands; auto. intros t j. rewrite L4. cbn [m_chunks In]. split.
      * intros [[Q|Q]|Q]; [injection Q as <- <-; right; auto|left; exact Q|right; tauto].
      * intros [Q|[[<-|Q] [Q1 Q2]]]; [tauto| |tauto]. left. left. congruence.
    + destruct (IH m N2 Hm Hst) as [m' [L1 [L2 [L3 L4]]]].
      { intros t j Q. destruct (Hc _ _ Q) as [Q1 [Q2 Q3]]. ands; auto. intros Q4. apply Q3. now right. }
      exists m'. ands; auto. intros t j. rewrite L4. cbn [In]. split; [tauto|].
      intros [Q|[[<-|Q] [Q1 Q2]]]; [tauto|congruence|tauto].
Qed.

Lemma range_nodup : forall n s, NoDup (range s n).
Proof.
  induction n as [|n IH]; intros s; cbn [range]; constructor; [|auto]. rewrite in_range. lia.
Qed.

Lemma load_ok : forall cf d, disk_good cf d -> exists m, load_chunks cf d = Some m /\ inv cf (m, d).
Proof.
  intros cf d [m0 [Hm0 Hr0]]. unfold load_chunks.
  destruct (load_slots_ok cf d m0 Hm0 Hr0 (range 0 (N.to_nat (p_nslots cf))) (PMem (d_bm d) [] [] []))
    as [m [L1 [L2 [L3 L4]]]]; auto.
  - apply range_nodup.
  - unfold mok. cbn [m_area m_chunks m_starts chain ranges map]. ands; auto; try constructor. intros x [].
  - cbn [m_chunks]. intros s i [].
  - exists m. split; [exact L1|]. cbn [m_bm m_chunks In] in *. destruct Hr0 as [R1 R2]. unfold inv. cbn [fst snd]. ands; auto.
    + split; [now rewrite L3|]. rewrite L3. intros s Hs. destruct (R2 s (R1 s Hs)) as [i [i' [X [Y Z]]]].
      exists i', i'. ands; auto. apply L4. right. ands; auto. apply in_range.
      destruct Hm0 as [_ [_ [_ [Q _]]]]. rewrite Forall_forall in Q. specialize (Q _ X). cbn [fst] in Q. lia.
    + intros [s i] Hc. cbn [fst]. rewrite L3. apply L4 in Hc. tauto.
    + now rewrite L3.
Qed.

(** ** Histories *)
Lemma handles_ok : forall cf m slots, mok cf m -> NoDup slots ->
  incl (handles m slots) (m_chunks m) /\ NoDup (map fst (handles m slots)) /\
  forall c, In c (handles m slots) <-> In c (m_chunks m) /\ In (fst c) slots.
Proof.
  intros cf m slots Hm Hd.
  assert (I : forall c, In c (handles m slots) <-> In c (m_chunks m) /\ In (fst c) slots).
  { intros c. unfold handles. rewrite in_flat_map. split.
    - intros [s [H1 H2]]. apply filter_In in H2. destruct H2 as [H2 H3]. apply N.eqb_eq in H3. subst s. auto.
    - intros [H1 H2]. exists (fst c). split; [exact H2|]. apply filter_In. split; [exact H1|apply N.eqb_refl]. }
  ands; auto.
  - intros c Hc. now apply I in Hc.
  - destruct Hm as [_ [_ [N _]]]. clear I. unfold handles. induction slots as [|s r IH]; [constructor|].
    inversion Hd as [|? ? N1 N2]; subst. cbn [flat_map]. rewrite map_app.
    assert (H1 := NoDup_map_filter _ _ fst (fun c => fst c =? s) _ N).
    assert (H2 := IH N2). clear IH.
    assert (H3 : forall x, In x (map fst (filter (fun c : chunk => fst c =? s) (m_chunks m))) -> x = s).
    { intros x Hx. apply in_map_iff in Hx. destruct Hx as [c [X1 X2]]. apply filter_In in X2. lia. }
    assert (H4 : ~ In s (map fst (flat_map (fun s => filter (fun c : chunk => fst c =? s) (m_chunks m)) r))).
    { intros Hx. apply in_map_iff in Hx. destruct Hx as [c [X1 X2]]. apply in_flat_map in X2.
      destruct X2 as [t [X2 X3]]. apply filter_In in X3. destruct X3 as [_ X3]. apply N.eqb_eq in X3.
      apply N1. rewrite <- X1, X3. exact X2. }
    revert H1 H3. generalize (map fst (filter (fun c : chunk => fst c =? s) (m_chunks m))) as l.
    induction l as [|a l IHl]; intros H1 H3; cbn [app]; [exact H2|]. inversion H1 as [|? ? M1 M2]; subst. constructor.
    + intros X. apply in_app_or in X. destruct X as [X|X]; [contradiction|]. apply H4.
      rewrite <- (H3 a (or_introl eq_refl)). exact X.
    + apply IHl; [exact M2|]. intros x Hx. apply H3. now right.
Qed.

Lemma run_op_ok : forall cf m d o, inv cf (m, d) -> legal_pop cf m o ->
  exists m' ws, run_op cf m o = Some (m', ws) /\ inv cf (m', wr_all d ws) /\ safe cf d ws.
Proof.
  intros cf m d o Hi Hl. assert (Hi' := Hi). destruct Hi' as [Hm [Hr [Hy Hd]]]. cbn [fst snd] in *.
  assert (Rem : forall ss, NoDup ss -> exists m' ws, Some (do_removes m (handles m ss)) = Some (m', ws) /\ inv cf (m', wr_all d ws) /\ safe cf d ws).
  { intros ss Hss. destruct (do_removes m (handles m ss)) as [m' ws] eqn:E.
    destruct (handles_ok cf m ss Hm Hss) as [H1 [H2 H3]].
    destruct (do_removes_ok cf (handles m ss) m d m' ws) as [E1 [E2 [E3 [E4 [E5 [E6 E7]]]]]]; auto.
    exists m', ws. ands; auto. unfold inv. cbn [fst snd]. ands; auto.
    - intros c Hc. rewrite E6. apply E7 in Hc. destruct Hc as [X1 X2]. rewrite (Hy c X1). cbn [andb].
      apply negb_true_iff. apply not_true_is_false. intros X. apply existsb_exists in X. destruct X as [c' [Y1 Y2]].
      apply X2. apply N.eqb_eq in Y2. rewrite <- Y2. now apply in_map.
    - destruct (handles m ss) as [|c0 r0]; [|apply E4; discriminate]. destruct (E5 eq_refl) as [-> ->]. exact Hd. }
  destruct o as [vdev size ids|id vdev size ord|s|ss|]; cbn [run_op legal_pop] in *.
  - destruct (create_chunks_ok cf m d vdev size ids Hi Hl) as [m' [ws [ans [E [A [B _]]]]]]. rewrite E. exists m', ws. auto.
  - destruct Hl as [Hs Hg]. destruct (create_chunk_ok cf m d id vdev size ord Hi Hs) as [[E _]|[[m' [E [G _]]]|[m' [b [i [E [A [B _]]]]]]]].
    + rewrite E. exists m, []. ands; auto. apply safe_nil. exists m; auto.
    + contradiction.
    + rewrite E. eexists m', _. cbn [option_map fst snd]. ands; auto.
  - apply Rem. constructor; [auto|constructor].
  - apply Rem. exact Hl.
  - exists m, []. ands; auto. apply safe_nil. exists m; auto.
Qed.

Lemma pstep_ok : forall cf st oc, inv cf st -> legal_pop cf (fst st) (fst oc) ->
  exists st', pstep cf st oc = Some st' /\ inv cf st'.
Proof.
  intros cf [m d] [o oc] Hi Hl. cbn [fst snd] in *. destruct (run_op_ok cf m d o Hi Hl) as [m' [ws [E [A B]]]].
  unfold pstep. cbn [fst snd]. rewrite E.
  assert (Hg : disk_good cf d) by (exists m; split; apply Hi).
  destruct (load_ok cf d Hg) as [m0 [L0 I0]].
  assert (K : exists st', match oc with
     | None => Some (m', wr_all d ws)
     | Some k => let d' := wr_all d (firstn k ws) in option_map (fun m2 => (m2, d')) (load_chunks cf d')
     end = Some st' /\ inv cf st').
  { destruct oc as [k|]; [|eauto]. destruct (load_ok cf _ (B k)) as [m2 [L2 I2]]. cbn zeta. rewrite L2. cbn [option_map]. eauto. }
  destruct o; try exact K. rewrite L0. cbn [option_map]. eauto.
Qed.

Lemma phist_inv : forall cf junk st, phist cf junk st -> inv cf st.
Proof.
  intros cf junk st H. induction H as [|st oc H IH L st' E].
  - unfold formatted, inv. cbn [fst snd]. ands; auto.
    + unfold mok. cbn [m_area m_chunks m_starts chain ranges map]. ands; auto; try constructor. intros x [].
    + split; cbn [d_bm m_bm]; intros; discriminate.
    + intros c [].
  - destruct (pstep_ok cf st oc IH L) as [st2 [E2 I2]]. congruence.
Qed.

Lemma find_slot : forall (l : list chunk) s i, NoDup (map fst l) -> In (s, i) l -> find (fun c => fst c =? s) l = Some (s, i).
Proof.
  induction l as [|[t j] r IH]; intros s i Hd H; [contradiction|]. cbn [find fst map] in *. inversion Hd as [|? ? N1 N2]; subst.
  destruct H as [H|H].
  - injection H as -> ->. now rewrite N.eqb_refl.
  - destruct (N.eqb_spec t s) as [->|E]; [|auto]. exfalso. apply N1. now apply in_map with (f := fst) in H.
Qed.

Lemma held_found : forall cf m d, inv cf (m, d) -> forall s, held (m_chunks m) s = found d s.
Proof.
  intros cf m d [Hm [[R1 R2] [Hy Hd]]] s. cbn [fst snd] in *. unfold held, found. rewrite Hd.
  destruct (m_bm m s) eqn:E.
  - destruct (R2 s E) as [i [i' [X [Y Z]]]]. destruct Hm as [_ [_ [N _]]]. rewrite (find_slot _ _ _ N X), Y. cbn [option_map snd]. now f_equal.
  - destruct (find (fun c => fst c =? s) (m_chunks m)) as [c|] eqn:F; [|reflexivity].
    apply find_some in F. destruct F as [F1 F2]. apply N.eqb_eq in F2. apply Hy in F1. congruence.
Qed.

(** ** Atomicity *)
Lemma quiet_found : forall d ws s, Forall (quiet (d_bm d)) ws -> found (wr_all d ws) s = found d s.
Proof.
  intros d ws s H. unfold found. rewrite (quiet_bm _ _ _ H). destruct (d_bm d s) eqn:E; [|reflexivity].
  now rewrite (quiet_slot _ _ _ _ H E).
Qed.

Lemma Forall_firstn : forall A (P : A -> Prop) k l, Forall P l -> Forall P (firstn k l).
Proof. intros A P k l H. rewrite Forall_forall in *. intros x Hx. apply H. rewrite <- (firstn_skipn k l). apply in_or_app. now left. Qed.

Lemma last_write_decides : forall d wi w k s, Forall (quiet (d_bm d)) wi -> (k < length (wi ++ [w]))%nat ->
  found (wr_all d (firstn k (wi ++ [w]))) s = found d s.
Proof.
  intros d wi w k s H Hk. rewrite app_length in Hk. cbn [length] in Hk. rewrite firstn_app.
  replace (k - length wi)%nat with O by lia. cbn [firstn]. rewrite app_nil_r. apply quiet_found. now apply Forall_firstn.
Qed.

Lemma remove_atomic : forall cf m d c m' ws k s, inv cf (m, d) -> In c (m_chunks m) -> do_remove m c = (m', ws) ->
  (k < length ws)%nat -> found (wr_all d (firstn k ws)) s = found d s.
Proof.
  intros cf m d c m' ws k s Hi Hc H Hk. unfold do_remove in H. injection H as _ <-. cbn [length] in Hk.
  destruct k as [|k]; [reflexivity|]. replace k with O by lia. cbn [firstn wr_all fold_left].
  unfold found. cbn [wr_disk d_bm d_slot]. destruct (d_bm d s) eqn:E; [|reflexivity].
  destruct (N.eq_dec s (fst c)) as [->|Ne].
  - rewrite put_slots_in by (cbn [length]; lia). replace (N.to_nat (fst c - fst c)) with O by lia. cbn [nth_error option_map].
    assert (Hf := held_found cf m d Hi (fst c)). unfold held, found in Hf. rewrite E in Hf.
    destruct Hi as [Hm _]. destruct Hm as [_ [_ [N _]]]. cbn [fst] in N.
    rewrite (find_slot (m_chunks m) (fst c) (snd c)) in Hf; [|exact N|now rewrite <- surjective_pairing].
    cbn [option_map snd] in Hf. rewrite <- Hf. reflexivity.
  - rewrite put_slots_out; [reflexivity|]. cbn [length]. lia.
Qed.
