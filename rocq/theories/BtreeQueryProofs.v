(** Both queries find the entries of the range. *)
From Coq Require Import ZArith NArith List Bool Lia Sorting.Sorted.
From Coq Require Import ZifyBool ZifyNat ZifyN.
From Verif Require Import Base BtNodeModel BtNodeSpec BtNodeProofs BtreeModel BtreeInv BtreePut
  BtreeMerge BtreeMerge2 BtreeQueryModel.
Import ListNotations.

(** ** Taking from segments *)

Definition acc (f : gfilter) (p : Z * N) : bool := accepts f (fst p) (snd p).
Definition inr (w : krange) (p : Z * N) : bool := in_range w (fst p).

(** Without a filter the page may end anywhere; with one it must hold all. *)
Definition good (f : gfilter) (b : nat) (l : list (Z * N)) : Prop :=
  (forall p, acc f p = true) \/ (length l < b)%nat.

Definition took (f : gfilter) (b : nat) (l : list (Z * N)) : list (Z * N) :=
  filter (acc f) (firstn b l).

Lemma filter_id : forall T (g : T -> bool) l, (forall x, g x = true) -> filter g l = l.
Proof. induction l as [|x l IH]; intros H; cbn; [reflexivity|]. now rewrite H, IH. Qed.

Lemma took_more : forall f b m r, good f b (m ++ r) -> (length (took f b m) < b)%nat ->
  took f b (m ++ r) = took f b m ++ took f (b - length (took f b m)) r /\
  good f (b - length (took f b m)) r.
Proof.
  intros f b m r [HG|HG] HL; unfold took in *.
  - rewrite !(filter_id _ (acc f)) in * by exact HG.
    assert (Hm : (length m < b)%nat) by (rewrite firstn_length in HL; lia).
    rewrite (firstn_all2 (n := b) m) in * by lia.
    rewrite firstn_app, (firstn_all2 (n := b) m) by lia. split; [reflexivity|now left].
  - rewrite app_length in HG.
    rewrite (firstn_all2 (n := b) m) in * by lia.
    rewrite (firstn_all2 (n := b) (m ++ r)) by (rewrite app_length; lia).
    pose proof (filter_length_le' _ (acc f) m).
    rewrite (firstn_all2 (n := (b - length (filter (acc f) m))%nat) r) by lia.
    rewrite filter_app. split; [reflexivity|right; lia].
Qed.

Lemma took_full : forall f b m r, good f b (m ++ r) -> (b <= length (took f b m))%nat ->
  took f b (m ++ r) = took f b m /\ length (took f b m) = b.
Proof.
  intros f b m r [HG|HG] HL; unfold took in *.
  - rewrite !(filter_id _ (acc f)) in * by exact HG. rewrite firstn_length in *.
    rewrite firstn_app. replace (b - length m)%nat with 0%nat by lia. cbn.
    rewrite app_nil_r. split; [reflexivity|lia].
  - rewrite app_length in HG.
    pose proof (filter_length_le' _ (acc f) (firstn b m)).
    rewrite firstn_length in *. lia.
Qed.

Lemma good_app : forall f b m r, good f b (m ++ r) -> good f b m.
Proof. intros f b m r [H|H]; [now left|right]. rewrite app_length in H. lia. Qed.

Lemma took_len : forall f b l, (length (took f b l) <= b)%nat.
Proof.
  intros. unfold took. pose proof (filter_length_le' _ (acc f) (firstn b l)).
  rewrite firstn_length in *. lia.
Qed.

Lemma took_nil : forall f b, took f b [] = [].
Proof. intros. unfold took. now rewrite firstn_nil. Qed.

Lemma multi_get_took : forall es w b f, sorted es ->
  multi_get es w b f = took f b (filter (inr w) es).
Proof. intros. unfold took, acc, inr. now apply multi_get_ok. Qed.

Lemma sorted_parts : forall a b : list (Z * N), sorted (a ++ b) ->
  sorted a /\ sorted b /\ forall p q, In p a -> In q b -> (fst p < fst q)%Z.
Proof.
  intros a b HS. apply sorted_app in HS. destruct HS as [H1 [H2 H3]].
  split; [assumption|]. split; [assumption|]. intros p q Hp Hq.
  rewrite Forall_forall in H3. specialize (H3 p Hp). unfold all_gt in H3.
  rewrite Forall_forall in H3. auto.
Qed.

Lemma filter_nothing : forall w l, (forall p, In p l -> in_range w (fst p) = false) ->
  filter (inr w) l = [].
Proof.
  induction l as [|p l IH]; intros H; cbn; [reflexivity|]. unfold inr at 1.
  rewrite H by now left. apply IH. intros q Hq. apply H. now right.
Qed.

Lemma below_out : forall w k, (k < r_start w)%Z -> in_range w k = false.
Proof.
  intros w k H. unfold in_range. apply andb_false_iff. left.
  destruct (r_sincl w); [apply Z.leb_gt|apply Z.ltb_ge]; lia.
Qed.
Lemma above_out : forall w k, (r_end w < k)%Z -> in_range w k = false.
Proof.
  intros w k H. unfold in_range. apply andb_false_iff. right.
  destruct (r_eincl w); [apply Z.leb_gt|apply Z.ltb_ge]; lia.
Qed.

(** ** Sweep *)

Section Sweep.
Variable c : cfg.

Lemma descend_ok : forall h lo hi t k fuel, wf h lo hi t -> inb lo hi k -> (h < fuel)%nat ->
  exists pre cur post, descend fuel t k = Ok cur /\ leaves t = pre ++ cur :: post /\
    (forall p, In p (items pre) -> (fst p < k)%Z) /\
    (forall p, In p (items post) -> (k < fst p)%Z).
Proof.
  induction h as [|h IH]; intros lo hi [id next es|id next es ed] k fuel HW HK HF;
    cbn in HW; try contradiction; (destruct fuel as [|fuel]; [lia|]); cbn [descend].
  - exists [], (id, next, es), []. repeat split; cbn; auto; contradiction.
  - destruct HW as [HN HC].
    destruct (find_slot _ _ _ _ _ _ HC HK) as [p [u [x [q [m [HE [HI [HP [HB [HX HQ]]]]]]]]]].
    rewrite HI, child_at_slots, HE, nth_len_app. cbn [option_map snd].
    destruct (IH _ _ _ _ fuel HX HB ltac:(lia)) as [pre [cur [post [H1 [H2 [H3 H4]]]]]].
    exists (lvs p ++ pre), cur, (post ++ lvs q). split; [exact H1|]. split.
    { rewrite leaves_inner, HE, lvs_app. change (lvs ((u, x) :: q)) with (leaves x ++ lvs q).
      rewrite H2, <- !app_assoc. reflexivity. }
    split; intros y Hy; rewrite items_app in Hy; apply in_app_or in Hy; destruct Hy as [Hy|Hy]; auto.
    + destruct (chain_items _ _ _ _ (wf_content h) HP) as [_ HF1].
      rewrite Forall_forall in HF1. specialize (HF1 y Hy). destruct HF1 as [_ HF1].
      destruct HB as [HB _]. pose proof (ele_elt_trans _ _ _ HF1 HB) as HH. exact HH.
    + destruct (chain_items _ _ _ _ (wf_content h) HQ) as [_ HF1].
      rewrite Forall_forall in HF1. specialize (HF1 y Hy). destruct HF1 as [HF1 _].
      destruct HB as [_ HB]. pose proof (ele_elt_trans _ _ _ HB HF1) as HH. exact HH.
Qed.

Lemma read_leaf_ok : forall pre l post, NoDup (ids (pre ++ l :: post)) ->
  read_leaf (pre ++ l :: post) (fst (fst l)) = Some l.
Proof.
  intros pre l post HN. unfold read_leaf. induction pre as [|x pre IH]; cbn in *.
  - now rewrite N.eqb_refl.
  - inversion HN as [|? ? H1 H2]; subst.
    destruct (N.eqb_spec (fst (fst x)) (fst (fst l))) as [E|_]; [|auto].
    exfalso. apply H1. rewrite E. unfold ids. rewrite map_app. apply in_or_app. right. now left.
Qed.

Lemma last_key_in : forall (es : list (Z * N)), es <> [] ->
  exists v, In (last_key c es, v) es.
Proof.
  intros es H. destruct (exists_last H) as [l [[k v] ->]]. exists v. unfold last_key.
  rewrite map_app. cbn [map fst]. rewrite last_last. apply in_or_app. right. now left.
Qed.

Lemma sweep_ok : forall post pre cur fuel w b f,
  NoDup (ids (pre ++ cur :: post)) ->
  lchain (fst (fst cur)) (cur :: post) no_id -> Forall (fun i => i <> no_id) (ids post) ->
  sorted (items (cur :: post)) ->
  (forall p, In p (items post) -> (r_start w < fst p)%Z) ->
  (c_k0 c <= r_start w <= r_end w)%Z ->
  (0 < b)%nat -> good f b (filter (inr w) (items (cur :: post))) ->
  (length post < fuel)%nat ->
  sweep c fuel (pre ++ cur :: post) cur w (r_end w) b f =
    Ok (took f b (filter (inr w) (items (cur :: post))),
        if (b <=? length (took f b (filter (inr w) (items (cur :: post)))))%nat
        then StMore else StSuccess).
Proof.
  induction post as [|nxt post IH];
    intros pre [[id next] es] fuel w b f HN HL HI HS HP HK HB HG HF;
    (destruct fuel as [|fuel]; [lia|]); cbn [sweep].
  - change (items [(id, next, es)]) with (es ++ []) in *. rewrite app_nil_r in *.
    rewrite multi_get_took by exact HS. cbn in HL. destruct HL as [_ ->].
    destruct (Nat.ltb_spec (length (took f b (filter (inr w) es))) b) as [H|H];
      [rewrite (proj2 (Nat.leb_gt _ _) H)|rewrite (proj2 (Nat.leb_le _ _) H); reflexivity].
    destruct (r_end w <=? last_key c es)%Z; [reflexivity|].
    rewrite N.eqb_refl. reflexivity.
  - change (items ((id, next, es) :: nxt :: post)) with (es ++ items (nxt :: post)) in *.
    destruct (sorted_parts _ _ HS) as [HS1 [HS2 HS3]].
    rewrite multi_get_took by exact HS1. rewrite filter_app in HG |- *.
    destruct (Nat.ltb_spec (length (took f b (filter (inr w) es))) b) as [H|H].
    + destruct (took_more _ _ _ _ HG H) as [HT HG2]. rewrite HT.
      destruct (Z.leb_spec (r_end w) (last_key c es)) as [HE|HE].
      * (* the rest is beyond the range *)
        assert (HO : filter (inr w) (items (nxt :: post)) = []).
        { apply filter_nothing. intros p Hp. apply above_out.
          destruct es as [|y es0] eqn:Ees.
          - cbn in HE. specialize (HP p Hp). lia.
          - destruct (last_key_in (y :: es0) ltac:(discriminate)) as [v Hv].
            specialize (HS3 _ _ Hv Hp). cbn [fst] in HS3. lia. }
        rewrite HO, took_nil, app_nil_r. rewrite (proj2 (Nat.leb_gt _ _) H). reflexivity.
      * cbn in HL. destruct HL as [_ HL]. destruct nxt as [[nid nn] nes]. destruct HL as [<- HL].
        pose proof (Forall_inv HI) as HI1. pose proof (Forall_inv_tail HI) as HI2. cbn [fst] in HI1.
        rewrite (proj2 (N.eqb_neq _ _) HI1).
        assert (HR : read_leaf (pre ++ (id, nid, es) :: (nid, nn, nes) :: post) nid
                     = Some (nid, nn, nes)).
        { change ((id, nid, es) :: (nid, nn, nes) :: post)
            with ([(id, nid, es)] ++ (nid, nn, nes) :: post).
          rewrite app_assoc. apply (read_leaf_ok (pre ++ [(id, nid, es)]) (nid, nn, nes) post).
          rewrite <- app_assoc. exact HN. }
        rewrite HR. clear HR.
        replace (pre ++ (id, nid, es) :: (nid, nn, nes) :: post)
          with ((pre ++ [(id, nid, es)]) ++ (nid, nn, nes) :: post) in *
          by (rewrite <- app_assoc; reflexivity).
        rewrite IH; try assumption.
        -- rewrite app_length.
           set (g1 := took f b (filter (inr w) es)) in *.
           set (g2 := took _ _ _).
           destruct (Nat.leb_spec (b - length g1) (length g2));
             destruct (Nat.leb_spec b (length g1 + length g2)); try lia; reflexivity.
        -- cbn. split; [reflexivity|exact HL].
        -- intros p Hp. apply HP. change (items ((nid, nn, nes) :: post)) with (nes ++ items post).
           apply in_or_app. now right.
        -- lia.
        -- cbn in HF. lia.
    + destruct (took_full _ _ _ _ HG H) as [HT _]. rewrite HT.
      rewrite (proj2 (Nat.leb_le _ _) H). reflexivity.
Qed.

(** The whole query: it is right about the content of the tree. *)
Lemma do_sweep_ok : forall nx t w b f, tree_ok nx t -> (nx <= no_id)%N ->
  (c_k0 c <= r_start w <= r_end w)%Z -> (0 < b)%nat ->
  good f b (filter (inr w) (content t)) ->
  do_sweep c t w (r_end w) b f =
    Ok (took f b (filter (inr w) (content t)),
        if (b <=? length (took f b (filter (inr w) (content t))))%nat then StMore else StSuccess).
Proof.
  intros nx t w b f [[h HW] [[a HA] [HN HI]]] HX HK HB HG. unfold do_sweep.
  rewrite (wf_level _ _ _ _ HW).
  destruct (descend_ok _ _ _ _ (r_start w) (S h) HW (inb_top _) ltac:(lia))
    as [pre [cur [post [HD [HE [HP1 HP2]]]]]].
  rewrite HD. unfold content in *. rewrite HE in *.
  assert (HO : filter (inr w) (items pre) = []).
  { apply filter_nothing. intros p Hp. apply below_out. auto. }
  assert (HS : sorted (items (pre ++ cur :: post))).
  { pose proof (wf_content _ _ _ _ HW) as [HS _]. unfold content in HS. now rewrite HE in HS. }
  rewrite items_app in *. rewrite filter_app, HO in *. cbn [app] in *.
  apply sorted_parts in HS. destruct HS as [_ [HS _]].
  apply lchain_app in HA. destruct HA as [m [_ HA]].
  rewrite (sweep_ok post pre cur); try assumption; try reflexivity.
  - destruct cur as [[i n] es]. cbn in *. destruct HA as [-> HA]. auto.
  - rewrite ids_app in HI. apply Forall_app in HI. destruct HI as [_ HI].
    inversion HI as [|? ? _ HI2]; subst. eapply Forall_impl; [|exact HI2]. intros i Hi ->. clear - Hi HX. lia.
  - rewrite app_length. cbn. lia.
Qed.

End Sweep.

(** ** Traversal *)

Lemma children_segment : forall m es ed p q, slots es ed = p ++ m ++ q ->
  children es ed (length p) (length m) = Some (map snd m).
Proof.
  induction m as [|[u x] m IH]; intros es ed p q HE; cbn [length children]; [reflexivity|].
  rewrite child_at_slots, HE. cbn [app]. rewrite nth_len_app. cbn [option_map snd].
  specialize (IH es ed (p ++ [(u, x)]) q). rewrite app_length, Nat.add_1_r in IH.
  rewrite IH by (rewrite <- app_assoc; exact HE). reflexivity.
Qed.

Lemma chain_items_in : forall h p lo m y, chain (wf h) lo m p -> In y (items (lvs p)) ->
  elt lo (Fin (fst y)) /\ ele (Fin (fst y)) m.
Proof.
  intros h p lo m y HC Hy. destruct (chain_items _ _ _ _ (wf_content h) HC) as [_ HF].
  rewrite Forall_forall in HF. exact (HF y Hy).
Qed.

Definition sl (es : list (Z * tree)) : list (ext * tree) :=
  map (fun p => (Fin (fst p), snd p)) es.

(** The upper bound of a chain of entries. *)
Lemma chain_end : forall P es lo m, chain P lo m (sl es) ->
  m = match rev es with [] => lo | p :: _ => Fin (fst p) end.
Proof.
  intros P es lo m H. destruct es as [|y es _] using rev_ind.
  - cbn in *. auto.
  - unfold sl in H. rewrite map_app in H. apply chain_app in H. destruct H as [m' [_ H]].
    cbn in H. destruct H as [_ [_ <-]]. rewrite rev_app_distr. reflexivity.
Qed.

Lemma chain_end_lt : forall P es lo m k, chain P lo m (sl es) -> all_lt k es ->
  elt lo (Fin k) -> elt m (Fin k).
Proof.
  intros P es lo m k H HA HL. rewrite (chain_end _ _ _ _ H).
  destruct (rev es) as [|p r] eqn:E; [assumption|]. cbn.
  unfold all_lt in HA. rewrite Forall_forall in HA. apply HA. apply in_rev. rewrite E. now left.
Qed.

(** A child that has to be visited. *)
Definition visit (h : nat) (w : krange) (lo u : ext) (x : tree) : Prop :=
  wf h lo u x /\ ele (Fin (r_start w)) u /\ elt lo (Fin (r_end w)).

Lemma chain_visit : forall h w d lo m, chain (wf h) lo m (sl d) ->
  all_ge (r_start w) d -> all_lt (r_end w) d -> elt lo (Fin (r_end w)) ->
  chain (visit h w) lo m (sl d).
Proof.
  induction d as [|[k x] d IH]; intros lo m HC HG HL HE; cbn in *; [assumption|].
  destruct HC as [H1 [H2 H3]]. inversion HG; inversion HL; subst. cbn [fst snd] in *.
  split; [assumption|]. split.
  - split; [assumption|]. split; [|assumption].
    destruct (Z.eq_dec (r_start w) k) as [->|]; [now right|left; cbn; lia].
  - apply IH; assumption.
Qed.

Lemma split_le : forall (a1 b1 a2 b2 : list (Z * tree)) k1 k2, a1 ++ b1 = a2 ++ b2 ->
  all_lt k1 a1 -> all_ge k2 b2 -> (k1 <= k2)%Z -> exists d, a2 = a1 ++ d /\ b1 = d ++ b2.
Proof.
  induction a1 as [|x a1 IH]; intros b1 a2 b2 k1 k2 HE H1 H2 HK; cbn in HE.
  - exists a2. auto.
  - destruct a2 as [|y a2]; cbn in HE.
    + subst b2. inversion H1; inversion H2; subst. lia.
    + injection HE as <- HE. inversion H1; subst.
      destruct (IH _ _ _ _ _ HE H4 H2 HK) as [d [-> ->]]. exists d. auto.
Qed.

Lemma trav_slots : forall h es ed lo hi w, chain (wf h) lo hi (slots es ed) ->
  slots es ed <> [] -> ele (Fin (r_start w)) hi -> elt lo (Fin (r_end w)) ->
  (r_start w <= r_end w)%Z ->
  exists p m q a b, slots es ed = p ++ m ++ q /\ m <> [] /\
    snd (bsearch_node es (r_start w)) = length p /\
    (let e := snd (bsearch_node es (r_end w)) in
     (if (e =? length es)%nat && negb (match ed with Some _ => true | None => false end)
      then (e - 1)%nat else e) = (length p + length m - 1)%nat) /\
    chain (visit h w) a b m /\
    (forall y, In y (items (lvs p)) -> (fst y < r_start w)%Z) /\
    (forall y, In y (items (lvs q)) -> (r_end w < fst y)%Z).
Proof.
  intros h es ed lo hi w HC HN HS HE HR.
  destruct (slots_sorted _ _ _ _ _ HC) as [HSo _].
  destruct (bsearch_split es (r_start w) HSo) as [a1 [b1 [E1 [Ha1 [Hb1 F1]]]]].
  destruct (bsearch_split es (r_end w) HSo) as [a2 [b2 [E2 [Ha2 [Hb2 F2]]]]].
  rewrite F1, F2. cbn [snd]. clear F1 F2. rewrite E1 in E2.
  destruct (split_le _ _ _ _ _ _ E2 Ha1 Hb2 HR) as [d [-> ->]]. clear E2. subst es.
  unfold all_lt in Ha2. apply Forall_app in Ha2. destruct Ha2 as [_ Ha2].
  unfold all_ge in Hb1. apply Forall_app in Hb1. destruct Hb1 as [Hb1 _].
  change (slots (a1 ++ d ++ b2) ed) with
    (sl (a1 ++ d ++ b2) ++ match ed with Some e => [(PosInf, e)] | None => [] end) in *.
  unfold sl in *. rewrite !map_app in *. fold (sl a1) (sl d) (sl b2) in *.
  rewrite <- !app_assoc in *.
  apply chain_app in HC. destruct HC as [a [HC1 HC]].
  apply chain_app in HC. destruct HC as [b [HC2 HC3]].
  assert (Hlo : elt lo (Fin (r_end w))) by assumption.
  assert (Ha : elt a (Fin (r_end w))).
  { eapply chain_end_lt; [exact HC1| |exact Hlo]. eapply Forall_impl; [|exact Ha1].
    cbn. intros; lia. }
  assert (HP : forall y, In y (items (lvs (sl a1))) -> (fst y < r_start w)%Z).
  { intros y Hy. destruct (chain_items_in _ _ _ _ _ HC1 Hy) as [_ H2].
    destruct a1 as [|z a1']; [contradiction|].
    assert (H3 : elt a (Fin (r_start w))).
    { rewrite (chain_end _ _ _ _ HC1). destruct (rev (z :: a1')) as [|p r] eqn:E.
      - apply (f_equal (@length _)) in E. rewrite rev_length in E. discriminate.
      - cbn. unfold all_lt in Ha1. rewrite Forall_forall in Ha1. apply Ha1. apply in_rev.
        rewrite E. now left. }
    exact (ele_elt_trans _ _ _ H2 H3). }
  assert (Hb : elt b (Fin (r_end w))) by (eapply chain_end_lt; eassumption).
  assert (HV : chain (visit h w) a b (sl d)) by (apply chain_visit; assumption).
  assert (Hls : length (sl a1) = length a1 /\ length (sl d) = length d)
    by (unfold sl; rewrite !map_length; auto). destruct Hls as [Hl1 Hl2].
  destruct b2 as [|[k x] b2].
  - cbn [sl map app] in HC3. rewrite app_nil_r in *.
    destruct ed as [e|].
    + exists (sl a1), (sl d ++ [(PosInf, e)]), [], a, PosInf.
      split; [rewrite app_nil_r; cbn [sl map app]; reflexivity|].
      split; [destruct (sl d); discriminate|]. split; [now rewrite Hl1|].
      split. { rewrite andb_false_r. rewrite !app_length, Hl1, Hl2. cbn. lia. }
      split; [|split; [assumption|contradiction]].
      apply chain_app. exists b. split; [assumption|]. cbn in HC3.
      destruct HC3 as [H1 [H2 H3]]. cbn. split; [assumption|]. split; [|reflexivity].
      split; [assumption|]. split; [left; exact I|assumption].
    + cbn in HC3. subst b. exists (sl a1), (sl d), [], a, hi.
      split; [cbn [sl map app]; now rewrite app_nil_r|].
      assert (Hd : sl d <> []).
      { intros Hd. rewrite Hd in HC2. cbn in HC2. subst a.
        cbn [sl map app] in HN. rewrite Hd in HN.
        destruct a1 as [|z a1']; [cbn in HN; congruence|].
        apply (elt_irrefl (Fin (r_start w))). eapply ele_elt_trans; [exact HS|].
        rewrite (chain_end _ _ _ _ HC1). destruct (rev (z :: a1')) as [|p r] eqn:E.
        - apply (f_equal (@length _)) in E. rewrite rev_length in E. discriminate.
        - cbn. unfold all_lt in Ha1. rewrite Forall_forall in Ha1. apply Ha1. apply in_rev.
          rewrite E. now left. }
      split; [assumption|]. split; [now rewrite Hl1|].
      split. { rewrite Nat.eqb_refl. cbn [negb andb]. rewrite !app_length, Hl1, Hl2.
               destruct d; [congruence|]. cbn. lia. }
      split; [assumption|]. split; [assumption|contradiction].
  - cbn [sl map app fst snd] in HC3. destruct HC3 as [H1 [H2 H3]].
    inversion Hb2; subst. cbn [fst] in *.
    exists (sl a1), (sl d ++ [(Fin k, x)]),
      (sl b2 ++ match ed with Some e => [(PosInf, e)] | None => [] end), a, (Fin k).
    split; [cbn [sl map app fst snd]; rewrite <- !app_assoc; reflexivity|].
    split; [destruct (sl d); discriminate|]. split; [now rewrite Hl1|].
    split. { assert (Hne : (length (a1 ++ d) =? length (a1 ++ d ++ (k, x) :: b2))%nat = false).
             { apply Nat.eqb_neq. rewrite !app_length. cbn. lia. }
             rewrite Hne. cbn [andb]. rewrite !app_length, Hl1, Hl2. cbn. lia. }
    split; [|split; [assumption|]].
    + apply chain_app. exists b. split; [assumption|]. cbn. split; [assumption|].
      split; [|reflexivity]. split; [assumption|]. split; [|assumption].
      destruct (Z.eq_dec (r_start w) k) as [->|]; [now right|left; cbn; lia].
    + intros y Hy. destruct (chain_items_in _ _ _ _ _ H3 Hy) as [H6 _]. cbn in H6. lia.
Qed.

Definition trav_loop fuel w lim batch f :=
  fix loop (xs : list tree) (out : list (Z * N)) : res (list (Z * N) * status) :=
    match xs with
    | [] => Ok (out, StSuccess)
    | x :: r =>
        match do_trav fuel x w lim batch f out with
        | Stop s => Stop s
        | Ok (out', StMore) => Ok (out', StMore)
        | Ok (out', _) => loop r out'
        end
    end.

Definition ends (batch : nat) (out : list (Z * N)) : res (list (Z * N) * status) :=
  Ok (out, if (batch <=? length out)%nat then StMore else StSuccess).

Lemma trav_loop_ok : forall fuel h w batch f m a b out,
  (forall lo u x out, visit h w lo u x -> (length out < batch)%nat ->
     good f (batch - length out) (filter (inr w) (content x)) ->
     do_trav fuel x w (r_end w) batch f out =
     ends batch (out ++ took f (batch - length out) (filter (inr w) (content x)))) ->
  chain (visit h w) a b m -> (length out < batch)%nat ->
  good f (batch - length out) (filter (inr w) (items (lvs m))) ->
  trav_loop fuel w (r_end w) batch f (map snd m) out =
  ends batch (out ++ took f (batch - length out) (filter (inr w) (items (lvs m)))).
Proof.
  intros fuel h w batch f. induction m as [|[u x] m IH]; intros a b out HX HC HO HG.
  - cbn. rewrite took_nil, app_nil_r. unfold ends. rewrite (proj2 (Nat.leb_gt _ _) HO). reflexivity.
  - cbn in HC. destruct HC as [H1 [H2 H3]].
    change (lvs ((u, x) :: m)) with (leaves x ++ lvs m) in *. rewrite items_app in *.
    fold (content x) in *. rewrite filter_app in *. cbn [map snd trav_loop].
    rewrite (HX _ _ _ _ H2 HO (good_app _ _ _ _ HG)). unfold ends at 1.
    set (g := took f (batch - length out) (filter (inr w) (content x))) in *.
    destruct (Nat.leb_spec batch (length (out ++ g))) as [HL|HL].
    + rewrite app_length in HL.
      destruct (took_full _ _ _ _ HG ltac:(fold g; lia)) as [HT _].
      rewrite HT. fold g. unfold ends. rewrite (proj2 (Nat.leb_le _ _)) by (rewrite app_length; lia).
      reflexivity.
    + assert (HL' := HL). rewrite app_length in HL'.
      destruct (took_more _ _ _ _ HG ltac:(fold g; lia)) as [HT HG2].
      fold g in HT, HG2. rewrite HT.
      fold (trav_loop fuel w (r_end w) batch f).
      rewrite (IH _ _ (out ++ g) HX H3 HL); rewrite app_length;
        replace (batch - (length out + length g))%nat with (batch - length out - length g)%nat by lia.
      * rewrite <- app_assoc. reflexivity.
      * exact HG2.
Qed.

Lemma do_trav_ok : forall h lo hi t w fuel batch f out, wf h lo hi t ->
  ele (Fin (r_start w)) hi -> elt lo (Fin (r_end w)) -> (r_start w <= r_end w)%Z ->
  (h < fuel)%nat -> (length out < batch)%nat ->
  good f (batch - length out) (filter (inr w) (content t)) ->
  do_trav fuel t w (r_end w) batch f out =
  ends batch (out ++ took f (batch - length out) (filter (inr w) (content t))).
Proof.
  induction h as [|h IH]; intros lo hi [id next es|id next es ed] w fuel batch f out
    HW HS HE HR HF HO HG; cbn in HW; try contradiction; (destruct fuel as [|fuel]; [lia|]);
    cbn [do_trav].
  - destruct HW as [HW _]. rewrite multi_get_took by exact HW. unfold content. cbn [leaves items flat_map snd].
    rewrite app_nil_r. reflexivity.
  - destruct HW as [HN HC].
    destruct (trav_slots _ _ _ _ _ _ HC HN HS HE HR)
      as [p [m [q [a [b [HQ [Hm [Hs [He [HV [Hp Hq]]]]]]]]]]].
    cbv zeta in He. rewrite He, Hs. clear He Hs.
    assert (Hlen : length (slots es ed) = (length p + length m + length q)%nat)
      by (rewrite HQ, !app_length; lia).
    rewrite slots_length in Hlen.
    assert (Hml : (0 < length m)%nat) by (destruct m; [congruence|cbn; lia]).
    assert (Hc1 : (length p =? length es)%nat &&
      negb (match ed with Some _ => true | None => false end) = false).
    { destruct ed; [apply andb_false_r|]. apply andb_false_iff. left. apply Nat.eqb_neq. lia. }
    rewrite Hc1. rewrite (proj2 (Nat.ltb_ge _ _)) by lia.
    replace (S (length p + length m - 1) - length p)%nat with (length m) by lia.
    rewrite (children_segment _ _ _ _ _ HQ).
    fold (trav_loop fuel w (r_end w) batch f).
    assert (HCt : filter (inr w) (content (Inner id next es ed)) = filter (inr w) (items (lvs m))).
    { unfold content. rewrite leaves_inner, HQ, !lvs_app, !items_app, !filter_app.
      rewrite (filter_nothing w (items (lvs p))) by (intros y Hy; apply below_out; auto).
      rewrite (filter_nothing w (items (lvs q))) by (intros y Hy; apply above_out; auto).
      cbn. apply app_nil_r. }
    rewrite HCt in *.
    eapply trav_loop_ok; [|exact HV|exact HO|exact HG].
    intros lo' u x out' [H1 [H2 H3]] HO' HG'. eapply IH; eauto. lia.
Qed.

(** ** Pages *)

Section Pages.
Variable c : cfg.

Lemma query_ok : forall kd nx t inp w b f, tree_ok nx t -> (nx <= no_id)%N ->
  r_end w = r_end inp -> (kd = QSweep -> c_k0 c <= r_start w)%Z -> (r_start w <= r_end w)%Z -> (0 < b)%nat ->
  good f b (filter (inr w) (content t)) ->
  let out := took f b (filter (inr w) (content t)) in
  query c kd t inp w b f =
  Ok (match out with
      | [] => (out, if (b <=? length out)%nat then StMore else StSuccess, w)
      | _ => (out, if (r_end inp <=? last_key c out)%Z then StSuccess
                   else if (b <=? length out)%nat then StMore else StSuccess,
              KRange (last_key c out) false (r_end w) (r_eincl w) (r_opt w))
      end).
Proof.
  intros kd nx t inp w b f HT HX HE HK0 HK HB HG out. unfold query.
  rewrite (proj2 (Nat.eqb_neq _ _)) by lia.
  assert (HQ : match kd with
               | QSweep => do_sweep c t w (r_end inp) b f
               | QTraverse => do_trav (S (level t)) t w (r_end inp) b f []
               end = Ok (out, if (b <=? length out)%nat then StMore else StSuccess)).
  { rewrite <- HE. destruct kd.
    - eapply do_sweep_ok; try eassumption. specialize (HK0 eq_refl). lia.
    - destruct HT as [[h HW] _]. rewrite (wf_level _ _ _ _ HW).
      erewrite do_trav_ok; [|exact HW|left; exact I|exact I|lia|lia|cbn; lia|
                            cbn [length]; rewrite Nat.sub_0_r; exact HG].
      unfold ends. cbn [app length]. rewrite Nat.sub_0_r. reflexivity. }
  rewrite HQ. destruct out; reflexivity.
Qed.

Lemma in_range_start : forall w k, in_range w k = true -> (r_start w <= k <= r_end w)%Z.
Proof.
  intros w k H. unfold in_range in H. apply andb_true_iff in H. destruct H as [H1 H2].
  destruct (r_sincl w), (r_eincl w); lia.
Qed.

(** After a page the rest is what is above its last key. *)
Lemma next_page : forall l w out rest, sorted l -> filter (inr w) l = out ++ rest ->
  out <> [] ->
  let w' := KRange (last_key c out) false (r_end w) (r_eincl w) (r_opt w) in
  filter (inr w') l = rest /\ (r_start w <= last_key c out <= r_end w)%Z /\
  (forall p, In p rest -> (last_key c out < fst p)%Z).
Proof.
  intros l w out rest HS HE HN w'.
  assert (HSf : sorted (filter (inr w) l)).
  { clear - HS. induction l as [|p l IH]; cbn; [constructor|]. apply sorted_cons in HS.
    destruct HS as [H1 H2]. destruct (inr w p); [|auto]. apply sorted_cons. split; [|auto].
    unfold all_gt in *. rewrite Forall_forall in *. intros q Hq. apply filter_In in Hq. apply H1.
    tauto. }
  rewrite HE in HSf. destruct (sorted_parts _ _ HSf) as [HSo [HSr HSx]].
  destruct (last_key_in c out HN) as [v Hv].
  assert (Hk : (r_start w <= last_key c out <= r_end w)%Z).
  { apply in_range_start. assert (HI : In (last_key c out, v) (filter (inr w) l))
      by (rewrite HE; apply in_or_app; now left). apply filter_In in HI. exact (proj2 HI). }
  assert (HR : forall p, In p rest -> (last_key c out < fst p)%Z)
    by (intros p Hp; exact (HSx _ _ Hv Hp)).
  split; [|split; assumption].
  assert (Hle : forall p, In p out -> (fst p <= last_key c out)%Z).
  { clear - HSo HN. intros p Hp. destruct (exists_last HN) as [o [[k v] ->]].
    unfold last_key. rewrite map_app. cbn [map fst]. rewrite last_last.
    destruct (sorted_parts _ _ HSo) as [_ [_ H]]. apply in_app_or in Hp.
    destruct Hp as [Hp|[<-|[]]]; [|cbn; lia]. specialize (H p (k, v) Hp (or_introl eq_refl)).
    cbn in H. lia. }
  assert (HF : filter (inr w') l = filter (fun p => (last_key c out <? fst p)%Z) (filter (inr w) l)).
  { clear - Hk. induction l as [|p l IH]; cbn; [reflexivity|].
    assert (E : inr w' p = inr w p && (last_key c out <? fst p)%Z).
    { unfold inr, in_range, w'. cbn [r_start r_sincl r_end r_eincl].
      destruct (r_sincl w), (r_eincl w); lia. }
    rewrite E. destruct (inr w p); cbn; [|assumption].
    destruct (last_key c out <? fst p)%Z; rewrite IH; reflexivity. }
  rewrite HF, HE, filter_app.
  rewrite (filter_false (fun p => (last_key c out <? fst p)%Z) out).
  - cbn. rewrite (filter_true (fun p => (last_key c out <? fst p)%Z) rest); [reflexivity|].
    apply Forall_forall. intros p Hp. specialize (HR p Hp). lia.
  - apply Forall_forall. intros p Hp. specialize (Hle p Hp). lia.
Qed.

Lemma pages_ok : forall kd nx t inp b fuel w, tree_ok nx t -> (nx <= no_id)%N ->
  r_end w = r_end inp -> (kd = QSweep -> c_k0 c <= r_start w)%Z -> (r_start w <= r_end w)%Z -> (0 < b)%nat ->
  (length (filter (inr w) (content t)) < fuel)%nat ->
  exists l, pages c fuel kd t inp w b None = Ok l /\
    concat l = filter (inr w) (content t) /\ Forall (fun pg => (length pg <= b)%nat) l.
Proof.
  intros kd nx t inp b. induction fuel as [|fuel IH]; intros w HT HX HE HK0 HK HB HF; [lia|].
  cbn [pages].
  assert (HG : good None b (filter (inr w) (content t))) by (left; reflexivity).
  rewrite (query_ok kd _ _ _ _ _ _ HT HX HE HK0 HK HB HG).
  set (R := filter (inr w) (content t)) in *.
  assert (Ht : took None b R = firstn b R) by (apply filter_id; reflexivity).
  rewrite Ht in *. clear HG.
  assert (HSo : sorted (content t)).
  { destruct HT as [[h HW] _]. exact (proj1 (wf_content _ _ _ _ HW)). }
  destruct (firstn b R) as [|y out0] eqn:Eo.
  - assert (HR : R = []) by (destruct R, b; cbn in Eo; congruence || lia).
    rewrite HR. cbn [length]. rewrite (proj2 (Nat.leb_gt b 0)) by lia.
    exists [[]]. split; [reflexivity|]. split; [reflexivity|]. repeat constructor. cbn; lia.
  - rewrite <- Eo in *. set (out := firstn b R) in *.
    assert (HN : out <> []) by (rewrite Eo; discriminate).
    assert (HER : filter (inr w) (content t) = out ++ skipn b R)
      by (fold R; unfold out; now rewrite firstn_skipn).
    destruct (next_page _ _ _ _ HSo HER HN) as [HW' [HK' HR']]. fold R in HER.
    assert (Hol : (length out <= b)%nat) by (unfold out; rewrite firstn_length; lia).
    destruct (Z.leb_spec (r_end inp) (last_key c out)) as [HL|HL].
    + assert (Hsk : skipn b R = []).
      { destruct (skipn b R) as [|p r] eqn:Es; [reflexivity|]. exfalso.
        specialize (HR' p (or_introl eq_refl)).
        assert (HI : In p R) by (rewrite HER; apply in_or_app; right; now left).
        apply filter_In in HI. destruct HI as [_ HI]. apply in_range_start in HI. lia. }
      exists [out]. split; [reflexivity|]. split.
      * cbn. rewrite HER, Hsk. reflexivity.
      * repeat constructor. assumption.
    + destruct (Nat.leb_spec b (length out)) as [Hb|Hb].
      * destruct (IH (KRange (last_key c out) false (r_end w) (r_eincl w) (r_opt w))) as [l [H1 [H2 H3]]];
          try assumption; cbn [r_end r_start].
        -- intros E. specialize (HK0 E). lia.
        -- lia.
        -- rewrite HW'. rewrite HER, app_length in HF.
           assert ((0 < length out)%nat) by (rewrite Eo; cbn; lia). lia.
        -- exists (out :: l). rewrite H1. split; [reflexivity|]. split.
           ++ cbn. rewrite H2, HW'. symmetry. exact HER.
           ++ constructor; assumption.
      * assert (HRR : out = R).
        { unfold out in *. apply firstn_all2. rewrite firstn_length in Hb. lia. }
        exists [out]. split; [reflexivity|]. split; [cbn; rewrite app_nil_r; assumption|].
        repeat constructor. assumption.
Qed.

Lemma pages_filter : forall kd nx t inp b fuel f, tree_ok nx t -> (nx <= no_id)%N ->
  (kd = QSweep -> c_k0 c <= r_start inp)%Z -> (r_start inp <= r_end inp)%Z ->
  (length (filter (inr inp) (content t)) < b)%nat ->
  pages c (S fuel) kd t inp inp b f = Ok [filter (acc f) (filter (inr inp) (content t))].
Proof.
  intros kd nx t inp b fuel f HT HX HK0 HK HB. cbn [pages].
  rewrite (query_ok kd _ _ _ inp b f HT HX eq_refl HK0 HK ltac:(lia) ltac:(now right)).
  assert (Ht : took f b (filter (inr inp) (content t)) =
               filter (acc f) (filter (inr inp) (content t))).
  { unfold took. rewrite firstn_all2 by lia. reflexivity. }
  rewrite Ht. pose proof (filter_length_le' _ (acc f) (filter (inr inp) (content t))).
  rewrite (proj2 (Nat.leb_gt _ _)) by lia.
  destruct (filter (acc f) (filter (inr inp) (content t))) as [|y o]; [reflexivity|].
  destruct (r_end inp <=? last_key c (y :: o))%Z; reflexivity.
Qed.

End Pages.
