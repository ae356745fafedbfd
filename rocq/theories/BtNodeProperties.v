(** Properties of the operations on one B-tree node: C40, and the parts of C37,
    C38 and C39 that show in one node. *)
From Coq Require Import ZArith NArith List Bool Lia Arith.
From Coq Require Import ZifyBool ZifyNat ZifyN.
From Verif Require Import Base BtNodeModel BtNodeSpec BtNodeProofs.
Import ListNotations.
Local Open Scope Z_scope.

(** ** C40: search *)

(** Search finds a key exactly if it is there, in its slot; the index returned
    separates the smaller keys from the others. *)
Theorem c40_search : forall (A : Type) (es : list (Z * A)) k, sorted es ->
  let '(found, i) := bsearch_node es k in
  (i <= length es)%nat /\
  (found = true <-> In k (map fst es)) /\
  (found = true -> option_map fst (nth_error es i) = Some k) /\
  (forall j e, nth_error es j = Some e -> ((j < i)%nat <-> fst e < k)).
Proof.
  intros A es k HS.
  destruct (bsearch_split es k HS) as [a [b [-> [Ha [Hb ->]]]]].
  rewrite app_length. split; [lia|]. split; [|split].
  - rewrite map_app, in_app_iff. split.
    + destruct b as [|[k' v] b]; cbn [found_in]; [discriminate|]. intros H. right.
      apply Z.eqb_eq in H. subst. now left.
    + intros [H|H].
      * exfalso. apply in_map_iff in H. destruct H as [p [<- Hp]].
        unfold all_lt in Ha. rewrite Forall_forall in Ha. specialize (Ha p Hp). cbn in Ha. lia.
      * destruct b as [|[k' v] b]; [contradiction|]. cbn [found_in].
        destruct H as [H|H]; [cbn in H; subst; apply Z.eqb_refl|].
        apply sorted_app in HS. destruct HS as [_ [HS _]]. apply sorted_cons in HS.
        destruct HS as [HG _]. inversion Hb; subst. cbn in *.
        apply in_map_iff in H. destruct H as [p [<- Hp]].
        unfold all_gt in HG. rewrite Forall_forall in HG. specialize (HG p Hp). cbn in HG. lia.
  - destruct b as [|[k' v] b]; cbn [found_in]; [discriminate|]. intros H.
    rewrite nth_len_app. cbn. apply Z.eqb_eq in H. now subst.
  - intros j e Hj. destruct (Nat.lt_ge_cases j (length a)) as [H|H].
    + rewrite nth_error_app1 in Hj by assumption. apply nth_error_In in Hj.
      unfold all_lt in Ha. rewrite Forall_forall in Ha. specialize (Ha e Hj). cbn in Ha.
      split; intros; assumption.
    + rewrite nth_error_app2 in Hj by assumption. apply nth_error_In in Hj.
      unfold all_ge in Hb. rewrite Forall_forall in Hb. specialize (Hb e Hj). cbn in Hb.
      split; intros; lia.
Qed.
Print Assumptions c40_search.

Example c40_search_case :
  sorted [(2, 1%N); (4, 1%N); (9, 1%N)] /\
  bsearch_node [(2, 1%N); (4, 1%N); (9, 1%N)] 4 = (true, 1%nat) /\
  bsearch_node [(2, 1%N); (4, 1%N); (9, 1%N)] 5 = (false, 2%nat) /\
  bsearch_node [(2, 1%N); (4, 1%N); (9, 1%N)] 10 = (false, 3%nat).
Proof. split; [repeat constructor; lia|vm_compute; auto]. Qed.

(** In a leaf a range matches exactly the slots with keys in it. *)
Theorem c40_match_range : forall (A : Type) (es : list (Z * A)) r, sorted es ->
  match match_range true false es r with
  | Some (s, e) =>
      (s <= e)%nat /\
      forall j p, nth_error es j = Some p ->
        (in_range r (fst p) = true <-> (s <= j <= e)%nat)
  | None => forall p, In p es -> in_range r (fst p) = false
  end.
Proof.
  intros A es r HS.
  destruct (match_leaf es r HS) as [[-> HN]|[a [m [b [-> [Hm [Ha [HM [Hb ->]]]]]]]]].
  - rewrite Forall_forall in HN. exact HN.
  - assert (Hl : (length m <> 0)%nat) by (destruct m; cbn; congruence).
    split; [lia|]. intros j p Hj. rewrite Forall_forall in *.
    destruct (Nat.lt_ge_cases j (length a)) as [H|H].
    + rewrite nth_error_app1 in Hj by assumption. apply nth_error_In in Hj.
      rewrite (Ha p Hj). split; [discriminate|lia].
    + rewrite nth_error_app2 in Hj by assumption.
      destruct (Nat.lt_ge_cases (j - length a) (length m)) as [H'|H'].
      * rewrite nth_error_app1 in Hj by assumption. apply nth_error_In in Hj.
        rewrite (HM p Hj). split; [lia|reflexivity].
      * rewrite nth_error_app2 in Hj by assumption. apply nth_error_In in Hj.
        rewrite (Hb p Hj). split; [discriminate|lia].
Qed.
Print Assumptions c40_match_range.

Example c40_match_range_case :
  match_range true false [(2, 1%N); (4, 1%N); (9, 1%N); (12, 0%N)]
    (KRange 2 false 12 false MAny) = Some (1%nat, 2%nat).
Proof. reflexivity. Qed.

(** Lookup, removal and put of a key do in a leaf what they do in a map. *)
Theorem c40_leaf_find : forall es k, sorted es -> leaf_find es k = assoc es k.
Proof. exact leaf_find_ok. Qed.
Print Assumptions c40_leaf_find.

Theorem c40_leaf_remove : forall es k, sorted es ->
  let '(found, old, es') := leaf_remove es k in
  sorted es' /\ old = assoc es k /\
  (found = true <-> assoc es k <> None) /\
  (forall k', assoc es' k' = if k' =? k then None else assoc es k').
Proof.
  intros es k HS. rewrite leaf_remove_ok by assumption.
  split; [now apply del_list_sorted|]. split; [reflexivity|]. split.
  - destruct (assoc es k); split; congruence.
  - intros k'. apply del_list_assoc. assumption.
Qed.
Print Assumptions c40_leaf_remove.

Theorem c40_leaf_put : forall es kd k v f, sorted es ->
  let '(st, old, es') := leaf_put es kd k v f in
  sorted es' /\ old = assoc es k /\
  st = fst (put_spec kd v f k (assoc es k)) /\
  (forall k', assoc es' k' =
     if k' =? k then snd (put_spec kd v f k (assoc es k)) else assoc es k').
Proof.
  intros es kd k v f HS. pose proof (leaf_put_ok es kd k v f HS) as H.
  destruct (leaf_put es kd k v f) as [[st old] es'].
  destruct H as [-> [-> ->]].
  split; [|split; [reflexivity|split; [reflexivity|]]].
  - destruct (fst (put_spec kd v f k (assoc es k))); try assumption.
    now apply put_list_sorted.
  - intros k'.
    destruct (fst (put_spec kd v f k (assoc es k))) eqn:E.
    1: rewrite put_list_assoc by assumption.
    all: destruct (Z.eqb_spec k' k) as [->|Hn]; [|reflexivity];
      unfold put_spec in *; destruct (assoc es k) as [v0|] eqn:EA, kd, f as [g|];
      cbn in *; try discriminate; try reflexivity; try assumption;
      destruct (g k v0 v); cbn in *; try discriminate; try reflexivity; assumption.
Qed.
Print Assumptions c40_leaf_put.

Example c40_leaf_put_case :
  leaf_put [(2, 1%N); (9, 1%N)] PUpsert 4 7%N None =
    (StSuccess, None, [(2, 1%N); (4, 7%N); (9, 1%N)]) /\
  leaf_remove [(2, 1%N); (4, 7%N); (9, 1%N)] 4 = (true, Some 7%N, [(2, 1%N); (9, 1%N)]).
Proof. split; reflexivity. Qed.

(** A range read, a range removal and a range update without filter touch
    exactly the entries in the range. *)
Theorem c40_leaf_multi_get : forall es r max f, sorted es ->
  multi_get es r max f =
  filter (fun p => accepts f (fst p) (snd p))
    (firstn max (filter (fun p => in_range r (fst p)) es)).
Proof. exact multi_get_ok. Qed.
Print Assumptions c40_leaf_multi_get.

Theorem c40_leaf_multi_remove : forall es r f, sorted es ->
  snd (multi_remove es r f) =
    filter (fun p => negb (in_range r (fst p) && accepts f (fst p) (snd p))) es /\
  fst (multi_remove es r f) =
    length (filter (fun p => in_range r (fst p) && accepts f (fst p) (snd p)) es).
Proof. exact multi_remove_ok. Qed.
Print Assumptions c40_leaf_multi_remove.

Theorem c40_leaf_multi_put : forall es r v room, sorted es ->
  (forall es k, room es k = true) ->
  multi_put room es r PUpdate v None =
  Some (if existsb (fun p => in_range r (fst p)) es then StSuccess else StNotFound, None,
        map (fun p => if in_range r (fst p) then (fst p, v) else p) es).
Proof. exact multi_put_ok. Qed.
Print Assumptions c40_leaf_multi_put.

Example c40_leaf_multi_case :
  let es := [(1, 1%N); (2, 2%N); (3, 3%N); (4, 4%N)] in
  let r := KRange 1 false 3 true MAny in
  sorted es /\
  multi_get es r 10 (Some (fun k _ => k =? 3)) = [(3, 3%N)] /\
  multi_remove es r (Some (fun k _ => k =? 3)) = (1%nat, [(1, 1%N); (2, 2%N); (4, 4%N)]) /\
  multi_put (fun _ _ => true) es r PUpdate 9%N None =
    Some (StSuccess, None, [(1, 1%N); (2, 9%N); (3, 9%N); (4, 4%N)]).
Proof. split; [repeat constructor; lia|vm_compute; auto]. Qed.

(** ** C37: filter and page size *)

(** Without a page limit a filtered read of a leaf is exact. *)
Theorem c37_leaf_unlimited_partial : forall es r max f, sorted es ->
  (length es <= max)%nat ->
  multi_get es r max f =
  filter (fun p => in_range r (fst p) && accepts f (fst p) (snd p)) es.
Proof.
  intros es r max f HS HL. rewrite multi_get_ok by assumption.
  rewrite firstn_all2 by (eapply Nat.le_trans; [apply filter_length_le'|assumption]).
  induction es as [|p es IH]; [reflexivity|]. cbn [filter].
  apply sorted_cons in HS. destruct HS as [_ HS]. cbn [length] in HL.
  specialize (IH HS ltac:(lia)).
  destruct (in_range r (fst p)); cbn [andb filter]; [|exact IH].
  rewrite IH. reflexivity.
Qed.
Print Assumptions c37_leaf_unlimited_partial.

(** With one, entries that the filter accepts are left out although the page
    has room: five entries, page of two, only 3 and 4 accepted, none read. *)
Theorem c37_leaf_page_refuted : exists es r max f,
  sorted es /\ (0 < max)%nat /\
  multi_get es r max f = [] /\
  exists p, In p es /\ in_range r (fst p) = true /\ accepts f (fst p) (snd p) = true.
Proof.
  exists [(1, 1%N); (2, 1%N); (3, 1%N); (4, 1%N); (5, 1%N)], (KRange 1 true 5 true MAny),
    2%nat, (Some (fun k _ => (k =? 3) || (k =? 4))).
  split; [repeat constructor; lia|]. split; [lia|]. split; [reflexivity|].
  exists (3, 1%N). vm_compute. tauto.
Qed.
Print Assumptions c37_leaf_page_refuted.

(** ** C38: range update with a filter *)

(** A filter that removes odd keys, on the range 1 to 2: key 3, outside the
    range, goes too, because the end index is not moved after a removal. *)
Theorem c38_leaf_filter_refuted : exists es r f es',
  sorted es /\
  multi_put (fun _ _ => true) es r PUpdate 0%N f = Some (StSuccess, None, es') /\
  exists p, In p es /\ in_range r (fst p) = false /\ ~ In p es'.
Proof.
  exists [(1, 1%N); (2, 1%N); (3, 1%N); (4, 1%N)], (KRange 1 true 2 true MAny),
    (Some (fun k _ _ => if Z.odd k then DRemove else DKeep)), [(2, 1%N); (4, 1%N)].
  split; [repeat constructor; lia|]. split; [vm_compute; reflexivity|].
  exists (3, 1%N). split; [cbn; auto|]. split; [reflexivity|].
  cbn. intros [H|[H|[]]]; discriminate.
Qed.
Print Assumptions c38_leaf_filter_refuted.

(** At the end of the node the same loop reads past the last entry. *)
Theorem c38_leaf_filter_outside_refuted : exists es r f,
  sorted es /\ multi_put (fun _ _ => true) es r PUpdate 0%N f = None.
Proof.
  exists [(1, 1%N); (2, 1%N)], (KRange 1 true 2 true MAny), (Some (fun _ _ _ => DRemove)).
  split; [repeat constructor; lia|reflexivity].
Qed.
Print Assumptions c38_leaf_filter_outside_refuted.

(** ** C39: any key of a range *)

(** With the options "any" and "left most" a leaf answers right, unless the
    range ends just before a key of the leaf. *)
Theorem c39_leaf_any_partial : forall es r, sorted es ->
  r_start r <= r_end r ->
  r_opt r = MAny \/ r_opt r = MLeft ->
  (r_eincl r = true \/ ~ In (r_end r) (map fst es)) ->
  (r_start r = r_end r -> r_sincl r = true) ->
  match get_any es r with
  | AnyNone => forall p, In p es -> in_range r (fst p) = false
  | AnyEntry i k v => nth_error es i = Some (k, v) /\ in_range r k = true
  | AnyOutside => False
  end.
Proof.
  intros es r HS HR HO HE HI. unfold get_any.
  destruct (bsearch_split es (r_start r) HS) as [a [b [HEs [Ha [Hb Es]]]]].
  rewrite Es. clear Es.
  destruct (bsearch_split es (r_end r) HS) as [a2 [b2 [HEs2 [Ha2 [Hb2 Ee]]]]].
  rewrite Ee. clear Ee.
  assert (Hopt : (match r_opt r with MAny | MLeft => true | _ => false end) = true)
    by (destruct HO as [-> | ->]; reflexivity).
  rewrite Hopt, andb_true_r.
  (* the end is not excluded *)
  assert (Hex : found_in (r_end r) b2 && negb (r_eincl r) = false).
  { destruct HE as [->|HN]; [apply andb_false_r|].
    destruct (found_in (r_end r) b2) eqn:F; [|reflexivity]. exfalso. apply HN.
    destruct b2 as [|[k v] b2]; [discriminate|]. cbn in F. apply Z.eqb_eq in F. subst k.
    rewrite HEs2, map_app. apply in_or_app. right. now left. }
  rewrite Hex. cbn [andb].
  assert (HLa : (length a <= length a2)%nat).
  { destruct (Nat.le_gt_cases (length a) (length a2)) as [|H]; [assumption|].
    destruct (app_eq_len _ a2 b2 a b ltac:(congruence) ltac:(lia)) as [m [Hm1 Hm2]].
    destruct m as [|p m]; [rewrite app_nil_r in Hm1; subst; lia|].
    subst a b2. unfold all_lt in Ha. apply Forall_app in Ha. destruct Ha as [_ Ha].
    inversion Ha; subst. inversion Hb2; subst. cbn in *. lia. }
  assert (Hb' : forall p, In p b -> r_start r <= fst p)
    by (unfold all_ge in Hb; rewrite Forall_forall in Hb; exact Hb).
  assert (Ha' : forall p, In p a -> fst p < r_start r)
    by (unfold all_lt in Ha; rewrite Forall_forall in Ha; exact Ha).
  assert (Ha2' : forall p, In p a2 -> fst p < r_end r)
    by (unfold all_lt in Ha2; rewrite Forall_forall in Ha2; exact Ha2).
  assert (Hb2' : forall p, In p b2 -> r_end r <= fst p)
    by (unfold all_ge in Hb2; rewrite Forall_forall in Hb2; exact Hb2).
  assert (Hout : forall p, In p a -> in_range r (fst p) = false).
  { intros p Hp. specialize (Ha' p Hp). unfold in_range. destruct (r_sincl r); lia. }
  (* the entry in slot s *)
  assert (Hat : forall s q, nth_error es s = Some q -> in_range r (fst q) = true ->
    match any_at es s with
    | AnyNone => forall p, In p es -> in_range r (fst p) = false
    | AnyEntry i k v => nth_error es i = Some (k, v) /\ in_range r k = true
    | AnyOutside => False
    end).
  { intros s [k v] Hq Hr. unfold any_at. rewrite Hq. auto. }
  (* the keys from s on are above the start *)
  assert (Hfin : forall s c0 d, es = c0 ++ d -> length c0 = s ->
    (forall p, In p c0 -> in_range r (fst p) = false) ->
    (forall p, In p d -> if r_sincl r then r_start r <= fst p else r_start r < fst p) ->
    match
      (if (s =? length es)%nat then AnyNone
       else if (s <? length a2)%nat then any_at es s
       else if ((s =? length a2)%nat && (false || found_in (r_end r) b2))%bool then any_at es s
       else AnyNone)
    with
    | AnyNone => forall p, In p es -> in_range r (fst p) = false
    | AnyEntry i k v => nth_error es i = Some (k, v) /\ in_range r k = true
    | AnyOutside => False
    end).
  { intros s c0 d HEd Hs Hc Hd. subst s.
    destruct (Nat.eqb_spec (length c0) (length es)) as [H|H].
    { assert (d = []) by (rewrite HEd, app_length in H; destruct d; cbn in H; [reflexivity|lia]).
      subst d. rewrite app_nil_r in HEd. rewrite HEd. exact Hc. }
    destruct d as [|q d]; [rewrite app_nil_r in HEd; subst; lia|].
    assert (Hq : nth_error es (length c0) = Some q) by (rewrite HEd; apply nth_len_app).
    assert (Hqs := Hd q (or_introl eq_refl)).
    destruct (Nat.ltb_spec (length c0) (length a2)) as [H1|H1].
    { apply (Hat _ q Hq).
      assert (In q a2).
      { rewrite HEs2, nth_error_app1 in Hq by assumption. eapply nth_error_In; eauto. }
      specialize (Ha2' q H0). unfold in_range.
      destruct (r_sincl r), (r_eincl r); lia. }
    cbn [orb]. destruct (Nat.eqb_spec (length c0) (length a2)) as [H2|H2]; cbn [andb].
    - assert (Hab : a2 = c0 /\ b2 = q :: d).
      { destruct (app_eq_len _ a2 b2 c0 (q :: d) ltac:(congruence) ltac:(lia)) as [m [Hm1 Hm2]].
        destruct m; [rewrite app_nil_r in Hm1; cbn in Hm2; auto|].
        rewrite Hm1, app_length in H2. cbn in H2. lia. }
      destruct Hab as [-> ->].
      destruct (found_in (r_end r) (q :: d)) eqn:F.
      + apply (Hat _ q Hq). destruct q as [k v]. cbn in F. apply Z.eqb_eq in F. subst k.
        cbn [fst] in *. unfold in_range.
        assert (r_eincl r = true).
        { destruct HE as [H0|H0]; [assumption|]. exfalso. apply H0. rewrite HEd, map_app.
          apply in_or_app. right. now left. }
        rewrite H0. destruct (r_sincl r); lia.
      + intros p Hp. rewrite HEd in Hp. apply in_app_or in Hp. destruct Hp as [Hp|Hp]; [auto|].
        assert (r_end r < fst p).
        { destruct q as [k v]. cbn in F. apply Z.eqb_neq in F.
          destruct Hp as [<-|Hp]; [specialize (Hb2' (k, v) (or_introl eq_refl)); cbn in *; lia|].
          assert (HSd : sorted ((k, v) :: d)).
          { rewrite HEd in HS. apply sorted_app in HS. tauto. }
          apply sorted_cons in HSd. destruct HSd as [HG _]. unfold all_gt in HG.
          rewrite Forall_forall in HG. specialize (HG p Hp).
          specialize (Hb2' (k, v) (or_introl eq_refl)). cbn in *. lia. }
        unfold in_range. destruct (r_sincl r), (r_eincl r); lia.
    - (* start behind the end: the range is one excluded key *)
      assert (Hlt : (length a2 < length c0)%nat) by lia.
      destruct (app_eq_len _ a2 b2 c0 (q :: d) ltac:(congruence) ltac:(lia)) as [m [Hm1 Hm2]].
      intros p Hp. rewrite HEd in Hp. apply in_app_or in Hp. destruct Hp as [Hp|Hp]; [auto|].
      assert (Hpb : In p b2) by (rewrite Hm2; apply in_or_app; now right).
      specialize (Hb2' p Hpb). destruct m as [|x m]; [rewrite app_nil_r in Hm1; subst; lia|].
      assert (Hx : r_end r <= fst x).
      { apply (proj1 (Forall_forall _ b2) Hb2). rewrite Hm2. now left. }
      assert (fst x < fst p).
      { assert (HSd : sorted ((x :: m) ++ q :: d)).
        { rewrite <- Hm2. rewrite HEs2 in HS. apply sorted_app in HS. tauto. }
        cbn [app] in HSd. apply sorted_cons in HSd. destruct HSd as [HG _]. unfold all_gt in HG.
        rewrite Forall_forall in HG. apply HG. apply in_or_app. now right. }
      unfold in_range. destruct (r_sincl r), (r_eincl r); lia. }
  destruct (found_in (r_start r) b) eqn:F; cbn [andb].
  - destruct b as [|[k v] b]; [discriminate|]. cbn in F. apply Z.eqb_eq in F. subst k.
    destruct (r_sincl r) eqn:EI; cbn [negb].
    + apply (Hat _ (r_start r, v)).
      * rewrite HEs. apply nth_len_app.
      * cbn [fst]. unfold in_range. rewrite EI.
        destruct HE as [->|HN]; [lia|].
        assert (r_start r <> r_end r).
        { intros Heq. apply HN. rewrite <- Heq, HEs, map_app. apply in_or_app. right. now left. }
        destruct (r_eincl r); lia.
    + destruct HO as [HO|HO]; rewrite HO in *;
      apply (Hfin (S (length a)) (a ++ [(r_start r, v)]) b);
        [rewrite <- app_assoc; exact HEs|rewrite app_length; cbn; lia| | |
         rewrite <- app_assoc; exact HEs|rewrite app_length; cbn; lia| |].
      all: intros p Hp.
      all: try (apply in_app_or in Hp; destruct Hp as [Hp|[<-|[]]]; [auto|];
                cbn [fst]; unfold in_range; rewrite EI; lia).
      all: assert (HSd : sorted ((r_start r, v) :: b)) by
             (rewrite HEs in HS; apply sorted_app in HS; tauto);
           apply sorted_cons in HSd; destruct HSd as [HG _]; unfold all_gt in HG;
           rewrite Forall_forall in HG; exact (HG p Hp).
  - assert (Hd : forall p, In p b -> if r_sincl r then r_start r <= fst p else r_start r < fst p).
    { intros p Hp. destruct b as [|[k v] b]; [contradiction|]. cbn in F. apply Z.eqb_neq in F.
      assert (Hk := Hb' (k, v) (or_introl eq_refl)). cbn in Hk.
      destruct Hp as [<-|Hp]; [cbn; destruct (r_sincl r); lia|].
      assert (HSd : sorted ((k, v) :: b)) by
        (rewrite HEs in HS; apply sorted_app in HS; tauto).
      apply sorted_cons in HSd; destruct HSd as [HG _]; unfold all_gt in HG;
      rewrite Forall_forall in HG. specialize (HG p Hp). cbn in HG.
      destruct (r_sincl r); lia. }
    destruct HO as [HO|HO]; rewrite HO in *;
      exact (Hfin (length a) a b HEs eq_refl Hout Hd).
Qed.
Print Assumptions c39_leaf_any_partial.

Example c39_leaf_any_case :
  get_any [(5, 1%N); (7, 2%N); (9, 3%N)] (KRange 5 false 9 true MAny) = AnyEntry 1 7 2%N /\
  get_any [(5, 1%N); (7, 2%N); (9, 3%N)] (KRange 5 false 6 true MAny) = AnyNone.
Proof. split; reflexivity. Qed.

(** A range that ends just before a key: the one key in it is not found. *)
Theorem c39_leaf_any_refuted : exists es r p,
  sorted es /\ get_any es r = AnyNone /\ In p es /\ in_range r (fst p) = true.
Proof.
  exists [(5, 1%N); (7, 1%N)], (KRange 4 true 7 false MAny), (5, 1%N).
  split; [repeat constructor; lia|]. vm_compute. tauto.
Qed.
Print Assumptions c39_leaf_any_refuted.

(** "Right most" returns a key outside the range, or reads past the node. *)
Theorem c39_leaf_right_refuted :
  (exists es r i k v, sorted es /\ r_opt r = MRight /\
     get_any es r = AnyEntry i k v /\ in_range r k = false) /\
  (exists es r, sorted es /\ r_opt r = MRight /\ get_any es r = AnyOutside).
Proof.
  split.
  - exists [(5, 1%N); (7, 1%N); (9, 1%N)], (KRange 4 true 8 true MRight), 2%nat, 9, 1%N.
    split; [repeat constructor; lia|]. vm_compute. tauto.
  - exists [(5, 1%N)], (KRange 4 true 8 true MRight).
    split; [repeat constructor; lia|]. vm_compute. tauto.
Qed.
Print Assumptions c39_leaf_right_refuted.

(** "Mid" counts the middle from the front of the node and returns a key below
    the range. *)
Theorem c39_leaf_mid_refuted : exists es r i k v,
  sorted es /\ r_opt r = MMid /\ get_any es r = AnyEntry i k v /\ in_range r k = false.
Proof.
  exists [(1, 1%N); (2, 1%N); (3, 1%N); (4, 1%N); (5, 1%N)], (KRange 3 true 5 true MMid),
    1%nat, 2, 1%N.
  split; [repeat constructor; lia|]. vm_compute. tauto.
Qed.
Print Assumptions c39_leaf_mid_refuted.
