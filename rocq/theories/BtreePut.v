(** Put and get of one key refine the sorted list. *)
From Coq Require Import ZArith NArith List Bool Lia.
From Coq Require Import ZifyBool ZifyNat ZifyN.
From Verif Require Import Base BtNodeModel BtNodeSpec BtNodeProofs BtreeModel BtreeInv.
Import ListNotations.

Section WithCfg.
Variable c : cfg.

Definition is_success (st : status) : bool :=
  match st with StSuccess => true | _ => false end.

(** What a put does to a list of entries. *)
Definition put_ok (kd : pkind) (k : Z) (v : N) (f : pfilter)
    (es es' : list (Z * N)) (st : status) (old : option N) : Prop :=
  st = fst (put_spec kd v f k (assoc es k)) /\ old = assoc es k /\
  es' = if is_success st then put_list k v es else es.

Lemma leaf_ok_put : forall lo hi k v es, leaf_ok lo hi es -> inb lo hi k ->
  leaf_ok lo hi (put_list k v es).
Proof.
  intros lo hi k v es [H1 H2] Hk. split; [now apply put_list_sorted|].
  rewrite Forall_forall in *. intros p Hp. apply put_list_in in Hp.
  destruct Hp as [->|Hp]; auto.
Qed.

Lemma leaf_ok_del : forall lo hi k es, leaf_ok lo hi es ->
  leaf_ok lo hi (del_list k es).
Proof.
  intros lo hi k es [H1 H2]. split; [now apply del_list_sorted|].
  rewrite Forall_forall in *. intros p Hp. apply del_list_in in Hp. auto.
Qed.

Lemma below_lt : forall A lo m k (es : list (Z * A)), leaf_ok lo m es ->
  elt m (Fin k) -> all_lt k es.
Proof.
  intros A lo m k es [_ H] Hk. unfold all_lt. eapply Forall_impl; [|exact H].
  intros p [_ H2]. exact (ele_elt_trans _ _ _ H2 Hk).
Qed.
Lemma above_gt : forall A m hi k (es : list (Z * A)), leaf_ok m hi es ->
  ele (Fin k) m -> all_gt k es.
Proof.
  intros A m hi k es [_ H] Hk. unfold all_gt. eapply Forall_impl; [|exact H].
  intros p [H2 _]. exact (ele_elt_trans _ _ _ Hk H2).
Qed.

Lemma lvs_slot : forall p u x q, lvs (p ++ (u, x) :: q) = lvs p ++ leaves x ++ lvs q.
Proof. intros. rewrite lvs_app. reflexivity. Qed.

(** A lookup below an interior node is a lookup in the child. *)
Lemma assoc_slot : forall h lo m u hi p x q k,
  chain (wf h) lo m p -> wf h m u x -> chain (wf h) u hi q -> inb m u k ->
  assoc (items (lvs (p ++ (u, x) :: q))) k = assoc (content x) k.
Proof.
  intros h lo m u hi p x q k HP HX HQ [H1 H2].
  rewrite lvs_slot, !items_app, assoc_app.
  rewrite (assoc_lt (items (lvs p)) k).
  - rewrite assoc_app. fold (content x). destruct (assoc (content x) k); [reflexivity|].
    apply assoc_gt. eapply above_gt; [|exact H2].
    eapply chain_items; [apply wf_content|exact HQ].
  - eapply below_lt; [|exact H1]. eapply chain_items; [apply wf_content|exact HP].
Qed.

Lemma put_slot : forall h lo m u hi p x q k v,
  chain (wf h) lo m p -> wf h m u x -> chain (wf h) u hi q -> inb m u k ->
  put_list k v (items (lvs (p ++ (u, x) :: q))) =
  items (lvs p) ++ put_list k v (content x) ++ items (lvs q).
Proof.
  intros h lo m u hi p x q k v HP HX HQ [H1 H2].
  rewrite lvs_slot, !items_app, put_list_app, put_list_gt; [reflexivity| |].
  - eapply above_gt; [|exact H2]. eapply chain_items; [apply wf_content|exact HQ].
  - eapply below_lt; [|exact H1]. eapply chain_items; [apply wf_content|exact HP].
Qed.

Lemma del_slot : forall h lo m u hi p x q k,
  chain (wf h) lo m p -> wf h m u x -> chain (wf h) u hi q -> inb m u k ->
  del_list k (items (lvs (p ++ (u, x) :: q))) =
  items (lvs p) ++ del_list k (content x) ++ items (lvs q).
Proof.
  intros h lo m u hi p x q k HP HX HQ [H1 H2].
  rewrite lvs_slot, !items_app, del_list_app, del_list_gt; [reflexivity| |].
  - eapply above_gt; [|exact H2]. eapply chain_items; [apply wf_content|exact HQ].
  - eapply below_lt; [|exact H1]. eapply chain_items; [apply wf_content|exact HP].
Qed.

Lemma child_at_slot : forall es ed p u x q, slots es ed = p ++ (u, x) :: q ->
  child_at es ed (length p) = Some x.
Proof. intros es ed p u x q H. rewrite child_at_slots, H, nth_len_app. reflexivity. Qed.

Lemma content_inner : forall id nx es ed,
  content (Inner id nx es ed) = items (lvs (slots es ed)).
Proof. intros. unfold content. now rewrite leaves_inner. Qed.

Lemma do_put_ok : forall fuel h lo hi t nx kd k v f t' nx' st old,
  wf h lo hi t -> inb lo hi k ->
  do_put c fuel nx t kd k v f = Ok (t', nx', st, old) ->
  wf h lo hi t' /\ lgood nx (leaves t) nx' (leaves t') /\
  put_ok kd k v f (content t) (content t') st old.
Proof.
  induction fuel as [|fuel IH]; intros h lo hi t nx kd k v f t' nx' st old HW HK HR;
    [discriminate|].
  destruct h as [|h], t as [id next es|id next es ed]; cbn in HW; try contradiction;
    cbn [do_put] in HR.
  - unfold put_in_leaf in HR. pose proof (leaf_put_ok es kd k v f (proj1 HW)) as HP.
    destruct (leaf_put es kd k v f) as [[st0 old0] es'].
    assert (HR' : t' = Leaf id next es' /\ nx' = nx /\ st = st0 /\ old = old0).
    { destruct (_ <=? _)%N; [injection HR as <- <- <- <-; auto|].
      destruct st0; try discriminate; injection HR as <- <- <- <-; auto. }
    destruct HR' as [-> [-> [-> ->]]]. destruct HP as [H1 [H2 H3]].
    assert (HC : forall e, content (Leaf id next e) = e)
      by (intros; unfold content, items; cbn; apply app_nil_r).
    split; [|split].
    + cbn. rewrite H3. destruct st0; try assumption. now apply leaf_ok_put.
    + cbn [leaves]. apply lgood_same; [lia| |reflexivity]. cbn. auto.
    + rewrite !HC. split; [assumption|]. split; [assumption|].
      rewrite H3. destruct st0; reflexivity.
  - destruct HW as [HN HC].
    destruct (find_slot _ _ _ _ _ _ HC HK) as [p [u [x [q [m [HE [HI [HP [HB [HX HQ]]]]]]]]]].
    rewrite HI in HR. rewrite (child_at_slot _ _ _ _ _ _ HE) in HR.
    destruct (split_needed c kd k v x).
    + destruct (split_node c nx es ed (length p) x) as [[[es1 ed1] nx1]|] eqn:ES; [|discriminate].
      destruct (split_node_ok _ _ _ _ _ _ _ _ _ _ _ _ _ _ _ HE HP HX HQ ES)
        as [S1 [S2 [S3 S4]]].
      destruct (IH (S h) lo hi (Inner id next es1 ed1) _ _ _ _ _ _ _ _ _ (conj S1 S2) HK HR) as [R1 [R2 R3]].
      split; [assumption|]. split.
      * eapply lgood_trans; [|exact R2]. rewrite !leaves_inner. exact S4.
      * rewrite content_inner in R3 |- *. rewrite S3 in R3. exact R3.
    + destruct (do_put c fuel nx x kd k v f) as [[[[x' nx1] st1] old1]|] eqn:EP; [|discriminate].
      destruct (IH _ _ _ _ _ _ _ _ _ _ _ _ _ HX HB EP) as [R1 [R2 R3]].
      pose proof (set_child_slots es ed p u x q x' HE) as HS.
      destruct (set_child es ed (length p) x') as [es1 ed1].
      injection HR as <- <- <- <-.
      split; [|split].
      * cbn. rewrite HS. split; [destruct p; discriminate|].
        rewrite HE in HC. apply chain_app. exists m. split; [assumption|].
        cbn. split; [|auto]. destruct HB. eapply elt_ele_trans; eassumption.
      * rewrite !leaves_inner, HS, HE, !lvs_slot. now apply lgood_ctx.
      * rewrite !content_inner, HS, HE. destruct R3 as [R3 [R4 R5]].
        unfold put_ok. rewrite (assoc_slot h lo m u hi) by assumption.
        split; [assumption|]. split; [assumption|].
        destruct (is_success st1) eqn:Est.
        { rewrite (put_slot h lo m u hi) by assumption.
          rewrite lvs_slot, !items_app. fold (content x'). rewrite R5. reflexivity. }
        { rewrite !lvs_slot, !items_app. fold (content x') (content x). now rewrite R5. }
Qed.

(** ** The root *)

(** A tree as a whole: some height, the leaves form one chain that ends, ids
    are distinct and below the next one. *)
Definition tree_ok (nx : N) (t : tree) : Prop :=
  (exists h, wf h NegInf PosInf t) /\
  (exists a, lchain a (leaves t) no_id) /\
  NoDup (ids (leaves t)) /\ Forall (fun i => i < nx)%N (ids (leaves t)).

Lemma tree_ok_lgood : forall nx t nx' t', tree_ok nx t ->
  (exists h, wf h NegInf PosInf t') -> lgood nx (leaves t) nx' (leaves t') ->
  tree_ok nx' t'.
Proof.
  intros nx t nx' t' [H1 [[a H2] [H3 H4]]] HW []. split; [assumption|].
  split; [eauto|]. split; [auto|]. rewrite Forall_forall in *. intros i Hi.
  destruct (lg_new i Hi) as [H|H]; [specialize (H4 i H); lia|lia].
Qed.

Lemma inb_top : forall k, inb NegInf PosInf k.
Proof. intros k. split; [exact I|left; exact I]. Qed.

Lemma split_root_ok : forall h t nx t' nx',
  wf h NegInf PosInf t -> split_root c nx t = Ok (t', nx') ->
  wf (S h) NegInf PosInf t' /\ content t' = content t /\
  lgood nx (leaves t) nx' (leaves t').
Proof.
  intros h t nx t' nx' HW HS. unfold split_root in HS.
  destruct (split_node c (nx + 1) [] None 0 t) as [[[es ed] nx1]|] eqn:E; [|discriminate].
  injection HS as <- <-. unfold split_node in E.
  destruct (split_child c (nx + 1) t) as [[[k l] r]|] eqn:EC; [|discriminate].
  destruct (split_child_ok _ _ _ _ _ _ _ _ _ HW EC) as [K1 [K2 [K3 [K4 [K5 K6]]]]].
  cbn [set_child nth_error] in E. destruct (_ <=? _)%N; [|discriminate].
  injection E as <- <- <-. unfold ins_at. cbn [firstn skipn app].
  split; [|split].
  - cbn. split; [discriminate|]. auto.
  - unfold content in *. rewrite leaves_inner. cbn. rewrite app_nil_r, items_app. exact K5.
  - rewrite leaves_inner. cbn. rewrite app_nil_r.
    eapply lgood_trans; [|exact K6]. apply lgood_refl. lia.
Qed.

Lemma put_tree_ok : forall fuel t nx kd k v f t' nx' st old,
  tree_ok nx t -> put c fuel nx t kd k v f = Ok (t', nx', st, old) ->
  tree_ok nx' t' /\ put_ok kd k v f (content t) (content t') st old.
Proof.
  induction fuel as [|fuel IH]; intros t nx kd k v f t' nx' st old HT HR; [discriminate|].
  cbn [put] in HR. pose proof HT as [[h HW] _].
  destruct (split_needed c kd k v t).
  - destruct (split_root c nx t) as [[t1 nx1]|] eqn:E; [|discriminate].
    destruct (split_root_ok _ _ _ _ _ HW E) as [H1 [H2 H3]].
    assert (HT1 : tree_ok nx1 t1) by (eapply tree_ok_lgood; eauto).
    destruct (IH _ _ _ _ _ _ _ _ _ _ HT1 HR) as [H4 H5]. rewrite H2 in H5. auto.
  - destruct (do_put_ok _ _ _ _ _ _ _ _ _ _ _ _ _ _ HW (inb_top k) HR) as [H1 [H2 H3]].
    split; [|assumption]. eapply tree_ok_lgood; eauto.
Qed.

(** ** Get *)

Lemma do_get_ok : forall h lo hi t k fuel, wf h lo hi t -> inb lo hi k -> (h < fuel)%nat ->
  do_get fuel t k = Ok (assoc (content t) k).
Proof.
  induction h as [|h IH]; intros lo hi [id next es|id next es ed] k fuel HW HK HF;
    cbn in HW; try contradiction; (destruct fuel as [|fuel]; [lia|]); cbn [do_get].
  - rewrite leaf_find_ok by apply HW. unfold content, items. cbn. now rewrite app_nil_r.
  - destruct HW as [HN HC].
    destruct (find_slot _ _ _ _ _ _ HC HK) as [p [u [x [q [m [HE [HI [HP [HB [HX HQ]]]]]]]]]].
    rewrite HI, (child_at_slot _ _ _ _ _ _ HE).
    rewrite (IH m u x k fuel HX HB ltac:(lia)).
    rewrite content_inner, HE. now rewrite (assoc_slot h lo m u hi) by assumption.
Qed.

Lemma get_tree_ok : forall nx t k, tree_ok nx t -> get t k = Ok (assoc (content t) k).
Proof.
  intros nx t k [[h HW] _]. unfold get.
  rewrite (wf_level _ _ _ _ HW). eapply do_get_ok; [exact HW|apply inb_top|lia].
Qed.

End WithCfg.
