From Coq Require Import ZArith NArith List Bool Lia Arith Permutation.
From Verif Require Import Base MetaModel MetaSpec MetaProofs.
Import ListNotations.
Open Scope nat_scope.

Lemma env_bs e : env_ok e -> 0 < e_bs e.
Proof. intros [H _ _]. lia. Qed.
Lemma ofeet_perm os : Permutation (flat_map ofoot os) (map o_bid os ++ flat_map blocks (flat_map o_ids os)).
Proof.
  induction os as [|o os IH]; [reflexivity|]. cbn [flat_map map app ofoot]. constructor. rewrite IH. rewrite flat_map_app, !app_assoc. apply Permutation_app_tail. apply Permutation_app_comm.
Qed.
Lemma firstn_incl {A} n (l : list A) : incl (firstn n l) l.
Proof. intros x H. rewrite <- (firstn_skipn n l). apply in_or_app. now left. Qed.
Lemma firstn_nodup {A} n (l : list A) : NoDup l -> NoDup (firstn n l).
Proof. intro H. rewrite <- (firstn_skipn n l) in H. eapply NoDup_app_l; eauto. Qed.
Lemma stored_unzip e data : env_ok e -> (if match e_zip e data with Some _ => true | None => false end then e_unzip e (stored e data) else stored e data) = data.
Proof. intros [_ _ H]. unfold stored. destruct (e_zip e data) eqn:E; [apply H; exact E|reflexivity]. Qed.
Lemma room_holds e data hdrs exts : env_ok e -> big e data -> room e data hdrs exts -> holds e exts (length (stored e data)).
Proof.
  intros HE HB [R1 R2 R3 R4]. pose proof (env_bs e HE) as HP. unfold big in HB.
  assert (HBy : bytes_of e exts = fold_right (fun x a => snd x + a) 0 exts * e_bs e). { clear. unfold bytes_of. induction exts as [|x l IH]; cbn; [reflexivity|]. rewrite IH. lia. }
  rewrite R2 in HBy. unfold nblocks in *. set (n := length (stored e data)) in *. pose proof (Nat.div_mod (n + (e_bs e - 1)) (e_bs e) ltac:(lia)) as HD. pose proof (Nat.mod_upper_bound (n + (e_bs e - 1)) (e_bs e) ltac:(lia)) as HM.
  constructor; auto; [|nia|nia]. intros ->. cbn in R2. rewrite <- R2 in HD. lia.
Qed.
(** What a block that was filled says, once everything before it is written. *)
Lemma fill_ok e m data hdrs exts : env_ok e -> (big e data -> room e data hdrs exts) -> NoDup (hdrs ++ flat_map blocks exts) ->
  exists m' os ws, fill e m data hdrs exts = Some (m', os, ws) /\ b_bid m' = b_bid m /\ b_next m' = b_next m /\ b_prev m' = b_prev m /\ b_type m' = b_type m /\
    map fst ws = flat_map ofoot os /\ incl (flat_map ofoot os) (hdrs ++ flat_map blocks exts) /\ NoDup (flat_map ofoot os) /\
    forall d, settled d ws -> item_ok e d (m', os) /\ content e d (m', os) = data.
Proof.
  intros HE HR HN. unfold fill. pose proof (stored_unzip e data HE) as HZ.
  replace (match e_zip e data with Some l => (true, l) | None => (false, data) end) with (match e_zip e data with Some _ => true | None => false end, stored e data) by (unfold stored; destruct (e_zip e data); reflexivity).
  set (z := match e_zip e data with Some _ => true | None => false end) in *. set (l := stored e data) in *.
  destruct (Nat.leb_spec (length l) (ctx_sz e)) as [HS|HS].
  - eexists _, _, _. split; [reflexivity|]. ands; try reflexivity; [intros b []|constructor|]. intros d _. split.
    + constructor; cbn [fst snd b_ovf b_size b_crc b_type]; [constructor|reflexivity| |constructor|].
      * destruct (Nat.ltb_spec (ctx_sz e) (length l)); cbn; lia.
      * intro HC. rewrite HC. f_equal. unfold raw. cbn [fst b_size b_inline]. destruct (Nat.leb_spec (length l) (ctx_sz e)); [apply firstn_all|lia].
    + unfold content, raw. cbn [fst b_zip b_size b_inline]. destruct (Nat.leb_spec (length l) (ctx_sz e)); [|lia]. rewrite firstn_all. exact HZ.
  - specialize (HR HS). pose proof (room_holds e data hdrs exts HE HS HR) as HH. fold l in HH.
    destruct (plan_ok e (eo_bs e HE) hdrs exts l HH) as (os & ws & P1 & P2 & P3 & P4 & P5 & P6 & P7 & P8 & P9); [lia|apply (ro_hdrs _ _ _ _ HR)|apply (ro_fits _ _ _ _ HR)|].
    rewrite P1. eexists _, _, _. split; [reflexivity|]. pose proof (ofeet_perm os) as HP. rewrite P3, P5 in HP.
    ands; try reflexivity; [exact P2| | |].
    + intros b HB. eapply Permutation_in in HB; [|exact HP]. apply in_app_or in HB. apply in_or_app. destruct HB as [HB|HB]; [left; eapply firstn_incl; eauto|now right].
    + eapply Permutation_NoDup; [symmetry; exact HP|]. apply NoDup_app_make; [apply firstn_nodup; now apply NoDup_app_l in HN|now apply NoDup_app_r in HN|].
      intros b H1 H2. eapply NoDup_app_apart; [exact HN| |exact H2]. eapply firstn_incl; eauto.
    + intros d HD. destruct (P9 d HD) as [Q1 Q2].
      assert (HRW : forall x, raw e d (Mblk (b_bid m) (b_next m) (b_prev m) (option_map o_bid (hd_error os)) (b_gen m) (length l) x z (b_type m) (b_inline m), os) = l).
      { intro x. unfold raw. cbn [fst snd b_size]. destruct (Nat.leb_spec (length l) (ctx_sz e)); [lia|]. exact Q1. }
      split.
      * constructor; cbn [fst snd b_ovf b_size b_crc b_type]; auto.
        -- destruct (Nat.ltb_spec (ctx_sz e) (length l)); cbn; lia.
        -- intro HC. rewrite HRW, HC. reflexivity.
      * unfold content. rewrite HRW. cbn [fst b_zip]. exact HZ.
Qed.

(** ** The calls keep the invariant *)
Definition nx (n : option N) (y : item) : item := (with_next (fst y) n, snd y).
Definition pv (p : N) (y : item) : item := (with_prev (fst y) p, snd y).
Lemma item_nx e d n y : item_ok e d y -> item_ok e d (nx n y).
Proof. intros [H1 H2 H3 H4 H5]. constructor; assumption. Qed.
Lemma item_pv e d n y : item_ok e d y -> item_ok e d (pv n y).
Proof. intros [H1 H2 H3 H4 H5]. constructor; assumption. Qed.
Lemma absx_nx e d n y : absx e d (nx n y) = absx e d y.
Proof. reflexivity. Qed.
Lemma absx_pv e d n y : absx e d (pv n y) = absx e d y.
Proof. reflexivity. Qed.
Lemma items_keep e d d' l : 0 < e_bs e -> Forall (item_ok e d) l -> (forall z b, In z l -> In b (flat_map ofoot (snd z)) -> d' b = d b) ->
  Forall (item_ok e d') l /\ map (absx e d') l = map (absx e d) l.
Proof.
  intros HB HF HA. rewrite Forall_forall in HF. split.
  - apply Forall_forall. intros z HZ. eapply item_agree; eauto. intros b HI. eauto.
  - apply map_ext_in. intros z HZ. unfold absx, content. rewrite (raw_agree e d d' z); [reflexivity|exact HB|apply (it_fits e d z); auto|]. intros b HI. eauto.
Qed.
Lemma cut_keep e d l ws k : 0 < e_bs e -> disk_ok e d l -> (forall b, In b (map fst ws) -> ~ In b (e_ssb e :: feet l)) ->
  disk_ok e (puts d (firstn k ws)) l /\ map (absx e (puts d (firstn k ws))) l = map (absx e d) l.
Proof.
  intros HB HD HW. assert (HA : agree d (puts d (firstn k ws)) (e_ssb e :: feet l)).
  { intros b HI. apply puts_other. intro HC. apply (HW b); [|exact HI]. rewrite <- (firstn_skipn k ws), map_app. apply in_or_app. now left. }
  split; [eapply disk_agree; eauto|]. apply content_agree; [exact HB|apply (d_items _ _ _ HD)|]. intros b HI. apply HA. now right.
Qed.
Lemma bid_foot (y : item) : In (bid y) (foot y).
Proof. now left. Qed.
Lemma ofoot_foot (y : item) b : In b (flat_map ofoot (snd y)) -> In b (foot y).
Proof. now right. Qed.
Lemma other_bid l1 (y : item) l2 z : NoDup (feet (l1 ++ y :: l2)) -> In z l1 \/ In z l2 -> bid z <> bid y.
Proof.
  intros HN HZ HE. apply bids_nodup in HN. rewrite map_app in HN. cbn [map] in HN. apply NoDup_remove_2 in HN. apply HN. rewrite <- HE, <- map_app. apply (in_map (fun x : item => bid x)). apply in_or_app. tauto.
Qed.
Lemma fresh_apart e s l fr b : up_ok e s l -> fresh e s fr -> In b fr -> b <> e_ssb e /\ ~ In b (feet l).
Proof.
  intros HU HF HB. destruct (fr_free _ _ _ HF b HB) as [H1 _]. assert (HN : ~ (s_used s b = true)) by congruence. rewrite (u_used _ _ _ HU) in HN. tauto.
Qed.
Lemma settled_puts d ws w : NoDup (map fst ws) -> (forall x, In x (map fst w) -> ~ In x (map fst ws)) -> settled (puts d (ws ++ w)) ws.
Proof.
  intros HN HW. rewrite puts_app. eapply settled_agree; [apply puts_settled; exact HN|]. intros b HB. apply puts_other. intro HC. exact (HW b HC HB).
Qed.
Lemma in_nodup_feet_foot (l : list item) x : NoDup (feet l) -> In x l -> NoDup (foot x).
Proof. intros HN HX. apply in_split in HX. destruct HX as (a & b & ->). rewrite feet_app in HN. apply NoDup_app_r in HN. cbn [feet flat_map] in HN. now apply NoDup_app_l in HN. Qed.
Definition op_ok (e : env) (s : st) (l : list item) (res : option (list write * st)) (r' : list rec) : Prop :=
  exists ws s' l', res = Some (ws, s') /\ up_ok e s' l' /\ map (absx e (s_disk s')) l' = r' /\ s_disk s' = puts (s_disk s) ws /\
    forall k, let d := puts (s_disk s) (firstn k ws) in
      (disk_ok e d l /\ map (absx e d) l = map (absx e (s_disk s)) l) \/ (disk_ok e d l' /\ map (absx e d) l' = r').
Lemma exists_last_or_nil {A} (l : list A) : l = [] \/ exists a x, l = a ++ [x].
Proof. destruct l as [|y l]; [now left|]. right. destruct (@exists_last _ (y :: l)) as (a & x & E); [discriminate|]. eauto. Qed.
Lemma cut_last {A} k (l : list A) x : firstn k (l ++ [x]) = firstn k l \/ firstn k (l ++ [x]) = l ++ [x].
Proof.
  rewrite firstn_app. destruct (k - length l) eqn:E; [left; apply app_nil_r|]. right. rewrite (firstn_all2 l) by lia. destruct n; reflexivity.
Qed.
Lemma in_b_false x l : in_b x l = false <-> ~ In x l.
Proof. rewrite <- in_b_in. destruct (in_b x l); intuition congruence. Qed.
Lemma use_in l u b : use l u b = true <-> In b l \/ u b = true.
Proof. unfold use. rewrite orb_true_iff, in_b_in. tauto. Qed.
Lemma unuse_in l u b : unuse l u b = true <-> ~ In b l /\ u b = true.
Proof. unfold unuse. rewrite andb_true_iff, negb_true_iff, in_b_false. tauto. Qed.
Lemma set_same {A} k (v : A) f : set k v f k = v.
Proof. unfold set. now rewrite N.eqb_refl. Qed.
Lemma set_other {A} k (v : A) f b : b <> k -> set k v f b = f b.
Proof. intro H. unfold set. destruct (N.eqb_spec b k); [congruence|reflexivity]. Qed.
Lemma put1_same d b v : put1 d (b, v) b = v.
Proof. unfold put1. cbn. now rewrite N.eqb_refl. Qed.
Lemma put1_other d b v c : c <> b -> put1 d (b, v) c = d c.
Proof. intro H. unfold put1. cbn. destruct (N.eqb_spec c b); [congruence|reflexivity]. Qed.
Lemma puts1 d w : puts d [w] = put1 d w.
Proof. reflexivity. Qed.
Lemma puts2 d w v : puts d [w; v] = put1 (put1 d w) v.
Proof. reflexivity. Qed.
Lemma disk_exact e d l : d (e_ssb e) = BSsb (firstof l None) -> linked (e_ssb e) l None -> (forall x, In x l -> d (bid x) = BMeta (fst x)) -> Forall (item_ok e d) l -> NoDup (e_ssb e :: feet l) ->
  (forall b, In b (feet l) -> (b < e_size e)%N) -> disk_ok e d l.
Proof. intros H1 H2 H3 H4 H5 H6. constructor; auto. intros x HX. exists (b_prev (fst x)). rewrite H3 by exact HX. f_equal. destruct (fst x); reflexivity. Qed.

Lemma add_ok e s l t data b hdrs exts : env_ok e -> up_ok e s l -> fresh e s (b :: hdrs ++ flat_map blocks exts) -> (big e data -> room e data hdrs exts) ->
  op_ok e s l (add e t data b hdrs exts s) (map (absx e (s_disk s)) l ++ [(b, t, data)]).
Proof.
  intros HE HU HF HR. pose proof (env_bs e HE) as HB. pose proof (u_disk _ _ _ HU) as HD. pose proof HD as [D1 D2 D3 D4 D5 D6]. inversion D5 as [|? ? N1 N2]; subst.
  pose proof (fr_diff _ _ _ HF) as HFN. inversion HFN as [|? ? F1 F2]; subst. unfold add. rewrite (u_last _ _ _ HU).
  destruct (fill_ok e (Mblk b None (match (match l with [] => None | _ :: _ => Some (lastof (e_ssb e) l) end) with Some z => z | None => e_ssb e end) None 0 0 0 false t []) data hdrs exts HE HR F2)
    as (m & os & ws & P1 & P2 & P3 & P4 & P5 & P6 & P7 & P8 & P9).
  rewrite P1. cbn [b_bid b_next b_prev b_type] in P2, P3, P4, P5. set (x := (m, os) : item).
  assert (HXF : forall c, In c (foot x) -> c <> e_ssb e /\ ~ In c (feet l) /\ (c < e_size e)%N).
  { intros c HC. assert (HI : In c (b :: hdrs ++ flat_map blocks exts)). { destruct HC as [<-|HC]; [left; cbn; congruence|right; apply P7; exact HC]. }
    destruct (fresh_apart _ _ _ _ _ HU HF HI). split; [assumption|]. split; [assumption|]. apply (fr_free _ _ _ HF c HI). }
  assert (HXN : NoDup (foot x)). { constructor; [|exact P8]. cbn [fst x]. rewrite P2. intro HC. apply F1. apply P7. exact HC. }
  assert (HXB : bid x = b) by exact P2.
  assert (HBO : ~ In b (flat_map ofoot os)) by (intro HC; apply F1; apply P7; exact HC).
  destruct (exists_last_or_nil l) as [->|(A & y & ->)].
  - (* no record yet *)
    set (ws' := ws ++ [(b, BMeta m); (e_ssb e, BSsb (Some b))]). set (d' := puts (s_disk s) ws').
    assert (HS0 : settled d' ws). { apply settled_puts; [rewrite P6; exact P8|]. rewrite P6. cbn [map fst]. intros c [<-|[<-|[]]] HC; [exact (HBO HC)|]. destruct (HXF (e_ssb e)); [now right|congruence]. }
    assert (HDS : d' (e_ssb e) = BSsb (Some b)). { unfold d', ws'. rewrite puts_app, puts2. apply put1_same. }
    assert (HDB : d' b = BMeta m). { unfold d', ws'. rewrite puts_app, puts2. rewrite put1_other; [apply put1_same|]. destruct (HXF b); [left; exact HXB|assumption]. }
    destruct (P9 d' HS0) as [Q1 Q2]. fold x in Q1, Q2. exists ws', (St d' (Some b) (set b (Some m) (s_metas s)) (add_ovfs os (s_ovfs s)) (Some b) (use (b :: flat_map ofoot os) (s_used s)) (s_subs s ++ [(t, b)])), [x].
    assert (HDO : disk_ok e d' [x]).
    { apply disk_exact; cbn [firstof].
      - rewrite HDS, HXB. reflexivity.
      - cbn [linked firstof fst x]. auto.
      - intros z [<-|[]]. rewrite HXB. exact HDB.
      - constructor; [exact Q1|constructor].
      - cbn [feet flat_map]. rewrite app_nil_r. constructor; [|exact HXN]. intro HC. now destruct (HXF _ HC).
      - cbn [feet flat_map]. rewrite app_nil_r. intros c HC. now destruct (HXF _ HC) as (_ & _ & ?). }
    assert (HAB : map (absx e d') [x] = map (absx e (s_disk s)) [] ++ [(b, t, data)]). { cbn [map app]. unfold absx. rewrite Q2. cbn [fst x]. rewrite P2, P5. reflexivity. }
    split; [reflexivity|]. split; [|split; [exact HAB|split; [reflexivity|]]].
    + constructor; cbn [s_disk s_first s_metas s_ovfs s_last s_used s_subs].
      * exact HDO.
      * intros z [<-|[]]. rewrite HXB. exact HDB.
      * cbn [firstof]. now rewrite HXB.
      * intros z [<-|[]]. rewrite HXB. apply set_same.
      * intros z o [<-|[]] HO. apply add_ovfs_in; [now apply obids_nodup|exact HO].
      * unfold lastof. cbn [map last]. now rewrite HXB.
      * intro c. rewrite use_in, (u_used _ _ _ HU). cbn [feet flat_map foot app In]. rewrite app_nil_r. cbn [fst snd x]. rewrite P2. tauto.
      * cbn [map fst x]. rewrite P2, P5. pose proof (u_subs _ _ _ HU) as HP. cbn in HP. apply Permutation_sym, Permutation_nil in HP. rewrite HP. reflexivity.
    + intro k. cbn zeta. unfold ws'. change [(b, BMeta m); (e_ssb e, BSsb (Some b))] with ([(b, BMeta m)] ++ [(e_ssb e, BSsb (Some b))]). rewrite app_assoc. destruct (cut_last k (ws ++ [(b, BMeta m)]) (e_ssb e, BSsb (Some b))) as [-> | ->].
      * left. apply cut_keep; [exact HB|exact HD|]. intros c HC. rewrite map_app, P6 in HC. apply in_app_or in HC. assert (HC' : In c (foot x)) by (destruct HC as [HC|[<-|[]]]; [now right|left; exact HXB]). destruct (HXF c HC') as (? & ? & _). cbn; intuition congruence.
      * right. rewrite <- app_assoc. split; [exact HDO|exact HAB].
  - (* behind the last record *)
    rewrite lastof_app in *. destruct (A ++ [y]) as [|h0 t0] eqn:EA; [destruct A; discriminate|]. rewrite <- EA in *. clear EA h0 t0.
    assert (HYL : In y (A ++ [y])) by (apply in_or_app; right; now left).
    rewrite (u_metas _ _ _ HU y HYL). set (ly := with_next (fst y) (Some b)).
    set (ws' := ws ++ [(b, BMeta m); (bid y, BMeta ly)]). set (d' := puts (s_disk s) ws').
    assert (HYF : forall c, In c (foot x) -> c <> bid y). { intros c HC ->. destruct (HXF _ HC) as (_ & HC2 & _). apply HC2. eapply feet_in; [exact HYL|apply bid_foot]. }
    assert (HBY : b <> bid y). { apply HYF. left. exact HXB. }
    assert (HS0 : settled d' ws). { apply settled_puts; [rewrite P6; exact P8|]. rewrite P6. cbn [map fst]. intros c [<-|[<-|[]]] HC; [exact (HBO HC)|]. apply (HYF (bid y)); [now right|reflexivity]. }
    assert (HDY : d' (bid y) = BMeta ly). { unfold d', ws'. rewrite puts_app, puts2. apply put1_same. }
    assert (HDB : d' b = BMeta m). { unfold d', ws'. rewrite puts_app, puts2. rewrite put1_other; [apply put1_same|exact HBY]. }
    assert (HDO : forall c, ~ In c (foot x) -> c <> bid y -> d' c = s_disk s c).
    { intros c H1 H2. unfold d', ws'. rewrite puts_other; [reflexivity|]. rewrite map_app, P6. cbn [map fst]. intro HC. apply in_app_or in HC. destruct HC as [HC|[<-|[<-|[]]]]; [apply H1; now right|apply H1; left; exact HXB|congruence]. }
    destruct (P9 d' HS0) as [Q1 Q2]. fold x in Q1, Q2.
    set (l' := A ++ [nx (Some b) y; x]).
    assert (HFL : feet l' = feet (A ++ [y]) ++ foot x). { unfold l'. rewrite !feet_app. cbn [feet flat_map]. rewrite !app_nil_r. cbn [foot nx fst snd]. rewrite app_assoc. reflexivity. }
    destruct (items_keep e (s_disk s) d' (A ++ [y]) HB D4) as [K1 K2].
    { intros z c HZ HC. apply HDO; [|eapply ofoot_not_bid; eauto]. intro HI. destruct (HXF _ HI) as (_ & HI2 & _). apply HI2. eapply feet_in; [exact HZ|now right]. }
    apply Forall_app in K1. destruct K1 as [K1 K1y]. pose proof (Forall_inv K1y) as K1y'.
    apply linked_app in D2. destruct D2 as [L1 L2]. cbn [linked firstof] in L1, L2. destruct L2 as (L2 & L3 & _).
    assert (HEX : forall z, In z l' -> d' (bid z) = BMeta (fst z)).
    { intros z HZ. apply in_app_or in HZ. destruct HZ as [HZ|[<-|[<-|[]]]]; [|exact HDY|rewrite HXB; exact HDB]. assert (HZL : In z (A ++ [y])) by (apply in_or_app; now left).
      rewrite HDO; [apply (u_meta _ _ _ HU); exact HZL| |apply (other_bid A y []); auto]. intro HI. destruct (HXF _ HI) as (_ & HI2 & _). apply HI2. eapply feet_in; [exact HZL|apply bid_foot]. }
    assert (HOK : disk_ok e d' l').
    { apply disk_exact; [| |exact HEX| | |].
      - rewrite HDO; [rewrite D1; unfold l'; destruct A; reflexivity| |]; [intro HC; now destruct (HXF _ HC)|]. intro HC. apply N1. rewrite HC. eapply feet_in; [exact HYL|apply bid_foot].
      - unfold l'. apply linked_app. split; [exact L1|]. cbn [linked nx fst firstof x with_next b_prev b_next b_bid]. rewrite P2, P3, P4. auto.
      - unfold l'. apply Forall_app. split; [exact K1|]. constructor; [apply item_nx; exact K1y'|]. constructor; [exact Q1|constructor].
      - rewrite HFL. change (e_ssb e :: feet (A ++ [y]) ++ foot x) with ((e_ssb e :: feet (A ++ [y])) ++ foot x). apply NoDup_app_make; [exact D5|exact HXN|]. intros c [<-|H1] H2; destruct (HXF _ H2) as (? & ? & _); congruence || tauto.
      - rewrite HFL. intros c HC. apply in_app_or in HC. destruct HC as [HC|HC]; [auto|now destruct (HXF _ HC) as (_ & _ & ?)]. }
    assert (HAB : map (absx e d') l' = map (absx e (s_disk s)) (A ++ [y]) ++ [(b, t, data)]).
    { rewrite <- K2. unfold l'. rewrite !map_app. cbn [map]. rewrite <- app_assoc. cbn [app]. rewrite absx_nx. unfold absx at 3. rewrite Q2. cbn [fst x]. rewrite P2, P5. reflexivity. }
    exists ws'. eexists. exists l'. split; [reflexivity|]. split; [|split; [exact HAB|split; [reflexivity|]]].
    + constructor; cbn [s_disk s_first s_metas s_ovfs s_last s_used s_subs]; fold ws' d'.
      * exact HOK.
      * exact HEX.
      * rewrite (u_first _ _ _ HU). unfold l'. destruct A; reflexivity.
      * intros z HZ. apply in_app_or in HZ. destruct HZ as [HZ|[<-|[<-|[]]]].
        -- assert (HZL : In z (A ++ [y])) by (apply in_or_app; now left). rewrite set_other, set_other; [apply (u_metas _ _ _ HU); exact HZL|apply (other_bid A y []); auto|].
           intro HC. destruct (HXF b) as (_ & HI2 & _); [left; exact HXB|]. apply HI2. rewrite <- HC. eapply feet_in; [exact HZL|apply bid_foot].
        -- cbn [nx fst]. change (b_bid (with_next (fst y) (Some b))) with (bid y). rewrite set_other by congruence. apply set_same.
        -- rewrite HXB. apply set_same.
      * assert (HOL : forall z o, In z (A ++ [y]) -> In o (snd z) -> add_ovfs os (s_ovfs s) (o_bid o) = Some o).
        { intros z o HZ HO. rewrite add_ovfs_other; [eapply u_ovfs; eauto|]. intro HC. apply obids_in in HC. destruct (HXF (o_bid o)) as (_ & HI2 & _); [now right|]. apply HI2. eapply feet_in; [exact HZ|]. right. apply obids_in. now apply in_map. }
        intros z o HZ HO. apply in_app_or in HZ. destruct HZ as [HZ|[<-|[<-|[]]]]; [eapply HOL; [apply in_or_app; left; exact HZ|exact HO]|eapply HOL; [exact HYL|exact HO]|]. apply add_ovfs_in; [now apply obids_nodup|exact HO].
      * unfold l'. change [nx (Some b) y; x] with ([nx (Some b) y] ++ [x]). rewrite app_assoc, lastof_app, HXB. destruct (A ++ [nx (Some b) y]) eqn:EA; reflexivity.
      * intro c. rewrite use_in, (u_used _ _ _ HU), HFL, in_app_iff. cbn [foot fst snd x In]. rewrite P2. tauto.
      * unfold l'. rewrite (u_subs _ _ _ HU), !map_app. cbn [map nx fst x]. rewrite P2, P5, <- app_assoc. reflexivity.
    + intro k. cbn zeta. unfold ws'. change [(b, BMeta m); (bid y, BMeta ly)] with ([(b, BMeta m)] ++ [(bid y, BMeta ly)]). rewrite app_assoc. destruct (cut_last k (ws ++ [(b, BMeta m)]) (bid y, BMeta ly)) as [-> | ->].
      * left. apply cut_keep; [exact HB|exact HD|]. intros c HC. rewrite map_app, P6 in HC. apply in_app_or in HC. assert (HC' : In c (foot x)) by (destruct HC as [HC|[<-|[]]]; [now right|left; exact HXB]). destruct (HXF c HC') as (? & ? & _). cbn; intuition congruence.
      * right. rewrite <- app_assoc. split; [exact HOK|exact HAB].
Qed.
Lemma app_inv_len {A} (a a' b b' : list A) : length a = length a' -> a ++ b = a' ++ b' -> a = a' /\ b = b'.
Proof. revert a'. induction a as [|x a IH]; intros [|y a'] HL H; cbn in *; try lia; [auto|]. injection H as <- H. destruct (IH a') as [-> ->]; auto. Qed.

Lemma feet_mid a (y : item) c : Permutation (feet (a ++ y :: c)) (foot y ++ feet (a ++ c)).
Proof. rewrite !feet_app. cbn [feet flat_map]. rewrite !app_assoc. apply Permutation_app_tail. apply Permutation_app_comm. Qed.
Lemma in_feet_mid a (y : item) c b : In b (feet (a ++ y :: c)) <-> In b (foot y) \/ In b (feet (a ++ c)).
Proof. rewrite <- in_app_iff. split; apply Permutation_in; [apply feet_mid|symmetry; apply feet_mid]. Qed.
Lemma in_mid {A} (a : list A) y c z : In z (a ++ y :: c) <-> z = y \/ In z (a ++ c).
Proof. rewrite !in_app_iff. cbn. intuition congruence. Qed.
Lemma map_other e d l b data : (forall z, In z l -> bid z <> b) -> map (fun x : rec => if N.eqb (handle x) b then (fst x, data) else x) (map (absx e d) l) = map (absx e d) l.
Proof. intro H. rewrite map_map. apply map_ext_in. intros z HZ. unfold handle, absx at 1. cbn [fst]. destruct (N.eqb_spec (bid z) b); [elim (H z HZ); assumption|reflexivity]. Qed.

Lemma update_ok e s l b data hdrs exts : env_ok e -> up_ok e s l -> In b (map (fun x : item => bid x) l) -> fresh e s (hdrs ++ flat_map blocks exts) -> (big e data -> room e data hdrs exts) ->
  op_ok e s l (update e b data hdrs exts s) (map (fun x : rec => if N.eqb (handle x) b then (fst x, data) else x) (map (absx e (s_disk s)) l)).
Proof.
  intros HE HU HI HF HR. pose proof (env_bs e HE) as HB. pose proof (u_disk _ _ _ HU) as HD. pose proof HD as [D1 D2 D3 D4 D5 D6]. inversion D5 as [|? ? N1 N2]; subst.
  pose proof (fr_diff _ _ _ HF) as HFN. apply in_map_iff in HI. destruct HI as (y & <- & HY). pose proof HY as HYL. apply in_split in HY. destruct HY as (A & B & ->).
  unfold update. rewrite (u_metas _ _ _ HU y HYL).
  match goal with |- context [fill e ?m0 data hdrs exts] => destruct (fill_ok e m0 data hdrs exts HE HR HFN) as (m & os & ws & P1 & P2 & P3 & P4 & P5 & P6 & P7 & P8 & P9) end.
  rewrite P1. cbn [b_bid b_next b_prev b_type] in P2, P3, P4, P5. set (x := (m, os) : item).
  assert (HIT : item_ok e (s_disk s) y). { rewrite Forall_forall in D4. auto. }
  rewrite (free_ok (s_ovfs s) (fuel e) (snd y)); [|apply (it_chain _ _ _ HIT)|intros o HO; eapply u_ovfs; eauto|pose proof (os_length _ _ _ _ HD HYL); lia].
  assert (HXF : forall c, In c (flat_map ofoot os) -> c <> e_ssb e /\ ~ In c (feet (A ++ y :: B)) /\ (c < e_size e)%N).
  { intros c HC. pose proof (P7 c HC) as HI. destruct (fresh_apart _ _ _ _ _ HU HF HI). split; [assumption|]. split; [assumption|]. exact (proj2 (fr_free _ _ _ HF c HI)). }
  assert (HXB : bid x = bid y) by exact P2.
  set (ws' := ws ++ [(bid y, BMeta m)]). set (d' := puts (s_disk s) ws').
  assert (HBF : In (bid y) (feet (A ++ y :: B))) by (eapply feet_in; [exact HYL|apply bid_foot]).
  assert (HS0 : settled d' ws). { apply settled_puts; [rewrite P6; exact P8|]. rewrite P6. cbn [map fst]. intros c [<-|[]] HC. destruct (HXF _ HC) as (_ & HI & _). exact (HI HBF). }
  assert (HDB : d' (bid y) = BMeta m). { unfold d', ws'. rewrite puts_app, puts1. apply put1_same. }
  assert (HDO : forall c, ~ In c (flat_map ofoot os) -> c <> bid y -> d' c = s_disk s c).
  { intros c H1 H2. unfold d', ws'. rewrite puts_other; [reflexivity|]. rewrite map_app, P6. cbn [map fst]. intro HC. apply in_app_or in HC. destruct HC as [HC|[<-|[]]]; [tauto|congruence]. }
  destruct (P9 d' HS0) as [Q1 Q2]. fold x in Q1, Q2. set (l' := A ++ x :: B).
  assert (HZO : forall z, In z (A ++ B) -> bid z <> bid y) by (intros z HZ; apply (other_bid A y B); [exact N2|now apply in_app_or]).
  assert (HZL : forall z, In z (A ++ B) -> In z (A ++ y :: B)) by (intros z HZ; apply in_mid; now right).
  assert (D4' : Forall (item_ok e (s_disk s)) (A ++ B)). { rewrite Forall_forall in *. auto. }
  destruct (items_keep e (s_disk s) d' (A ++ B) HB D4') as [K1 K2].
  { intros z c HZ HC. apply HDO; [|exact (ofoot_not_bid (A ++ y :: B) z y c N2 (HZL z HZ) HYL HC)]. intro HI. destruct (HXF _ HI) as (_ & HI2 & _). apply HI2. eapply feet_in; [apply HZL; exact HZ|now right]. }
  pose proof D2 as HLK. apply linked_app in HLK. destruct HLK as [L1 L2]. cbn [linked firstof] in L1, L2. destruct L2 as (L2 & L3 & L4).
  assert (HEX : forall z, In z l' -> d' (bid z) = BMeta (fst z)).
  { intros z HZ. apply in_mid in HZ. destruct HZ as [->|HZ]; [rewrite HXB; exact HDB|]. rewrite HDO; [apply (u_meta _ _ _ HU); auto| |auto]. intro HI. destruct (HXF _ HI) as (_ & HI2 & _). apply HI2. eapply feet_in; [apply HZL; exact HZ|apply bid_foot]. }
  assert (HPM : Permutation (e_ssb e :: feet l') ((e_ssb e :: bid y :: feet (A ++ B)) ++ flat_map ofoot os)).
  { cbn [app]. constructor. unfold l'. rewrite feet_mid. cbn [foot fst snd x app]. rewrite P2. constructor. apply Permutation_app_comm. }
  assert (HPY : Permutation (e_ssb e :: feet (A ++ y :: B)) ((e_ssb e :: bid y :: feet (A ++ B)) ++ flat_map ofoot (snd y))).
  { cbn [app]. constructor. rewrite feet_mid. cbn [foot app]. constructor. apply Permutation_app_comm. }
  assert (HND : NoDup (e_ssb e :: feet l')).
  { eapply Permutation_NoDup; [symmetry; exact HPM|]. apply NoDup_app_make; [|exact P8|].
    - eapply NoDup_app_l. eapply Permutation_NoDup; [exact HPY|exact D5].
    - intros c HC1 HC2. destruct (HXF _ HC2) as (X1 & X2 & _). assert (HI : In c (e_ssb e :: feet (A ++ y :: B))) by (eapply Permutation_in; [symmetry; exact HPY|apply in_or_app; now left]). destruct HI; [congruence|tauto]. }
  assert (HOK : disk_ok e d' l').
  { apply disk_exact; [| |exact HEX| |exact HND|].
    - rewrite HDO; [rewrite D1; unfold l'; destruct A; [cbn [app firstof fst x]; now rewrite P2|reflexivity]| |]; [intro HC; now destruct (HXF _ HC)|]. intro HC. apply N1. rewrite HC. exact HBF.
    - unfold l'. apply linked_app. cbn [linked firstof fst x]. rewrite P2, P3, P4. auto.
    - unfold l'. apply Forall_app in K1. destruct K1. apply Forall_app. split; [assumption|]. constructor; assumption.
    - intros c HC. unfold l' in HC. apply in_feet_mid in HC. destruct HC as [[<-|HC]|HC]; [|now destruct (HXF _ HC) as (_ & _ & ?)|apply D6; apply in_feet_mid; now right]. rewrite HXB. auto. }
  assert (HAB : map (absx e d') l' = map (fun x : rec => if N.eqb (handle x) (bid y) then (fst x, data) else x) (map (absx e (s_disk s)) (A ++ y :: B))).
  { unfold l'. rewrite map_app in K2. rewrite !map_app in *. cbn [map]. apply app_inv_len in K2; [|now rewrite !map_length]. destruct K2 as [K2a K2b]. rewrite !map_other by (intros z HZ; apply HZO; apply in_or_app; tauto). rewrite K2a, K2b. f_equal. f_equal.
    unfold absx, handle. rewrite Q2. cbn [fst x]. rewrite P2, P5, N.eqb_refl. reflexivity. }
  exists ws'. eexists. exists l'. split; [reflexivity|]. split; [|split; [exact HAB|split; [reflexivity|]]].
  - constructor; cbn [s_disk s_first s_metas s_ovfs s_last s_used s_subs]; fold ws' d'.
    + exact HOK.
    + exact HEX.
    + rewrite (u_first _ _ _ HU). unfold l'. destruct A; [cbn [app firstof fst x]; now rewrite P2|reflexivity].
    + intros z HZ. apply in_mid in HZ. destruct HZ as [->|HZ]; [rewrite HXB; apply set_same|]. rewrite set_other by auto. apply (u_metas _ _ _ HU). auto.
    + intros z o HZ HO. apply in_mid in HZ. rewrite del_ovfs_other.
      * destruct HZ as [->|HZ]; [apply add_ovfs_in; [now apply obids_nodup|exact HO]|]. rewrite add_ovfs_other; [exact (u_ovfs _ _ _ HU z o (HZL z HZ) HO)|]. intro HC. apply obids_in in HC. destruct (HXF _ HC) as (_ & HI2 & _). apply HI2. eapply feet_in; [apply HZL; exact HZ|]. right. apply obids_in. now apply in_map.
      * intro HC. apply obids_in in HC. assert (HOO : In (o_bid o) (flat_map ofoot (snd z))) by (apply obids_in; now apply in_map). destruct HZ as [->|HZ].
        -- destruct (HXF _ HOO) as (_ & HI2 & _). apply HI2. eapply feet_in; [exact HYL|now right].
        -- apply (apart_of foot (A ++ y :: B) z y (o_bid o)); auto; [now right|now right|]. intros ->. exact (HZO y HZ eq_refl).
    + rewrite (u_last _ _ _ HU). unfold l', lastof. rewrite !map_app. cbn [map fst x]. rewrite P2. destruct A, B; reflexivity.
    + intro c. rewrite unuse_in, use_in, (u_used _ _ _ HU). unfold l'. rewrite !in_feet_mid. cbn [foot In fst snd x]. rewrite P2. split.
      * intros (H1 & [H2|[H2|[[H2|H2]|H2]]]); tauto.
      * assert (HQ : c = e_ssb e \/ c = bid y \/ In c (feet (A ++ B)) -> ~ In c (flat_map ofoot (snd y))).
        { intros H1 H2. eapply NoDup_app_apart; [eapply Permutation_NoDup; [exact HPY|exact D5]| |exact H2]. cbn [In]. intuition congruence. }
        intros [H1|[[H1|H1]|H1]]; [split; [apply HQ; now left|tauto]|split; [apply HQ; right; left; congruence|tauto]| |split; [apply HQ; tauto|tauto]].
        split; [|tauto]. intro H2. destruct (HXF _ H1) as (_ & HI2 & _). apply HI2. eapply feet_in; [exact HYL|now right].
    + rewrite (u_subs _ _ _ HU). unfold l'. rewrite !map_app. cbn [map fst x]. rewrite P2, P5. reflexivity.
  - intro k. cbn zeta. unfold ws'. destruct (cut_last k ws (bid y, BMeta m)) as [-> | ->].
    + left. apply cut_keep; [exact HB|exact HD|]. intros c HC. rewrite P6 in HC. destruct (HXF c HC) as (? & ? & _). cbn; intuition congruence.
    + right. split; [exact HOK|exact HAB].
Qed.

(** The links around a removed record. *)
Fixpoint setlast (n : option N) (l : list item) : list item := match l with [] => [] | [y] => [nx n y] | y :: r => y :: setlast n r end.
Definition setfirst (p : N) (l : list item) : list item := match l with [] => [] | z :: r => pv p z :: r end.
Lemma setlast_app n a y : setlast n (a ++ [y]) = a ++ [nx n y].
Proof. induction a as [|x a IH]; [reflexivity|]. cbn [app]. destruct (a ++ [y]) eqn:E; [destruct a; discriminate|]. cbn [setlast]. cbn [setlast] in IH. rewrite IH. reflexivity. Qed.
Definition same (x y : item) : Prop := snd x = snd y /\ exists n p, fst y = with_prev (with_next (fst x) n) p.
Lemma same_refl x : same x x.
Proof. split; [reflexivity|]. exists (b_next (fst x)), (b_prev (fst x)). destruct (fst x); reflexivity. Qed.
Lemma same_nx n x : same x (nx n x).
Proof. split; [reflexivity|]. exists n, (b_prev (fst x)). destruct x as [[] ?]; reflexivity. Qed.
Lemma same_pv p x : same x (pv p x).
Proof. split; [reflexivity|]. exists (b_next (fst x)), p. destruct x as [[] ?]; reflexivity. Qed.
Lemma similar_refl l : Forall2 same l l.
Proof. induction l; constructor; auto using same_refl. Qed.
Lemma similar_last n l : Forall2 same l (setlast n l).
Proof. induction l as [|x [|y l] IH]; [constructor|constructor; [apply same_nx|constructor]|]. constructor; [apply same_refl|exact IH]. Qed.
Lemma similar_first p l : Forall2 same l (setfirst p l).
Proof. destruct l; constructor; [apply same_pv|apply similar_refl]. Qed.
Lemma similar_feet l l' : Forall2 same l l' -> feet l' = feet l.
Proof. induction 1 as [|x y l l' [H1 (n & p & H2)] _ IH]; [reflexivity|]. cbn [feet flat_map]. fold (feet l) (feet l'). rewrite IH. unfold foot. rewrite <- H1, H2. reflexivity. Qed.
Lemma similar_bids l l' : Forall2 same l l' -> map (fun x : item => bid x) l' = map (fun x : item => bid x) l.
Proof. induction 1 as [|x y l l' [H1 (n & p & H2)] _ IH]; [reflexivity|]. cbn [map]. rewrite IH, H2. reflexivity. Qed.
Lemma similar_subs l l' : Forall2 same l l' -> map (fun x : item => (b_type (fst x), bid x)) l' = map (fun x : item => (b_type (fst x), bid x)) l.
Proof. induction 1 as [|x y l l' [H1 (n & p & H2)] _ IH]; [reflexivity|]. cbn [map]. rewrite IH, H2. reflexivity. Qed.
Lemma similar_abs e d l l' : Forall2 same l l' -> map (absx e d) l' = map (absx e d) l.
Proof. induction 1 as [|x y l l' [H1 (n & p & H2)] _ IH]; [reflexivity|]. cbn [map]. rewrite IH. f_equal. unfold absx, content, raw. rewrite <- H1, H2. reflexivity. Qed.
Lemma similar_items e d l l' : Forall2 same l l' -> Forall (item_ok e d) l -> Forall (item_ok e d) l'.
Proof.
  induction 1 as [|x y l l' [H1 (n & p & H2)] _ IH]; intro HF; [constructor|]. inversion HF as [|? ? [I1 I2 I3 I4 I5] HF']; subst. constructor; [|auto]. destruct y as [m os]. cbn [fst snd] in *. subst. constructor; assumption.
Qed.
Lemma similar_ovfs l l' y o : Forall2 same l l' -> In y l' -> In o (snd y) -> exists x, In x l /\ In o (snd x).
Proof. induction 1 as [|x z l l' [H1 _] _ IH]; intros HY HO; [destruct HY|]. destruct HY as [->|HY]; [exists x; split; [now left|congruence]|]. destruct (IH HY HO) as (w & W1 & W2). exists w. split; [now right|exact W2]. Qed.
Lemma last_any {A} (l : list A) a b : l <> [] -> last l a = last l b.
Proof. induction l as [|x [|y l] IH]; intro H; [congruence|reflexivity|]. change (last (x :: y :: l) a) with (last (y :: l) a). change (last (x :: y :: l) b) with (last (y :: l) b). apply IH. discriminate. Qed.
Lemma last_app_r {A} (a b : list A) z : b <> [] -> last (a ++ b) z = last b z.
Proof. intro H. induction a as [|x a IH]; [reflexivity|]. cbn [app]. destruct (a ++ b) eqn:E; [apply app_eq_nil in E; destruct E; congruence|]. rewrite <- IH. reflexivity. Qed.
Lemma linked_setlast l : forall p n n', linked p l n -> linked p (setlast n' l) n'.
Proof.
  induction l as [|x [|y l] IH]; intros p n n' H; [exact I| |].
  - cbn in *. tauto.
  - destruct H as (H1 & H2 & H3). change (setlast n' (x :: y :: l)) with (x :: setlast n' (y :: l)). cbn [linked]. split; [exact H1|]. split; [rewrite H2; destruct l; reflexivity|]. eapply IH; exact H3.
Qed.
Lemma linked_setfirst l p q n : linked q l n -> linked p (setfirst p l) n.
Proof. destruct l; cbn; tauto. Qed.
Lemma firstof_setfirst p l n : firstof (setfirst p l) n = firstof l n.
Proof. destruct l; reflexivity. Qed.
Lemma lastof_setlast p n l : lastof p (setlast n l) = lastof p l.
Proof. unfold lastof. f_equal. apply similar_bids. apply similar_last. Qed.

Definition mem (d : disk) (metas : N -> option mblk) (l : list item) : Prop := forall z, In z l -> d (bid z) = BMeta (fst z) /\ metas (bid z) = Some (fst z).
Lemma mem_put d metas a y c m : mem d metas (a ++ y :: c) -> NoDup (feet (a ++ y :: c)) -> b_bid m = bid y -> mem (put1 d (bid y, BMeta m)) (set (bid y) (Some m) metas) (a ++ (m, snd y) :: c).
Proof.
  intros HM HN HE z HZ. apply in_mid in HZ. destruct HZ as [->|HZ]; [cbn [fst]; rewrite HE, put1_same, set_same; auto|].
  assert (bid z <> bid y) by (apply (other_bid a y c); [exact HN|now apply in_app_or]). rewrite put1_other, set_other by assumption. apply HM. apply in_mid. now right.
Qed.
Lemma mem_none d metas l b : mem d metas l -> (forall z, In z l -> bid z <> b) -> mem d (set b None metas) l.
Proof. intros HM H z HZ. rewrite set_other by auto. auto. Qed.
Lemma mem_ssb d metas l b v : mem d metas l -> (forall z, In z l -> bid z <> b) -> mem (put1 d (b, v)) metas l.
Proof. intros HM H z HZ. rewrite put1_other by auto. auto. Qed.
Lemma filter_abs e d l b : (forall z, In z l -> bid z <> b) -> filter (fun x : rec => negb (N.eqb (handle x) b)) (map (absx e d) l) = map (absx e d) l.
Proof.
  induction l as [|x l IH]; intro H; [reflexivity|]. cbn [map filter]. unfold handle at 1, absx at 1. cbn [fst]. destruct (N.eqb_spec (bid x) b) as [E|E]; [elim (H x (or_introl eq_refl)); exact E|]. cbn [negb].
  f_equal. apply IH. intros; apply H; now right.
Qed.
Lemma filter_subs l b : (forall z : item, In z l -> bid z <> b) -> filter (fun x : nat * N => negb (N.eqb (snd x) b)) (map (fun x : item => (b_type (fst x), bid x)) l) = map (fun x : item => (b_type (fst x), bid x)) l.
Proof.
  induction l as [|x l IH]; intro H; [reflexivity|]. cbn [map filter snd]. destruct (N.eqb_spec (bid x) b) as [E|E]; [elim (H x (or_introl eq_refl)); exact E|]. cbn [negb].
  f_equal. apply IH. intros; apply H; now right.
Qed.
Lemma Permutation_filter {A} (f : A -> bool) l l' : Permutation l l' -> Permutation (filter f l) (filter f l').
Proof. induction 1; cbn; [constructor|destruct (f x); auto|destruct (f x), (f y); auto using Permutation_refl, perm_swap|etransitivity; eauto]. Qed.

Lemma remove_ok e s l b : env_ok e -> up_ok e s l -> In b (map (fun x : item => bid x) l) -> 2 <= length l ->
  op_ok e s l (remove e b s) (filter (fun x : rec => negb (N.eqb (handle x) b)) (map (absx e (s_disk s)) l)).
Proof.
  intros HE HU HI H2. pose proof (env_bs e HE) as HB. pose proof (u_disk _ _ _ HU) as HD. pose proof HD as [D1 D2 D3 D4 D5 D6]. inversion D5 as [|? ? N1 N2]; subst.
  apply in_map_iff in HI. destruct HI as (x & <- & HX). pose proof HX as HXL. apply in_split in HX. destruct HX as (A & B & ->).
  assert (HIT : item_ok e (s_disk s) x). { rewrite Forall_forall in D4. auto. }
  assert (HZO : forall z, In z (A ++ B) -> bid z <> bid x) by (intros z HZ; apply (other_bid A x B); [exact N2|now apply in_app_or]).
  assert (HZL : forall z, In z (A ++ B) -> In z (A ++ x :: B)) by (intros z HZ; apply in_mid; now right).
  assert (HZS : forall z, In z (A ++ B) -> bid z <> e_ssb e). { intros z HZ HC. apply N1. rewrite <- HC. eapply feet_in; [apply HZL; exact HZ|apply bid_foot]. }
  assert (HPX : Permutation (feet (A ++ x :: B)) (feet (A ++ B) ++ foot x)) by (rewrite feet_mid; apply Permutation_app_comm).
  assert (NX : NoDup (feet (A ++ B) ++ foot x)) by (eapply Permutation_NoDup; eauto).
  pose proof (NoDup_app_l _ _ NX) as NAB.
  pose proof D2 as HLK. apply linked_app in HLK. destruct HLK as [L1 L2]. cbn [linked firstof] in L1, L2. destruct L2 as (L2 & L3 & L4).
  set (l' := setlast (firstof B None) A ++ setfirst (lastof (e_ssb e) A) B).
  assert (HSIM : Forall2 same (A ++ B) l') by (apply Forall2_app; [apply similar_last|apply similar_first]).
  assert (HLL : linked (e_ssb e) l' None).
  { unfold l'. apply linked_app. rewrite firstof_setfirst, lastof_setlast. split; [eapply linked_setlast; eauto|eapply linked_setfirst; eauto]. }
  assert (HMM : mem (s_disk s) (s_metas s) (A ++ B)). { intros z HZ. split; [apply (u_meta _ _ _ HU)|apply (u_metas _ _ _ HU)]; auto. }
  assert (HFIL : filter (fun x0 : rec => negb (N.eqb (handle x0) (bid x))) (map (absx e (s_disk s)) (A ++ x :: B)) = map (absx e (s_disk s)) (A ++ B)).
  { rewrite map_app, filter_app. cbn [map filter]. unfold handle at 2, absx at 2. cbn [fst]. rewrite N.eqb_refl. cbn [negb]. rewrite !filter_abs by (intros z HZ; apply HZO; apply in_or_app; tauto). symmetry. apply map_app. }
  rewrite HFIL.
  assert (HSUB : Permutation (filter (fun x0 : nat * N => negb (N.eqb (snd x0) (bid x))) (s_subs s)) (map (fun x : item => (b_type (fst x), bid x)) l')).
  { rewrite (similar_subs _ _ HSIM). rewrite (Permutation_filter _ _ _ (u_subs _ _ _ HU)). rewrite map_app, filter_app. cbn [map filter snd]. rewrite N.eqb_refl. cbn [negb].
    rewrite !filter_subs by (intros z HZ; apply HZO; apply in_or_app; tauto). rewrite map_app. reflexivity. }
  assert (HOV : forall z o, In z l' -> In o (snd z) -> del_ovfs (snd x) (s_ovfs s) (o_bid o) = Some o).
  { intros z o HZ HO. destruct (similar_ovfs _ _ _ _ HSIM HZ HO) as (w & W1 & W2). rewrite del_ovfs_other; [exact (u_ovfs _ _ _ HU w o (HZL w W1) W2)|]. intro HC. apply obids_in in HC.
    apply (apart_of foot (A ++ x :: B) w x (o_bid o)); auto; [right; apply obids_in; now apply in_map|now right|]. intros ->. exact (HZO x W1 eq_refl). }
  assert (HUS : forall c, unuse (bid x :: flat_map ofoot (snd x)) (s_used s) c = true <-> c = e_ssb e \/ In c (feet l')).
  { intro c. rewrite unuse_in, (u_used _ _ _ HU), (similar_feet _ _ HSIM), in_feet_mid. change (bid x :: flat_map ofoot (snd x)) with (foot x). split; [tauto|]. intros HC. split; [|tauto]. intro HI.
    destruct HC as [->|HC]; [apply N1; eapply feet_in; eauto|]. eapply NoDup_app_apart; [exact NX|exact HC|exact HI]. }
  (* a disk on which the records stand, links back aside *)
  assert (HDK : forall d', d' (e_ssb e) = BSsb (firstof l' None) -> (forall z, In z l' -> exists p, d' (bid z) = BMeta (with_prev (fst z) p)) ->
            (forall c, c <> e_ssb e -> ~ In c (map (fun x : item => bid x) (A ++ B)) -> d' c = s_disk s c) -> disk_ok e d' l' /\ map (absx e d') l' = map (absx e (s_disk s)) (A ++ B)).
  { intros d' E1 E2 E3. assert (D4' : Forall (item_ok e (s_disk s)) (A ++ B)) by (rewrite Forall_forall in *; auto).
    destruct (items_keep e (s_disk s) d' (A ++ B) HB D4') as [K1 K2].
    { intros z c HZ HC. apply E3; [intros ->; apply N1; eapply feet_in; [apply HZL; exact HZ|now right]|]. intro HI. apply in_map_iff in HI. destruct HI as (w & W1 & W2). exact (ofoot_not_bid (A ++ x :: B) z w c N2 (HZL z HZ) (HZL w W2) HC (eq_sym W1)). }
    split; [|rewrite (similar_abs _ _ _ _ HSIM); exact K2]. constructor; auto.
    - eapply similar_items; eauto.
    - rewrite (similar_feet _ _ HSIM). constructor; [|exact NAB]. intro HC. apply N1. apply in_feet_mid. now right.
    - rewrite (similar_feet _ _ HSIM). intros c HC. apply D6. apply in_feet_mid. now right. }
  (* from there to memory *)
  assert (HUP : forall d' first metas last ovfs used subs, disk_ok e d' l' -> mem d' metas l' -> first = firstof l' None -> last = Some (lastof (e_ssb e) l') -> ovfs = del_ovfs (snd x) (s_ovfs s) ->
            used = unuse (bid x :: flat_map ofoot (snd x)) (s_used s) -> subs = filter (fun x0 : nat * N => negb (N.eqb (snd x0) (bid x))) (s_subs s) -> up_ok e (St d' first (set (bid x) None metas) ovfs last used subs) l').
  { intros d' first metas last ovfs used subs G1 G2 -> -> -> -> ->.
    assert (G3 : forall z, In z l' -> bid z <> bid x). { intros z HZ HC. apply (in_map (fun x : item => bid x)) in HZ. rewrite (similar_bids _ _ HSIM) in HZ. apply in_map_iff in HZ. destruct HZ as (w & W1 & W2). apply (HZO w W2). congruence. }
    constructor; cbn [s_disk s_first s_metas s_ovfs s_last s_used s_subs]; auto.
    - intros z HZ. now destruct (G2 z HZ).
    - intros z HZ. rewrite set_other by auto. now destruct (G2 z HZ).
    - assert (l' <> []); [|destruct l'; congruence]. intro HC. apply (f_equal (@length _)) in HC. rewrite <- (map_length (fun x : item => bid x) l'), (similar_bids _ _ HSIM), map_length, app_length in HC. rewrite app_length in H2. cbn in H2, HC. lia. }
  unfold remove. rewrite (u_metas _ _ _ HU x HXL).
  rewrite (free_ok (s_ovfs s) (fuel e) (snd x)); [|apply (it_chain _ _ _ HIT)|intros o HO; eapply u_ovfs; eauto|pose proof (os_length _ _ _ _ HD HXL); lia].
  rewrite L2, L3.
  destruct (exists_last_or_nil A) as [->|(A' & y & ->)].
  - (* the first record: the super block changes, and the next record *)
    cbn [lastof map last] in *. rewrite N.eqb_refl. destruct B as [|z B']; [cbn in H2; lia|]. cbn [firstof] in *. cbn [app] in *.
    assert (HLN : last (map (fun x : item => bid x) (x :: z :: B')) (e_ssb e) <> bid x).
    { change (last (map (fun x : item => bid x) (x :: z :: B')) (e_ssb e)) with (last (map (fun x : item => bid x) (z :: B')) (e_ssb e)). pose proof (@exists_last _ (map (fun x : item => bid x) (z :: B')) ltac:(discriminate)) as (q & w & HQ). rewrite HQ, last_last.
      assert (HW : In w (map (fun x : item => bid x) (z :: B'))) by (rewrite HQ; apply in_or_app; right; now left). apply in_map_iff in HW. destruct HW as (v & <- & HV). apply HZO. exact HV. }
    rewrite (u_last _ _ _ HU). cbv iota beta. unfold lastof. destruct (N.eqb_spec (last (map (fun x : item => bid x) (x :: z :: B')) (e_ssb e)) (bid x)) as [E|E]; [congruence|].
    destruct (HMM z (or_introl eq_refl)) as [Z1 Z2]. rewrite Z2. cbn [app].
    set (w1 := (e_ssb e, BSsb (Some (bid z)))). set (w2 := (bid z, BMeta (with_prev (fst z) (e_ssb e)))).
    assert (M1 : mem (put1 (s_disk s) w1) (s_metas s) (z :: B')) by (apply mem_ssb; assumption).
    assert (M2 : mem (put1 (put1 (s_disk s) w1) w2) (set (bid z) (Some (with_prev (fst z) (e_ssb e))) (s_metas s)) l') by (apply (mem_put _ _ [] z B'); [exact M1|exact NAB|reflexivity]).
    assert (G1 : disk_ok e (put1 (s_disk s) w1) l' /\ map (absx e (put1 (s_disk s) w1)) l' = map (absx e (s_disk s)) (z :: B')).
    { apply HDK.
      - apply put1_same.
      - intros v [<-|HV]; [|destruct (M1 v) as [-> _]; [now right|]; exists (b_prev (fst v)); f_equal; destruct (fst v); reflexivity].
        destruct (M1 z) as [V1 _]; [now left|]. exists (b_prev (fst z)). cbn [pv fst]. change (b_bid (with_prev (fst z) (e_ssb e))) with (bid z). rewrite V1. f_equal. destruct (fst z); reflexivity.
      - intros c C1 C2. unfold w1. apply put1_other. exact C1. }
    destruct G1 as [G1 G1'].
    assert (G2 : disk_ok e (put1 (put1 (s_disk s) w1) w2) l' /\ map (absx e (put1 (put1 (s_disk s) w1) w2)) l' = map (absx e (put1 (s_disk s) w1)) l').
    { apply (mend_ok e (put1 (s_disk s) w1) l' [w2] HB G1). constructor; [|constructor]. exists (pv (e_ssb e) z). split; [now left|reflexivity]. }
    destruct G2 as [G2 G2'].
    exists [w1; w2]. eexists. exists l'. split; [reflexivity|]. split; [|split; [cbn [s_disk]; rewrite puts2, G2', G1'; reflexivity|split; [reflexivity|]]].
    + rewrite puts2. apply HUP; auto.
    + intro k. cbn zeta. destruct k as [|[|k]]; cbn [firstn]; [left|right|right].
      * split; [exact HD|reflexivity].
      * rewrite puts1. auto.
      * rewrite firstn_nil, puts2. rewrite G2', G1'. auto.
  - unfold l' in *. clear l'. rewrite lastof_app in *. assert (HYI : In y ((A' ++ [y]) ++ B)) by (apply in_or_app; left; apply in_or_app; right; now left).
    destruct (N.eqb_spec (bid y) (e_ssb e)) as [E|_]; [elim (HZS y HYI E)|]. destruct (HMM y HYI) as [Y1 Y2]. rewrite Y2.
    set (n := firstof B None) in *. set (w1 := (bid y, BMeta (with_next (fst y) n))).
    rewrite setlast_app in *. rewrite <- app_assoc in HMM, NAB. cbn [app] in HMM, NAB.
    assert (M1 : mem (put1 (s_disk s) w1) (set (bid y) (Some (with_next (fst y) n)) (s_metas s)) (A' ++ nx n y :: B)) by (apply (mem_put _ _ A' y B); [exact HMM|exact NAB|reflexivity]).
    assert (G1 : disk_ok e (put1 (s_disk s) w1) ((A' ++ [nx n y]) ++ setfirst (bid y) B) /\ map (absx e (put1 (s_disk s) w1)) ((A' ++ [nx n y]) ++ setfirst (bid y) B) = map (absx e (s_disk s)) ((A' ++ [y]) ++ B)).
    { apply HDK.
      - unfold w1. rewrite put1_other by (intro HC; apply (HZS y HYI); congruence). rewrite D1. destruct A'; reflexivity.
      - intros v HV. rewrite <- app_assoc in HV. cbn [app] in HV.
        assert (HVO : In v (A' ++ nx n y :: B) \/ exists z B', B = z :: B' /\ v = pv (bid y) z). { destruct B as [|z B']; [now left|]. apply in_app_or in HV. destruct HV as [HV|[<-|[<-|HV]]]; [left; apply in_or_app; now left|left; apply in_or_app; right; now left|right; eauto|left; apply in_or_app; right; right; now right]. }
        destruct HVO as [HVO|(z & B' & -> & ->)].
        + destruct (M1 v HVO) as [-> _]. exists (b_prev (fst v)). f_equal. destruct (fst v); reflexivity.
        + destruct (M1 z) as [V1 _]; [apply in_or_app; right; right; now left|]. exists (b_prev (fst z)). cbn [pv fst]. change (b_bid (with_prev (fst z) (bid y))) with (bid z). rewrite V1. f_equal. destruct (fst z); reflexivity.
      - intros c C1 C2. unfold w1. apply put1_other. intros ->. apply C2. apply (in_map (fun x : item => bid x)). exact HYI. }
    destruct G1 as [G1 G1']. destruct B as [|z B'].
    + (* the last record *)
      cbn [setfirst firstof app] in *. rewrite app_nil_r in *. rewrite app_nil_r in G1'.
      exists [w1]. eexists. exists (A' ++ [nx n y]). split; [reflexivity|]. split; [|split; [cbn [s_disk]; rewrite puts1; exact G1'|split; [reflexivity|]]].
      * rewrite puts1. apply HUP; auto; [|rewrite lastof_app; reflexivity]. rewrite (u_first _ _ _ HU). destruct A'; reflexivity.
      * intro k. cbn zeta. destruct k as [|k]; cbn [firstn]; [left; split; [exact HD|reflexivity]|right]. rewrite firstn_nil, puts1. auto.
    + unfold n in *. clear n. cbn [setfirst firstof] in *.
      destruct (M1 z) as [Z1 Z2]; [apply in_or_app; right; right; now left|].
      rewrite Z2. set (w2 := (bid z, BMeta (with_prev (fst z) (bid y)))). change ([w1] ++ [w2]) with [w1; w2].
      assert (M2 : mem (put1 (put1 (s_disk s) w1) w2) (set (bid z) (Some (with_prev (fst z) (bid y))) (set (bid y) (Some (with_next (fst y) (Some (bid z)))) (s_metas s))) ((A' ++ [nx (Some (bid z)) y]) ++ pv (bid y) z :: B')).
      { apply (mem_put _ _ (A' ++ [nx (Some (bid z)) y]) z B'); [rewrite <- app_assoc; exact M1| |reflexivity]. rewrite <- app_assoc. cbn [app]. change (NoDup (feet (A' ++ nx (Some (bid z)) y :: z :: B'))). rewrite (similar_feet (A' ++ y :: z :: B')); [exact NAB|]. apply Forall2_app; [apply similar_refl|]. constructor; [apply same_nx|apply similar_refl]. }
      assert (G2 : disk_ok e (put1 (put1 (s_disk s) w1) w2) ((A' ++ [nx (Some (bid z)) y]) ++ pv (bid y) z :: B') /\ map (absx e (put1 (put1 (s_disk s) w1) w2)) ((A' ++ [nx (Some (bid z)) y]) ++ pv (bid y) z :: B') = map (absx e (put1 (s_disk s) w1)) ((A' ++ [nx (Some (bid z)) y]) ++ pv (bid y) z :: B')).
      { apply (mend_ok e (put1 (s_disk s) w1) _ [w2] HB G1). constructor; [|constructor]. exists (pv (bid y) z). split; [apply in_or_app; right; now left|reflexivity]. }
      destruct G2 as [G2 G2'].
      exists [w1; w2]. eexists. exists ((A' ++ [nx (Some (bid z)) y]) ++ pv (bid y) z :: B'). split; [reflexivity|]. split; [|split; [cbn [s_disk]; rewrite puts2, G2', G1'; reflexivity|split; [reflexivity|]]].
      * rewrite puts2. apply HUP; auto; [rewrite (u_first _ _ _ HU); destruct A'; reflexivity|].
        rewrite (u_last _ _ _ HU). destruct ((A' ++ [y]) ++ x :: z :: B') eqn:EA; [destruct A'; discriminate|]. rewrite <- EA. f_equal. unfold lastof. rewrite !map_app. cbn [map].
        rewrite !last_app_r by discriminate. destruct B'; reflexivity.
      * intro k. cbn zeta. destruct k as [|[|k]]; cbn [firstn]; [left|right|right].
        -- split; [exact HD|reflexivity].
        -- rewrite puts1. auto.
        -- rewrite firstn_nil, puts2. rewrite G2', G1'. auto.
Qed.
