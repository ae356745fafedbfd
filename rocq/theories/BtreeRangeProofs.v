(** Range remove and range update refine the sorted list. *)
From Coq Require Import ZArith NArith List Bool Lia Sorting.Sorted.
From Coq Require Import ZifyBool ZifyNat ZifyN.
From Verif Require Import Base BtNodeModel BtNodeSpec BtNodeProofs BtreeModel BtreeInv BtreePut
  BtreeMerge BtreeMerge2 BtreeRemove BtreeQueryModel BtreeQueryProofs BtreeRangeModel.
Import ListNotations.

(** ** Matching the children of an interior node *)

(** A range that is not turned around and not empty by its bounds alone, except
    for an excluded end. *)
Definition valid (r : krange) : Prop :=
  (r_start r < r_end r)%Z \/ (r_start r = r_end r /\ r_sincl r = true).

(** A child to work on. *)
Definition vis (h : nat) (lim : Z) (lo u : ext) (x : tree) : Prop :=
  wf h lo u x /\ elt lo (Fin lim).

Lemma split_lt : forall (a1 b1 a2 b2 : list (Z * tree)), a1 ++ b1 = a2 ++ b2 ->
  (forall x y, In x a1 -> In y b2 -> (fst x < fst y)%Z) ->
  exists d, a2 = a1 ++ d /\ b1 = d ++ b2.
Proof.
  induction a1 as [|x a1 IH]; intros b1 a2 b2 HE H; cbn in HE.
  - exists a2. auto.
  - destruct a2 as [|y a2]; cbn in HE.
    + subst b2. specialize (H x x (or_introl eq_refl) (or_introl eq_refl)). lia.
    + injection HE as <- HE.
      destruct (IH _ _ _ HE) as [d [-> ->]]; [|exists d; auto].
      intros p q Hp Hq. apply H; [now right|assumption].
Qed.

Lemma chain_vis : forall h lim d lo m, chain (wf h) lo m (sl d) ->
  all_lt lim d -> elt lo (Fin lim) -> chain (vis h lim) lo m (sl d).
Proof.
  induction d as [|[k x] d IH]; intros lo m HC HL HE; cbn in *; [assumption|].
  destruct HC as [H1 [H2 H3]]. inversion HL; subst. cbn [fst snd] in *.
  split; [assumption|]. split; [split; assumption|]. apply IH; assumption.
Qed.

Lemma lo_not : forall r k, lo_ok r k = false ->
  (k <= r_start r)%Z /\ (r_sincl r = true -> (k < r_start r)%Z).
Proof. intros r k H. unfold lo_ok in H. destruct (r_sincl r); lia. Qed.

Lemma inner_match : forall h es ed lo hi r, chain (wf h) lo hi (slots es ed) ->
  slots es ed <> [] -> ele (Fin (r_start r)) hi -> elt lo (Fin (r_end r)) -> valid r ->
  (match_range false (has_edge ed) es r = None /\ hi = Fin (r_start r) /\ r_sincl r = false) \/
  exists p m q a b, slots es ed = p ++ m ++ q /\ m <> [] /\
    match_range false (has_edge ed) es r = Some (length p, length p + length m - 1)%nat /\
    chain (wf h) lo a p /\ chain (vis h (r_end r)) a b m /\ chain (wf h) b hi q /\
    (forall y, In y (items (lvs p)) -> in_range r (fst y) = false) /\
    match m with (u, _) :: _ => ele (Fin (r_start r)) u | [] => True end /\
    (q <> [] -> ele (Fin (r_end r)) b).
Proof.
  intros h es ed lo hi r HC HN HS HE HV.
  destruct (slots_sorted _ _ _ _ _ HC) as [HSo _].
  destruct (start_split es r HSo) as [a1 [b1 [E1 [Ha1 [Hb1 F1]]]]].
  destruct (bsearch_split es (r_end r) HSo) as [a2 [b2 [E2 [Ha2 [Hb2 F2]]]]].
  rewrite E1 in E2.
  assert (Ha1' : forall x, In x a1 -> (fst x < r_end r)%Z /\ (fst x <= r_start r)%Z).
  { intros x Hx. rewrite Forall_forall in Ha1. specialize (Ha1 x Hx). apply lo_not in Ha1.
    destruct HV as [HV|[HV1 HV2]]; [lia|]. destruct Ha1 as [_ Ha1]. specialize (Ha1 HV2). lia. }
  destruct (split_lt _ _ _ _ E2) as [d [-> ->]].
  { intros x y Hx Hy. unfold all_ge in Hb2. rewrite Forall_forall in Hb2.
    specialize (Hb2 y Hy). specialize (Ha1' x Hx). lia. }
  clear E2.
  unfold all_lt in Ha2. apply Forall_app in Ha2. destruct Ha2 as [_ Ha2].
  apply Forall_app in Hb1. destruct Hb1 as [Hb1 _].
  assert (Hlen : length es = (length a1 + length d + length b2)%nat)
    by (rewrite E1, !app_length; lia).
  assert (Hm : match_range false (has_edge ed) es r =
    if (length a1 =? length es)%nat then
      if has_edge ed then Some (length a1, length a1) else None
    else if (length (a1 ++ d) =? length es)%nat && negb (has_edge ed)
    then Some (length a1, length (a1 ++ d) - 1)%nat
    else Some (length a1, length (a1 ++ d))).
  { unfold match_range. destruct (bsearch_node es (r_start r)) as [sf s0]. rewrite F1, F2.
    cbn [negb andb orb]. destruct (Nat.eqb_spec (length a1) (length es)) as [_|Hne]; [reflexivity|].
    destruct ((length (a1 ++ d) =? length es)%nat && negb (has_edge ed)) eqn:EE; [|reflexivity].
    apply andb_true_iff in EE. destruct EE as [EE _]. apply Nat.eqb_eq in EE.
    assert (b2 = []) by (rewrite app_length in EE; destruct b2; [reflexivity|cbn in Hlen; lia]).
    subst b2. cbn [found_in negb orb].
    rewrite app_length in *. cbn in Hlen.
    destruct (length a1 + length d)%nat as [|e] eqn:EL; [lia|].
    rewrite (proj2 (Nat.ltb_ge _ _)) by lia. do 2 f_equal. lia. }
  rewrite Hm. clear Hm F1 F2.
  assert (Hsl : slots es ed = sl a1 ++ sl d ++ sl b2 ++
                              match ed with Some e => [(PosInf, e)] | None => [] end).
  { rewrite E1. unfold slots, sl. rewrite !map_app, <- !app_assoc. reflexivity. }
  rewrite Hsl in *.
  apply chain_app in HC. destruct HC as [a [HC1 HC]].
  apply chain_app in HC. destruct HC as [b [HC2 HC3]].
  assert (Ha : elt a (Fin (r_end r))).
  { eapply chain_end_lt; [exact HC1| |exact HE]. apply Forall_forall. intros x Hx. now apply Ha1'. }
  assert (HP : forall y, In y (items (lvs (sl a1))) -> in_range r (fst y) = false).
  { intros y Hy. destruct (chain_items_in _ _ _ _ _ HC1 Hy) as [_ H2].
    destruct a1 as [|z a1']; [contradiction|].
    rewrite (chain_end _ _ _ _ HC1) in H2.
    destruct (rev (z :: a1')) as [|p rr] eqn:E.
    { apply (f_equal (@length _)) in E. rewrite rev_length in E. discriminate. }
    assert (Hin : In p (z :: a1')) by (apply in_rev; rewrite E; now left).
    rewrite Forall_forall in Ha1. specialize (Ha1 p Hin).
    assert (Hle : (fst y <= fst p)%Z)
      by (destruct H2 as [H2|H2]; [cbn in H2; lia|injection H2 as H2; lia]).
    rewrite in_range_ok. apply andb_false_iff. left. unfold lo_ok in *.
    destruct (r_sincl r); lia. }
  assert (Hb : elt b (Fin (r_end r))) by (eapply chain_end_lt; eassumption).
  assert (HVi : chain (vis h (r_end r)) a b (sl d)) by (apply chain_vis; assumption).
  assert (Hfirst : forall k x rest, d = (k, x) :: rest -> ele (Fin (r_start r)) (Fin k)).
  { intros k x rest ->. inversion Hb1 as [|? ? H1 _]; subst. cbn [fst] in H1. unfold lo_ok in H1.
    destruct (Z.eq_dec (r_start r) k) as [->|]; [now right|left; cbn].
    destruct (r_sincl r); lia. }
  assert (Hl1 : length (sl a1) = length a1) by (unfold sl; apply map_length).
  assert (Hl2 : length (sl d) = length d) by (unfold sl; apply map_length).
  destruct b2 as [|[k x] b2].
  - cbn [sl map app] in HC3, Hsl |- *. cbn [length] in Hlen.
    destruct ed as [e|]; cbn [has_edge negb].
    + right. exists (sl a1), (sl d ++ [(PosInf, e)]), [], a, PosInf.
      split; [now rewrite app_nil_r|].
      split; [destruct (sl d); discriminate|].
      split.
      { rewrite andb_false_r, !app_length, Hl1, Hl2. cbn [length].
        destruct (Nat.eqb_spec (length a1) (length es)); do 2 f_equal; lia. }
      split; [assumption|]. cbn in HC3. destruct HC3 as [H1 [H2 H3]].
      split; [|split; [cbn; congruence|split; [assumption|split; [|congruence]]]].
      * apply chain_app. exists b. split; [assumption|]. cbn. split; [assumption|].
        split; [|reflexivity]. split; assumption.
      * destruct d as [|[k x] d]; cbn; [left; exact I|]. eapply Hfirst; reflexivity.
    + cbn in HC3. subst b. rewrite app_nil_r in *.
      destruct (Nat.eqb_spec (length a1) (length es)) as [EL|EL].
      * left. split; [reflexivity|].
        assert (d = []) by (destruct d; [reflexivity|cbn in Hlen; lia]). subst d.
        cbn in HC2. subst a. cbn [sl map] in HN. rewrite app_nil_r in HN.
        destruct a1 as [|z a1']; [cbn in HN; congruence|].
        rewrite (chain_end _ _ _ _ HC1) in HS |- *.
        destruct (rev (z :: a1')) as [|p rr] eqn:E.
        { apply (f_equal (@length _)) in E. rewrite rev_length in E. discriminate. }
        assert (Hin : In p (z :: a1')) by (apply in_rev; rewrite E; now left).
        rewrite Forall_forall in Ha1. specialize (Ha1 p Hin). apply lo_not in Ha1.
        destruct Ha1 as [Q1 Q2].
        assert (Q3 : (r_start r <= fst p)%Z)
          by (destruct HS as [HS|HS]; [cbn in HS; lia|injection HS as HS; lia]).
        split; [f_equal; lia|]. destruct (r_sincl r); [|reflexivity].
        specialize (Q2 eq_refl). lia.
      * right. exists (sl a1), (sl d), [], a, hi.
        assert (d <> []) by (intros ->; cbn in Hlen; lia).
        split; [now rewrite app_nil_r|].
        split; [destruct d; [congruence|discriminate]|].
        split.
        { rewrite app_length, Hl1, Hl2.
          rewrite (proj2 (Nat.eqb_eq (length a1 + length d) (length es))) by lia. reflexivity. }
        split; [assumption|]. split; [assumption|]. split; [reflexivity|]. split; [assumption|].
        split; [|congruence].
        destruct d as [|[k x] d]; cbn; [exact I|]. eapply Hfirst; reflexivity.
  - right. cbn [sl map app fst snd] in HC3. destruct HC3 as [H1 [H2 H3]].
    inversion Hb2 as [|? ? G1 G2]; subst. cbn [fst] in G1.
    exists (sl a1), (sl d ++ [(Fin k, x)]),
      (sl b2 ++ match ed with Some e => [(PosInf, e)] | None => [] end), a, (Fin k).
    split; [cbn [sl map app fst snd]; rewrite <- !app_assoc; reflexivity|].
    split; [destruct (sl d); discriminate|].
    split.
    { cbn [length] in Hlen. rewrite (app_length a1 d), (app_length (sl d)), Hl1, Hl2.
      rewrite (proj2 (Nat.eqb_neq (length a1) _)) by lia.
      rewrite (proj2 (Nat.eqb_neq (length a1 + length d) _)) by lia.
      cbn [andb length]. do 2 f_equal. lia. }
    split; [assumption|].
    split; [|split; [assumption|split; [assumption|split]]].
    + apply chain_app. exists b. split; [assumption|]. cbn. split; [assumption|].
      split; [|reflexivity]. split; assumption.
    + destruct d as [|[k' x'] d]; cbn.
      * destruct HV as [HV|[HV _]]; destruct (Z.eq_dec (r_start r) k) as [->|];
          [now right|left; cbn; lia|now right|left; cbn; lia].
      * eapply Hfirst; reflexivity.
    + intros _. destruct (Z.eq_dec (r_end r) k) as [->|]; [now right|left; cbn; lia].
Qed.

(** ** The traversal state *)

Section Inp.
Variable inp : krange.

(** What is still to do: from the start of the working range to the end of the
    input range. *)
Definition full (w : wstate) : krange :=
  KRange (r_start (ws_r w)) (r_sincl (ws_r w)) (r_end inp) (r_eincl inp) (r_opt (ws_r w)).

Definition open_st (w : wstate) : Prop :=
  ws_trim w = false /\ r_end (ws_r w) = r_end inp /\ r_eincl (ws_r w) = r_eincl inp /\
  valid (full w).

(** Everything up to and including [u] is done. *)
Definition done_to (w : wstate) (u : Z) : Prop :=
  ws_trim w = false /\ r_end (ws_r w) = r_end inp /\ r_eincl (ws_r w) = r_eincl inp /\
  r_start (ws_r w) = u /\ r_sincl (ws_r w) = false.

(** The state a node of height [h] with upper bound [hi] is entered with. *)
Definition fits (h : nat) (hi : ext) (w : wstate) : Prop :=
  (open_st w /\ (h = 0%nat -> ele (Fin (r_end inp)) hi)) \/
  (h = 0%nat /\ ws_trim w = true /\ hi = Fin (r_end (ws_r w)) /\ r_eincl (ws_r w) = true /\
   (r_end (ws_r w) < r_end inp)%Z).

Definition next_st (hi : ext) (w : wstate) : Prop :=
  forall u, hi = Fin u -> (u < r_end inp)%Z -> done_to w u.

Lemma open_match : forall w, open_st w -> ws_r w = full w.
Proof. intros w [_ [H1 [H2 _]]]. unfold full. rewrite <- H1, <- H2. now destruct (ws_r w). Qed.

Lemma done_open : forall w u, done_to w u -> (u < r_end inp)%Z -> open_st w.
Proof.
  intros w u [H1 [H2 [H3 [H4 H5]]]] HL. split; [assumption|]. split; [assumption|].
  split; [assumption|]. left. cbn. lia.
Qed.

Lemma full_sub : forall es i x w, full (subrange es i x w) = full w.
Proof.
  intros es i [id next l|id next l ed] w; cbn; [|reflexivity].
  destruct (nth_error es i) as [[k y]|]; [|reflexivity]. destruct (_ <? _)%Z; reflexivity.
Qed.

Lemma slot_key : forall es ed p u x q, slots es ed = p ++ (u, x) :: q ->
  (exists k, nth_error es (length p) = Some (k, x) /\ u = Fin k) \/
  (nth_error es (length p) = None /\ u = PosInf).
Proof.
  intros es ed p u x q HE. pose proof (f_equal (fun l => nth_error l (length p)) HE) as HN.
  cbv beta in HN. rewrite nth_len_app in HN. unfold slots in HN.
  destruct (Nat.ltb_spec (length p) (length es)) as [HL|HL].
  - rewrite nth_error_app1 in HN by now rewrite map_length.
    rewrite nth_error_map in HN. destruct (nth_error es (length p)) as [[k y]|]; [|discriminate].
    cbn in HN. injection HN as <- <-. left. eauto.
  - right. split; [now apply nth_error_None|].
    rewrite nth_error_app2 in HN by (rewrite map_length; lia). rewrite map_length in HN.
    destruct ed as [e|]; [|destruct (length p - length es)%nat; discriminate].
    destruct (length p - length es)%nat as [|[|j]]; cbn in HN; congruence.
Qed.

Lemma sub_fits : forall h lo es ed p u x q w, slots es ed = p ++ (u, x) :: q -> wf h lo u x ->
  open_st w -> fits h u (subrange es (length p) x w).
Proof.
  intros h lo es ed p u x q w HE HX HO.
  destruct h as [|h], x as [id next l|id next l ed']; cbn in HX; try contradiction.
  - unfold subrange. destruct (slot_key _ _ _ _ _ _ HE) as [[k [-> ->]]|[-> ->]].
    + pose proof HO as [_ [HE1 _]]. rewrite HE1.
      destruct (Z.ltb_spec k (r_end inp)) as [HL|HL].
      * right. cbn. repeat split; assumption.
      * left. split; [assumption|]. intros _.
        destruct (Z.eq_dec (r_end inp) k) as [->|]; [now right|left; cbn; lia].
    + left. split; [assumption|]. intros _. left. exact I.
  - left. split; [exact HO|discriminate].
Qed.

(** ** Remove *)

Definition hit (r : krange) (f : rfilter) (p : Z * N) : bool :=
  in_range r (fst p) && accepts f (fst p) (snd p).
Definition keep (r : krange) (f : rfilter) (p : Z * N) : bool := negb (hit r f p).

Lemma keep_out : forall r f l, (forall y, In y l -> in_range r (fst y) = false) ->
  filter (keep r f) l = l /\ existsb (hit r f) l = false.
Proof.
  induction l as [|y l IH]; intros H; cbn; [auto|].
  destruct IH as [I1 I2]; [intros z Hz; apply H; now right|].
  assert (Hh : hit r f y = false) by (unfold hit; now rewrite (H y) by now left).
  assert (Hk : keep r f y = true) by (unfold keep; now rewrite Hh).
  rewrite Hh, Hk, I1, I2. auto.
Qed.

Lemma keep_same : forall r r' f l,
  (forall y, In y l -> in_range r (fst y) = in_range r' (fst y)) ->
  filter (keep r f) l = filter (keep r' f) l /\ existsb (hit r f) l = existsb (hit r' f) l.
Proof.
  induction l as [|y l IH]; intros H; cbn; [auto|].
  destruct IH as [I1 I2]; [intros z Hz; apply H; now right|].
  assert (Hh : hit r f y = hit r' f y) by (unfold hit; now rewrite (H y) by now left).
  assert (Hk : keep r f y = keep r' f y) by (unfold keep; now rewrite Hh).
  rewrite Hh, Hk, I1, I2. auto.
Qed.

Lemma sorted_filter : forall (g : Z * N -> bool) l, sorted l -> sorted (filter g l).
Proof.
  intros g l HS. induction l as [|p l IH]; cbn; [constructor|]. apply sorted_cons in HS.
  destruct HS as [H1 H2]. destruct (g p); [|auto]. apply sorted_cons. split; [|auto].
  unfold all_gt in *. rewrite Forall_forall in *. intros q Hq. apply filter_In in Hq. apply H1.
  tauto.
Qed.

Lemma existsb_length : forall T (g : T -> bool) l,
  (length (filter g l) =? 0)%nat = negb (existsb g l).
Proof. induction l as [|x l IH]; cbn; [reflexivity|]. destruct (g x); cbn; [reflexivity|assumption]. Qed.

Definition rstatus (b : bool) : status := if b then StSuccess else StNotFound.

(** The range a leaf is asked for agrees with what is left, on its keys. *)
Lemma leaf_range : forall lo hi (es : list (Z * N)) w, leaf_ok lo hi es -> fits 0 hi w ->
  forall y, In y es -> in_range (ws_r w) (fst y) = in_range (full w) (fst y).
Proof.
  intros lo hi es w [_ HF] [[HO _]|[_ [HT [-> [HI HL]]]]] y Hy.
  - now rewrite (open_match w HO) at 1.
  - rewrite Forall_forall in HF. destruct (HF y Hy) as [_ H2].
    assert (fst y <= r_end (ws_r w))%Z
      by (destruct H2 as [H2|H2]; [cbn in H2; lia|injection H2 as H2; lia]).
    unfold in_range, full. cbn [r_start r_sincl r_end r_eincl]. f_equal. rewrite HI.
    destruct (r_eincl inp); lia.
Qed.

Lemma shift_next : forall hi w, fits 0 hi w -> next_st hi (shift inp w).
Proof.
  intros hi w [[HO HH]|[_ [HT [-> [HI HL]]]]] u E HU.
  - exfalso. specialize (HH eq_refl). subst hi.
    destruct HH as [HH|HH]; [cbn in HH; lia|injection HH as HH; lia].
  - injection E as <-. unfold shift. rewrite HT. repeat split.
Qed.

Lemma fin_of : forall a u k, elt a u -> elt u (Fin k) -> exists z, u = Fin z /\ (z < k)%Z.
Proof. intros a [|z|] k H1 H2; cbn in *; try (destruct a; contradiction); eauto; contradiction. Qed.

Lemma done_out : forall w u k, done_to w u -> (k <= u)%Z -> in_range (full w) k = false.
Proof.
  intros w u k [_ [_ [_ [H1 H2]]]] HK. unfold in_range, full. cbn. rewrite H1, H2.
  apply andb_false_iff. left. lia.
Qed.

Lemma done_same : forall w w' u k, done_to w' u -> (r_start (ws_r w) <= u)%Z -> (u < k)%Z ->
  in_range (full w') k = in_range (full w) k.
Proof.
  intros w w' u k [_ [_ [_ [H1 H2]]]] HS HK. unfold in_range, full. cbn. rewrite H1, H2.
  f_equal. destruct (r_sincl (ws_r w)); lia.
Qed.

Lemma chain_vis_wf : forall h lim m a b, chain (vis h lim) a b m -> chain (wf h) a b m.
Proof. intros h lim m a b. apply chain_mono. intros ? ? ? [H _]. exact H. Qed.

Lemma fin_le : forall a b, ele (Fin a) (Fin b) -> (a <= b)%Z.
Proof. intros a b [H|H]; [cbn in H; lia|injection H as H; lia]. Qed.

(** The parts before and after the children to visit have nothing to remove. *)
Lemma parts_out : forall h w m q b hi,
  (q <> [] -> ele (Fin (r_end inp)) b) -> chain (wf h) b hi q ->
  forall y, In y (items (lvs q)) -> in_range (full w) (fst y) = false \/ m = true.
Proof.
  intros h w m q b hi HQ HC y Hy. left.
  destruct q as [|z q]; [contradiction|]. specialize (HQ ltac:(discriminate)).
  destruct (chain_items_in _ _ _ _ _ HC Hy) as [H1 _]. apply above_out. cbn.
  pose proof (ele_elt_trans _ _ _ HQ H1) as H2. exact H2.
Qed.

Section Cfg.
Variable c : cfg.
Hypothesis Hok : cfg_ok c.

Definition node_post (f : rfilter) (any : bool) (h : nat) (lo hi : ext) (t : tree) (nx : N)
    (w : wstate) (t' : tree) (nx' : N) (w' : wstate) (st : status) : Prop :=
  wf h lo hi t' /\ lgood nx (leaves t) nx' (leaves t') /\
  content t' = filter (keep (full w) f) (content t) /\
  st = rstatus (any || existsb (hit (full w) f) (content t)) /\ next_st hi w'.

Lemma do_rremove_ok : forall fuel,
  (forall h lo hi t nx w f any t' nx' w' st,
     wf h lo hi t -> fits h hi w -> ele (Fin (r_start (ws_r w))) hi ->
     elt lo (Fin (r_end inp)) -> (h = 0%nat -> any = false) ->
     do_rremove c inp fuel nx t w f None any = Ok (t', nx', w', st) ->
     node_post f any h lo hi t nx w t' nx' w' st) /\
  (forall h lo hi id next es ed nx w f e ret any t' nx' w' st p m q a b,
     slots es ed = p ++ m ++ q -> slots es ed <> [] ->
     (m <> [] -> e = length p + length m - 1)%nat -> (m = [] -> e < length p)%nat ->
     chain (wf h) lo a p -> chain (vis h (r_end inp)) a b m -> chain (wf h) b hi q ->
     (q <> [] -> ele (Fin (r_end inp)) b) ->
     (m = [] -> next_st b w) ->
     (m <> [] -> open_st w /\
        (forall y, In y (items (lvs p)) -> in_range (full w) (fst y) = false) /\
        match m with (u, _) :: _ => ele (Fin (r_start (ws_r w))) u | [] => True end) ->
     do_rremove c inp fuel nx (Inner id next es ed) w f (Some (length p, e, ret)) any
       = Ok (t', nx', w', st) ->
     wf (S h) lo hi t' /\ lgood nx (lvs (slots es ed)) nx' (leaves t') /\
     content t' = items (lvs p) ++ filter (keep (full w) f) (items (lvs m)) ++ items (lvs q) /\
     st = (if any || existsb (hit (full w) f) (items (lvs m)) then StSuccess
           else match m with [] => ret | _ => StNotFound end) /\
     next_st hi w').
Proof.
  induction fuel as [|fuel [IHA IHB]]; [split; intros; discriminate|]. split.
  - intros h lo hi t nx w f any t' nx' w' st HW HFi HS HL HA HR.
    destruct h as [|h], t as [id next es|id next es ed]; cbn [wf] in HW; try contradiction;
      cbn [do_rremove] in HR.
    + destruct HW as [HSo HF]. destruct (multi_remove_ok es (ws_r w) f HSo) as [M1 M2].
      destruct (multi_remove es (ws_r w) f) as [n es']. cbn [fst snd] in M1, M2.
      injection HR as <- <- <- <-. rewrite (HA eq_refl) in *. clear HA.
      pose proof (leaf_range lo hi es w (conj HSo HF) HFi) as HRa.
      assert (HC : forall l, content (Leaf id next l) = l)
        by (intros; unfold content, items; cbn; apply app_nil_r).
      assert (M1' : es' = filter (keep (full w) f) es).
      { rewrite M1. apply (keep_same (ws_r w) (full w) f es HRa). }
      assert (M2' : (n =? 0)%nat = negb (existsb (hit (full w) f) es)).
      { rewrite M2, existsb_length. f_equal.
        change (existsb (hit (ws_r w) f) es = existsb (hit (full w) f) es).
        apply (keep_same (ws_r w) (full w) f es HRa). }
      split; [|split; [|split; [|split]]].
      * cbn. rewrite M1'. split; [now apply sorted_filter|].
        rewrite Forall_forall in *. intros y Hy. apply filter_In in Hy. apply HF. tauto.
      * cbn [leaves]. apply lgood_same; [lia| |reflexivity]. cbn. auto.
      * rewrite !HC. exact M1'.
      * rewrite HC, M2'. unfold rstatus. cbn [orb]. destruct (existsb _ es); reflexivity.
      * now apply shift_next.
    + destruct HW as [HN HC].
      destruct HFi as [[HO _]|[HH _]]; [|discriminate]. pose proof HO as [HT [HE1 [HE2 HV]]].
      rewrite (open_match w HO) in HR.
      destruct (inner_match h es ed lo hi (full w) HC HN HS HL HV)
        as [[HM [Hhi HI]]|[p [m [q [a [b [HQ [Hm [HM [HP [HVi [HCq [Hout [Hfst Hq]]]]]]]]]]]]]];
        rewrite HM in HR.
      * injection HR as <- <- <- <-.
        assert (Hall : forall y, In y (content (Inner id next es ed)) ->
          in_range (full w) (fst y) = false).
        { intros y Hy. destruct (wf_content (S h) lo hi (Inner id next es ed) (conj HN HC)) as [_ HF].
          rewrite Forall_forall in HF. destruct (HF y Hy) as [_ HF2]. rewrite Hhi in HF2.
          apply fin_le in HF2. cbn [full r_start] in HF2.
          unfold in_range. rewrite HI. apply andb_false_iff. left. cbn [full r_start]. lia. }
        destruct (keep_out (full w) f _ Hall) as [K1 K2].
        split; [split; assumption|]. split; [apply lgood_refl; lia|].
        split; [now rewrite K1|]. split; [rewrite K2, orb_false_r; reflexivity|].
        intros u E HU. rewrite Hhi in E. injection E as E. cbn [full r_sincl] in HI.
        split; [assumption|]. split; [assumption|]. split; [assumption|]. split; assumption.
      * assert (HB := IHB h lo hi id next es ed nx w f _ StSuccess any t' nx' w' st p m q a b
          HQ HN (fun _ => eq_refl) (fun E => False_ind _ (Hm E)) HP HVi HCq Hq
          (fun E => False_ind _ (Hm E)) (fun _ => conj HO (conj Hout Hfst)) HR).
        destruct HB as [B1 [B2 [B3 [B4 B5]]]].
        assert (HCt : content (Inner id next es ed) = items (lvs p) ++ items (lvs m) ++ items (lvs q)).
        { rewrite content_inner, HQ, !lvs_app, !items_app. reflexivity. }
        destruct (keep_out (full w) f (items (lvs p)) Hout) as [P1 P2].
        destruct (keep_out (full w) f (items (lvs q))) as [Q1 Q2].
        { intros y Hy. destruct (parts_out h w false q b hi Hq HCq y Hy); congruence. }
        split; [assumption|]. split; [rewrite leaves_inner; assumption|].
        split; [|split; [|assumption]].
        { rewrite HCt, !filter_app, P1, Q1. exact B3. }
        { rewrite HCt, !existsb_app, P2, Q2, orb_false_r. cbn [orb]. rewrite B4.
          unfold rstatus. destruct (_ || _); [reflexivity|]. destruct m; [congruence|reflexivity]. }
  - intros h lo hi id next es ed nx w f e ret any t' nx' w' st p m q a b
      HQ HN He1 He2 HP HVi HCq Hq Hm0 Hm1 HR.
    cbn [do_rremove] in HR. destruct m as [|[u x] m].
    + rewrite (proj2 (Nat.ltb_lt _ _)) in HR by auto. injection HR as <- <- <- <-.
      cbn in HVi. subst b.
      split; [|split; [|split; [|split]]].
      * cbn. split; [assumption|]. rewrite HQ. cbn [app]. apply chain_app. eauto.
      * rewrite leaves_inner. apply lgood_refl. lia.
      * rewrite content_inner, HQ. cbn [app]. rewrite lvs_app, items_app. reflexivity.
      * cbn [lvs flat_map items existsb]. rewrite orb_false_r. reflexivity.
      * intros u0 E HU. destruct q as [|z q]; [cbn in HCq; subst a; exact (Hm0 eq_refl u0 E HU)|].
        exfalso. specialize (Hq ltac:(discriminate)).
        pose proof (chain_le _ _ _ _ HCq) as HLe. rewrite E in HLe.
        pose proof (ele_trans _ _ _ Hq HLe) as HX. apply fin_le in HX. lia.
    + specialize (He1 ltac:(discriminate)). cbn [length] in He1.
      rewrite (proj2 (Nat.ltb_ge _ _)) in HR by lia.
      destruct (Hm1 ltac:(discriminate)) as [HO [Hout Hfst]]. clear Hm0 Hm1 He2.
      cbn [app] in HQ. rewrite (child_at_slot _ _ _ _ _ _ HQ) in HR.
      cbn in HVi. destruct HVi as [V1 [[V2 V3] V4]].
      set (down := match do_rremove c inp fuel nx x (subrange es (length p) x w) f None false with
                   | Stop s => Stop s
                   | Ok (x', nx', w', st) =>
                       let '(es', ed') := set_child es ed (length p) x' in
                       do_rremove c inp fuel nx' (Inner id next es' ed') w' f
                         (Some (S (length p), e, st))
                         (any || match st with StSuccess => true | _ => false end)
                   end) in HR.
      assert (Hdown : down = Ok (t', nx', w', st) ->
        wf (S h) lo hi t' /\ lgood nx (lvs (slots es ed)) nx' (leaves t') /\
        content t' = items (lvs p) ++ filter (keep (full w) f) (items (lvs ((u, x) :: m))) ++ items (lvs q) /\
        st = (if any || existsb (hit (full w) f) (items (lvs ((u, x) :: m))) then StSuccess
              else StNotFound) /\
        next_st hi w').
      { unfold down. clear HR down. intros HR.
        destruct (do_rremove c inp fuel nx x (subrange es (length p) x w) f None false)
          as [[[[x' nx1] w1] st1]|] eqn:EP; [|discriminate].
        assert (Hst : r_start (ws_r (subrange es (length p) x w)) = r_start (ws_r w)).
        { change (r_start (full (subrange es (length p) x w)) = r_start (full w)). now rewrite full_sub. }
        destruct (IHA h a u x nx (subrange es (length p) x w) f false x' nx1 w1 st1 V2
          (sub_fits _ _ _ _ _ _ _ _ _ HQ V2 HO) ltac:(rewrite Hst; exact Hfst) V3
          (fun _ => eq_refl) EP) as [A1 [A2 [A3 [A4 A5]]]].
        rewrite full_sub in A3, A4. cbn [orb] in A4.
        pose proof (set_child_slots es ed p u x (m ++ q) x' HQ) as HSl.
        destruct (set_child es ed (length p) x') as [es1 ed1].
        assert (HSl' : slots es1 ed1 = (p ++ [(u, x')]) ++ m ++ q)
          by (rewrite <- app_assoc; exact HSl).
        assert (Hlp : S (length p) = length (p ++ [(u, x')])) by (rewrite app_length; cbn; lia).
        rewrite Hlp in HR.
        assert (Hu : m <> [] -> exists z, u = Fin z /\ (z < r_end inp)%Z).
        { intros Hm. destruct m as [|[u2 x2] m]; [congruence|]. cbn in V4.
          destruct V4 as [_ [[_ V5] _]]. eapply fin_of; eassumption. }
        set (any1 := any || match st1 with StSuccess => true | _ => false end) in HR.
        pose proof (IHB h lo hi id next es1 ed1 nx1 w1 f e st1 any1 t' nx' w' st
          (p ++ [(u, x')]) m q u b HSl') as HB.
        destruct HB as [B1 [B2 [B3 [B4 B5]]]].
        - rewrite HSl'. destruct p; discriminate.
        - intros Hm. rewrite app_length. cbn [length]. lia.
        - intros ->. rewrite app_length. cbn [length] in *. lia.
        - apply chain_app. exists a. split; [assumption|]. cbn. auto.
        - assumption.
        - assumption.
        - assumption.
        - intros ->. cbn in V4. subst b. exact A5.
        - intros Hm. destruct (Hu Hm) as [z [-> Hz]]. pose proof (A5 z eq_refl Hz) as HD.
          split; [eapply done_open; eassumption|]. split.
          + intros y Hy. eapply done_out; [exact HD|].
            rewrite lvs_app, items_app in Hy. apply in_app_or in Hy. destruct Hy as [Hy|Hy].
            * destruct (chain_items_in _ _ _ _ _ HP Hy) as [_ Y2].
              apply fin_le. eapply ele_trans; [exact Y2|now left].
            * cbn [lvs flat_map snd] in Hy. rewrite app_nil_r in Hy. fold (content x') in Hy.
              destruct (wf_content _ _ _ _ A1) as [_ HF]. rewrite Forall_forall in HF.
              apply fin_le. now apply HF.
          + destruct m as [|[u2 x2] m]; [exact I|]. cbn in V4. destruct V4 as [V5 _].
            destruct HD as [_ [_ [_ [-> _]]]]. now left.
        - exact HR.
        - change (lvs ((u, x) :: m)) with (leaves x ++ lvs m). rewrite items_app.
          fold (content x). rewrite filter_app, existsb_app.
          rewrite lvs_app, items_app in B3. cbn [lvs flat_map snd] in B3. rewrite app_nil_r in B3.
          fold (content x') in B3. rewrite A3, <- app_assoc in B3.
          assert (Hsame : filter (keep (full w1) f) (items (lvs m)) =
                          filter (keep (full w) f) (items (lvs m)) /\
                          existsb (hit (full w1) f) (items (lvs m)) =
                          existsb (hit (full w) f) (items (lvs m))).
          { destruct m as [|z0 m0] eqn:Em; [split; reflexivity|]. rewrite <- Em in *.
            destruct (Hu ltac:(subst m; discriminate)) as [z [-> Hz]].
            apply keep_same. intros y Hy. apply done_same with (u := z).
            - now apply A5.
            - now apply fin_le.
            - destruct (chain_items_in _ _ _ _ _ (chain_vis_wf _ _ _ _ _ V4) Hy) as [Y1 _]. exact Y1. }
          destruct Hsame as [Hs1 Hs2]. rewrite Hs1 in B3. rewrite Hs2 in B4.
          split; [assumption|]. split; [|split; [|split; [|assumption]]].
          + eapply lgood_trans; [|exact B2]. rewrite HQ, HSl, !lvs_slot. now apply lgood_ctx.
          + rewrite B3, <- !app_assoc. reflexivity.
          + rewrite B4. unfold any1. rewrite A4. clear. unfold rstatus.
            destruct any, (existsb (hit (full w) f) (content x)),
              (existsb (hit (full w) f) (items (lvs m))), m; reflexivity. }
      destruct (merge_needed c x && (length p <? merge_end c es ed (length p)))%bool eqn:EM;
        [|exact (Hdown HR)].
      apply andb_prop in EM. destruct EM as [_ EM].
      destruct (merge_nodes c fuel nx es ed (length p) (merge_end c es ed (length p)))
        as [[[[es1 ed1] nx1]|]|] eqn:EG; [|exact (Hdown HR)|discriminate].
      clear Hdown down.
      pose proof (merge_end_le c Hok es ed (length p)).
      assert (HCw : chain (wf h) lo hi (slots es ed)).
      { rewrite HQ. apply chain_app. exists a. split; [assumption|]. cbn. split; [assumption|].
        split; [assumption|]. apply chain_app. exists b. split; [|assumption].
        eapply chain_vis_wf; eassumption. }
      apply (merge_nodes_ok c Hok fuel h lo hi) in EG; [|assumption|lia].
      destruct EG as [S1 [S2 [S3 S4]]].
      assert (Hule : ele u hi).
      { eapply ele_trans; [|eapply chain_le; exact HCq]. eapply chain_le; exact V4. }
      assert (Hfit : fits (S h) hi w) by (left; split; [assumption|discriminate]).
      assert (Hany : S h = 0%nat -> any = false) by discriminate.
      assert (Hst : ele (Fin (r_start (ws_r w))) hi) by (eapply ele_trans; eassumption).
      assert (Hlo : elt lo (Fin (r_end inp)))
        by (eapply ele_elt_trans; [eapply chain_le; exact HP|exact V3]).
      pose proof (IHA (S h) lo hi (Inner id next es1 ed1) nx1 w f any t' nx' w' st (conj S1 S2)
        Hfit Hst Hlo Hany HR) as [A1 [A2 [A3 [A4 A5]]]].
      rewrite leaves_inner in A2. rewrite content_inner, S3, HQ in A3, A4.
      change (p ++ (u, x) :: m ++ q) with (p ++ ((u, x) :: m) ++ q) in A3, A4.
      rewrite !lvs_app, !items_app in A3, A4.
      destruct (keep_out (full w) f (items (lvs p)) Hout) as [P1 P2].
      destruct (keep_out (full w) f (items (lvs q))) as [Q1 Q2].
      { intros y Hy. destruct (parts_out h w false q b hi Hq HCq y Hy); congruence. }
      rewrite !filter_app, P1, Q1 in A3. rewrite !existsb_app, P2, Q2, orb_false_r in A4.
      cbn [orb] in A4.
      split; [assumption|]. split; [eapply lgood_trans; eassumption|].
      split; [exact A3|]. split; [exact A4|exact A5].
Qed.

End Cfg.
End Inp.
