From Coq Require Import ZArith NArith List Bool Lia Arith Permutation.
From Verif Require Import Base MetaModel MetaSpec.
Import ListNotations.
Open Scope nat_scope.

(** ** The disk *)
Lemma puts_app d a b : puts d (a ++ b) = puts (puts d a) b.
Proof. apply fold_left_app. Qed.
Lemma puts_other ws : forall d b, ~ In b (map fst ws) -> puts d ws b = d b.
Proof.
  induction ws as [|w ws IH]; intros d b H; [reflexivity|]. change (puts (put1 d w) ws b = d b). rewrite IH by (cbn in H; tauto). unfold put1. destruct (N.eqb_spec b (fst w)); [subst; cbn in H; tauto|reflexivity].
Qed.
Definition settled (d : disk) (ws : list write) : Prop := Forall (fun w => d (fst w) = snd w) ws.
Lemma settled_app d a b : settled d (a ++ b) <-> settled d a /\ settled d b.
Proof. unfold settled. apply Forall_app. Qed.
Lemma puts_settled ws : forall d, NoDup (map fst ws) -> settled (puts d ws) ws.
Proof.
  induction ws as [|w ws IH]; intros d H; [constructor|]. inversion H; subst. change (puts d (w :: ws)) with (puts (put1 d w) ws). constructor; [|apply IH; assumption]. rewrite puts_other by assumption. unfold put1. now rewrite N.eqb_refl.
Qed.
Definition agree (d d' : disk) (l : list N) : Prop := forall b, In b l -> d' b = d b.
Lemma settled_agree d d' ws : settled d ws -> agree d d' (map fst ws) -> settled d' ws.
Proof. intros H HA. unfold settled in *. rewrite Forall_forall in *. intros w HW. rewrite HA by (now apply in_map). auto. Qed.
Lemma agree_incl d d' l l' : agree d d' l -> incl l' l -> agree d d' l'.
Proof. intros H HI b HB. auto. Qed.

(** ** Data *)
Lemma concat_cut bs n : forall l, concat (cut bs n l) = firstn (n * bs) l.
Proof.
  induction n as [|n IH]; intro l; [reflexivity|]. cbn. rewrite IH. rewrite <- (firstn_skipn bs l) at 3. rewrite firstn_app.
  destruct (Nat.le_gt_cases bs (length l)).
  - rewrite firstn_length_le by assumption. rewrite (firstn_all2 (firstn bs l)) by (rewrite firstn_length; lia). f_equal. f_equal. lia.
  - rewrite !(firstn_all2 l) by lia. rewrite !(skipn_all2 l) by lia. now rewrite !firstn_nil.
Qed.
Lemma cut_length bs n : forall l, length (cut bs n l) = n.
Proof. induction n; intro l; cbn; [reflexivity|]. now rewrite IHn. Qed.
Lemma nblocks_room bs len : 0 < bs -> len <= nblocks bs len * bs.
Proof. intro H. unfold nblocks. pose proof (Nat.div_mod (len + (bs - 1)) bs ltac:(lia)). pose proof (Nat.mod_upper_bound (len + (bs - 1)) bs ltac:(lia)). lia. Qed.
Lemma nblocks_exact bs n len : 0 < bs -> len <= n * bs -> n * bs < len + bs -> nblocks bs len = n.
Proof. intros H H1 H2. unfold nblocks. symmetry. apply (Nat.div_unique _ bs n (len + (bs - 1) - n * bs)); lia. Qed.
Lemma fst_combine {A B} : forall (l : list A) (r : list B), length l = length r -> map fst (combine l r) = l.
Proof. induction l as [|x l IH]; intros [|y r]; cbn; intro H; try discriminate; [reflexivity|]. rewrite IH by lia. reflexivity. Qed.
Lemma data_writes_at e b l : map fst (data_writes e b l) = blocks (b, nblocks (e_bs e) (length l)).
Proof. unfold data_writes, blocks. cbn [fst snd]. apply fst_combine. now rewrite !map_length, seq_length, cut_length. Qed.
Lemma settled_combine d : forall (bs : list N) (ls : list (list Z)), length bs = length ls -> settled d (combine bs (map BData ls)) -> map (fun b => dbytes (d b)) bs = ls.
Proof.
  unfold settled. induction bs as [|b bs IH]; intros [|x ls]; cbn; intros H HS; try discriminate; [reflexivity|]. inversion HS as [|? ? H1 H2]; subst. cbn in H1. rewrite H1. cbn.
  f_equal. apply IH; [lia|assumption].
Qed.
Lemma read_written e d b l : 0 < e_bs e -> settled d (data_writes e b l) -> read_at e d b (length l) = l.
Proof.
  intros HB HS. unfold read_at. unfold data_writes in HS. apply settled_combine in HS; [|now rewrite map_length, seq_length, cut_length]. rewrite map_map in HS. rewrite HS.
  rewrite concat_cut. rewrite (firstn_all2 l) by (apply nblocks_room; assumption). apply firstn_all.
Qed.
Lemma read_at_agree e d d' b len : agree d d' (blocks (b, nblocks (e_bs e) len)) -> read_at e d' b len = read_at e d b len.
Proof.
  intro H. unfold read_at. f_equal. f_equal. apply map_ext_in. intros i HI. rewrite H; [reflexivity|]. unfold blocks. cbn [fst snd]. apply in_map_iff. eauto.
Qed.

(** [ids] hold [n] bytes, and the last block is needed. *)
Record holds (e : env) (ids : list ext) (n : nat) : Prop := {
  h_some : ids <> []; h_pos : forall x, In x ids -> 0 < snd x; h_le : n <= bytes_of e ids; h_gt : bytes_of e ids < n + e_bs e }.
Lemma holds_one e x n : holds e [x] n -> 0 < e_bs e -> nblocks (e_bs e) n = snd x.
Proof. intros [H1 H2 H3 H4] HB. cbn in H3, H4. apply nblocks_exact; lia. Qed.
Lemma holds_cons e x y r n : holds e (x :: y :: r) n -> snd x * e_bs e <= n /\ holds e (y :: r) (n - snd x * e_bs e) /\ nblocks (e_bs e) (snd x * e_bs e) = snd x \/ e_bs e = 0.
Proof.
  intros [H1 H2 H3 H4]. destruct (Nat.eq_dec (e_bs e) 0); [auto|]. left. cbn in H3, H4. assert (0 < snd y) by (apply H2; cbn; auto).
  assert (e_bs e <= snd y * e_bs e) by nia. ands; [lia| |apply nblocks_exact; lia].
  constructor; [discriminate| | |]; [intros z HZ; apply H2; now right| |]; cbn; lia.
Qed.
Lemma ids_at e : 0 < e_bs e -> forall ids l, holds e ids (length l) -> map fst (ids_writes e ids l) = flat_map blocks ids.
Proof.
  intros HB. induction ids as [|x [|y r] IH]; intros l H.
  - destruct (h_some _ _ _ H). reflexivity.
  - cbn [ids_writes flat_map]. rewrite data_writes_at, (holds_one e x _ H HB), app_nil_r. destruct x; reflexivity.
  - destruct (holds_cons e x y r _ H) as [(H1 & H2 & H3)|]; [|lia]. change (ids_writes e (x :: y :: r) l) with (data_writes e (fst x) (firstn (snd x * e_bs e) l) ++ ids_writes e (y :: r) (skipn (snd x * e_bs e) l)).
    rewrite map_app, data_writes_at, firstn_length_le by assumption. rewrite H3. rewrite IH by (rewrite skipn_length; exact H2). destruct x; reflexivity.
Qed.
Lemma ids_read e d : 0 < e_bs e -> forall ids l, holds e ids (length l) -> settled d (ids_writes e ids l) -> read_ids e d ids (length l) = l.
Proof.
  intros HB. induction ids as [|x [|y r] IH]; intros l H HS.
  - destruct (h_some _ _ _ H). reflexivity.
  - cbn [read_ids]. apply read_written; assumption.
  - destruct (holds_cons e x y r _ H) as [(H1 & H2 & H3)|]; [|lia]. change (ids_writes e (x :: y :: r) l) with (data_writes e (fst x) (firstn (snd x * e_bs e) l) ++ ids_writes e (y :: r) (skipn (snd x * e_bs e) l)) in HS.
    apply settled_app in HS. destruct HS as [S1 S2].
    change (read_ids e d (x :: y :: r) (length l)) with (read_at e d (fst x) (snd x * e_bs e) ++ read_ids e d (y :: r) (length l - snd x * e_bs e)).
    apply read_written in S1; [|exact HB]. rewrite firstn_length_le in S1 by assumption. rewrite S1.
    rewrite <- skipn_length. rewrite IH; [apply firstn_skipn| |assumption]. rewrite skipn_length. exact H2.
Qed.
Lemma ids_agree e d d' : 0 < e_bs e -> forall ids n, holds e ids n -> agree d d' (flat_map blocks ids) -> read_ids e d' ids n = read_ids e d ids n.
Proof.
  intros HB. induction ids as [|x [|y r] IH]; intros n H HA.
  - reflexivity.
  - cbn [read_ids]. apply read_at_agree. rewrite (holds_one e x _ H HB). intros b HI. apply HA. cbn. rewrite app_nil_r. destruct x; exact HI.
  - destruct (holds_cons e x y r _ H) as [(H1 & H2 & H3)|]; [|lia].
    change (read_at e d' (fst x) (snd x * e_bs e) ++ read_ids e d' (y :: r) (n - snd x * e_bs e) = read_at e d (fst x) (snd x * e_bs e) ++ read_ids e d (y :: r) (n - snd x * e_bs e)).
    cbn [flat_map] in HA. f_equal.
    + apply read_at_agree. rewrite H3. intros b HI. apply HA. apply in_or_app. left. destruct x; exact HI.
    + apply IH; [exact H2|]. intros b HI. apply HA. apply in_or_app. right. exact HI.
Qed.

(** ** Chains of headers *)
Definition odata (e : env) (d : disk) (o : ovf) : list Z := read_ids e d (o_ids o) (o_size o).
Fixpoint ochain (ob : option N) (os : list ovf) : Prop :=
  match os with [] => ob = None | o :: r => ob = Some (o_bid o) /\ ochain (o_next o) r end.
Record ofits (e : env) (o : ovf) : Prop := { of_holds : holds e (o_ids o) (o_size o); of_pos : 0 < o_size o }.
Lemma bytes_app e a b : bytes_of e (a ++ b) = bytes_of e a + bytes_of e b.
Proof. induction a as [|x a IH]; cbn; [reflexivity|]. fold (bytes_of e (a ++ b)). rewrite IH. fold (bytes_of e a). lia. Qed.
Lemma bytes_pos e ids : 0 < e_bs e -> ids <> [] -> (forall x, In x ids -> 0 < snd x) -> e_bs e <= bytes_of e ids.
Proof. intros HB HN HP. destruct ids as [|x r]; [congruence|]. cbn. pose proof (HP x (or_introl eq_refl)). nia. Qed.
Lemma ovf_writes_at e o l : 0 < e_bs e -> o_size o <= length l -> holds e (o_ids o) (o_size o) -> map fst (ovf_writes e o l) = ofoot o.
Proof. intros HB HL HH. unfold ovf_writes, ofoot. cbn [map fst]. f_equal. apply ids_at; [exact HB|]. rewrite firstn_length_le by assumption. exact HH. Qed.
Lemma ovf_writes_read e d o l : 0 < e_bs e -> o_size o <= length l -> holds e (o_ids o) (o_size o) -> settled d (ovf_writes e o l) ->
  d (o_bid o) = BOvf o /\ odata e d o = firstn (o_size o) l.
Proof.
  intros HB HL HH HS. inversion HS as [|? ? H1 H2]; subst. split; [exact H1|]. unfold odata.
  assert (HF : length (firstn (o_size o) l) = o_size o) by (rewrite firstn_length_le; [reflexivity|assumption]). rewrite <- HF at 1. apply ids_read; [exact HB|rewrite HF; exact HH|exact H2].
Qed.
Lemma max_pos e : 520 <= e_bs e -> 1 <= max_ids e.
Proof. intro H. unfold max_ids. apply (Nat.div_le_lower_bound (e_bs e - 512) 8 1); lia. Qed.
Lemma plan_ok e : 520 <= e_bs e -> forall hdrs exts l, holds e exts (length l) -> 0 < length l -> length exts <= length hdrs * max_ids e -> fits e (length exts) ->
  exists os ws, plan e hdrs exts l = Some (os, ws) /\ map fst ws = flat_map ofoot os /\ map o_bid os = firstn (length os) hdrs /\ os <> [] /\
    flat_map o_ids os = exts /\ ochain (option_map o_bid (hd_error os)) os /\ sum_sizes os = length l /\ Forall (ofits e) os /\
    forall d, settled d ws -> concat (map (odata e d) os) = l /\ Forall (fun o => d (o_bid o) = BOvf o) os.
Proof.
  intro HE. pose proof (max_pos e HE) as HM. induction hdrs as [|h hs IH]; intros exts l HH HL HN HF.
  { exfalso. destruct exts; [destruct (h_some _ _ _ HH); reflexivity|cbn in HN; lia]. }
  cbn [plan]. destruct (Nat.leb_spec (length exts - 1) (max_ids e)) as [HLE|HGT].
  - assert (HLN : length exts <= max_ids e).
    { destruct HF as [HF|HF]; [exact HF|]. destruct (Nat.eq_dec (length exts - 1) (max_ids e)) as [E|]; [|lia]. rewrite E, Nat.mod_same in HF by lia. lia. }
    rewrite (firstn_all2 exts) by assumption. rewrite (skipn_all2 exts) by assumption. cbn [length Nat.ltb Nat.leb].
    rewrite Nat.eqb_refl. eexists _, _. split; [reflexivity|]. assert (HO : holds e (o_ids (Ovf h None exts (length l))) (o_size (Ovf h None exts (length l)))) by exact HH.
    ands.
    + rewrite ovf_writes_at; [cbn [flat_map]; now rewrite app_nil_r|lia|cbn; lia|exact HO].
    + reflexivity.
    + discriminate.
    + cbn. apply app_nil_r.
    + cbn. auto.
    + cbn. lia.
    + constructor; [|constructor]. constructor; [exact HO|exact HL].
    + intros d HS. destruct (ovf_writes_read e d (Ovf h None exts (length l)) l ltac:(lia) ltac:(cbn; lia) HO HS) as [H1 H2]. split; [cbn [map concat]; rewrite H2; cbn [o_size]; now rewrite firstn_all, app_nil_r|]. constructor; [exact H1|constructor].
  - set (mine := firstn (max_ids e) exts) in *. set (rest := skipn (max_ids e) exts) in *.
    assert (HLM : length mine = max_ids e) by (unfold mine; rewrite firstn_length_le; lia). assert (HLR : length rest = length exts - max_ids e) by (unfold rest; now rewrite skipn_length).
    destruct (Nat.ltb_spec 1 (length rest)); [|lia].
    assert (HME : mine <> []) by (intro E; rewrite E in HLM; cbn [length] in HLM; lia). assert (HRE : rest <> []) by (intro E; rewrite E in HLR; cbn [length] in HLR; lia).
    assert (HMR : exts = mine ++ rest) by (unfold mine, rest; now rewrite firstn_skipn).
    destruct HH as [G1 G2 G3 G4]. rewrite HMR, bytes_app in G3, G4.
    assert (HP1 : forall x, In x mine -> 0 < snd x) by (intros; apply G2; rewrite HMR; apply in_or_app; auto).
    assert (HP2 : forall x, In x rest -> 0 < snd x) by (intros; apply G2; rewrite HMR; apply in_or_app; auto).
    pose proof (bytes_pos e rest ltac:(lia) HRE HP2) as HB2. pose proof (bytes_pos e mine ltac:(lia) HME HP1) as HB1.
    destruct hs as [|h2 hs']. { exfalso. cbn [length] in HN. lia. }
    destruct (IH rest (skipn (bytes_of e mine) l)) as (os & ws & I1 & I2 & I3 & I4 & I5 & I6 & I7 & I8 & I9).
    + constructor; [exact HRE|exact HP2| |]; rewrite skipn_length; lia.
    + rewrite skipn_length. lia.
    + cbn [length] in HN |- *. lia.
    + unfold fits in *. destruct HF as [HF|HF]; [left; lia|]. destruct (Nat.le_gt_cases (length rest) (max_ids e)); [now left|]. right. rewrite HLR.
      replace (length exts - 1) with (length exts - max_ids e - 1 + 1 * max_ids e) in HF by lia. rewrite Nat.mod_add in HF by lia. exact HF.
    + rewrite I1. eexists _, _. split; [reflexivity|].
      assert (HO : holds e (o_ids (Ovf h (Some h2) mine (bytes_of e mine))) (o_size (Ovf h (Some h2) mine (bytes_of e mine)))) by (constructor; cbn [o_ids o_size]; [exact HME|exact HP1|lia|lia]).
      destruct os as [|o1 os']; [congruence|]. ands.
      * rewrite map_app, I2, ovf_writes_at; [reflexivity|lia|cbn [o_size]; lia|exact HO].
      * cbn [map o_bid length firstn]. f_equal. exact I3.
      * discriminate.
      * change (mine ++ flat_map o_ids (o1 :: os') = exts). rewrite I5. now symmetry.
      * cbn [ochain hd_error option_map o_bid o_next]. split; [reflexivity|]. cbn in I3. injection I3 as I3 _. rewrite <- I3. exact I6.
      * change (bytes_of e mine + sum_sizes (o1 :: os') = length l). rewrite I7, skipn_length. lia.
      * constructor; [|exact I8]. constructor; [exact HO|cbn [o_size]; lia].
      * intros d HS. apply settled_app in HS. destruct HS as [S1 S2]. destruct (I9 d S2) as [J1 J2].
        destruct (ovf_writes_read e d (Ovf h (Some h2) mine (bytes_of e mine)) l ltac:(lia) ltac:(cbn [o_size]; lia) HO S1) as [K1 K2].
        split; [|constructor; assumption]. change (odata e d (Ovf h (Some h2) mine (bytes_of e mine)) ++ concat (map (odata e d) (o1 :: os')) = l). rewrite J1, K2. cbn [o_size]. apply firstn_skipn.
Qed.

(** ** Records on disk *)
Notation item := (mblk * list ovf)%type.
Notation bid x := (b_bid (fst x)).
Definition raw (e : env) (d : disk) (x : item) : list Z :=
  if b_size (fst x) <=? ctx_sz e then firstn (b_size (fst x)) (b_inline (fst x)) else concat (map (odata e d) (snd x)).
Definition content (e : env) (d : disk) (x : item) : list Z := if b_zip (fst x) then e_unzip e (raw e d x) else raw e d x.
Definition absx (e : env) (d : disk) (x : item) : rec := (bid x, b_type (fst x), content e d x).
Record item_ok (e : env) (d : disk) (x : item) : Prop := {
  it_hdrs : Forall (fun o => d (o_bid o) = BOvf o) (snd x);
  it_chain : ochain (b_ovf (fst x)) (snd x);
  it_size : (if ctx_sz e <? b_size (fst x) then 0 else b_size (fst x)) + sum_sizes (snd x) = b_size (fst x);
  it_fits : Forall (ofits e) (snd x);
  it_crc : e_docrc e (b_type (fst x)) = true -> e_crc e (raw e d x) = b_crc (fst x) }.
Definition firstof (l : list item) (n : option N) : option N := match l with [] => n | x :: _ => Some (bid x) end.
Definition lastof (p : N) (l : list item) : N := last (map (fun x : item => bid x) l) p.
(** [l] is linked from [p] to [n]. *)
Fixpoint linked (p : N) (l : list item) (n : option N) : Prop :=
  match l with [] => True | x :: r => b_prev (fst x) = p /\ b_next (fst x) = firstof r n /\ linked (bid x) r n end.
Definition feet (l : list item) : list N := flat_map foot l.
(** The disk holds the records [l]; links back may be stale. *)
Record disk_ok (e : env) (d : disk) (l : list item) : Prop := {
  d_ssb : d (e_ssb e) = BSsb (firstof l None);
  d_link : linked (e_ssb e) l None;
  d_meta : forall x, In x l -> exists p, d (bid x) = BMeta (with_prev (fst x) p);
  d_items : Forall (item_ok e d) l;
  d_apart : NoDup (e_ssb e :: feet l);
  d_size : forall b, In b (feet l) -> (b < e_size e)%N }.
Record up_ok (e : env) (s : st) (l : list item) : Prop := {
  u_disk : disk_ok e (s_disk s) l;
  u_meta : forall x, In x l -> s_disk s (bid x) = BMeta (fst x);
  u_first : s_first s = firstof l None;
  u_metas : forall x, In x l -> s_metas s (bid x) = Some (fst x);
  u_ovfs : forall x o, In x l -> In o (snd x) -> s_ovfs s (o_bid o) = Some o;
  u_last : s_last s = match l with [] => None | _ => Some (lastof (e_ssb e) l) end;
  u_used : forall b, s_used s b = true <-> b = e_ssb e \/ In b (feet l);
  u_subs : Permutation (s_subs s) (map (fun x => (b_type (fst x), bid x)) l) }.

Lemma raw_agree e d d' x : 0 < e_bs e -> Forall (ofits e) (snd x) -> agree d d' (flat_map ofoot (snd x)) -> raw e d' x = raw e d x.
Proof.
  intros HB HF HA. unfold raw. destruct (_ <=? _); [reflexivity|]. f_equal. apply map_ext_in. intros o HO. unfold odata. rewrite Forall_forall in HF. apply ids_agree; [exact HB|apply (of_holds e o); auto|].
  intros b HI. apply HA. apply in_flat_map. exists o. split; [exact HO|]. now right.
Qed.
Lemma item_agree e d d' x : 0 < e_bs e -> item_ok e d x -> agree d d' (flat_map ofoot (snd x)) -> item_ok e d' x.
Proof.
  intros HB [H1 H2 H3 H4 H5] HA. constructor; try assumption.
  - rewrite Forall_forall in *. intros o HO. rewrite HA; [auto|]. apply in_flat_map. exists o. split; [exact HO|now left].
  - rewrite (raw_agree e d d' x); assumption.
Qed.
Lemma feet_in x l b : In x l -> In b (foot x) -> In b (feet l).
Proof. intros H1 H2. apply in_flat_map. eauto. Qed.
Lemma content_agree e d d' l : 0 < e_bs e -> Forall (item_ok e d) l -> agree d d' (feet l) -> map (absx e d') l = map (absx e d) l.
Proof.
  intros HB HF HA. apply map_ext_in. intros x HX. rewrite Forall_forall in HF. unfold absx, content. rewrite (raw_agree e d d' x); [reflexivity|exact HB|apply (it_fits e d x); auto|].
  intros b HI. apply HA. eapply feet_in; [exact HX|]. now right.
Qed.
Lemma disk_agree e d d' l : 0 < e_bs e -> disk_ok e d l -> agree d d' (e_ssb e :: feet l) -> disk_ok e d' l.
Proof.
  intros HB [D1 D2 D3 D4 D5 D6] HA. constructor; try assumption.
  - rewrite HA by (now left). exact D1.
  - intros x HX. destruct (D3 x HX) as [p HP]. exists p. rewrite HA; [exact HP|]. right. eapply feet_in; [exact HX|now left].
  - rewrite Forall_forall in *. intros x HX. eapply item_agree; [exact HB|auto|]. intros b HI. apply HA. right. eapply feet_in; [exact HX|now right].
Qed.

Lemma linked_app p a b n : linked p (a ++ b) n <-> linked p a (firstof b n) /\ linked (lastof p a) b n.
Proof.
  revert p. induction a as [|x a IH]; intro p; cbn [app linked]; [tauto|]. rewrite IH. assert (HL : lastof p (x :: a) = lastof (bid x) a).
  { unfold lastof. cbn [map last]. destruct a as [|y a]; [reflexivity|]. cbn [map]. generalize (map (fun x0 : item => bid x0) a). intro z. generalize (bid y). clear. induction z; intro w; [reflexivity|]. cbn. apply IHz. }
  rewrite HL. replace (firstof (a ++ b) n) with (firstof a (firstof b n)) by (destruct a; reflexivity). tauto.
Qed.
Lemma lastof_app p a x : lastof p (a ++ [x]) = bid x.
Proof. unfold lastof. rewrite map_app. cbn [map]. apply last_last. Qed.
Lemma feet_app a b : feet (a ++ b) = feet a ++ feet b.
Proof. apply flat_map_app. Qed.
Lemma bids_nodup l : NoDup (feet l) -> NoDup (map (fun x : item => bid x) l).
Proof.
  induction l as [|x l IH]; intro H; [constructor|]. cbn [feet flat_map map] in *. unfold foot at 1 in H. cbn [app] in H. inversion H as [|? ? H1 H2]; subst. constructor.
  - intro HI. apply H1. apply in_or_app. right. apply in_map_iff in HI. destruct HI as (y & E & HY). rewrite <- E. eapply feet_in; [exact HY|now left].
  - apply IH. clear -H2. induction (flat_map ofoot (snd x)); [exact H2|]. inversion H2; auto.
Qed.
Lemma same_bid l x y : NoDup (feet l) -> In x l -> In y l -> bid x = bid y -> x = y.
Proof.
  intros HN. apply bids_nodup in HN. revert HN. induction l as [|z l IH]; intros HN HX HY HE; [destruct HX|]. inversion HN as [|? ? H1 H2]; subst.
  destruct HX as [->|HX], HY as [->|HY]; auto.
  - elim H1. rewrite HE. apply (in_map (fun x : item => bid x)). exact HY.
  - elim H1. rewrite <- HE. apply (in_map (fun x : item => bid x)). exact HX.
Qed.
Lemma NoDup_app_l {A} (a b : list A) : NoDup (a ++ b) -> NoDup a.
Proof. induction a; intro H; [constructor|]. inversion H; subst. constructor; [intro HI; apply H2; apply in_or_app; auto|auto]. Qed.
Lemma NoDup_app_r {A} (a b : list A) : NoDup (a ++ b) -> NoDup b.
Proof. induction a; intro H; [exact H|]. inversion H; auto. Qed.
Lemma NoDup_app_apart {A} (a b : list A) x : NoDup (a ++ b) -> In x a -> In x b -> False.
Proof. induction a; intros H HA HB; [destruct HA|]. inversion H; subst. destruct HA as [->|HA]; [apply H2; apply in_or_app; auto|eauto]. Qed.
Lemma NoDup_app_make {A} (a b : list A) : NoDup a -> NoDup b -> (forall x, In x a -> In x b -> False) -> NoDup (a ++ b).
Proof.
  induction a as [|x a IH]; intros HA HB H; [exact HB|]. inversion HA; subst. cbn. constructor.
  - intro HI. apply in_app_or in HI. destruct HI as [HI|HI]; [auto|]. apply (H x); [now left|exact HI].
  - apply IH; auto. intros y H1' H2'. apply (H y); [now right|exact H2'].
Qed.
Lemma size_bound l n : NoDup l -> (forall b, In b l -> (b < n)%N) -> length l <= N.to_nat n.
Proof.
  intros HN HB. rewrite <- (map_length N.to_nat l). rewrite <- (seq_length (N.to_nat n) 0). apply NoDup_incl_length.
  - clear HB. induction HN as [|x l H HN IH]; cbn; constructor; [|exact IH]. intro HI. apply in_map_iff in HI. destruct HI as (y & E & HY). apply N2Nat.inj in E. now subst.
  - intros i HI. apply in_map_iff in HI. destruct HI as (b & <- & HI). apply HB in HI. apply in_seq. lia.
Qed.

(** ** Reading with the caches, and from disk *)
Lemma ochain_same ob os1 os2 (f : N -> option ovf) : ochain ob os1 -> (forall o, In o os1 -> f (o_bid o) = Some o) -> (forall o, In o os2 -> f (o_bid o) = Some o) -> ochain ob os2 -> os1 = os2.
Proof.
  revert ob os2. induction os1 as [|o os IH]; intros ob [|o2 os2] H1 F1 F2 H2; cbn in *; try congruence; [destruct H2; congruence|destruct H1; congruence|].
  destruct H1 as [E1 H1], H2 as [E2 H2]. assert (o = o2). { pose proof (F1 o (or_introl eq_refl)). pose proof (F2 o2 (or_introl eq_refl)). congruence. } subst. f_equal. eapply IH; eauto.
Qed.
Lemma read_chain_ok e d f n : forall os ob left, ochain ob os -> Forall (ofits e) os -> sum_sizes os = left -> (forall o, In o os -> f (o_bid o) = Some o) -> length os <= n ->
  read_chain n e d f ob left = Some (concat (map (odata e d) os)).
Proof.
  induction n as [|n IH]; intros os ob left HC HF HS HO HL; destruct os as [|o os]; cbn in HL; try lia.
  - cbn in HS. subst left. reflexivity.
  - cbn in HS. subst left. reflexivity.
  - cbn [ochain] in HC. destruct HC as [-> HC]. inversion HF as [|? ? H1 H2]; subst. pose proof (of_pos e o H1) as HP. cbn [sum_sizes fold_right] in *. fold (sum_sizes os).
    destruct (o_size o + sum_sizes os) as [|k] eqn:EK; [lia|]. cbn [read_chain]. rewrite (HO o (or_introl eq_refl)), N.eqb_refl.
    rewrite (IH os (o_next o) (S k - o_size o)); [| exact HC | exact H2 | lia | intros; apply HO; now right | lia].
    destruct (Nat.leb_spec (o_size o) (S k)); [reflexivity|lia].
Qed.
Lemma load_ok d : forall n os ob, ochain ob os -> Forall (fun o => d (o_bid o) = BOvf o) os -> length os <= n -> load_ovfs n d ob = Some os.
Proof.
  induction n as [|n IH]; intros [|o os] ob HC HF HL; cbn in HL, HC; try lia; try (subst; reflexivity). destruct HC as [-> HC]. inversion HF; subst. cbn [load_ovfs]. rewrite H1, N.eqb_refl.
  rewrite (IH os); [reflexivity|assumption|assumption|lia].
Qed.
Lemma free_ok f : forall n os ob, ochain ob os -> (forall o, In o os -> f (o_bid o) = Some o) -> length os <= n -> free_chain n f ob = Some os.
Proof.
  induction n as [|n IH]; intros [|o os] ob HC HF HL; cbn in HL, HC; try lia; try (subst; reflexivity). destruct HC as [-> HC]. cbn [free_chain]. rewrite (HF o (or_introl eq_refl)).
  rewrite (IH os); [reflexivity|assumption|intros; apply HF; now right|lia].
Qed.
Lemma ofeet_length os : length os <= length (flat_map ofoot os).
Proof. induction os as [|o os IH]; cbn; [lia|]. rewrite app_length. cbn. lia. Qed.
Lemma os_length e d l x : disk_ok e d l -> In x l -> length (snd x) < fuel e.
Proof.
  intros HD HX. unfold fuel. pose proof (ofeet_length (snd x)). pose proof (d_apart _ _ _ HD) as HN. inversion HN as [|? ? _ HN']; subst.
  assert (length (flat_map ofoot (snd x)) <= length (feet l)).
  { apply in_split in HX. destruct HX as (a & b & ->). unfold feet. rewrite flat_map_app. cbn [flat_map]. rewrite !app_length. unfold foot at 2. cbn [length]. lia. }
  pose proof (size_bound _ _ HN' (d_size _ _ _ HD)). lia.
Qed.
Lemma read_raw_ok e s l x : up_ok e s l -> In x l -> read_raw e s (fst x) = Some (raw e (s_disk s) x).
Proof.
  intros HU HX. pose proof (u_disk _ _ _ HU) as HD. unfold read_raw, raw. pose proof (d_items _ _ _ HD) as HI. rewrite Forall_forall in HI. specialize (HI x HX). destruct HI as [I1 I2 I3 I4 I5].
  destruct (Nat.leb_spec (b_size (fst x)) (ctx_sz e)); [reflexivity|]. apply read_chain_ok; auto.
  - destruct (Nat.ltb_spec (ctx_sz e) (b_size (fst x))); lia.
  - intros o HO. eapply u_ovfs; eauto.
  - pose proof (os_length _ _ _ _ HD HX). lia.
Qed.
Lemma recover1_ok e s l x : up_ok e s l -> In x l -> recover1 e s (b_type (fst x), bid x) = Some (absx e (s_disk s) x).
Proof.
  intros HU HX. unfold recover1. cbn [snd]. rewrite (u_metas _ _ _ HU x HX). rewrite (read_raw_ok e s l x HU HX). pose proof (d_items _ _ _ (u_disk _ _ _ HU)) as HI. rewrite Forall_forall in HI.
  pose proof (it_crc _ _ _ (HI x HX)) as HC. destruct (e_docrc e (b_type (fst x))); [rewrite HC by reflexivity; rewrite Z.eqb_refl|]; reflexivity.
Qed.
Lemma collect_map {A B} (f : A -> option B) (g : A -> B) l : (forall x, In x l -> f x = Some (g x)) -> collect (map f l) = Some (map g l).
Proof. induction l as [|x l IH]; intro H; cbn; [reflexivity|]. rewrite H by (now left). rewrite IH by (intros; apply H; now right). reflexivity. Qed.
Lemma recover_ok e s l : up_ok e s l -> exists r, collect (recover e s) = Some r /\ Permutation r (map (absx e (s_disk s)) l).
Proof.
  intro HU. pose proof (u_subs _ _ _ HU) as HP. apply Permutation_map_inv in HP. destruct HP as (l' & HE & HP). exists (map (absx e (s_disk s)) l').
  split; [|apply Permutation_map; now symmetry]. unfold recover. rewrite HE, map_map. apply collect_map. intros x HX. apply (recover1_ok e s l); [exact HU|]. eapply Permutation_in; [symmetry; exact HP|exact HX].
Qed.

(** ** Restart *)
Lemma scan_ok e d : 0 < e_bs e -> forall l n p b0, (forall x, In x l -> exists q, d (bid x) = BMeta (with_prev (fst x) q)) -> Forall (item_ok e d) l -> linked p l None -> length l <= n ->
  (forall x, In x l -> length (snd x) < fuel e) -> b0 = firstof l None -> NoDup (feet l) ->
  exists ws, scan n e d p b0 = Some (l, ws) /\ Forall (fun w => exists x, In x l /\ w = (bid x, BMeta (fst x))) ws /\
    (forall x, In x l -> d (bid x) = BMeta (fst x) \/ In (bid x, BMeta (fst x)) ws) /\ NoDup (map fst ws).
Proof.
  intro HB. induction l as [|x l IH]; intros n p b0 HM HI HL HN HF -> HD; [destruct n; (exists []; ands; [reflexivity|constructor|cbn; tauto|constructor])|].
  destruct n as [|n]; [cbn in HN; lia|]. cbn [linked] in HL. destruct HL as (L1 & L2 & L3). inversion HI as [|? ? I1 I2]; subst. destruct (HM x (or_introl eq_refl)) as [q HQ].
  pose proof (bids_nodup (x :: l) HD) as HBD. cbn [map] in HBD. inversion HBD as [|? ? B1 B2]; subst.
  cbn [firstof scan]. rewrite HQ. cbn [with_prev b_bid b_ovf b_size b_next b_prev]. rewrite N.eqb_refl. destruct I1 as [J1 J2 J3 J4 J5].
  rewrite (load_ok d (fuel e) (snd x)); [|exact J2|exact J1|specialize (HF x (or_introl eq_refl)); lia]. rewrite J3, Nat.eqb_refl.
  destruct (IH n (bid x) (b_next (fst x))) as (ws & W1 & W2 & W3 & W4).
  - intros; apply HM; now right.
  - exact I2.
  - exact L3.
  - cbn in HN. lia.
  - intros; apply HF; now right.
  - exact L2.
  - cbn [feet flat_map] in HD. apply NoDup_app_r in HD. exact HD.
  - rewrite W1. set (m' := with_prev (with_prev (fst x) q) (b_prev (fst x))). assert (HM' : m' = fst x) by (unfold m'; destruct (fst x); reflexivity). rewrite HM'.
    eexists. split; [rewrite <- surjective_pairing; reflexivity|].
    assert (W2' : Forall (fun w => exists y, In y (x :: l) /\ w = (bid y, BMeta (fst y))) ws). { eapply Forall_impl; [|exact W2]. intros w (y & HY & E). exists y. split; [now right|exact E]. }
    ands.
    + apply Forall_app. split; [|exact W2']. destruct (N.eqb_spec q (b_prev (fst x))); constructor; [|constructor]. exists x. split; [now left|reflexivity].
    + intros y [<-|HY].
      * destruct (N.eqb_spec q (b_prev (fst x))); [left; rewrite HQ; f_equal; subst q; destruct (fst x); reflexivity|]. right. now left.
      * destruct (W3 y HY) as [E|E]; [now left|]. right. apply in_or_app. now right.
    + rewrite map_app. apply NoDup_app_make; [destruct (_ =? _)%N; cbn; repeat constructor; cbn; tauto|exact W4|]. intros b H1 H2.
      destruct (_ =? _)%N; cbn in H1; [tauto|]. destruct H1 as [<-|[]]. apply B1. apply in_map_iff in H2. destruct H2 as (w & E & HW). rewrite Forall_forall in W2. destruct (W2 w HW) as (y & HY & ->). cbn in E. rewrite <- E.
      apply (in_map (fun x : item => bid x)). exact HY.
Qed.
Lemma in_b_in x l : in_b x l = true <-> In x l.
Proof. unfold in_b. rewrite existsb_exists. split; [intros (y & H & E); apply N.eqb_eq in E; now subst|]. intro H. exists x. now rewrite N.eqb_refl. Qed.
Lemma nodup_b_ok l : NoDup l -> nodup_b l = true.
Proof. induction 1 as [|x l H HN IH]; cbn; [reflexivity|]. destruct (in_b x l) eqn:E; [apply in_b_in in E; tauto|exact IH]. Qed.
Lemma fold_metas (l : list item) : forall (f : N -> option mblk) b, fold_left (fun f (x : item) => set (bid x) (Some (fst x)) f) l f b = match find (fun x : item => (bid x =? b)%N) (rev l) with Some x => Some (fst x) | None => f b end.
Proof.
  induction l as [|x l IH]; intros f b; [reflexivity|]. cbn [fold_left rev]. rewrite IH. clear. induction (rev l) as [|y r IH]; cbn; [|destruct (bid y =? b)%N; [reflexivity|exact IH]].
  unfold set. rewrite (N.eqb_sym b). destruct (bid x =? b)%N; reflexivity.
Qed.
Lemma find_bid (l : list item) x : NoDup (feet l) -> In x l -> find (fun y : item => (bid y =? bid x)%N) (rev l) = Some x.
Proof.
  intros HN HX. destruct (find _ _) as [y|] eqn:E.
  - apply find_some in E. destruct E as [HY E]. apply N.eqb_eq in E. f_equal. apply (same_bid l); auto. now apply in_rev.
  - exfalso. eapply find_none in E; [|rewrite <- in_rev; exact HX]. cbn in E. now rewrite N.eqb_refl in E.
Qed.
Lemma add_ovfs_other os : forall f b, ~ In b (map o_bid os) -> add_ovfs os f b = f b.
Proof. unfold add_ovfs. induction os as [|o os IH]; intros f b H; [reflexivity|]. cbn. rewrite IH by (cbn in H; tauto). unfold set. destruct (N.eqb_spec b (o_bid o)); [subst; cbn in H; tauto|reflexivity]. Qed.
Lemma add_ovfs_in os : forall f o, NoDup (map o_bid os) -> In o os -> add_ovfs os f (o_bid o) = Some o.
Proof.
  induction os as [|o1 os IH]; intros f o HN HI; [destruct HI|]. inversion HN; subst. change (add_ovfs (o1 :: os) f) with (add_ovfs os (set (o_bid o1) (Some o1) f)).
  destruct HI as [->|HI]; [|auto]. rewrite add_ovfs_other by assumption. unfold set. now rewrite N.eqb_refl.
Qed.
Lemma del_ovfs_other os : forall f b, ~ In b (map o_bid os) -> del_ovfs os f b = f b.
Proof. unfold del_ovfs. induction os as [|o os IH]; intros f b H; [reflexivity|]. cbn. rewrite IH by (cbn in H; tauto). unfold set. destruct (N.eqb_spec b (o_bid o)); [subst; cbn in H; tauto|reflexivity]. Qed.
Lemma obids_in os b : In b (map o_bid os) -> In b (flat_map ofoot os).
Proof. intro H. apply in_map_iff in H. destruct H as (o & <- & HO). apply in_flat_map. exists o. split; [exact HO|now left]. Qed.
Lemma obids_nodup os : NoDup (flat_map ofoot os) -> NoDup (map o_bid os).
Proof.
  induction os as [|o os IH]; intro H; [constructor|]. cbn [flat_map ofoot app map] in *. inversion H; subst. constructor; [|apply IH; now apply NoDup_app_r in H3].
  intro HI. apply H2. apply in_or_app. right. now apply obids_in.
Qed.
Lemma fold_ovfs (l : list item) : forall f x o, NoDup (feet l) -> In x l -> In o (snd x) -> fold_left (fun f (x : item) => add_ovfs (snd x) f) l f (o_bid o) = Some o.
Proof.
  induction l as [|y l IH]; intros f x o HN HX HO; [destruct HX|]. cbn [fold_left]. cbn [feet flat_map] in HN. pose proof (NoDup_app_r _ _ HN) as HN2.
  destruct HX as [->|HX]; [|eapply IH; eauto].
  assert (HK : forall g, ~ In (o_bid o) (feet l) -> fold_left (fun f (x : item) => add_ovfs (snd x) f) l g (o_bid o) = g (o_bid o)).
  { clear. induction l as [|y l IH]; intros g H; [reflexivity|]. cbn [fold_left]. cbn [feet flat_map] in H. rewrite IH by (intro; apply H; apply in_or_app; auto).
    apply add_ovfs_other. intro HI. apply H. apply in_or_app. left. right. now apply obids_in. }
  assert (HF : In (o_bid o) (foot x)) by (right; apply obids_in; now apply in_map).
  rewrite HK by (intro HI; eapply NoDup_app_apart; eauto). apply add_ovfs_in; [|exact HO]. apply obids_nodup. apply NoDup_app_l in HN. now inversion HN.
Qed.
Lemma puts_meta ws l d x : Forall (fun w => exists y, In y l /\ w = (bid y, BMeta (fst y))) ws -> NoDup (feet l) -> In x l ->
  (puts d ws (bid x) = d (bid x) \/ puts d ws (bid x) = BMeta (fst x)).
Proof.
  intros HW HN HX. revert d. induction ws as [|w ws IH]; intro d; [now left|]. inversion HW as [|? ? W1 W2]; subst. change (puts d (w :: ws)) with (puts (put1 d w) ws). destruct W1 as (y & HY & ->).
  destruct (IH W2 (put1 d (bid y, BMeta (fst y)))) as [E|E]; [|now right]. rewrite E. unfold put1. cbn [fst snd]. destruct (N.eqb_spec (bid x) (bid y)); [right|now left]. f_equal. f_equal. symmetry. apply (same_bid l); auto.
Qed.
Lemma apart_of {A B} (f : A -> list B) l x y b : NoDup (flat_map f l) -> In x l -> In y l -> In b (f x) -> In b (f y) -> x <> y -> False.
Proof.
  induction l as [|z l IH]; intros HN HX HY H1 H2 HE; [destruct HX|]. cbn in HN. destruct HX as [->|HX], HY as [->|HY]; [congruence| | |eapply IH; eauto; now apply NoDup_app_r in HN].
  - eapply NoDup_app_apart; [exact HN|exact H1|]. apply in_flat_map. eauto.
  - eapply NoDup_app_apart; [exact HN|exact H2|]. apply in_flat_map. eauto.
Qed.
(** Writing blocks of records as they should be changes nothing else. *)
Lemma mend_agree ws l d : Forall (fun w => exists y, In y l /\ w = (bid y, BMeta (fst y))) ws -> forall b, ~ In b (map (fun x : item => bid x) l) -> puts d ws b = d b.
Proof.
  intros HW b HB. apply puts_other. intro HI. apply HB. apply in_map_iff in HI. destruct HI as (w & <- & HI). rewrite Forall_forall in HW. destruct (HW w HI) as (y & HY & ->). apply (in_map (fun x : item => bid x)). exact HY.
Qed.
Lemma ofoot_not_bid l x y b : NoDup (feet l) -> In x l -> In y l -> In b (flat_map ofoot (snd x)) -> b <> bid y.
Proof.
  intros HN HX HY HI ->. destruct (N.eq_dec (bid x) (bid y)) as [E|E].
  - pose proof (same_bid l x y HN HX HY E). subst. assert (HNX : NoDup (foot y)). { clear -HN HY. induction l as [|z l IH]; [destruct HY|]. cbn [feet flat_map] in HN. destruct HY as [->|HY]; [now apply NoDup_app_l in HN|apply IH; [now apply NoDup_app_r in HN|exact HY]]. }
    inversion HNX; auto.
  - apply (apart_of foot l x y (bid y)); auto; [now right|now left|congruence].
Qed.
Lemma mend_ok e d l ws : 0 < e_bs e -> disk_ok e d l -> Forall (fun w => exists y, In y l /\ w = (bid y, BMeta (fst y))) ws -> disk_ok e (puts d ws) l /\ map (absx e (puts d ws)) l = map (absx e d) l.
Proof.
  intros HB HD HW. destruct HD as [D1 D2 D3 D4 D5 D6]. inversion D5 as [|? ? N1 N2]; subst.
  assert (HA : forall x, In x l -> agree d (puts d ws) (flat_map ofoot (snd x))).
  { intros x HX b HI. eapply mend_agree; [exact HW|]. intro HC. apply in_map_iff in HC. destruct HC as (y & E & HY). exact (ofoot_not_bid l x y b N2 HX HY HI (eq_sym E)). }
  split.
  - constructor; auto.
    + rewrite (mend_agree ws l d HW); [exact D1|]. intro HC. apply N1. apply in_map_iff in HC. destruct HC as (y & <- & HY). eapply feet_in; [exact HY|now left].
    + intros x HX. destruct (puts_meta ws l d x HW N2 HX) as [-> | ->]; [auto|]. exists (b_prev (fst x)). f_equal. destruct (fst x); reflexivity.
    + rewrite Forall_forall in *. intros x HX. eapply item_agree; eauto.
  - apply map_ext_in. intros x HX. unfold absx, content. rewrite (raw_agree e d (puts d ws) x); auto. rewrite Forall_forall in D4. apply (it_fits e d x). auto.
Qed.
Lemma boot_ok e d l : 0 < e_bs e -> disk_ok e d l -> l <> [] ->
  exists ws s, boot e d = Some (ws, s) /\ up_ok e s l /\ map (absx e (s_disk s)) l = map (absx e d) l /\
    Forall (fun w => exists y, In y l /\ w = (bid y, BMeta (fst y))) ws.
Proof.
  intros HB HD HL. pose proof HD as [D1 D2 D3 D4 D5 D6]. inversion D5 as [|? ? N1 N2]; subst. destruct l as [|x0 l0]; [congruence|]. set (l := x0 :: l0) in *.
  assert (HF : length l <= fuel e). { pose proof (size_bound _ _ N2 D6). unfold fuel. assert (length l <= length (feet l)); [|lia]. clear. induction l as [|x l IH]; [cbn; lia|]. cbn [feet flat_map]. rewrite app_length. cbn [foot length]. fold (feet l). lia. }
  destruct (scan_ok e d HB l (fuel e) (e_ssb e) (Some (bid x0)) D3 D4 D2 HF) as (ws & W1 & W2 & W3 & W4); [intros; eapply os_length; eauto|reflexivity|exact N2|].
  unfold boot. rewrite D1. cbn [l firstof]. rewrite W1. rewrite nodup_b_ok by exact D5. destruct (mend_ok e d l ws HB HD W2) as [M1 M2]. eexists _, _. split; [reflexivity|]. split; [|split; [exact M2|exact W2]].
  constructor; cbn [s_disk s_first s_metas s_ovfs s_last s_used s_subs].
  - exact M1.
  - intros x HX. destruct (W3 x HX) as [E|E].
    + destruct (puts_meta ws l d x W2 N2 HX) as [-> | ->]; auto.
    + pose proof (puts_settled ws d W4) as HS. unfold settled in HS. rewrite Forall_forall in HS. apply HS in E. exact E.
  - reflexivity.
  - intros x HX. rewrite fold_metas, find_bid by assumption. reflexivity.
  - intros x o HX HO. eapply fold_ovfs; eauto.
  - unfold lastof. cbn [l]. rewrite <- (rev_involutive (map _ _)). fold l. rewrite <- map_rev. destruct (rev l) as [|y r] eqn:E; [apply (f_equal (@length _)) in E; rewrite rev_length in E; discriminate|].
    cbn [hd_error option_map map rev]. rewrite last_last. reflexivity.
  - intro b. rewrite in_b_in. cbn [In]. intuition congruence.
  - apply Permutation_refl.
Qed.
