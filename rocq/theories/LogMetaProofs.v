From Coq Require Import ZArith Arith List Bool Lia.
From Verif Require Import Base LogMetaModel LogMetaSpec.
Import ListNotations.

(** ** Sizes *)
Definition sane (c : cfg) : Prop := 0 < slot c /\ 0 < rslot c /\ 0 < align c.
Lemma fit_ge c sz : 0 < align c -> sz <= fit c sz.
Proof.
  intros A. unfold fit. destruct (Nat.ltb_spec (ctx c) sz) as [_|_]; [|lia].
  pose proof (Nat.div_mod_eq (sz + align c - 1) (align c)) as E.
  pose proof (Nat.mod_upper_bound (sz + align c - 1) (align c) ltac:(lia)) as U.
  set (q := (sz + align c - 1) / align c) in *. rewrite (Nat.mul_comm q). lia.
Qed.
Lemma cap_ge c n sz : sane c -> needed c n <= sz -> n <= capacity c sz.
Proof.
  intros (S1 & _ & _) H. unfold capacity, needed in *. apply Nat.div_le_lower_bound; [lia|]. rewrite Nat.mul_comm. lia.
Qed.
Lemma rcap_ge c n sz : sane c -> rneeded c n <= sz -> n <= rcapacity c sz.
Proof.
  intros (_ & S2 & _) H. unfold rcapacity, rneeded in *. apply Nat.div_le_lower_bound; [lia|].
  assert (n <= (n + 7) / 8 * 8) by (pose proof (Nat.div_mod_eq (n + 7) 8); pose proof (Nat.mod_upper_bound (n + 7) 8); lia).
  rewrite Nat.mul_comm. assert (n * rslot c <= (n + 7) / 8 * 8 * rslot c) by (apply Nat.mul_le_mono_r; lia). lia.
Qed.

(** ** Lists *)
Lemma copied_len {A} (x y : A) : forall n l, length (copied x y l n) = n.
Proof. induction n as [|n IH]; intros [|a l]; cbn; auto. now rewrite repeat_length. Qed.
Lemma copied_nth {A} (x y : A) : forall n l i, i < length l -> i < n -> nth_error (copied x y l n) i = nth_error l i.
Proof. induction n as [|n IH]; intros [|a l] [|i] H H'; cbn in *; try lia; auto. apply IH; lia. Qed.
Lemma copied_firstn {A} (x y : A) : forall n l k, k <= length l -> k <= n -> firstn k (copied x y l n) = firstn k l.
Proof. induction n as [|n IH]; intros [|a l] [|k] H H'; cbn in *; try lia; auto. f_equal. apply IH; lia. Qed.
Lemma set_nth_some {A} : forall (l : list A) i v, i < length l -> exists l', set_nth l i v = Some l'.
Proof.
  induction l as [|a l IH]; intros [|i] v H; cbn in *; try lia; eauto.
  destruct (IH i v ltac:(lia)) as [l' E]. rewrite E. eauto.
Qed.
Lemma set_nth_len {A} : forall (l : list A) i v l', set_nth l i v = Some l' -> length l' = length l.
Proof.
  induction l as [|a l IH]; intros [|i] v l' E; cbn in E; try discriminate; [inversion E; reflexivity|].
  destruct (set_nth l i v) eqn:F; [|discriminate]. inversion E. cbn. f_equal. eauto.
Qed.
Lemma set_nth_get {A} : forall (l : list A) i v l' j, set_nth l i v = Some l' ->
  nth_error l' j = if j =? i then Some v else nth_error l j.
Proof.
  induction l as [|a l IH]; intros [|i] v l' j E; cbn in E; try discriminate.
  - inversion E. now destruct j.
  - destruct (set_nth l i v) eqn:F; [|discriminate]. inversion E. destruct j as [|j]; [reflexivity|]. cbn. eauto.
Qed.
Lemma set_nth_firstn {A} : forall (l : list A) i v l', set_nth l i v = Some l' -> firstn (S i) l' = firstn i l ++ [v].
Proof.
  induction l as [|a l IH]; intros [|i] v l' E; cbn in E; try discriminate; [inversion E; reflexivity|].
  destruct (set_nth l i v) eqn:F; [|discriminate]. inversion E. change (a :: firstn (S i) l0 = a :: (firstn i l ++ [v])). f_equal. eauto.
Qed.
Lemma upper_gt l i : In i l -> i < upper l.
Proof. unfold upper. induction l as [|a l IH]; cbn [In map fold_right]; [intros []|]. intros [->|H]; [lia|specialize (IH H); lia]. Qed.
Lemma upper_in l : 0 < upper l -> exists i, In i l /\ upper l = S i.
Proof.
  unfold upper. induction l as [|a l IH]; cbn [In map fold_right]; [lia|]. intros _.
  destruct (Nat.max_spec (S a) (fold_right Nat.max 0 (map S l))) as [[H E]|[H E]]; rewrite E.
  - destruct IH as (i & P & Q); [lia|]. exists i. auto.
  - exists a. auto.
Qed.
Lemma upper_lt_iff l i : i < upper l <-> exists j, In j l /\ i <= j.
Proof.
  split.
  - intros H. destruct (upper_in l ltac:(lia)) as (j & P & Q). exists j. split; [auto|lia].
  - intros (j & P & Q). apply upper_gt in P. lia.
Qed.
Lemma drop_id_in id l j : In j (drop_id id l) <-> In j l /\ j <> id.
Proof. unfold drop_id. rewrite filter_In. destruct (Nat.eqb_spec j id); cbn; intuition congruence. Qed.
Lemma drop_id_nodup id l : NoDup l -> NoDup (drop_id id l).
Proof. apply NoDup_filter. Qed.
Lemma drop_id_len id l : NoDup l -> In id l -> length l = S (length (drop_id id l)).
Proof.
  unfold drop_id. induction 1 as [|a l H N IH]; intros P; [destruct P|]. cbn. destruct (Nat.eqb_spec a id) as [->|E]; cbn.
  - f_equal. clear -H. induction l as [|b l IH]; [reflexivity|]. cbn. destruct (Nat.eqb_spec b id) as [->|E]; cbn.
    + destruct H. now left.
    + f_equal. apply IH. intros X. apply H. now right.
  - f_equal. apply IH. destruct P as [P|P]; [contradiction|auto].
Qed.

(** ** The lowest free id *)
Lemma lowest_spec ids : forall fuel from, (forall i, i < from -> In i ids) -> NoDup ids -> length ids <= from + fuel ->
  (~ In (lowest ids from fuel) ids) /\ forall i, i < lowest ids from fuel -> In i ids.
Proof.
  induction fuel as [|f IH]; intros from H N L; cbn.
  - split; [|auto]. intros P. assert (incl (seq 0 (S from)) ids) as Q.
    { intros x Hx. apply in_seq in Hx. destruct (Nat.eq_dec x from) as [->|E]; [auto|apply H; lia]. }
    apply NoDup_incl_length in Q; [|apply seq_NoDup]. rewrite seq_length in Q. lia.
  - destruct (existsb (Nat.eqb from) ids) eqn:E.
    + apply existsb_exists in E. destruct E as (x & P & Q). apply Nat.eqb_eq in Q. subst x.
      apply IH; auto; [|lia]. intros i Hi. destruct (Nat.eq_dec i from) as [->|]; [auto|apply H; lia].
    + split; [|auto]. intros P. assert (existsb (Nat.eqb from) ids = true); [|congruence].
      apply existsb_exists. exists from. split; [auto|apply Nat.eqb_refl].
Qed.
Lemma pick_spec ids : NoDup ids -> (~ In (pick ids) ids) /\ forall i, i < pick ids -> In i ids.
Proof. intros N. apply lowest_spec; auto; lia. Qed.

(** ** The slots *)
Record SRep (c : cfg) (b : sb) (f : nat -> option Z) (ids : list nat) : Prop := {
  sr_len : length (s_slots b) = capacity c (s_size b);
  sr_nd : NoDup ids;
  sr_dom : forall i, In i ids <-> f i <> None;
  sr_num : s_num b = length ids;
  sr_val : forall i v, f i = Some v -> (0 <= v)%Z;
  sr_slot : forall i, i < upper ids -> nth_error (s_slots b) i = Some (match f i with Some v => v | None => none end) }.

Lemma scan_ok f : (forall i v, f i = Some v -> (0 <= v)%Z) -> forall l k ids,
  NoDup ids -> (forall i, In i ids <-> k <= i /\ f i <> None) ->
  (forall i, k <= i < upper ids -> nth_error l (i - k) = Some (match f i with Some v => v | None => none end)) ->
  exists r, scan l k (length ids) = Some r /\ ascending (map fst r) /\ (forall i v, In (i, v) r <-> k <= i /\ f i = Some v).
Proof.
  intros V. induction l as [|x l IH]; intros k ids N D Sl.
  - destruct ids as [|d ids].
    + exists []. cbn. ands; [reflexivity|constructor|]. intros i v. split; [intros []|]. intros [H E].
      destruct (proj2 (D i)). split; [auto|congruence].
    + exfalso. assert (H : d < upper (d :: ids)) by (apply upper_gt; now left).
      destruct (proj1 (D d) (or_introl eq_refl)) as [Hk _]. specialize (Sl d ltac:(lia)). destruct (d - k); discriminate.
  - destruct (length ids) as [|n] eqn:L.
    + destruct ids; [|discriminate]. exists []. cbn. ands; [reflexivity|constructor|]. intros i v. split; [intros []|]. intros [H E].
      destruct (proj2 (D i)). split; [auto|congruence].
    + cbn [scan]. destruct (f k) as [w|] eqn:F.
      * assert (Hk : In k ids) by (apply D; split; [lia|congruence]).
        pose proof (upper_gt _ _ Hk) as Uk. specialize (Sl k ltac:(lia)) as Sk. rewrite Nat.sub_diag, F in Sk. cbn in Sk.
        injection Sk as ->. unfold valid. rewrite (proj2 (Z.leb_le 0 w) (V k w F)).
        pose proof (drop_id_len k ids N Hk) as Ln. rewrite L in Ln. injection Ln as Ln. rewrite Ln.
        destruct (IH (S k) (drop_id k ids)) as (r & E & A & B).
        -- now apply drop_id_nodup.
        -- intros i. rewrite drop_id_in, D. intuition lia.
        -- intros i Hi. specialize (Sl i). replace (i - k) with (S (i - S k)) in Sl by lia. apply Sl. split; [lia|].
           apply upper_lt_iff. destruct (proj1 (upper_lt_iff _ _) (proj2 Hi)) as (j & P & Q). apply drop_id_in in P. exists j. tauto.
        -- rewrite E. eexists. split; [reflexivity|]. cbn [map fst]. split.
           ++ destruct r as [|[i v] r]; [constructor|]. cbn. constructor; [|exact A]. destruct (B i v) as [B1 _]. destruct B1; [now left|lia].
           ++ intros i v. cbn [In]. rewrite B. split.
              ** intros [Q|[Q1 Q2]]; [injection Q as <- <-; split; [lia|auto]|split; [lia|auto]].
              ** intros [Q1 Q2]. destruct (Nat.eq_dec i k) as [->|Ne]; [left; congruence|right; split; [lia|auto]].
      * assert (Hk : exists d, In d ids) by (destruct ids as [|d ids]; [discriminate|exists d; now left]). destruct Hk as [d Hd].
        pose proof (proj1 (D d) Hd) as [Hk Hf]. pose proof (upper_gt _ _ Hd) as Ud.
        specialize (Sl k ltac:(lia)) as Sk. rewrite Nat.sub_diag, F in Sk. cbn in Sk. injection Sk as ->. cbn [valid none Z.leb Z.compare].
        rewrite <- L. destruct (IH (S k) ids) as (r & E & A & B); auto.
        -- intros i. rewrite D. split; [|intuition lia]. intros [Q1 Q2]. split; [|auto]. destruct (Nat.eq_dec i k) as [->|]; [congruence|lia].
        -- intros i Hi. specialize (Sl i ltac:(lia)). replace (i - k) with (S (i - S k)) in Sl by lia. exact Sl.
        -- exists r. ands; auto. intros i v. rewrite B. split; [intros [Q1 Q2]; split; [lia|auto]|].
           intros [Q1 Q2]. split; [|auto]. destruct (Nat.eq_dec i k) as [->|]; [congruence|lia].
Qed.
Lemma scan_rep c b f ids : SRep c b f ids -> exists r, scan (s_slots b) 0 (s_num b) = Some r /\ lists r f.
Proof.
  intros [_ N D L V S]. rewrite L. destruct (scan_ok f V (s_slots b) 0 ids N) as (r & E & A & B).
  - intros i. rewrite D. intuition lia.
  - intros i Hi. rewrite Nat.sub_0_r. apply S. lia.
  - exists r. split; [auto|]. split; [auto|]. intros i v. rewrite B. intuition lia.
Qed.
Lemma asc_lt l : forall i, ascending (i :: l) -> forall j, In j l -> i < j.
Proof.
  induction l as [|a l IH]; intros i A j P; [destruct P|]. inversion A; subst. destruct P as [<-|P]; [auto|]. specialize (IH a H3 j P). lia.
Qed.
Lemma asc_nodup l : ascending l -> NoDup l.
Proof.
  induction l as [|a l IH]; intros A; constructor.
  - intros P. pose proof (asc_lt l a A a P). lia.
  - apply IH. inversion A; [constructor|auto].
Qed.
(** The ids that loading finds do as well. *)
Lemma srep_load c b f ids r : SRep c b f ids -> scan (s_slots b) 0 (s_num b) = Some r -> lists r f -> SRep c b f (map fst r).
Proof.
  intros [Le N D L V S] E [A B].
  assert (Dm : forall i, In i (map fst r) <-> f i <> None).
  { intros i. rewrite in_map_iff. split.
    - intros ((j & v) & <- & P). apply B in P. cbn. congruence.
    - intros P. destruct (f i) as [v|] eqn:F; [|congruence]. exists (i, v). split; [auto|now apply B]. }
  pose proof (asc_nodup _ A) as Nr.
  assert (I1 : incl ids (map fst r)) by (intros i P; apply Dm, D, P).
  assert (I2 : incl (map fst r) ids) by (intros i P; apply D, Dm, P).
  constructor; auto.
  - rewrite L. apply Nat.le_antisymm; apply NoDup_incl_length; auto.
  - intros i Hi. apply S. apply upper_lt_iff in Hi. destruct Hi as (j & P & Q). apply upper_lt_iff. exists j. auto.
Qed.

Lemma srep_upper c b f ids : SRep c b f ids -> upper ids <= length (s_slots b).
Proof.
  intros [_ N D L V S]. destruct (upper ids) as [|u] eqn:U; [lia|].
  specialize (S u ltac:(lia)). assert (u < length (s_slots b)); [|lia]. apply nth_error_Some. congruence.
Qed.
Lemma resize_sb_ok c junk m : sane c -> length (s_slots (m_sb m)) = capacity c (s_size (m_sb m)) ->
  let b := resize_sb c junk m in
  s_num b = s_num (m_sb m) /\ length (s_slots b) = capacity c (s_size b) /\ upper (m_info m) <= length (s_slots b) /\
  forall i, i < length (s_slots (m_sb m)) -> i < length (s_slots b) -> nth_error (s_slots b) i = nth_error (s_slots (m_sb m)) i.
Proof.
  intros C H. cbv zeta. unfold resize_sb. pose proof (proj2 (proj2 C)) as A.
  destruct (Nat.eqb_spec (fit c (needed c (upper (m_info m)))) (s_size (m_sb m))) as [E|E].
  - ands; auto. rewrite H, <- E. apply cap_ge; auto. now apply fit_ge.
  - cbn [s_num s_slots s_size]. rewrite copied_len. ands; auto.
    + apply cap_ge; auto. transitivity (fit c (needed c (upper (m_info m)))); now apply fit_ge.
    + intros i H1 H2. now apply copied_nth.
Qed.

Lemma reserve_ok c junk m f : sane c -> SRep c (m_sb m) f (m_info m) -> m_ids m = m_info m ->
  exists m' id, reserve c junk m = Some (m', id) /\ f id = None /\ (forall i, i < id -> f i <> None) /\
    SRep c (m_sb m') (put f id (Some 0%Z)) (m_info m') /\ m_ids m' = m_info m' /\ m_rsb m' = m_rsb m /\ m_rb m' = m_rb m /\ m_dirty m' = m_dirty m.
Proof.
  intros C R E. unfold reserve. set (id := pick (m_ids m)).
  set (m1 := Mem (m_sb m) (m_rsb m) (id :: m_ids m) (id :: m_info m) (m_rb m) (m_dirty m)).
  pose proof (srep_upper _ _ _ _ R) as Up. destruct R as [Le N D L V S].
  destruct (pick_spec (m_ids m)) as [P1 P2]; [now rewrite E|]. fold id in P1, P2. rewrite E in P1, P2.
  destruct (resize_sb_ok c junk m1 C Le) as (R1 & R2 & R3 & R4). set (b := resize_sb c junk m1) in *. cbn [m_sb m_info m1] in *.
  assert (Hid : id < upper (id :: m_info m)) by (apply upper_gt; now left).
  destruct (set_nth_some (s_slots b) id 0%Z) as [s Es]; [lia|]. rewrite Es.
  exists (Mem (Sb (s_size b) (Datatypes.S (s_num b)) s) (m_rsb m) (m_ids m1) (m_info m1) (m_rb m) (m_dirty m)), id. split; [reflexivity|].
  assert (F : f id = None) by (destruct (f id) eqn:Q; [exfalso; apply P1, D; congruence|auto]). cbn [m_sb m_info m_ids m_rsb m_rb m_dirty m1].
  ands; auto; [intros i Hi; apply D, P2, Hi| |now rewrite E].
  constructor; cbn [s_num s_slots s_size].
  - rewrite (set_nth_len _ _ _ _ Es). exact R2.
  - constructor; auto.
  - intros i. unfold put. cbn [In]. destruct (Nat.eqb_spec i id) as [->|Ne]; [intuition discriminate|]. rewrite D. intuition congruence.
  - cbn. lia.
  - intros i v. unfold put. destruct (Nat.eqb_spec i id); [intros Q; injection Q as <-; lia|apply V].
  - intros i Hi. rewrite (set_nth_get _ _ _ _ i Es). unfold put. destruct (Nat.eqb_spec i id) as [->|Ne]; [reflexivity|].
    assert (Ui : i < upper (m_info m)).
    { apply upper_lt_iff in Hi. destruct Hi as (j & [<-|P] & Q); [apply upper_gt, P2; lia|apply upper_lt_iff; eauto]. }
    rewrite R4; [auto| |]; lia.
Qed.
Lemma unreserve_ok c junk id m f : sane c -> SRep c (m_sb m) f (m_info m) -> m_ids m = m_info m -> f id <> None ->
  exists m', unreserve_sb c junk id m = Some m' /\
    SRep c (m_sb m') (put f id None) (m_info m') /\ m_ids m' = m_info m' /\ m_rsb m' = m_rsb m /\ m_rb m' = m_rb m /\ m_dirty m' = m_dirty m.
Proof.
  intros C R E Hf. unfold unreserve_sb.
  set (m1 := Mem (m_sb m) (m_rsb m) (drop_id id (m_ids m)) (drop_id id (m_info m)) (m_rb m) (m_dirty m)).
  pose proof (srep_upper _ _ _ _ R) as Up. destruct R as [Le N D L V S].
  destruct (resize_sb_ok c junk m1 C Le) as (R1 & R2 & R3 & R4). set (b := resize_sb c junk m1) in *. cbn [m_sb m_info m1] in *.
  pose proof (drop_id_len id (m_info m) N (proj2 (D id) Hf)) as Ln.
  assert (Hs : exists s, (if Datatypes.S id <? upper (drop_id id (m_info m)) then set_nth (s_slots b) id none else Some (s_slots b)) = Some s /\
             length s = length (s_slots b) /\
             forall i, i < upper (drop_id id (m_info m)) -> nth_error s i = if i =? id then Some none else nth_error (s_slots b) i).
  { destruct (Nat.ltb_spec (Datatypes.S id) (upper (drop_id id (m_info m)))) as [H|H].
    - destruct (set_nth_some (s_slots b) id none) as [s Es]; [lia|]. exists s. ands; auto; [now apply (set_nth_len _ _ _ _ Es)|].
      intros i _. exact (set_nth_get _ _ _ _ i Es).
    - eexists. ands; [reflexivity|auto|]. intros i Hi. destruct (Nat.eqb_spec i id) as [->|]; [|auto].
      destruct (upper_in (drop_id id (m_info m)) ltac:(lia)) as (j & P & Q). apply drop_id_in in P. lia. }
  destruct Hs as (s & Es & Hl & Hn). rewrite Es.
  rewrite R1, L, Ln. eexists. split; [reflexivity|]. cbn [m_sb m_info m_ids m_rsb m_rb m_dirty m1]. ands; auto; [|now rewrite E].
  constructor; cbn [s_num s_slots s_size]; auto.
  - lia.
  - now apply drop_id_nodup.
  - intros i. rewrite drop_id_in, D. unfold put. destruct (Nat.eqb_spec i id) as [->|Ne]; intuition congruence.
  - intros i v. unfold put. destruct (Nat.eqb_spec i id); [discriminate|apply V].
  - intros i Hi. rewrite (Hn i Hi). unfold put. destruct (Nat.eqb_spec i id) as [->|Ne]; [reflexivity|].
    assert (Ui : i < upper (m_info m)).
    { apply upper_lt_iff in Hi. destruct Hi as (j & P & Q). apply drop_id_in in P. apply upper_lt_iff. exists j. tauto. }
    rewrite R4; [auto| |]; lia.
Qed.
Lemma update_ok c junk id v m f : sane c -> SRep c (m_sb m) f (m_info m) -> m_ids m = m_info m -> f id <> None -> (0 <= v)%Z ->
  exists m', update c junk id v m = Some m' /\
    SRep c (m_sb m') (put f id (Some v)) (m_info m') /\ m_ids m' = m_info m' /\ m_rsb m' = m_rsb m /\ m_rb m' = m_rb m /\ m_dirty m' = m_dirty m.
Proof.
  intros C R E Hf Hv. unfold update. pose proof (srep_upper _ _ _ _ R) as Up. destruct R as [Le N D L V S].
  assert (Hid : In id (m_info m)) by now apply D.
  assert (X : existsb (Nat.eqb id) (m_info m) = true) by (apply existsb_exists; exists id; split; [auto|apply Nat.eqb_refl]). rewrite X.
  set (m1 := Mem (m_sb m) (m_rsb m) (m_ids m) (m_info m) (m_rb m) (m_dirty m)).
  destruct (resize_sb_ok c junk m1 C Le) as (R1 & R2 & R3 & R4). set (b := resize_sb c junk m1) in *. cbn [m_sb m_info m1] in *.
  pose proof (upper_gt _ _ Hid) as Ui.
  destruct (set_nth_some (s_slots b) id v) as [s Es]; [lia|]. rewrite Es. eexists. split; [reflexivity|].
  cbn [m_sb m_info m_ids m_rsb m_rb m_dirty m1]. ands; auto. constructor; cbn [s_num s_slots s_size]; auto.
  - rewrite (set_nth_len _ _ _ _ Es). exact R2.
  - intros i. unfold put. destruct (Nat.eqb_spec i id) as [->|Ne]; [intuition discriminate|apply D].
  - lia.
  - intros i w. unfold put. destruct (Nat.eqb_spec i id); [intros Q; injection Q as <-; auto|apply V].
  - intros i Hi. rewrite (set_nth_get _ _ _ _ i Es). unfold put. destruct (Nat.eqb_spec i id) as [->|Ne]; [reflexivity|].
    rewrite R4; [auto| |]; lia.
Qed.

(** ** The records *)
Record RRep (c : cfg) (b : rsb) (R : list (nat * (Z * Z))) : Prop := {
  rr_len : length (r_recs b) = rcapacity c (r_size b);
  rr_num : r_num b = length R;
  rr_recs : firstn (r_num b) (r_recs b) = R }.
Lemma rr_le c b R : RRep c b R -> r_num b <= length (r_recs b).
Proof. intros [L N F]. assert (H : length (firstn (r_num b) (r_recs b)) = r_num b) by (rewrite F; auto). rewrite firstn_length in H. lia. Qed.

Lemma remove_ith_ok c b R i : RRep c b R -> i < r_num b -> RRep c (remove_ith i b) (firstn i R ++ skipn (S i) R).
Proof.
  intros H Hi. pose proof (rr_le _ _ _ H) as Le. destruct H as [L N F]. unfold remove_ith.
  assert (E1 : firstn i R = firstn i (r_recs b)) by (rewrite <- F, firstn_firstn; f_equal; lia).
  assert (E2 : skipn (S i) R = firstn (r_num b - i - 1) (skipn (i + 1) (r_recs b))).
  { rewrite <- F, skipn_firstn_comm. replace (i + 1) with (S i) by lia. f_equal. lia. }
  constructor; cbn [r_recs r_size r_num].
  - rewrite !app_length, !firstn_length, !skipn_length. lia.
  - rewrite app_length, firstn_length, skipn_length. lia.
  - rewrite E1, E2, app_assoc, firstn_app.
    assert (Ln : length (firstn i (r_recs b) ++ firstn (r_num b - i - 1) (skipn (i + 1) (r_recs b))) = r_num b - 1)
      by (rewrite app_length, !firstn_length, skipn_length; lia).
    rewrite Ln, Nat.sub_diag. cbn [firstn]. rewrite app_nil_r. apply firstn_all2. lia.
Qed.
Lemma sweep_ok c p : forall i b R, RRep c b R -> i <= r_num b ->
  RRep c (fst (sweep p i b)) (filter (fun r => negb (p r)) (firstn i R) ++ skipn i R) /\
  (snd (sweep p i b) = 0 <-> existsb p (firstn i R) = false).
Proof.
  induction i as [|i IH]; intros b R H Hi.
  - cbn. split; [exact H|tauto].
  - cbn [sweep]. pose proof (rr_le _ _ _ H) as Le.
    assert (En : nth_error R i = Some (nth i (r_recs b) no_rec)).
    { rewrite <- (rr_recs _ _ _ H).
      assert (Q : nth_error (r_recs b) i = Some (nth i (r_recs b) no_rec)) by (apply nth_error_nth'; lia).
      rewrite <- (firstn_skipn (r_num b) (r_recs b)) in Q at 1. rewrite nth_error_app1 in Q; [exact Q|]. rewrite firstn_length. lia. }
    assert (Ef : firstn (S i) R = firstn i R ++ [nth i (r_recs b) no_rec]).
    { clear -En. generalize dependent (nth i (r_recs b) no_rec). intros w En. revert i En. induction R as [|a R IH]; intros [|i] En; cbn in En |- *; try discriminate; [now injection En as ->|]. f_equal. apply IH. exact En. }
    assert (Es : skipn i R = nth i (r_recs b) no_rec :: skipn (S i) R).
    { clear -En. generalize dependent (nth i (r_recs b) no_rec). intros w En. revert i En. induction R as [|a R IH]; intros [|i] En; cbn in En |- *; try discriminate; [now injection En as ->|]. apply IH. exact En. }
    rewrite Ef, existsb_app, filter_app. cbn [existsb filter]. destruct (p (nth i (r_recs b) no_rec)) eqn:P.
    + pose proof (remove_ith_ok c b R i H ltac:(lia)) as H'. destruct (IH _ _ H') as [A B]; [cbn; lia|].
      assert (Ln : length (firstn i R) = i) by (rewrite firstn_length, <- (rr_num _ _ _ H); lia).
      assert (F1 : firstn i (firstn i R ++ skipn (S i) R) = firstn i R) by (rewrite firstn_app, Ln, Nat.sub_diag; cbn [firstn]; rewrite app_nil_r; apply firstn_all2; lia).
      assert (F2 : skipn i (firstn i R ++ skipn (S i) R) = skipn (S i) R) by (rewrite skipn_app, Ln, Nat.sub_diag; rewrite (skipn_all2 (firstn i R)) by lia; reflexivity).
      rewrite F1, F2 in A. destruct (sweep p i (remove_ith i b)) as [b' n]. cbn [fst snd negb] in *. rewrite app_nil_r. split; [exact A|].
      rewrite orb_true_r. split; discriminate.
    + destruct (IH _ _ H) as [A B]; [lia|]. cbn [negb]. rewrite Es in A. rewrite <- app_assoc. split; [exact A|]. rewrite orb_false_r. exact B.
Qed.
Lemma sweep_all c p b R : RRep c b R ->
  RRep c (fst (sweep p (r_num b) b)) (kept p R) /\ (snd (sweep p (r_num b) b) = 0 <-> removed p R = false).
Proof.
  intros H. destruct (sweep_ok c p (r_num b) b R H (le_n _)) as [A B].
  rewrite (firstn_all2 R), (skipn_all2 R), app_nil_r in A by (rewrite (rr_num _ _ _ H); lia).
  rewrite (firstn_all2 R) in B by (rewrite (rr_num _ _ _ H); lia). auto.
Qed.
Lemma resize_rsb_ok c rb b R : sane c -> RRep c b R -> length R <= length rb ->
  RRep c (resize_rsb c rb b) R /\ length rb <= length (r_recs (resize_rsb c rb b)).
Proof.
  intros C H Hl. pose proof (rr_le _ _ _ H) as Le. destruct H as [L N F]. unfold resize_rsb. pose proof (proj2 (proj2 C)) as A.
  destruct (Nat.eqb_spec (fit c (rneeded c (length rb))) (r_size b)) as [E|E].
  - split; [constructor; auto|]. rewrite L, <- E. apply rcap_ge; auto. now apply fit_ge.
  - assert (Q : length rb <= rcapacity c (fit c (fit c (rneeded c (length rb))))).
    { apply rcap_ge; auto. transitivity (fit c (rneeded c (length rb))); now apply fit_ge. }
    split; cbn [r_recs r_size r_num]; [|now rewrite copied_len].
    constructor; cbn [r_recs r_size r_num]; [now rewrite copied_len|auto|]. rewrite copied_firstn; [auto|auto|lia].
Qed.
Lemma filter_len {A} (p : A -> bool) l : length (filter p l) <= length l.
Proof. induction l as [|a l IH]; cbn; [lia|]. destruct (p a); cbn; lia. Qed.
Lemma kept_none p R : removed p R = false -> kept p R = R.
Proof.
  unfold removed, kept. induction R as [|a R IH]; cbn; [auto|]. destruct (p a); cbn; [discriminate|]. intros H. f_equal. auto.
Qed.

(** ** All together *)
Record Rel (c : cfg) (s : mem * disk) (a : abs) : Prop := {
  l_sb : SRep c (m_sb (fst s)) (a_stores a) (m_info (fst s));
  l_ids : m_ids (fst s) = m_info (fst s);
  l_rsb : RRep c (m_rsb (fst s)) (a_recs a);
  l_rb : m_rb (fst s) = a_recs a;
  l_dirty : m_dirty (fst s) = false -> a_drecs a = a_recs a;
  l_dsb : exists b ids, d_sb (snd s) = Some b /\ SRep c b (a_dstores a) ids;
  l_drsb : exists r, d_rsb (snd s) = Some r /\ RRep c r (a_drecs a) }.

Lemma rel_start c : sane c -> Rel c (start c) none_yet.
Proof.
  intros C. assert (R : RRep c (m_rsb (fresh c)) []) by (constructor; cbn; [apply repeat_length|auto|auto]).
  assert (S : SRep c (m_sb (fresh c)) (fun _ => None) []).
  { constructor; cbn; auto; try discriminate; [apply repeat_length|constructor|intuition congruence|lia]. }
  constructor; cbn [start fst snd create_disk d_sb d_rsb Nat.leb none_yet a_stores a_recs a_dstores a_drecs]; eauto.
Qed.
Lemma drop_ok c p now m d a : sane c -> Rel c (m, d) a ->
  let a' := Abs (a_stores a) (kept p (a_recs a)) (a_dstores a) (if_now (now && removed p (a_recs a)) (kept p (a_recs a)) (a_drecs a)) in
  Rel c (drop_records c p now m d) a' /\ m_sb (fst (drop_records c p now m d)) = m_sb m.
Proof.
  intros C [H1 H2 H3 H4 H5 H6 H7]. cbn [fst snd] in *. cbv zeta. unfold drop_records.
  destruct (sweep_all c p _ _ H3) as [A B]. destruct (sweep p (r_num (m_rsb m)) (m_rsb m)) as [b n]. cbn [fst snd] in *.
  destruct (Nat.eqb_spec n 0) as [En|En].
  - rewrite (proj1 B En), andb_false_r. rewrite (kept_none _ _ (proj1 B En)) in *. split; [constructor; cbn; auto|reflexivity].
  - assert (X : removed p (a_recs a) = true) by (destruct (removed p (a_recs a)); [auto|exfalso; apply En, B; auto]). rewrite X, andb_true_r.
    rewrite H4. fold (kept p (a_recs a)). destruct (resize_rsb_ok c (kept p (a_recs a)) b _ C A (le_n _)) as [Q _].
    split; [|reflexivity]. constructor; cbn [fst snd m_sb m_info m_ids m_rsb m_rb m_dirty a_stores a_recs a_dstores a_drecs]; auto.
    + destruct now; [auto|discriminate].
    + destruct now; exact H6.
    + destruct now; cbn; eauto.
Qed.
Lemma restart_ok c d a : (exists b ids, d_sb d = Some b /\ SRep c b (a_dstores a) ids) -> (exists r, d_rsb d = Some r /\ RRep c r (a_drecs a)) ->
  exists m l, load d = Some (m, l) /\ lists l (a_dstores a) /\ m_rb m = a_drecs a /\
    Rel c (m, d) (Abs (a_dstores a) (a_drecs a) (a_dstores a) (a_drecs a)).
Proof.
  intros (b & ids & Eb & S) (r & Er & R). unfold load. rewrite Eb, Er.
  destruct (scan_rep c b _ _ S) as (l & El & Hl). rewrite El. rewrite (proj2 (Nat.leb_le _ _) (rr_le _ _ _ R)).
  eexists. eexists. split; [reflexivity|]. cbn [m_rb]. ands; auto; [apply R|].
  constructor; cbn; eauto; [exact (srep_load c b _ ids l S El Hl)|apply R].
Qed.
Lemma rel_step c s a e a' : sane c -> Rel c s a -> change a e a' -> exists s', step c s e = Some s' /\ Rel c s' a'.
Proof.
  intros C H X. destruct s as [m d].
  destruct X as [a j now id G1 G2 f|a j id now G1 f p|a j id v now G1 G2 f|a id x y now r|a u now p|a|a|a id G1 p d'|a]; cbn [step].
  - pose proof H as [H1 H2 H3 H4 H5 H6 H7]. cbn [fst snd] in *.
    destruct (reserve_ok c j m _ C H1 H2) as (m' & i & E & F1 & F2 & S & S2 & S3 & S4 & S5). rewrite E.
    assert (i = id). { destruct (Nat.lt_trichotomy i id) as [L|[L|L]]; auto; [now apply G2 in L|now apply F2 in L]. } subst i.
    eexists. split; [reflexivity|]. constructor; cbn [fst snd a_stores a_recs a_dstores a_drecs]; rewrite ?S3, ?S4, ?S5; auto; destruct now; cbn; eauto.
  - destruct (drop_ok c p now m d a C H) as [H' Es]. change (of_store id) with p. destruct (drop_records c p now m d) as [m1 d1].
    pose proof H' as [H1 H2 H3 H4 H5 H6 H7]. cbn [fst snd a_stores a_recs a_dstores a_drecs] in *.
    destruct (unreserve_ok c j id m1 _ C H1 H2 G1) as (m' & E & S & S2 & S3 & S4 & S5). rewrite E.
    eexists. split; [reflexivity|]. constructor; cbn [fst snd a_stores a_recs a_dstores a_drecs]; rewrite ?S3, ?S4, ?S5; auto; destruct now; cbn in *; eauto.
  - pose proof H as [H1 H2 H3 H4 H5 H6 H7]. cbn [fst snd] in *.
    destruct (update_ok c j id v m _ C H1 H2 G1 G2) as (m' & E & S & S2 & S3 & S4 & S5). rewrite E.
    eexists. split; [reflexivity|]. constructor; cbn [fst snd a_stores a_recs a_dstores a_drecs]; rewrite ?S3, ?S4, ?S5; auto; destruct now; cbn; eauto.
  - destruct H as [H1 H2 H3 H4 H5 H6 H7]. cbn [fst snd] in *. unfold add_record. rewrite H4. fold r.
    destruct (resize_rsb_ok c r (m_rsb m) (a_recs a) C H3) as [Q1 Q2]; [unfold r; rewrite app_length; lia|].
    set (b := resize_rsb c r (m_rsb m)) in *.
    assert (Ln : r_num b = length (a_recs a)) by apply Q1.
    destruct (set_nth_some (r_recs b) (r_num b) (id, (x, y))) as [l El]; [unfold r in Q2; rewrite app_length in Q2; cbn in Q2; lia|]. rewrite El.
    assert (R : RRep c (Rsb (r_size b) (S (r_num b)) l) r).
    { constructor; cbn [r_size r_num r_recs].
      - rewrite (set_nth_len _ _ _ _ El). apply Q1.
      - unfold r. rewrite app_length. cbn. lia.
      - rewrite (set_nth_firstn _ _ _ _ El). unfold r. f_equal. apply Q1. }
    eexists. split; [reflexivity|]. constructor; cbn [fst snd m_sb m_info m_ids m_rsb m_rb m_dirty a_stores a_recs a_dstores a_drecs]; auto; destruct now; cbn; eauto; discriminate.
  - destruct (drop_ok c p now m d a C H) as [H' _]. eexists. split; [reflexivity|]. exact H'.
  - destruct H as [H1 H2 H3 H4 H5 H6 H7]. cbn [fst snd] in *. unfold write_dirty, write_sb. eexists. split; [reflexivity|].
    destruct (m_dirty m) eqn:Ed.
    + constructor; cbn; eauto.
    + constructor; cbn; auto; [eauto|]. now rewrite <- (H5 eq_refl).
  - destruct H as [H1 H2 H3 H4 H5 H6 H7]. cbn [fst snd] in *. unfold restart.
    destruct (restart_ok c d a H6 H7) as (m' & l & E & _ & _ & R). rewrite E. eauto.
  - destruct (drop_ok c p true m d a C H) as [H' _]. change (of_store id) with p. destruct (drop_records c p true m d) as [m1 d1].
    destruct H' as [H1 H2 H3 H4 H5 H6 H7]. cbn [fst snd] in *. unfold restart.
    destruct (restart_ok c d1 _ H6 H7) as (m' & l & E & _ & _ & R). rewrite E. eauto.
  - destruct H as [H1 H2 H3 H4 H5 H6 H7]. cbn [fst snd] in *. unfold restart.
    destruct (restart_ok c (write_sb m d) (Abs (a_stores a) (a_recs a) (a_stores a) (a_drecs a))) as (m' & l & E & _ & _ & R); [cbn; eauto|exact H7|].
    rewrite E. eauto.
Qed.
Lemma rel_run c : forall l s a a', sane c -> Rel c s a -> changes a l a' -> exists s', run c s l = Some s' /\ Rel c s' a'.
Proof.
  induction l as [|e l IH]; intros s a a' C H X; inversion X; subst; cbn [run]; [eauto|].
  destruct (rel_step c s a e b C H) as (s1 & E & H1); [auto|]. rewrite E. eauto.
Qed.
