(** The threads. *)
From Coq Require Import ZArith List Bool Arith Lia.
From Verif Require Import Base ConcBtModel ConcBtSpec ConcBtLists ConcBtSpread ConcBtTree ConcBtRoot.
Import ListNotations.
Local Open Scope Z_scope.

Definition stale (s : st) (x : Z) (g : nat) : Prop := dead s x = true \/ (g < gen s x)%nat.
Definition on (s : st) (k : Z) (d : nat) (n : Z) : Prop := (d <= H s)%nat /\ wlk s k d = Some n.
Definition path (s : st) (o : op) (n c : Z) : Prop := exists d, on s (key o) d n /\ on s (key o) (S d) c.
Definition upok (s : st) (o : op) (n c : Z) (gn gc : nat) : Prop :=
  (gn <= gen s n)%nat /\ (gc <= gen s c)%nat /\ n < next s /\ c < next s /\ lvl (h s n) = S (lvl (h s c))
  /\ (stale s n gn \/ stale s c gc \/ path s o n c).
Definition pcok (s : st) (p : pc) : Prop :=
  match p with
  | At o n m => exists d, on s (key o) d n
  | Both o n m c mc => path s o n c
  | Up o n c gn gc | Up1 o n c gn gc => upok s o n c gn gc
  | Ready o n c l todo => path s o n c /\ exists q, l ++ todo = map snd (firstn q (tl (from c (ents (h s n)))))
  | _ => True
  end.
(** All but thread i's own place. *)
Definition inv0 (s : st) (i : nat) : Prop :=
  tree s /\ exclusive s /\ forall j, j <> i -> pcok s (thr_at s j).
Definition inv (s : st) : Prop := tree s /\ exclusive s /\ forall j, pcok s (thr_at s j).

(** ** Thread lists *)
Lemma upd_length : forall A i (x : A) l, length (upd i x l) = length l.
Proof. induction i; intros x [|y l]; cbn; auto. Qed.
Lemma nth_upd : forall A i j (x : A) l z, nth j (upd i x l) z = if (i =? j)%nat && (i <? length l)%nat then x else nth j l z.
Proof.
  induction i as [|i IH]; intros [|j] x [|y l] z; try reflexivity.
  - cbn. destruct (i =? j)%nat; reflexivity.
  - cbn [upd nth]. rewrite IH. reflexivity.
Qed.
Lemma thr_goto : forall s i p j, (i < length (thr s))%nat -> thr_at (goto s i p) j = if (i =? j)%nat then p else thr_at s j.
Proof.
  intros s i p j L. unfold thr_at, goto. cbn [thr]. rewrite nth_upd. apply Nat.ltb_lt in L as ->. now rewrite andb_true_r.
Qed.
Lemma busy_len : forall s i, thr_at s i <> Idle -> (i < length (thr s))%nat.
Proof. intros s i N. destruct (Nat.lt_ge_cases i (length (thr s))) as [L|L]; [assumption|]. exfalso. apply N. now apply nth_overflow. Qed.
Lemma in_seq_combine : forall A (l : list A) b j x, In (j, x) (combine (seq b (length l)) l) <-> exists k, j = (b + k)%nat /\ nth_error l k = Some x.
Proof.
  induction l as [|y l IH]; intros b j x; cbn.
  - split; [tauto|]. intros (k & _ & E). now destruct k.
  - rewrite IH. split.
    + intros [[= <- <-]|(k & -> & E)]; [exists O; split; [lia|reflexivity]|exists (S k); split; [lia|assumption]].
    + intros ([|k] & -> & E); [left; cbn in E; injection E as ->; f_equal; lia|right; exists k; split; [lia|assumption]].
Qed.
Lemma in_others : forall s i p, In p (others s i) <-> exists j, j <> i /\ (j < length (thr s))%nat /\ thr_at s j = p.
Proof.
  intros s i p. unfold others. rewrite in_map_iff. split.
  - intros ([j q] & <- & Hj). apply filter_In in Hj as [Hj N]. apply in_seq_combine in Hj as (k & -> & E).
    cbn in N. apply negb_true_iff, Nat.eqb_neq in N. exists k. split; [assumption|]. split; [apply nth_error_Some; congruence|].
    unfold thr_at. cbn. now apply nth_error_nth.
  - intros (j & N & L & <-). exists (j, thr_at s j). split; [reflexivity|]. apply filter_In. split.
    + apply in_seq_combine. exists j. split; [reflexivity|]. unfold thr_at. now apply nth_error_nth'.
    + cbn. now apply negb_true_iff, Nat.eqb_neq.
Qed.
Lemma free_spec : forall s i n m, free s i n m = true <->
  forall j m', j <> i -> In (n, m') (holds (thr_at s j)) -> compat m m' = true.
Proof.
  intros s i n m. unfold free. rewrite forallb_forall. split.
  - intros A j m' N Hj. assert (L : (j < length (thr s))%nat) by (apply busy_len; intros E; rewrite E in Hj; destruct Hj).
    assert (Ho : In (thr_at s j) (others s i)) by (apply in_others; eauto).
    specialize (A _ Ho). rewrite forallb_forall in A. specialize (A _ Hj). cbn in A. now rewrite Z.eqb_refl in A.
  - intros A p Hp. apply in_others in Hp as (j & N & L & <-). apply forallb_forall. intros [n' m'] Hq. cbn.
    destruct (Z.eqb_spec n' n) as [->|]; [|reflexivity]. cbn. eauto.
Qed.
Lemma compat_rr : forall m m', compat m m' = true -> m = R /\ m' = R.
Proof. intros [] [] E; try discriminate; auto. Qed.

(** ** A thread moves on *)
Lemma wf_goto : forall s i p, wf s -> wf (goto s i p).
Proof. intros s i p [? ? ? ? ? ? ? ? ? ? ?]. constructor; assumption. Qed.
Lemma goto_inv : forall s i p, inv0 s i -> (i < length (thr s))%nat -> pcok s p ->
  (forall n m, In (n, m) (holds p) -> In (n, m) (holds (thr_at s i)) \/ free s i n m = true) ->
  inv (goto s i p).
Proof.
  intros s i p ((Hw & Hf) & Hx & Hp) L Pp Hh. split; [split; [now apply wf_goto|exact Hf]|]. split.
  - assert (G : forall j n m m', j <> i -> In (n, m) (holds p) -> In (n, m') (holds (thr_at s j)) -> m = R /\ m' = R).
    { intros j n m m' N H1 H2. destruct (Hh _ _ H1) as [H3|H3]; [apply (Hx i j n); auto|].
      rewrite free_spec in H3. apply compat_rr. eauto. }
    intros a b n m m' N. rewrite !thr_goto by assumption.
    destruct (Nat.eqb_spec i a) as [<-|Na]; destruct (Nat.eqb_spec i b) as [<-|Nb].
    + tauto.
    + intros. eapply G; eauto.
    + intros H1 H2. destruct (G a n m' m); auto.
    + apply Hx. assumption.
  - intros j. rewrite thr_goto by assumption. destruct (Nat.eqb_spec i j) as [<-|N]; [exact Pp|]. apply Hp. auto.
Qed.
Lemma inv_inv0 : forall s i, inv s -> inv0 s i.
Proof. intros s i (A & B & C). split; [assumption|]. split; [assumption|]. auto. Qed.

Lemma on_reach : forall s k d n, wf s -> on s k d n -> rch s d n.
Proof. intros s k d n Hw [L E]. eapply walk_reach; eassumption. Qed.
Lemma path_lvl : forall s o n c, wf s -> path s o n c -> lvl (h s n) = S (lvl (h s c)) /\ n < next s /\ c < next s.
Proof.
  intros s o n c Hw (d & A & B). pose proof (on_reach _ _ _ _ Hw A) as RA. pose proof (on_reach _ _ _ _ Hw B) as RB.
  pose proof (wf_lvl _ Hw _ _ RA). pose proof (wf_lvl _ Hw _ _ RB).
  pose proof (wf_next _ Hw _ _ RA). pose proof (wf_next _ Hw _ _ RB). lia.
Qed.

(** ** A leaf changes *)
Lemma set_leaf_inv : forall s i o n m, inv s -> thr_at s i = At o n m -> lvl (h s n) = O ->
  forall l r ch, leaf_op o (ents (h s n)) = (l, r, ch) ->
  inv0 (set_leaf s n l ch) i /\ snd (apply o (value s)) = r
  /\ (forall k, value (set_leaf s n l ch) k = fst (apply o (value s)) k).
Proof.
  intros s i o n m ((Hw & Hf) & Hx & Hp) Ei Ln l r ch El.
  pose proof (Hp i) as Pi. rewrite Ei in Pi. destruct Pi as (d & Hd & Wd).
  pose proof (walk_reach _ Hw _ _ _ Wd Hd) as Rn. pose proof (wf_lvl _ Hw _ _ Rn) as Ld.
  replace d with (H s) in * by lia.
  assert (Ko : keys_only (ents (h s n))) by (intros [b v] He; eapply wf_leaf; eassumption).
  destruct (leaf_op_spec o _ l r ch (wf_asc _ Hw _ _ Rn) Ko El) as (A1 & A2 & A3 & A4 & A5).
  assert (Vn : value s (key o) = look (key o) (ents (h s n))) by (unfold value; rewrite Wd; reflexivity).
  destruct (A4 (value s) Vn) as [B1 B2].
  pose proof (sl_wf s Hw n l ch (key o) Wd A1 A2 A3) as Hw'.
  assert (On : forall k e x, on s k e x -> on (set_leaf s n l ch) k e x).
  { intros k e x [C1 C2]. split; [rewrite sl_H; assumption|]. rewrite (sl_walk s Hw n l ch (key o)); assumption. }
  assert (Pa : forall o' x y, path s o' x y -> path (set_leaf s n l ch) o' x y).
  { intros o' x y (e & C1 & C2). exists e. auto. }
  split; [|split; [assumption|]].
  - split; [split; [exact Hw'|exact Hf]|]. split; [exact Hx|]. intros j Nj. specialize (Hp j).
    change (thr_at (set_leaf s n l ch) j) with (thr_at s j).
    assert (Up' : forall o' x y g g', upok s o' x y g g' -> upok (set_leaf s n l ch) o' x y g g').
    { intros o' x y g g' (C1 & C2 & C3 & C4 & C5 & C6).
      assert (Gn : forall x, (gen s x <= gen (set_leaf s n l ch) x)%nat) by (intros u; cbn; destruct (ch && (u =? n)); lia).
      assert (St' : forall u w, stale s u w -> stale (set_leaf s n l ch) u w).
      { intros u w [D|D]; [left; exact D|right]. pose proof (Gn u). lia. }
      unfold upok. rewrite !sl_lvl. pose proof (Gn x). pose proof (Gn y). ands; auto; try lia.
      destruct C6 as [C6|[C6|C6]]; auto. }
    destruct (thr_at s j) as [| | | | | |o' x y l' todo| |]; cbn [pcok] in *; auto.
    + destruct Hp as (e & C). exists e. auto.
    + destruct Hp as [C1 (q & C2)]. split; [auto|]. exists q. rewrite (sl_inner s Hw n l ch (key o)); auto.
      pose proof (path_lvl _ _ _ _ Hw C1). lia.
  - intros k. rewrite (sl_value s Hw n l ch (key o) Wd A5), B2. reflexivity.
Qed.

(** ** Children are spread anew *)
Lemma redo_inv : forall s i o n c l parts lower s', inv s -> thr_at s i = Ready o n c l [] ->
  restructure s n c l parts lower = Some s' ->
  inv0 s' i /\ (forall k, value s' k = value s k) /\ thr s' = thr s /\ (exists d, on s' (key o) d n)
  /\ (forall x, h s' x <> h s x -> x = n \/ In x (c :: l) \/ next s <= x).
Proof.
  intros s i o n c l parts lower s' ((Hw & Hf) & Hx & Hp) Ei E.
  pose proof (Hp i) as Pi. rewrite Ei in Pi. destruct Pi as [(d & On & Oc) _].
  pose proof (on_reach _ _ _ _ Hw On) as Rn. pose proof (on_reach _ _ _ _ Hw Oc) as Rc.
  pose proof (wf_lvl _ Hw _ _ Rn) as L1. pose proof (wf_lvl _ Hw _ _ Rc) as L2.
  assert (Ln : lvl (h s n) <> O) by lia.
  pose proof (rd_thr s s' n c l parts lower E) as Et.
  assert (Ta : forall j, thr_at s' j = thr_at s j) by (intros j; unfold thr_at; now rewrite Et).
  assert (HH : H s' = H s).
  { rewrite (rd_root s s' n c l parts lower E). apply (rd_H s s' Hw d n c l parts lower Hf Rn Ln E). }
  assert (On' : forall k e x, on s k e x -> ~ In x (c :: l) -> on s' k e x).
  { intros k e x [A B] N. split; [rewrite HH; assumption|]. eapply (rd_walk s s' Hw d n c l parts lower); eassumption. }
  assert (Hc : forall x, In x (c :: l) -> In (x, W) (holds (thr_at s i))).
  { intros x Hx'. rewrite Ei. cbn. destruct Hx' as [<-|Hx']; [auto|]. right. right. apply in_map_iff. eauto. }
  assert (Nh : forall j x m, j <> i -> In (x, m) (holds (thr_at s j)) -> ~ In x (c :: l)).
  { intros j x m Nj Hj Ho. destruct (Hx i j x W m); auto. discriminate. }
  assert (Nn : ~ In n (c :: l)).
  { intros Ho. apply (rd_olds_reach s s' d n c l parts lower Rn Ln E) in Ho. pose proof (reach_uniq _ Hw _ _ _ Rn Ho). lia. }
  assert (Gn : forall x, (gen s x <= gen s' x)%nat).
  { intros x. rewrite (rd_gen s s' n c l parts lower E). destruct ((x =? n) || (x =? c)); lia. }
  assert (Dn : forall x, dead s x = true -> dead s' x = true).
  { intros x D. rewrite (rd_dead s s' n c l parts lower E), D. reflexivity. }
  assert (Sl : forall x g, stale s x g -> stale s' x g).
  { intros x g [D|D]; [left; auto|right]. pose proof (Gn x). lia. }
  assert (So : forall x g, In x (c :: l) -> (g <= gen s x)%nat -> stale s' x g).
  { intros x g [<-|Ho] Lg.
    - right. rewrite (rd_gen s s' n c l parts lower E), Z.eqb_refl, orb_true_r. lia.
    - left. rewrite (rd_dead s s' n c l parts lower E). apply orb_true_iff. right. apply existsb_exists. exists x. split; [assumption|apply Z.eqb_refl]. }
  split; [|split; [|split; [exact Et|split]]].
  - split; [split; [exact (rd_wf s s' Hw d n c l parts lower Hf Rn Ln E)|exact (rd_fresh s s' Hw d n c l parts lower Hf Rn Ln E)]|]. split.
    + intros a b x m m'. rewrite !Ta. apply Hx.
    + intros j Nj. rewrite Ta. specialize (Hp j). specialize (fun x m => Nh j x m Nj).
      assert (Up' : forall o' x y g g', upok s o' x y g g' -> upok s' o' x y g g').
      { intros o' x y g g' (C1 & C2 & C3 & C4 & C5 & C6). pose proof (Gn x). pose proof (Gn y).
        unfold upok. rewrite !(rd_lvl s s' Hw d n c l parts lower Hf Rn Ln E) by assumption.
        rewrite (rd_next s s' n c l parts lower E). ands; auto; try lia.
        destruct C6 as [C6|[C6|C6]]; auto.
        destruct (in_dec Z.eq_dec x (c :: l)) as [Ox|Ox]; [left; auto|].
        destruct (in_dec Z.eq_dec y (c :: l)) as [Oy|Oy]; [right; left; auto|]. right; right.
        destruct C6 as (e & D1 & D2). exists e. auto. }
      destruct (thr_at s j) as [| |o' x m|o' x m y m'| | |o' x y l' todo| |] eqn:Ej; cbn [pcok holds] in *; auto.
      * destruct Hp as (e & C). exists e. apply On'; [assumption|]. apply (Nh x m). left. reflexivity.
      * destruct Hp as (e & C1 & C2). exists e. split; apply On'; auto; [apply (Nh x m)|apply (Nh y m')]; cbn; auto.
      * destruct Hp as [(e & C1 & C2) (q & C3)]. 
        assert (Ox : ~ In x (c :: l)) by (apply (Nh x W); cbn; auto).
        assert (Oy : ~ In y (c :: l)) by (apply (Nh y W); cbn; auto).
        split; [exists e; auto|]. exists q. rewrite C3.
        rewrite (rd_same s s' Hw n c l parts lower Hf Ln E e x); [reflexivity|eapply on_reach; eassumption| |assumption].
        intros ->. destruct (Hx i j n W W) as [F _]; [auto|rewrite Ei; left; reflexivity|rewrite Ej; left; reflexivity|discriminate F].
  - intros k. eapply (rd_value s s' Hw d n c l parts lower); eassumption.
  - exists d. apply On'; assumption.
  - intros x Nx. destruct (Z.eq_dec x n) as [->|N]; [now left|]. right.
    destruct (in_dec Z.eq_dec x (c :: ids (next s) (length parts - 1))) as [Hi|Hi].
    + destruct Hi as [<-|Hi]; [left; left; reflexivity|]. apply ids_in in Hi. right. lia.
    + exfalso. apply Nx. eapply (rd_h_other s s' n c l parts lower); eassumption.
Qed.

(** ** One step *)
Definition no_effect (e : list event) : Prop := effects e = [].

Lemma inv_goto_step : forall s i p e s' es, inv s -> thr_at s i <> Idle -> pcok s p ->
  (forall n m, In (n, m) (holds p) -> In (n, m) (holds (thr_at s i)) \/ free s i n m = true) ->
  effects e = [] -> Some (goto s i p, e) = Some (s', es) ->
  inv s' /\ effects es = [] /\ (forall k, value s' k = value s k).
Proof.
  intros s i p e s' es I N P Hh Ee E. injection E as <- <-. split; [|split; [assumption|reflexivity]].
  apply goto_inv; auto using inv_inv0, busy_len.
Qed.
Lemma firstn_from : forall c (x : list ent) q t, In t (map snd (firstn q (tl (from c x)))) -> In t (map snd x).
Proof.
  intros c x q t Ht. apply in_map_iff in Ht as (e & <- & He). apply in_map.
  assert (H1 : In e (tl (from c x))).
  { rewrite <- (firstn_skipn q (tl (from c x))), in_app_iff. now left. }
  rewrite (before_from c x), in_app_iff. right. destruct (from c x); [destruct H1|right; exact H1].
Qed.

Lemma step_ok : forall s i ch s' es, inv s -> step s i ch = Some (s', es) ->
  inv s' /\ ((effects es = [] /\ forall k, value s' k = value s k)
             \/ exists o r, es = [Lin i o r] /\ snd (apply o (value s)) = r /\ forall k, value s' k = fst (apply o (value s)) k).
Proof.
  intros s i ch s' es I E.
  pose proof I as ((Hw & Hf) & Hx & Hp). pose proof (Hp i) as Pi. unfold step in E.
  assert (G : forall p e, thr_at s i <> Idle -> pcok s p ->
     (forall n m, In (n, m) (holds p) -> In (n, m) (holds (thr_at s i)) \/ free s i n m = true) ->
     effects e = [] -> Some (goto s i p, e) = Some (s', es) ->
     inv s' /\ ((effects es = [] /\ forall k, value s' k = value s k)
             \/ exists o r, es = [Lin i o r] /\ snd (apply o (value s)) = r /\ forall k, value s' k = fst (apply o (value s)) k)).
  { intros p e N P Hh Ee E'. destruct (inv_goto_step _ _ _ _ _ _ I N P Hh Ee E') as (A & B & C). auto. }
  destruct (thr_at s i) as [|o m|o n m|o n m c mc|o n c gn gc|o n c gn gc|o n c l todo|o m|o r] eqn:Ei.
  - destruct ch as [|o'| | | | |]; try discriminate. destruct (Nat.ltb_spec i (length (thr s))) as [L|]; [|discriminate].
    injection E as <- <-. split; [|left; split; reflexivity].
    apply goto_inv; auto using inv_inv0; try exact Logic.I; cbn; tauto.
  - destruct ch; try discriminate. destruct (free s i (root s) m) eqn:Fr; [|discriminate].
    eapply G; [discriminate| | | |exact E]; [exists O; split; [lia|reflexivity]| |reflexivity].
    intros x y [[= <- <-]|[]]. now right.
  - destruct ch; try discriminate.
    + destruct (lvl (h s n)) as [|L] eqn:Ln.
      * assert (Lin_case : (let '(l, r, changed) := leaf_op o (ents (h s n)) in
              Some (goto (set_leaf s n l changed) i (Done o r), [Lin i o r])) = Some (s', es) ->
            inv s' /\ ((effects es = [] /\ forall k, value s' k = value s k)
             \/ exists o r, es = [Lin i o r] /\ snd (apply o (value s)) = r /\ forall k, value s' k = fst (apply o (value s)) k)).
        { destruct (leaf_op o (ents (h s n))) as [[l r] ch] eqn:El. intros E'. injection E' as <- <-.
          destruct (set_leaf_inv s i o n m I Ei Ln l r ch El) as (A & B & C).
          split; [apply goto_inv; [assumption|apply busy_len; change (thr_at s i <> Idle); rewrite Ei; discriminate|exact Logic.I|cbn; tauto]|].
          right. exists o, r. split; [reflexivity|]. split; [assumption|]. exact C. }
        destruct (is_get o) eqn:Eg; destruct m; try (exact (Lin_case E)).
        eapply G; [discriminate| | | |exact E]; [exact Logic.I|cbn; tauto|reflexivity].
      * destruct (pick (key o) (ents (h s n))) as [[b c]|] eqn:Ek; [|discriminate].
        destruct (free s i c (child_mode o (lvl (h s c)))) eqn:Fr; [|discriminate].
        cbn [pcok] in Pi. destruct Pi as (d & Hd & Wd).
        pose proof (wf_lvl _ Hw _ _ (walk_reach _ Hw _ _ _ Wd Hd)) as Ld.
        eapply G; [discriminate| | | |exact E]; [|cbn|reflexivity].
        -- exists d. split; [split; assumption|]. split; [lia|]. cbn. rewrite Wd, Ek. reflexivity.
        -- intros x y [Exy|[Exy|[]]]; injection Exy as <- <-; auto.
    + destruct (negb (is_get o) && (n =? root s)); [|discriminate].
      eapply G; [discriminate| | | |exact E]; [exact Logic.I|cbn; tauto|reflexivity].
  - destruct ch; try discriminate.
    + destruct Pi as (d & P1 & P2). eapply G; [discriminate| | | |exact E]; [exists (S d); exact P2| |reflexivity].
      cbn. intros x y [Exy|[]]. injection Exy as <- <-. auto.
    + destruct (is_get o); [discriminate|]. eapply G; [discriminate| | | |exact E]; [|cbn; tauto|reflexivity].
      cbn [pcok] in *. destruct (path_lvl _ _ _ _ Hw Pi) as (L1 & L2 & L3). unfold upok. ands; auto.
  - destruct ch; try discriminate. destruct (free s i n W) eqn:Fr; [|discriminate].
    eapply G; [discriminate| | | |exact E]; [exact Pi| |reflexivity]. cbn. intros x y [Exy|[]]. injection Exy as <- <-. auto.
  - destruct ch; try discriminate. destruct (free s i c W) eqn:Fr; [|discriminate].
    destruct (dead s n || negb (Nat.eqb gn (gen s n)) || dead s c || negb (Nat.eqb gc (gen s c))) eqn:Ev.
    + eapply G; [discriminate| | | |exact E]; [exact Logic.I|cbn; tauto|reflexivity].
    + apply orb_false_iff in Ev as [Ev V4]. apply orb_false_iff in Ev as [Ev V3]. apply orb_false_iff in Ev as [V1 V2].
      apply negb_false_iff, Nat.eqb_eq in V2, V4.
      eapply G; [discriminate| | | |exact E]; [|cbn|reflexivity].
      * cbn [pcok] in *. destruct Pi as (C1 & C2 & C3 & C4 & C5 & [[D|D]|[[D|D]|D]]); try congruence; try lia.
        split; [assumption|]. exists q. reflexivity.
      * intros x y [Exy|[Exy|[]]]; injection Exy as <- <-; auto.
  - destruct todo as [|t todo]; destruct ch; try discriminate.
    + destruct Pi as [(d & P1 & P2) _]. eapply G; [discriminate| | | |exact E]; [exists (S d); exact P2| |reflexivity].
      cbn. intros x y [Exy|[]]. injection Exy as <- <-. auto.
    + destruct (restructure s n c l parts lower) as [s1|] eqn:Er; [|discriminate]. injection E as <- <-.
      destruct (redo_inv _ _ _ _ _ _ _ _ _ I Ei Er) as (A & B & C & D & F).
      assert (Et : thr_at s1 i = thr_at s i) by (unfold thr_at; now rewrite C).
      split; [|left; split; [reflexivity|exact B]].
      apply goto_inv; auto; [apply busy_len; rewrite Et, Ei; discriminate|]. rewrite Et, Ei. cbn.
      intros x y [Exy|[]]. injection Exy as <- <-. auto.
    + destruct (free s i t W) eqn:Fr; [|discriminate]. eapply G; [discriminate| | | |exact E]; [| |reflexivity].
      * cbn [pcok] in *. destruct Pi as [P1 (q & P2)]. split; [assumption|]. exists q. rewrite <- app_assoc. exact P2.
      * cbn. intros x y [Exy|[Exy|Hxy]]; [injection Exy as <- <-; auto|injection Exy as <- <-; auto|].
        rewrite map_app, in_app_iff in Hxy. destruct Hxy as [Hxy|[Exy|[]]]; [auto|]. injection Exy as <- <-. auto.
  - destruct (forallb (fun p => negb (holds_shared p)) (others s i)) eqn:Eo; [|destruct ch; discriminate].
    assert (Out : forall j, j <> i -> holds_shared (thr_at s j) = false).
    { intros j Nj. destruct (Nat.lt_ge_cases j (length (thr s))) as [L|L].
      - rewrite forallb_forall in Eo. apply negb_true_iff. apply Eo. apply in_others. eauto.
      - unfold thr_at. rewrite nth_overflow by assumption. reflexivity. }
    assert (New : forall s1, wf s1 /\ (forall x, next s1 <= x -> dead s1 x = false) /\ (forall k, value s1 k = value s k) /\ thr s1 = thr s ->
        inv (goto s1 i (Start o m)) /\ (forall k, value (goto s1 i (Start o m)) k = value s k)).
    { intros s1 (A & B & C & D). split; [|exact C].
      assert (Et : forall j, thr_at s1 j = thr_at s j) by (intros j; unfold thr_at; now rewrite D).
      apply goto_inv; [|apply busy_len; rewrite Et, Ei; discriminate|exact Logic.I|cbn; tauto].
      split; [split; assumption|]. split.
      - intros a b x y z. rewrite !Et. apply Hx.
      - intros j Nj. rewrite Et. pose proof (Out j Nj) as Oj. destruct (thr_at s j); try discriminate; exact Logic.I. }
    destruct ch; try discriminate.
    + eapply G; [discriminate| | | |exact E]; [exact Logic.I|cbn; tauto|reflexivity].
    + destruct (grow s parts) as [s1|] eqn:Eg; [|discriminate]. cbn in E. injection E as <- <-.
      destruct (New s1) as [A B]; [eapply grow_ok; eassumption|]. auto.
    + destruct (collapse s) as [s1|] eqn:Eg; [|discriminate]. cbn in E. injection E as <- <-.
      destruct (New s1) as [A B]; [eapply collapse_ok; eassumption|]. auto.
  - destruct ch; try discriminate. eapply G; [discriminate| | | |exact E]; [exact Logic.I|cbn; tauto|reflexivity].
Qed.

(** ** Runs *)
Lemma apply_ext : forall o m m', (forall k, m k = m' k) -> snd (apply o m) = snd (apply o m') /\ forall k, fst (apply o m) k = fst (apply o m') k.
Proof.
  intros o m m' Em. destruct o as [k|[] k v|k]; cbn; rewrite <- (Em k); destruct (m k); cbn; split; auto; intros k'; unfold set;
    destruct (k' =? k); auto.
Qed.
Lemma sequence_ext : forall m l m', sequence m l m' -> forall m1, (forall k, m1 k = m k) -> sequence m1 l m'.
Proof.
  induction 1 as [m m' Em|m o l m' Hs IH]; intros m1 E1.
  - constructor. intros k. now rewrite E1.
  - destruct (apply_ext o m1 m E1) as [A B]. rewrite <- A. constructor. apply IH. exact B.
Qed.
Lemma effects_app : forall a b, effects (a ++ b) = effects a ++ effects b.
Proof. intros. unfold effects. apply flat_map_app. Qed.
Lemma run_ok : forall l s s' es, inv s -> run s l = Some (s', es) -> inv s' /\ sequence (value s) (effects es) (value s').
Proof.
  induction l as [|[i ch] l IH]; intros s s' es I E; cbn in E.
  - injection E as <- <-. split; [assumption|]. constructor. reflexivity.
  - destruct (step s i ch) as [[s1 e]|] eqn:Es; [|discriminate].
    destruct (run s1 l) as [[s2 es2]|] eqn:Er; [|discriminate]. injection E as <- <-.
    destruct (step_ok _ _ _ _ _ I Es) as [I1 C]. destruct (IH _ _ _ I1 Er) as [I2 Q]. split; [assumption|].
    rewrite effects_app. destruct C as [[E0 V]|(o & r & -> & <- & V)].
    + rewrite E0. cbn. eapply sequence_ext; [exact Q|]. intros k. symmetry. apply V.
    + cbn [effects flat_map app]. constructor. eapply sequence_ext; [exact Q|]. intros k. symmetry. apply V.
Qed.

Definition phase_of (p : pc) : phase :=
  match p with
  | Idle => Out
  | Done o r => Took o r
  | Start o _ | At o _ _ | Both o _ _ _ _ | Up o _ _ _ _ | Up1 o _ _ _ _ | Ready o _ _ _ _ | RootEx o _ => Called o
  end.
Lemma step_len : forall s i ch s' es, step s i ch = Some (s', es) -> (i < length (thr s))%nat.
Proof.
  intros s i ch s' es E. destruct (Nat.lt_ge_cases i (length (thr s))) as [L|L]; [assumption|]. exfalso.
  unfold step in E. unfold thr_at in E. rewrite nth_overflow in E by assumption. destruct ch; try discriminate.
  apply Nat.ltb_ge in L. rewrite L in E. discriminate.
Qed.
(** what a step does to the threads and says *)
Lemma step_thr : forall s i ch s' es, step s i ch = Some (s', es) ->
  exists p, thr s' = upd i p (thr s) /\
  ((es = [] /\ phase_of p = phase_of (thr_at s i))
   \/ (exists o, es = [Inv i o] /\ thr_at s i = Idle /\ phase_of p = Called o)
   \/ (exists o r, es = [Lin i o r] /\ phase_of (thr_at s i) = Called o /\ p = Done o r)
   \/ (exists o r, es = [Ret i o r] /\ thr_at s i = Done o r /\ p = Idle)).
Proof.
  intros s i ch s' es E. unfold step in E.
  assert (Gg : forall parts s1, grow s parts = Some s1 -> thr s1 = thr s).
  { intros parts s1 Eg. apply rd_thr in Eg. exact Eg. }
  destruct (thr_at s i) as [|o m|o n m|o n m c mc|o n c gn gc|o n c gn gc|o n c l todo|o m|o r] eqn:Ei.
  all: repeat match type of E with
    | Some _ = Some _ => injection E as <- <-
    | None = Some _ => discriminate E
    | context [match leaf_op ?a ?b with _ => _ end] => destruct (leaf_op a b) as [[? ?] ?]
    | option_map _ (grow _ _) = _ => let G := fresh "Eg" in destruct (grow s parts) eqn:G; cbn in E
    | option_map _ (collapse _) = _ => let G := fresh "Ec" in destruct (collapse s) eqn:G; cbn in E
    | context [match restructure ?a ?b ?c ?d ?e ?f with _ => _ end] => let G := fresh "Er" in destruct (restructure a b c d e f) eqn:G
    | context [match ?x with _ => _ end] => destruct x
    end.
  all: eexists; (split; [cbn [goto thr set_leaf]; first [reflexivity
      |match goal with Er : restructure _ _ _ _ _ _ = Some _ |- _ => rewrite (rd_thr _ _ _ _ _ _ _ Er); reflexivity end
      |match goal with Eg : grow _ _ = Some _ |- _ => rewrite (Gg _ _ Eg); reflexivity end
      |match goal with Ec : collapse _ = Some _ |- _ => unfold collapse in Ec; destruct (lvl _); [discriminate|]; destruct (ents _) as [|[[?|] ?] [|]]; try discriminate; injection Ec as <-; reflexivity end]|]).
  all: try (left; split; reflexivity).
  all: try (right; left; eexists; split; [reflexivity|split; reflexivity]).
  all: try (right; right; left; eexists _, _; split; [reflexivity|split; reflexivity]).
  all: try (right; right; right; eexists _, _; split; [reflexivity|split; reflexivity]).
Qed.
Lemma run_history : forall l s s' es es0, run s l = Some (s', es) -> (forall i, history i (phase_of (thr_at s i)) es0) ->
  forall i, history i (phase_of (thr_at s' i)) (es0 ++ es).
Proof.
  induction l as [|[j ch] l IH]; intros s s' es es0 E Hh; cbn in E.
  - injection E as <- <-. intros i. rewrite app_nil_r. apply Hh.
  - destruct (step s j ch) as [[s1 e]|] eqn:Es; [|discriminate].
    destruct (run s1 l) as [[s2 es2]|] eqn:Er; [|discriminate]. injection E as <- <-.
    rewrite app_assoc. intros i. refine (IH s1 s2 es2 (es0 ++ e) Er _ i). clear i. intros i.
    pose proof (step_len _ _ _ _ _ Es) as Lj. destruct (step_thr _ _ _ _ _ Es) as (p & Et & C).
    assert (Ti : thr_at s1 i = if (j =? i)%nat then p else thr_at s i).
    { unfold thr_at. rewrite Et, nth_upd. apply Nat.ltb_lt in Lj as ->. now rewrite andb_true_r. }
    rewrite Ti. specialize (Hh i). destruct (Nat.eqb_spec j i) as [->|N].
    + destruct C as [[-> ->]|[(o & -> & C1 & ->)|[(o & r & -> & C1 & ->)|(o & r & -> & C1 & ->)]]].
      * now rewrite app_nil_r.
      * rewrite C1 in Hh. constructor. exact Hh.
      * rewrite C1 in Hh. constructor. exact Hh.
      * rewrite C1 in Hh. cbn. apply HRet. exact Hh.
    + destruct C as [[-> _]|[(o & -> & _)|[(o & r & -> & _)|(o & r & -> & _)]]]; [now rewrite app_nil_r|..]; apply HOther; auto.
Qed.

(** ** Who changes what *)
Lemma node_eta : forall n, Nd (lvl n) (ents n) = n.
Proof. now intros []. Qed.
Lemma step_writes : forall s i ch s' es x, inv s -> step s i ch = Some (s', es) -> h s' x <> h s x -> x < next s ->
  In (x, W) (holds (thr_at s i))
  \/ (exists o m, thr_at s i = RootEx o m) /\ forall j, j <> i -> holds_shared (thr_at s j) = false.
Proof.
  intros s i ch s' es x I E Nx Lx. unfold step in E.
  destruct (thr_at s i) as [|o m|o n m|o n m c mc|o n c gn gc|o n c gn gc|o n c l todo|o m|o r] eqn:Ei.
  - destruct ch; try discriminate. destruct (i <? length (thr s))%nat; [|discriminate]. injection E as <- _. now elim Nx.
  - destruct ch; try discriminate. destruct (free s i (root s) m); [|discriminate]. injection E as <- _. now elim Nx.
  - left. destruct ch; try discriminate; [|destruct (negb (is_get o) && (n =? root s)); [|discriminate]; injection E as <- _; now elim Nx].
    destruct (lvl (h s n)) as [|L] eqn:Ln.
    + destruct (is_get o) eqn:Eg; [|destruct m].
      * destruct o as [k| |]; try discriminate. cbn [leaf_op] in E.
        assert (G : forall r, Some (goto (set_leaf s n (ents (h s n)) false) i (Done (Get k) r), [Lin i (Get k) r]) = Some (s', es) -> In (x, W) [(n, m)]).
        { intros r E'. injection E' as <- _. elim Nx. cbn. destruct (Z.eqb_spec x n) as [->|]; [apply node_eta|reflexivity]. }
        destruct m; eapply G; exact E.
      * injection E as <- _. now elim Nx.
      * destruct (leaf_op o (ents (h s n))) as [[l r] ch]. injection E as <- _. cbn in Nx.
        destruct (Z.eqb_spec x n) as [->|]; [left; reflexivity|now elim Nx].
    + destruct (pick (key o) (ents (h s n))) as [[b c]|]; [|discriminate].
      destruct (free s i c (child_mode o (lvl (h s c)))); [|discriminate]. injection E as <- _. now elim Nx.
  - destruct ch; try discriminate; [|destruct (is_get o); [discriminate|]]; injection E as <- _; now elim Nx.
  - destruct ch; try discriminate. destruct (free s i n W); [|discriminate]. injection E as <- _. now elim Nx.
  - destruct ch; try discriminate. destruct (free s i c W); [|discriminate].
    destruct (dead s n || negb (Nat.eqb gn (gen s n)) || dead s c || negb (Nat.eqb gc (gen s c))); injection E as <- _; now elim Nx.
  - left. destruct todo as [|t todo]; destruct ch; try discriminate.
    + injection E as <- _. now elim Nx.
    + destruct (restructure s n c l parts lower) as [s1|] eqn:Er; [|discriminate]. injection E as <- _.
      destruct (redo_inv _ _ _ _ _ _ _ _ _ I Ei Er) as (_ & _ & _ & _ & F).
      destruct (F x Nx) as [->|[[<-|Hl]|F']]; [left; reflexivity|right; left; reflexivity| |lia].
      right; right. apply in_map_iff. eauto.
    + destruct (free s i t W); [|discriminate]. injection E as <- _. now elim Nx.
  - right. split; [eauto|]. destruct (forallb (fun p => negb (holds_shared p)) (others s i)) eqn:Eo; [|destruct ch; discriminate].
    intros j Nj. destruct (Nat.lt_ge_cases j (length (thr s))) as [L|L].
    + rewrite forallb_forall in Eo. apply negb_true_iff. apply Eo. apply in_others. eauto.
    + unfold thr_at. rewrite nth_overflow by assumption. reflexivity.
  - destruct ch; try discriminate. injection E as <- _. now elim Nx.
Qed.

(** ** Nobody waits for ever *)
Definition can (s : st) : Prop := exists j ch, thr_at s j <> Idle /\ step s j ch <> None.

Lemma forallb_false : forall A (f : A -> bool) l, forallb f l = false -> exists x, In x l /\ f x = false.
Proof.
  induction l as [|y l IH]; cbn; intros E; [discriminate|]. destruct (f y) eqn:F; [|exists y; auto].
  destruct (IH E) as (x & A1 & A2). exists x. auto.
Qed.
Lemma free_false : forall s i n m, free s i n m = false -> exists j m', j <> i /\ In (n, m') (holds (thr_at s j)) /\ compat m m' = false.
Proof.
  intros s i n m E. unfold free in E. apply forallb_false in E as (p & Hp & E). apply forallb_false in E as ([x m'] & Hx & E).
  apply in_others in Hp as (j & N & _ & <-). cbn in E. apply orb_false_iff in E as [E1 E2].
  apply negb_false_iff, Z.eqb_eq in E1. subst x. eauto.
Qed.
Definition rank (s : st) (p : pc) : nat :=
  match p with
  | At _ n _ | Up1 _ n _ _ _ => 2 * lvl (h s n) + 1
  | Ready _ n _ _ _ => 2 * lvl (h s n)
  | _ => 0
  end.
Lemma path_child : forall s o n c, wf s -> path s o n c -> exists d b, rch s d n /\ lvl (h s n) <> O /\ In (b, c) (ents (h s n)).
Proof.
  intros s o n c Hw P. destruct (path_lvl _ _ _ _ Hw P) as (L & _). destruct P as (d & A & [B1 B2]).
  pose proof (on_reach _ _ _ _ Hw A) as Ra. destruct A as [A1 A2]. cbn in B2. rewrite A2 in B2.
  destruct (pick (key o) (ents (h s n))) as [[b c']|] eqn:Ek; [|discriminate]. injection B2 as ->.
  exists d, b. split; [assumption|]. split; [lia|]. eapply pick_in; eassumption.
Qed.
(** what a waiting thread with [Ready] has below its parent *)
Lemma ready_child : forall s o n c l todo x, wf s -> pcok s (Ready o n c l todo) -> In x (c :: l ++ todo) ->
  exists d b, rch s d n /\ lvl (h s n) = S (lvl (h s x)) /\ In (b, x) (ents (h s n)).
Proof.
  intros s o n c l todo x Hw [P (q & Eq)] Hx. destruct (path_child _ _ _ _ Hw P) as (d & b & Rn & Ln & Hc).
  assert (exists b, In (b, x) (ents (h s n))) as (b' & Hb).
  { destruct Hx as [<-|Hx]; [eauto|]. rewrite Eq in Hx. apply firstn_from in Hx.
    apply in_map_iff in Hx as ([b' x'] & <- & Hx). eauto. }
  exists d, b'. split; [assumption|]. split; [|assumption].
  assert (Rx : rch s (S d) x) by (econstructor; eassumption).
  pose proof (wf_lvl _ Hw _ _ Rn). pose proof (wf_lvl _ Hw _ _ Rx). lia.
Qed.

Lemma holder_can : forall s, inv s -> forall N q x m, In (x, m) (holds (thr_at s q)) -> (rank s (thr_at s q) < N)%nat -> can s.
Proof.
  intros s I. pose proof I as ((Hw & Hf) & Hx & Hp).
  induction N as [|N IH]; intros q x m Hq Hr; [lia|].
  (* a holder of a child of n, other than by a split or merge under n *)
  assert (Next : forall q' y m' n, lvl (h s n) = S (lvl (h s y)) -> In (y, m') (holds (thr_at s q')) ->
     (2 * lvl (h s n) <= rank s (thr_at s q))%nat ->
     (forall o' n' c' l' todo', thr_at s q' = Ready o' n' c' l' todo' -> In y (c' :: l') -> (2 * lvl (h s n) < rank s (thr_at s q))%nat) -> can s).
  { intros q' y m' n Ln Hy Rk Rdy. pose proof (Hp q') as Pq'.
    destruct (thr_at s q') as [|o' m1|o' n' m1|o' n' m1 c' mc'|o' n' c' gn' gc'|o' n' c' gn' gc'|o' n' c' l' todo'|o' m1|o' r'] eqn:Eq';
      cbn [holds] in Hy; try (now destruct Hy).
    - destruct Hy as [Hy|[]]. injection Hy as -> ->. apply (IH q' y m'); rewrite Eq'; [left; reflexivity|]. cbn [rank]. lia.
    - exists q', Go. rewrite Eq'. split; [discriminate|]. unfold step. rewrite Eq'. discriminate.
    - destruct Hy as [Hy|[]]. injection Hy as -> <-. apply (IH q' y W); rewrite Eq'; [left; reflexivity|]. cbn [rank]. lia.
    - apply (IH q' n' W); rewrite Eq'; [left; reflexivity|]. cbn [rank].
      destruct Hy as [Hy|Hy]; [injection Hy as -> <-; lia|].
      assert (Hy' : In y (c' :: l')).
      { destruct Hy as [Hy|Hy]; [injection Hy as <- _; now left|]. right. apply in_map_iff in Hy as (u & Eu & Hu). injection Eu as <- _. exact Hu. }
      pose proof (Rdy _ _ _ _ _ eq_refl Hy').
      destruct (ready_child s o' n' c' l' todo' y Hw Pq') as (d & b & _ & L' & _).
      { rewrite app_comm_cons, in_app_iff. now left. }
      lia. }
  pose proof (Hp q) as Pq.
  destruct (thr_at s q) as [|o m1|o n m1|o n m1 c mc|o n c gn gc|o n c gn gc|o n c l todo|o m1|o r] eqn:Eq; cbn [holds] in Hq; try (now destruct Hq).
  - (* At *)
    destruct (lvl (h s n)) as [|L] eqn:Ln.
    + exists q, Go. rewrite Eq. split; [discriminate|]. unfold step. rewrite Eq, Ln.
      destruct (is_get o), m1; try discriminate; destruct (leaf_op o (ents (h s n))) as [[? ?] ?]; discriminate.
    + destruct Pq as (d & Hd & Wd). destruct (pick_total _ Hw _ _ _ Wd Hd) as (b & c & Ek & Wc); [lia|].
      destruct (free s q c (child_mode o (lvl (h s c)))) eqn:Fr.
      * exists q, Go. rewrite Eq. split; [discriminate|]. unfold step. rewrite Eq, Ln, Ek, Fr. discriminate.
      * apply free_false in Fr as (q' & m' & Nq & Hq' & _).
        pose proof (walk_reach _ Hw _ _ _ Wd Hd) as Rn. pose proof (wf_lvl _ Hw _ _ Rn).
        pose proof (walk_reach _ Hw _ _ _ Wc ltac:(lia)) as Rc. pose proof (wf_lvl _ Hw _ _ Rc).
        apply (Next q' c m' n); [lia|assumption|cbn [rank]; lia|cbn [rank]; lia].
  - exists q, Go. rewrite Eq. split; [discriminate|]. unfold step. rewrite Eq. discriminate.
  - (* Up1 *)
    destruct (free s q c W) eqn:Fr.
    + exists q, (Siblings 0). rewrite Eq. split; [discriminate|]. unfold step. rewrite Eq, Fr.
      destruct (dead s n || negb (Nat.eqb gn (gen s n)) || dead s c || negb (Nat.eqb gc (gen s c))); discriminate.
    + apply free_false in Fr as (q' & m' & Nq & Hq' & _). destruct Pq as (_ & _ & _ & _ & L & _).
      apply (Next q' c m' n); [lia|assumption|cbn [rank]; lia|cbn [rank]; lia].
  - (* Ready *)
    destruct todo as [|t todo].
    + exists q, Go. rewrite Eq. split; [discriminate|]. unfold step. rewrite Eq. discriminate.
    + destruct (free s q t W) eqn:Fr.
      * exists q, Go. rewrite Eq. split; [discriminate|]. unfold step. rewrite Eq, Fr. discriminate.
      * apply free_false in Fr as (q' & m' & Nq & Hq' & _).
        destruct (ready_child s o n c l (t :: todo) t Hw Pq) as (d & b & Rn & Ln & Ht).
        { right. rewrite in_app_iff. right. left. reflexivity. }
        apply (Next q' t m' n); [lia|assumption|cbn [rank]; lia|].
        intros o' n' c' l' todo' Eq' Hy. exfalso.
        pose proof (Hp q') as Pq'. rewrite Eq' in Pq'.
        destruct (ready_child s o' n' c' l' todo' t Hw Pq') as (d' & b' & Rn' & Ln' & Ht').
        { rewrite app_comm_cons, in_app_iff. now left. }
        pose proof (wf_lvl _ Hw _ _ Rn). pose proof (wf_lvl _ Hw _ _ Rn'). assert (d' = d) by lia. subst d'.
        assert (n' = n) by (eapply (wf_parent _ Hw d n' n b' b t); eauto; lia). subst n'.
        destruct (Hx q q' n W W) as [F _]; [auto|rewrite Eq; left; reflexivity|rewrite Eq'; left; reflexivity|discriminate F].
Qed.
Lemma shared_can : forall s i, inv s -> holds_shared (thr_at s i) = true -> can s.
Proof.
  intros s i I Hs.
  assert (Hol : forall q x m, In (x, m) (holds (thr_at s q)) -> can s).
  { intros q x m Hq. eapply (holder_can s I (S (rank s (thr_at s q)))); [exact Hq|lia]. }
  destruct (thr_at s i) as [|o m|o n m|o n m c mc|o n c gn gc|o n c gn gc|o n c l todo|o m|o r] eqn:Ei; try discriminate.
  - destruct (free s i (root s) m) eqn:Fr.
    + exists i, Go. rewrite Ei. split; [discriminate|]. unfold step. rewrite Ei, Fr. discriminate.
    + apply free_false in Fr as (q & m' & _ & Hq & _). eauto.
  - apply (Hol i n m). rewrite Ei. left. reflexivity.
  - apply (Hol i n m). rewrite Ei. left. reflexivity.
  - destruct (free s i n W) eqn:Fr.
    + exists i, Go. rewrite Ei. split; [discriminate|]. unfold step. rewrite Ei, Fr. discriminate.
    + apply free_false in Fr as (q & m' & _ & Hq & _). eauto.
  - apply (Hol i n W). rewrite Ei. left. reflexivity.
  - apply (Hol i n W). rewrite Ei. left. reflexivity.
Qed.
Lemma busy_can : forall s i, inv s -> thr_at s i <> Idle -> can s.
Proof.
  intros s i I N. destruct (holds_shared (thr_at s i)) eqn:Hs; [eapply shared_can; eassumption|].
  destruct (thr_at s i) as [|o m|o n m|o n m c mc|o n c gn gc|o n c gn gc|o n c l todo|o m|o r] eqn:Ei; try discriminate; [tauto| |].
  - destruct (forallb (fun p => negb (holds_shared p)) (others s i)) eqn:Eo.
    + exists i, Go. rewrite Ei. split; [discriminate|]. unfold step. rewrite Ei, Eo. discriminate.
    + apply forallb_false in Eo as (p & Hp & Eo). apply in_others in Hp as (j & _ & _ & <-). apply negb_false_iff in Eo.
      eapply shared_can; eassumption.
  - exists i, Go. rewrite Ei. split; [discriminate|]. unfold step. rewrite Ei. discriminate.
Qed.

Lemma idle_inv : forall s, tree s -> idle s -> inv s.
Proof.
  intros s T Id. split; [assumption|]. split.
  - intros i j n m m' _ Hi. rewrite Id in Hi. destruct Hi.
  - intros j. rewrite Id. exact Logic.I.
Qed.
