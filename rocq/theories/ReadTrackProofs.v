From Coq Require Import ZArith NArith List Bool Arith Lia.
From Verif Require Import Base ReadTrackModel ReadTrackSpec.
Import ListNotations.

(** ** Records of an id *)
Lemma bases_in f c : forall cur last k, In k (bases f c cur last) <-> fst k = c /\ exists i : nat, i < f /\ snd k = (cur + N.of_nat i * per_rec)%N /\ (snd k <= last)%N.
Proof.
  unfold per_rec. induction f as [|f IH]; intros cur last k; cbn [bases]; [split; [intros []|intros (_ & i & H & _); lia]|].
  destruct (N.leb_spec cur last) as [H|H].
  - cbn [In]. rewrite IH. unfold per_rec. split.
    + intros [<-|(H1 & i & H2 & H3 & H4)]; cbn [fst snd]; [split; [reflexivity|]; exists 0; lia|]. split; [exact H1|]. exists (S i). lia.
    + intros (H1 & i & H2 & H3 & H4). destruct i as [|i]; [left; destruct k; cbn in *; f_equal; lia|]. right. split; [exact H1|]. exists i. lia.
  - split; [intros []|]. intros (H1 & i & H2 & H3 & H4). lia.
Qed.
Lemma bases_nodup f c : forall cur last, NoDup (bases f c cur last).
Proof.
  induction f as [|f IH]; intros cur last; cbn [bases]; [constructor|]. destruct (cur <=? last)%N; [|constructor]. constructor; [|apply IH]. rewrite bases_in. cbn [fst snd]. unfold per_rec. intros (_ & i & _ & H & _). lia.
Qed.
Lemma keys_nodup x : NoDup (keys x).
Proof. destruct x as [[c n] k]. apply bases_nodup. Qed.
(** The records of an id are those of its blocks. *)
Lemma keys_in x q : valid x -> (In q (keys x) <-> exists b, covers x b /\ q = (fst b, down (snd b))).
Proof.
  destruct x as [[c n] k]. unfold valid, keys, covers, down, per_rec. intro HK. rewrite bases_in. unfold per_rec. split.
  - intros (H1 & i & H2 & H3 & H4). destruct q as [qc qb]. cbn [fst snd] in *. subst qc.
    exists (c, if Nat.eqb i 0 then n else qb). cbn [fst snd]. destruct (Nat.eqb_spec i 0) as [->|HI].
    + split; [lia|]. f_equal. lia.
    + assert (qb = qb / 8 * 8)%N. { subst qb. replace (n / 8 * 8 + N.of_nat i * 8)%N with ((n / 8 + N.of_nat i) * 8)%N by lia. rewrite N.div_mul by lia. reflexivity. }
      split; [|f_equal; assumption]. split; [reflexivity|]. lia.
  - intros ([bc bb] & (H1 & H2) & ->). cbn [fst snd] in *. split; [exact H1|]. exists (N.to_nat (bb / 8 - n / 8)). lia.
Qed.
Lemma share_key x xs : valid x -> Forall valid xs -> share x xs -> exists k, In k (keys x) /\ In k (flat_map keys xs).
Proof.
  intros HX HF (y & b & HY & H1 & H2). rewrite Forall_forall in HF. exists (fst b, down (snd b)). split; [apply keys_in; [exact HX|eauto]|]. apply in_flat_map. exists y. split; [exact HY|]. apply keys_in; [auto|eauto].
Qed.
Lemma key_near x xs k : valid x -> Forall valid xs -> In k (keys x) -> In k (flat_map keys xs) -> near x xs.
Proof.
  intros HX HF H1 H2. rewrite Forall_forall in HF. apply in_flat_map in H2. destruct H2 as (y & HY & H2). apply keys_in in H1; [|exact HX]. apply keys_in in H2; [|auto]. destruct H1 as (b & B1 & B2), H2 as (b' & B3 & B4). exists y, b, b'.
  ands; auto; rewrite B2 in B4; injection B4 as E1 E2; [exact E1|]. unfold down, per_rec in E2. lia.
Qed.

(** ** The map *)
Lemma key_eqb_spec a b : reflect (a = b) (key_eqb a b).
Proof. destruct a as [a1 a2], b as [b1 b2]. unfold key_eqb. cbn. destruct (N.eqb_spec a1 b1), (N.eqb_spec a2 b2); cbn; constructor; congruence. Qed.
Lemma tfind_del k k' m : tfind k' (tdel k m) = if key_eqb k k' then None else tfind k' m.
Proof.
  unfold tdel. induction m as [|[q v] m IH]; cbn [filter fst tfind]; [destruct (key_eqb k k'); reflexivity|]. destruct (key_eqb_spec q k) as [->|H]; cbn [negb tfind]; [rewrite IH; destruct (key_eqb k k'); reflexivity|].
  rewrite IH. destruct (key_eqb_spec q k') as [->|]; [|reflexivity]. destruct (key_eqb_spec k k'); [congruence|reflexivity].
Qed.
Lemma tfind_put k k' v m : tfind k' (tput k v m) = if key_eqb k k' then Some v else tfind k' m.
Proof. unfold tput. cbn. rewrite tfind_del. destruct (key_eqb k k'); reflexivity. Qed.
Definition tnodup (m : tmap) : Prop := NoDup (map fst m).
Lemma tdel_nodup k m : tnodup m -> tnodup (tdel k m).
Proof.
  unfold tnodup, tdel. induction m as [|[q v] m IH]; cbn; [auto|]. intro H. inversion H; subst. destruct (negb (key_eqb q k)); cbn; [|auto]. constructor; [|auto]. intro HI. apply H2. apply in_map_iff in HI. destruct HI as (y & E & HY). apply filter_In in HY. rewrite <- E. apply in_map. tauto.
Qed.
Lemma tput_nodup k v m : tnodup m -> tnodup (tput k v m).
Proof.
  intro H. unfold tnodup, tput. cbn. constructor; [|now apply tdel_nodup]. intro HI. apply in_map_iff in HI. destruct HI as (y & E & HY). apply filter_In in HY. destruct HY as [_ HY]. rewrite E in HY. destruct (key_eqb_spec k k); [discriminate|congruence].
Qed.
Lemma tfind_in k v m : tnodup m -> (In (k, v) m <-> tfind k m = Some v).
Proof.
  unfold tnodup. induction m as [|[q u] m IH]; cbn; [intro; split; [tauto|discriminate]|]. intro H. inversion H; subst. destruct (key_eqb_spec q k) as [->|HN].
  - split; [|intro E; injection E as ->; now left]. intros [E|HI]; [congruence|]. elim H2. change k with (fst (k, v)). now apply in_map.
  - rewrite <- IH by assumption. split; [intros [E|HI]; [congruence|exact HI]|tauto].
Qed.
Lemma in_rec_spec w m : tnodup m -> (in_rec w m = true <-> exists k c ws, tfind k m = Some (c, ws) /\ In w ws).
Proof.
  intro HN. unfold in_rec. rewrite existsb_exists. split.
  - intros ([k [c ws]] & HI & HW). cbn in HW. apply existsb_exists in HW. destruct HW as (w' & H1 & H2). apply Nat.eqb_eq in H2. subst w'. exists k, c, ws. split; [now apply tfind_in|exact H1].
  - intros (k & c & ws & H1 & H2). exists (k, (c, ws)). split; [now apply tfind_in|]. cbn. apply existsb_exists. exists w. split; [exact H2|apply Nat.eqb_refl].
Qed.
Lemma held_spec w ops : held w ops = true <-> In Drop (ops w).
Proof.
  unfold held. rewrite existsb_exists. split; [|intro H; exists Drop; split; [exact H|]; destruct (mop_eq_dec Drop Drop); [reflexivity|congruence]].
  intros (o & H1 & H2). destruct (mop_eq_dec o Drop); [now subst|discriminate].
Qed.
Lemma upd_same {A} (f : nat -> A) i v : upd f i v i = v.
Proof. unfold upd. now rewrite Nat.eqb_refl. Qed.
Lemma upd_other {A} (f : nat -> A) i v j : j <> i -> upd f i v j = f j.
Proof. intro H. unfold upd. destruct (Nat.eqb_spec j i); [congruence|reflexivity]. Qed.

(** ** Where a job is *)
Inductive rphase (x : ext) : list mop -> Prop :=
| rp_in k1 k2 : keys x = k1 ++ k2 -> rphase x (map Inc k2 ++ [Go; Back] ++ map Dec (keys x))
| rp_back : rphase x (Back :: map Dec (keys x))
| rp_out k1 k2 : keys x = k1 ++ k2 -> rphase x (map Dec k2).
Inductive fphase (xs : list ext) : list mop -> Prop :=
| fp_in k1 k2 : flat_map keys xs = k1 ++ k2 -> fphase xs (map Add k2 ++ [Drop])
| fp_out : fphase xs [].
Lemma rphase_next x o r : rphase x (o :: r) -> rphase x r.
Proof.
  intro H. inversion H as [k1 k2 HK HE|HE|k1 k2 HK HE].
  - destruct k2 as [|k k2]; cbn in HE; injection HE as <- <-; [apply rp_back|]. apply (rp_in x (k1 ++ [k]) k2). now rewrite <- app_assoc.
  - subst. apply (rp_out x []). reflexivity.
  - destruct k2 as [|k k2]; cbn in HE; [discriminate|]. injection HE as <- <-. apply (rp_out x (k1 ++ [k]) k2). now rewrite <- app_assoc.
Qed.
Lemma fphase_next xs o r : fphase xs (o :: r) -> fphase xs r.
Proof.
  intro H. inversion H as [k1 k2 HK HE|HE]. destruct k2 as [|k k2]; cbn in HE; injection HE as <- <-; [apply fp_out|]. apply (fp_in xs (k1 ++ [k]) k2). now rewrite <- app_assoc.
Qed.
Lemma inc_in k l : In (Inc k) (map Inc l) <-> In k l.
Proof. rewrite in_map_iff. split; [intros (y & E & H); now injection E as ->|intro; exists k; auto]. Qed.
Lemma dec_in k l : In (Dec k) (map Dec l) <-> In k l.
Proof. rewrite in_map_iff. split; [intros (y & E & H); now injection E as ->|intro; exists k; auto]. Qed.
Lemma add_in k l : In (Add k) (map Add l) <-> In k l.
Proof. rewrite in_map_iff. split; [intros (y & E & H); now injection E as ->|intro; exists k; auto]. Qed.
Ltac nomap := let y := fresh in let E := fresh in rewrite in_map_iff; intros (y & E & _); discriminate E.
Definition hold (k : key) (ops : list mop) : bool := (if in_dec mop_eq_dec (Dec k) ops then true else false) && negb (if in_dec mop_eq_dec (Inc k) ops then true else false).
Lemma hold_spec k ops : hold k ops = true <-> In (Dec k) ops /\ ~ In (Inc k) ops.
Proof. unfold hold. destruct (in_dec _ (Dec k) ops), (in_dec _ (Inc k) ops); cbn; intuition congruence. Qed.
Lemma hold_inc x k r : rphase x (Inc k :: r) -> hold k (Inc k :: r) = false /\ hold k r = true /\ In k (keys x) /\ forall k', k' <> k -> hold k' r = hold k' (Inc k :: r).
Proof.
  intro H. inversion H as [k1 k2 HK HE|HE|k1 k2 HK HE].
  - destruct k2 as [|q k2]; [discriminate|]. cbn in HE. injection HE as -> <-. pose proof (keys_nodup x) as HN. rewrite HK in HN. assert (HQ : In k (keys x)) by (rewrite HK; apply in_or_app; right; now left).
    ands.
    + apply not_true_iff_false. rewrite hold_spec. cbn. tauto.
    + apply hold_spec. split; [apply in_or_app; right; right; right; now apply dec_in|]. intro HI. apply in_app_or in HI. destruct HI as [HI|[HI|[HI|HI]]]; [|discriminate|discriminate|revert HI; nomap].
      apply inc_in in HI. apply NoDup_remove_2 in HN. apply HN. apply in_or_app. now right.
    + exact HQ.
    + intros k' HK'. apply Bool.eq_iff_eq_true. rewrite !hold_spec. cbn [map app In]. assert (Inc k <> Inc k') by congruence. assert (Inc k <> Dec k') by congruence. tauto.
  - destruct k2; discriminate.
Qed.
Lemma hold_dec x k r : rphase x (Dec k :: r) -> hold k (Dec k :: r) = true /\ hold k r = false /\ In k (keys x) /\ ~ In (Dec k) r /\ forall k', k' <> k -> hold k' r = hold k' (Dec k :: r).
Proof.
  intro H. inversion H as [k1 k2 HK HE|HE|k1 k2 HK HE].
  - destruct k2; discriminate.
  - destruct k2 as [|q k2]; [discriminate|]. cbn in HE. injection HE as -> <-. pose proof (keys_nodup x) as HN. rewrite HK in HN.
    assert (HD : ~ In (Dec k) (map Dec k2)) by (rewrite dec_in; intro HI; apply NoDup_remove_2 in HN; apply HN; apply in_or_app; now right). ands.
    + apply hold_spec. split; [now left|]. intros [HI|HI]; [discriminate|revert HI; nomap].
    + apply not_true_iff_false. rewrite hold_spec. tauto.
    + rewrite HK. apply in_or_app. right. now left.
    + exact HD.
    + intros k' HK'. apply Bool.eq_iff_eq_true. rewrite !hold_spec. cbn [map app In]. assert (Dec k <> Inc k') by congruence. assert (Dec k <> Dec k') by congruence. tauto.
Qed.
Lemma hold_skip k o r : match o with Inc _ | Dec _ => False | _ => True end -> hold k r = hold k (o :: r).
Proof. intro H. assert (o <> Inc k) by (destruct o; congruence || tauto). assert (o <> Dec k) by (destruct o; congruence || tauto). apply Bool.eq_iff_eq_true. rewrite !hold_spec. cbn [In]. tauto. Qed.
Definition cnt (k : key) (n : nat) (ops : nat -> list mop) : nat := length (filter (fun i => hold k (ops i)) (seq 0 n)).
Lemma filter_change (f g : nat -> bool) i : forall n a, a <= i < a + n -> f i = false -> g i = true -> (forall j, j <> i -> g j = f j) -> length (filter g (seq a n)) = S (length (filter f (seq a n))).
Proof.
  induction n as [|n IH]; intros a HI HF HG HO; [lia|]. cbn [seq filter]. destruct (Nat.eq_dec a i) as [->|HN].
  - rewrite HF, HG. cbn [length]. f_equal. f_equal. apply filter_ext_in. intros j HJ. apply in_seq in HJ. apply HO. lia.
  - rewrite HO by assumption. specialize (IH (S a) ltac:(lia) HF HG HO). destruct (f a); cbn [length]; lia.
Qed.
Lemma cnt_same k n ops ops' : (forall i, hold k (ops' i) = hold k (ops i)) -> cnt k n ops' = cnt k n ops.
Proof. intro H. unfold cnt. f_equal. apply filter_ext_in. auto. Qed.
Lemma cnt_up k n ops ops' i : i < n -> hold k (ops i) = false -> hold k (ops' i) = true -> (forall j, j <> i -> ops' j = ops j) -> cnt k n ops' = S (cnt k n ops).
Proof. intros HI H1 H2 H3. unfold cnt. apply (filter_change _ _ i); [lia|exact H1|exact H2|]. intros j HJ. now rewrite H3. Qed.
Lemma cnt_pos k n ops : 0 < cnt k n ops <-> exists i, i < n /\ hold k (ops i) = true.
Proof.
  unfold cnt. split.
  - intro H. destruct (filter _ _) as [|i l] eqn:E; [cbn in H; lia|]. assert (HI : In i (filter (fun i => hold k (ops i)) (seq 0 n))) by (rewrite E; now left). apply filter_In in HI. destruct HI as [H1 H2]. apply in_seq in H1. exists i. split; [lia|exact H2].
  - intros (i & H1 & H2). assert (HI : In i (filter (fun i => hold k (ops i)) (seq 0 n))) by (apply filter_In; split; [apply in_seq; lia|exact H2]). destruct (filter _ _); [destruct HI|cbn; lia].
Qed.

(** ** The invariant *)
Lemma before_app {A} (a b : A) l l' : before a b l -> before a b (l ++ l').
Proof. intros (l1 & l2 & l3 & ->). exists l1, l2, (l3 ++ l'). rewrite <- app_assoc. cbn. rewrite <- app_assoc. reflexivity. Qed.
Lemma before_new {A} (a b : A) l l' : In a l -> In b l' -> before a b (l ++ l').
Proof. intros H1 H2. apply in_split in H1, H2. destruct H1 as (p & q & ->), H2 as (u & v & ->). exists p, (q ++ u), v. rewrite <- !app_assoc. reflexivity. Qed.
Lemma nil_or_last {A} (l : list A) : l = [] \/ exists a x, l = a ++ [x].
Proof. destruct l as [|y l]; [now left|]. right. destruct (@exists_last _ (y :: l)) as (a & x & E); [discriminate|]. eauto. Qed.
Lemma before_inv {A} (a b : A) l l' : before a b (l ++ l') -> before a b l \/ In b l'.
Proof.
  intros (l1 & l2 & l3 & E). replace (l1 ++ a :: l2 ++ b :: l3) with ((l1 ++ a :: l2) ++ b :: l3) in E by (rewrite <- app_assoc; reflexivity).
  revert l3 E. induction l' as [|x l' IH] using rev_ind; intros l3 E.
  - left. rewrite app_nil_r in E. exists l1, l2, l3. rewrite E, <- app_assoc. reflexivity.
  - destruct (nil_or_last l3) as [->|(l4 & y & ->)].
    + rewrite app_assoc in E. apply app_inj_tail in E. destruct E as [_ ->]. right. apply in_or_app. right. now left.
    + rewrite app_assoc in E. change (b :: l4 ++ [y]) with ((b :: l4) ++ [y]) in E. rewrite app_assoc in E. apply app_inj_tail in E. destruct E as [E _]. destruct (IH l4 E) as [H|H]; [now left|]. right. apply in_or_app. now left.
Qed.

Definition fired (l : list event) : list nat := flat_map (fun e => match e with EFire w => [w] | _ => [] end) l.
Lemma fired_in w l : In w (fired l) <-> In (EFire w) l.
Proof. unfold fired. rewrite in_flat_map. split; [intros (x & H1 & H2); destruct x; cbn in H2; try tauto; destruct H2 as [->|[]]; exact H1|]. intro H. exists (EFire w). split; [exact H|now left]. Qed.
Definition waits (m : tmap) (k : key) (w : nat) : Prop := exists c ws, tfind k m = Some (c, ws) /\ In w ws.
Record inv (s : st) : Prop := {
  v_read : forall i x, is_read s i x -> valid x /\ rphase x (t_ops s i);
  v_free : forall i xs, is_free s i xs -> (xs <> [] /\ Forall valid xs) /\ fphase xs (t_ops s i);
  v_out : forall i, t_n s <= i -> t_ops s i = [];
  v_nd : tnodup (t_map s);
  v_cnt : forall k, match tfind k (t_map s) with Some (c, _) => c = Z.of_nat (cnt k (t_n s) (t_ops s)) /\ 0 < cnt k (t_n s) (t_ops s) | None => cnt k (t_n s) (t_ops s) = 0 end;
  v_ws : forall k w, waits (t_map s) k w -> exists xs, is_free s w xs /\ In k (flat_map keys xs);
  v_obl : forall i w x xs k, before (EGo i) (EAsk w) (t_log s) -> is_read s i x -> is_free s w xs -> In k (keys x) -> In k (flat_map keys xs) -> In (Dec k) (t_ops s i) -> In (Add k) (t_ops s w) \/ waits (t_map s) k w;
  v_go : forall i, In (EGo i) (t_log s) -> exists x, is_read s i x /\ ~ In Go (t_ops s i);
  v_back : forall i x, is_read s i x -> In Back (t_ops s i) \/ In (EBack i) (t_log s);
  v_ask : forall w, In (EAsk w) (t_log s) -> exists xs, is_free s w xs;
  v_asked : forall w xs, is_free s w xs -> In (EAsk w) (t_log s);
  v_fired : forall w, In (EFire w) (t_log s) -> (exists xs, is_free s w xs) /\ (forall k, ~ waits (t_map s) k w) /\ ~ In Drop (t_ops s w);
  v_once : NoDup (fired (t_log s));
  v_live : forall w xs, is_free s w xs -> In Drop (t_ops s w) \/ (exists k, waits (t_map s) k w) \/ In (EFire w) (t_log s);
  v_safe : forall i w x xs, before (EGo i) (EAsk w) (t_log s) -> is_read s i x -> is_free s w xs -> share x xs -> In (EFire w) (t_log s) -> before (EBack i) (EFire w) (t_log s) }.

Lemma job_either s i : inv s -> t_ops s i <> [] -> (exists x, is_read s i x) \/ exists xs, is_free s i xs.
Proof. intros HV H. assert (i < t_n s) by (destruct (Nat.le_gt_cases (t_n s) i) as [HL|HL]; [elim H; now apply (v_out s HV)|exact HL]). destruct (t_job s i) eqn:E; [left|right]; eexists; split; eauto. Qed.
Lemma phase_go x r : rphase x r -> ~ In Go r -> forall k, ~ In (Inc k) r.
Proof.
  intros H HG k HI. inversion H as [k1 k2 HK HE|HE|k1 k2 HK HE]; subst.
  - apply HG. apply in_or_app. right. now left.
  - destruct HI as [HI|HI]; [discriminate|revert HI; nomap].
  - revert HI. nomap.
Qed.
Lemma phase_back x r k : rphase x r -> In Back r -> In k (keys x) -> In (Dec k) r.
Proof.
  intros H HB HK. inversion H as [k1 k2 HK' HE|HE|k1 k2 HK' HE]; subst.
  - apply in_or_app. right. right. right. now apply dec_in.
  - right. now apply dec_in.
  - exfalso. revert HB. nomap.
Qed.
Lemma phase_drop xs r : fphase xs r -> ~ In Drop r -> r = [].
Proof. intros H HD. inversion H; subst; [|reflexivity]. elim HD. apply in_or_app. right. now left. Qed.
Lemma is_read_same s i x ops m l : is_read (St (t_n s) (t_job s) ops m l) i x <-> is_read s i x.
Proof. reflexivity. Qed.
Lemma fired_app a b : fired (a ++ b) = fired a ++ fired b.
Proof. apply flat_map_app. Qed.

Lemma step_inv s i o r m' es : inv s -> t_ops s i = o :: r -> let ops' := upd (t_ops s) i r in
  tnodup m' ->
  (forall k, match tfind k m' with Some (c, _) => c = Z.of_nat (cnt k (t_n s) ops') /\ 0 < cnt k (t_n s) ops' | None => cnt k (t_n s) ops' = 0 end) ->
  (forall k w, waits m' k w -> waits (t_map s) k w \/ (w = i /\ o = Add k)) ->
  (forall k w j, j < t_n s -> hold k (ops' j) = true -> waits (t_map s) k w -> waits m' k w) ->
  (forall k j, j < t_n s -> hold k (ops' j) = true -> o = Add k -> waits m' k i) ->
  (forall w k, waits (t_map s) k w -> (exists k', waits m' k' w) \/ In Drop (ops' w) \/ In (EFire w) es) ->
  (o = Drop -> (exists k, waits m' k i) \/ In (EFire i) es) ->
  (forall w, In (EFire w) es -> ((exists k, waits (t_map s) k w) \/ w = i /\ o = Drop) /\ (forall k, ~ waits m' k w) /\ ~ In Drop (ops' w)) ->
  NoDup (fired es) -> (forall j, In (EGo j) es -> j = i /\ o = Go) -> (o = Back -> In (EBack i) es) -> (forall j, In (EBack j) es -> fired es = []) -> (forall j, ~ In (EAsk j) es) ->
  inv (St (t_n s) (t_job s) ops' m' (t_log s ++ es)).
Proof.
  intros HV HO ops' C1 C2 C3 C4 C5 C6 C7 C8 C9 C10 C11 C12 C13.
  assert (HIN : t_ops s i <> []) by (rewrite HO; discriminate).
  assert (HI : i < t_n s) by (destruct (Nat.le_gt_cases (t_n s) i) as [HL|HL]; [elim HIN; now apply (v_out s HV)|exact HL]).
  assert (HSUB : forall j q, In q (ops' j) -> In q (t_ops s j)). { intros j q. unfold ops', upd. destruct (Nat.eqb_spec j i) as [->|]; [rewrite HO; now right|auto]. }
  assert (HDR : forall w, w < t_n s -> In Drop (t_ops s w) -> In Drop (ops' w) \/ w = i /\ o = Drop). { intros w _. unfold ops', upd. destruct (Nat.eqb_spec w i) as [->|]; [rewrite HO; intros [->|H]; auto|auto]. }
  assert (HR : forall j x, is_read s j x -> rphase x (ops' j)). { intros j x HJ. destruct (v_read s HV j x HJ) as [_ H]. unfold ops', upd. destruct (Nat.eqb_spec j i) as [->|]; [|exact H]. rewrite HO in H. eapply rphase_next; eauto. }
  assert (HOBL : forall j w x xs k, before (EGo j) (EAsk w) (t_log s ++ es) -> is_read s j x -> is_free s w xs -> In k (keys x) -> In k (flat_map keys xs) -> In (Dec k) (ops' j) -> In (Add k) (ops' w) \/ waits m' k w).
  { intros j w x xs k HB HJ HW K1 K2 HD. apply before_inv in HB. destruct HB as [HB|HB]; [|elim (C13 _ HB)]. pose proof (v_obl s HV j w x xs k HB HJ HW K1 K2 (HSUB _ _ HD)) as HQ.
    assert (HGO : In (EGo j) (t_log s)) by (destruct HB as (l1 & l2 & l3 & ->); apply in_or_app; right; now left). destruct (v_go s HV j HGO) as (x' & HJ' & HG).
    assert (HH : hold k (ops' j) = true). { apply hold_spec. split; [exact HD|]. eapply phase_go; [apply HR; exact HJ|]. intro HC. apply HG. auto. }
    destruct HJ as [HJ _]. destruct HQ as [HQ|HQ]; [|right; eapply C4; eauto]. unfold ops', upd. destruct (Nat.eqb_spec w i) as [->|]; [|now left]. rewrite HO in HQ. destruct HQ as [HQ|HQ]; [|now left]. right. eapply C5; eauto. }
  constructor; cbn [t_n t_job t_ops t_map t_log].
  - intros j x HJ. destruct (v_read s HV j x HJ) as [H1 _]. split; [exact H1|apply HR; exact HJ].
  - intros j xs HJ. destruct (v_free s HV j xs HJ) as [H1 H2]. split; [exact H1|]. unfold ops', upd. destruct (Nat.eqb_spec j i) as [->|]; [|exact H2]. rewrite HO in H2. eapply fphase_next; eauto.
  - intros j HJ. unfold ops'. rewrite upd_other by lia. now apply (v_out s HV).
  - exact C1.
  - exact C2.
  - intros k w HW. destruct (C3 k w HW) as [H|[-> ->]]; [exact (v_ws s HV k w H)|]. destruct (job_either s i HV HIN) as [[x HJ]|[xs HJ]].
    + destruct (v_read s HV i x HJ) as [_ H]. rewrite HO in H. inversion H as [k1 k2 HK HE|HE|k1 k2 HK HE]; destruct k2; discriminate.
    + exists xs. split; [exact HJ|]. destruct (v_free s HV i xs HJ) as [_ H]. rewrite HO in H. inversion H as [k1 k2 HK HE|HE]. destruct k2 as [|q k2]; [discriminate|]. cbn in HE. injection HE as -> _. rewrite HK. apply in_or_app. right. now left.
  - exact HOBL.
  - intros j HJ. apply in_app_or in HJ. destruct HJ as [HJ|HJ].
    + destruct (v_go s HV j HJ) as (x & H1 & H2). exists x. split; [exact H1|]. intro H. apply H2. auto.
    + destruct (C10 j HJ) as [-> ->]. destruct (job_either s i HV HIN) as [[x HX]|[xs HX]].
      * exists x. split; [exact HX|]. unfold ops'. rewrite upd_same. destruct (v_read s HV i x HX) as [_ H]. rewrite HO in H. inversion H as [k1 k2 HK HE|HE|k1 k2 HK HE]; destruct k2; try discriminate. cbn in HE. injection HE as <-. intros [HC|HC]; [discriminate|revert HC; nomap].
      * destruct (v_free s HV i xs HX) as [_ H]. rewrite HO in H. inversion H as [k1 k2 HK HE|HE]. destruct k2; discriminate.
  - intros j x HJ. destruct (v_back s HV j x HJ) as [H|H]; [|right; apply in_or_app; now left]. unfold ops', upd. destruct (Nat.eqb_spec j i) as [->|]; [|now left]. rewrite HO in H. destruct H as [H|H]; [|now left]. right. apply in_or_app. right. auto.
  - intros w HW. apply in_app_or in HW. destruct HW as [HW|HW]; [exact (v_ask s HV w HW)|elim (C13 _ HW)].
  - intros w xs HW. apply in_or_app. left. exact (v_asked s HV w xs HW).
  - intros w HW. apply in_app_or in HW. destruct HW as [HW|HW].
    + destruct (v_fired s HV w HW) as (H1 & H2 & H3). split; [exact H1|]. split; [|intro H; apply H3; auto]. intros k HC. destruct (C3 k w HC) as [H|[-> ->]]; [exact (H2 k H)|].
      destruct H1 as [xs H1]. destruct (v_free s HV i xs H1) as [_ H]. pose proof (phase_drop xs _ H H3). congruence.
    + destruct (C8 w HW) as (H1 & H2 & H3). split; [|auto]. destruct H1 as [[k H1]|[-> ->]]; [destruct (v_ws s HV k w H1) as (xs & HX & _); eauto|].
      destruct (job_either s i HV HIN) as [[x HJ]|HJ]; [|exact HJ]. destruct (v_read s HV i x HJ) as [_ H]. rewrite HO in H. inversion H as [k1 k2 HK HE|HE|k1 k2 HK HE]; destruct k2; discriminate.
  - rewrite fired_app. assert (HAP : forall w, In w (fired (t_log s)) -> In w (fired es) -> False).
    { intros w H1 H2. apply fired_in in H1, H2. destruct (v_fired s HV w H1) as (_ & H3 & H4). destruct (C8 w H2) as [[[k H5]|[-> ->]] _]; [exact (H3 k H5)|]. apply H4. rewrite HO. now left. }
    pose proof (v_once s HV) as HN. revert HN HAP. generalize (fired (t_log s)). intro l. induction l as [|a l IH]; intros HN HAP; [exact C9|]. inversion HN; subst. cbn. constructor; [|apply IH; auto; intros w Q1 Q2; apply (HAP w); [now right|exact Q2]].
    intro HC. apply in_app_or in HC. destruct HC as [HC|HC]; [auto|]. apply (HAP a); [now left|exact HC].
  - intros w xs HW. destruct (v_live s HV w xs HW) as [H|[[k H]|H]].
    + destruct HW as [HW _]. destruct (HDR w HW H) as [H'|[-> ->]]; [now left|]. destruct (C7 eq_refl) as [H'|H']; [right; now left|]. right. right. apply in_or_app. now right.
    + destruct (C6 w k H) as [H'|[H'|H']]; [right; now left|now left|]. right. right. apply in_or_app. now right.
    + right. right. apply in_or_app. now left.
  - intros j w x xs HB HJ HW HS HF. assert (HB' := HB). apply before_inv in HB'. destruct HB' as [HB'|HB']; [|elim (C13 _ HB')].
    apply in_app_or in HF. destruct HF as [HF|HF]; [apply before_app; exact (v_safe s HV j w x xs HB' HJ HW HS HF)|].
    destruct (C8 w HF) as (_ & H2 & H3). destruct (v_free s HV w xs HW) as [[_ HXS] HPH]. destruct (v_read s HV j x HJ) as [HX _]. destruct (share_key x xs HX HXS HS) as (k & K1 & K2).
    assert (HND : ~ In (Dec k) (ops' j)).
    { intro HD. destruct (HOBL j w x xs k HB HJ HW K1 K2 HD) as [H|H]; [|exact (H2 k H)]. assert (HPH' : fphase xs (ops' w)). { unfold ops', upd. destruct (Nat.eqb_spec w i) as [->|]; [|exact HPH]. rewrite HO in HPH. eapply fphase_next; eauto. }
      rewrite (phase_drop xs _ HPH' H3) in H. destruct H. }
    assert (HNB : ~ In Back (ops' j)) by (intro HC; apply HND; eapply phase_back; eauto).
    apply before_new; [|exact HF]. destruct (v_back s HV j x HJ) as [H|H]; [|exact H]. exfalso. revert HNB H. unfold ops', upd. destruct (Nat.eqb_spec j i) as [->|]; [|tauto]. rewrite HO. intros HNB [->|H]; [|tauto].
    specialize (C12 i (C11 eq_refl)). apply fired_in in HF. rewrite C12 in HF. destruct HF.
Qed.

Lemma fired_map l : fired (map EFire l) = l.
Proof. unfold fired. induction l as [|a l IH]; cbn; [reflexivity|]. now rewrite IH. Qed.
Lemma in_rec_waits w m : tnodup m -> (in_rec w m = true <-> exists k, waits m k w).
Proof. intro H. rewrite in_rec_spec by exact H. unfold waits. split; intros (k & c & ws & HH); [exists k, c, ws|exists k, c, ws]; exact HH. Qed.
Lemma fires_in ops m ws w : tnodup m -> (In (EFire w) (fires ops m ws) <-> In w ws /\ (forall k, ~ waits m k w) /\ ~ In Drop (ops w)).
Proof.
  intro HN. rewrite <- fired_in. unfold fires. rewrite fired_map, filter_In, nodup_In, andb_true_iff, !negb_true_iff. rewrite <- held_spec. split.
  - intros (H1 & H2 & H3). split; [exact H1|]. split; [|congruence]. intros k HK. assert (in_rec w m = true) by (apply in_rec_waits; eauto). congruence.
  - intros (H1 & H2 & H3). split; [exact H1|]. split; [|destruct (held w ops); congruence]. destruct (in_rec w m) eqn:E; [|reflexivity]. apply in_rec_waits in E; [|exact HN]. destruct E as [k E]. elim (H2 k E).
Qed.
Lemma fires_nd ops m ws : NoDup (fired (fires ops m ws)).
Proof. unfold fires. rewrite fired_map. apply NoDup_filter, NoDup_nodup. Qed.
Lemma fires_only ops m ws e : In e (fires ops m ws) -> exists w, e = EFire w.
Proof. unfold fires. rewrite in_map_iff. intros (w & <- & _). eauto. Qed.
Lemma reader s i o r : inv s -> t_ops s i = o :: r -> match o with Add _ | Drop => False | _ => True end -> exists x, is_read s i x /\ rphase x (o :: r).
Proof.
  intros HV HO H. destruct (job_either s i HV) as [[x HJ]|[xs HJ]]; [rewrite HO; discriminate| |].
  - exists x. split; [exact HJ|]. rewrite <- HO. apply (v_read s HV i x HJ).
  - destruct (v_free s HV i xs HJ) as [_ HP]. rewrite HO in HP. inversion HP as [k1 k2 HK HE|HE]. destruct k2; cbn in HE; injection HE as <- _; destruct H.
Qed.
Lemma freer s i o r : inv s -> t_ops s i = o :: r -> match o with Add _ | Drop => True | _ => False end -> exists xs, is_free s i xs /\ fphase xs (o :: r).
Proof.
  intros HV HO H. destruct (job_either s i HV) as [[x HJ]|[xs HJ]]; [rewrite HO; discriminate| |].
  - destruct (v_read s HV i x HJ) as [_ HP]. rewrite HO in HP. exfalso. inversion HP as [k1 k2 HK HE|HE|k1 k2 HK HE]; [destruct k2; cbn in HE; injection HE as E1 E2; subst o; exact H|subst o; exact H|destruct k2; cbn in HE; [discriminate|]; injection HE as E1 E2; subst o; exact H].
  - exists xs. split; [exact HJ|]. rewrite <- HO. apply (v_free s HV i xs HJ).
Qed.
Lemma ops_lt s i o r : inv s -> t_ops s i = o :: r -> i < t_n s.
Proof. intros HV HO. destruct (Nat.le_gt_cases (t_n s) i) as [HL|HL]; [|exact HL]. rewrite (v_out s HV i HL) in HO. discriminate. Qed.
Lemma hold_upd s i o r k j : t_ops s i = o :: r -> hold k r = hold k (o :: r) -> hold k (upd (t_ops s) i r j) = hold k (t_ops s j).
Proof. intros HO H. unfold upd. destruct (Nat.eqb_spec j i) as [->|]; [congruence|reflexivity]. Qed.
Lemma keep_waits m k m' : (forall k', k' <> k -> tfind k' m' = tfind k' m) -> (forall w, waits m k w <-> waits m' k w) -> forall k' w, waits m k' w <-> waits m' k' w.
Proof. intros H1 H2 k' w. destruct (key_eqb_spec k' k) as [->|HN]; [apply H2|]. unfold waits. now rewrite H1. Qed.

(** Steps that leave who waits for what as it was. *)
Lemma step_same s i o r m' es : inv s -> t_ops s i = o :: r -> tnodup m' ->
  (forall k w, waits (t_map s) k w <-> waits m' k w) ->
  (forall k, match tfind k m' with Some (c, _) => c = Z.of_nat (cnt k (t_n s) (upd (t_ops s) i r)) /\ 0 < cnt k (t_n s) (upd (t_ops s) i r) | None => cnt k (t_n s) (upd (t_ops s) i r) = 0 end) ->
  match o with Inc _ | Dec _ => es = [] | Go => es = [EGo i] | Back => es = [EBack i] | _ => False end ->
  inv (St (t_n s) (t_job s) (upd (t_ops s) i r) m' (t_log s ++ es)).
Proof.
  intros HV HO HN HW HC HE. assert (HNF : forall w, ~ In (EFire w) es) by (intro w; destruct o; try contradiction; subst es; cbn; intuition discriminate).
  assert (HFE : fired es = []) by (destruct (fired es) as [|w l] eqn:E; [reflexivity|]; elim (HNF w); apply fired_in; rewrite E; now left).
  apply (step_inv s i o r m' es HV HO HN HC).
  - intros k w H. left. now apply HW.
  - intros k w j _ _ H. now apply HW.
  - intros k j _ _ ->. contradiction.
  - intros w k H. left. exists k. now apply HW.
  - intros ->. contradiction.
  - intros w H. elim (HNF w H).
  - rewrite HFE. constructor.
  - intros j H. destruct o; try contradiction; subst es; cbn in H; try tauto; destruct H as [H|[]]; try discriminate. injection H as ->. auto.
  - intros ->. subst es. now left.
  - auto.
  - intros j H. destruct o; try contradiction; subst es; cbn in H; intuition discriminate.
Qed.

Lemma step_ok s i s' : inv s -> step i s = Some s' -> inv s'.
Proof.
  intros HV. unfold step. destruct (t_ops s i) as [|o r] eqn:HO; [intro H; now injection H as <-|]. pose proof (ops_lt s i o r HV HO) as HI. pose proof (v_nd s HV) as HND. destruct o as [k| | |k|k|].
  - destruct (reader s i _ r HV HO I) as (x & HX & HP). destruct (hold_inc x k r HP) as (Q1 & Q2 & Q3 & Q4).
    assert (HU : cnt k (t_n s) (upd (t_ops s) i r) = S (cnt k (t_n s) (t_ops s))). { apply (cnt_up k _ _ _ i HI); [now rewrite HO|now rewrite upd_same|intros j HJ; now apply upd_other]. }
    assert (HS : forall k', k' <> k -> cnt k' (t_n s) (upd (t_ops s) i r) = cnt k' (t_n s) (t_ops s)). { intros k' HK. apply cnt_same. intro j. eapply hold_upd; [exact HO|auto]. }
    assert (HG : forall c ws, (forall w, In w ws <-> waits (t_map s) k w) -> c = Z.of_nat (S (cnt k (t_n s) (t_ops s))) -> inv (St (t_n s) (t_job s) (upd (t_ops s) i r) (tput k (c, ws) (t_map s)) (t_log s ++ []))).
    { intros c ws HW HC. apply (step_same s i (Inc k) r); auto.
      - now apply tput_nodup.
      - apply (keep_waits _ k). + intros k' HK. rewrite tfind_put. destruct (key_eqb_spec k k'); congruence.
        + intro w. rewrite <- HW. unfold waits. rewrite tfind_put. destruct (key_eqb_spec k k); [|congruence]. split; [intro; eauto|intros (c' & ws' & E & H); injection E as <- <-; exact H].
      - intro k'. rewrite tfind_put. destruct (key_eqb_spec k k') as [<-|HK]; [rewrite HU; lia|]. rewrite HS by congruence. apply (v_cnt s HV k'). }
    pose proof (v_cnt s HV k) as HK. destruct (tfind k (t_map s)) as [[c ws]|] eqn:E; intro H; injection H as <-; apply HG.
    + intro w. unfold waits. rewrite E. split; [eauto|intros (c' & ws' & E' & H'); injection E' as <- <-; exact H'].
    + lia.
    + intro w. unfold waits. rewrite E. split; [intros []|intros (c' & ws' & E' & _); discriminate].
    + rewrite HK. reflexivity.
  - intro H. injection H as <-. apply (step_same s i Go r); auto; [reflexivity|]. intro k. rewrite (cnt_same k (t_n s) (t_ops s)); [apply (v_cnt s HV k)|]. intro j. eapply hold_upd; [exact HO|]. now apply hold_skip.
  - intro H. injection H as <-. apply (step_same s i Back r); auto; [reflexivity|]. intro k. rewrite (cnt_same k (t_n s) (t_ops s)); [apply (v_cnt s HV k)|]. intro j. eapply hold_upd; [exact HO|]. now apply hold_skip.
  - destruct (reader s i _ r HV HO I) as (x & HX & HP). destruct (hold_dec x k r HP) as (Q1 & Q2 & Q3 & Q4 & Q5).
    assert (HU : cnt k (t_n s) (t_ops s) = S (cnt k (t_n s) (upd (t_ops s) i r))). { apply (cnt_up k _ _ _ i HI); [now rewrite upd_same|now rewrite HO|intros j HJ; symmetry; now apply upd_other]. }
    assert (HS : forall k', k' <> k -> cnt k' (t_n s) (upd (t_ops s) i r) = cnt k' (t_n s) (t_ops s)). { intros k' HK. apply cnt_same. intro j. eapply hold_upd; [exact HO|auto]. }
    pose proof (v_cnt s HV k) as HK. destruct (tfind k (t_map s)) as [[c ws]|] eqn:E; [|discriminate]. destruct HK as [HK _]. destruct (Z.eqb_spec (c - 1) 0) as [HZ|HZ]; intro H; injection H as <-.
    + assert (HDN : tnodup (tdel k (t_map s))) by now apply tdel_nodup.
      assert (HWW : forall k' w, waits (tdel k (t_map s)) k' w <-> k' <> k /\ waits (t_map s) k' w). { intros k' w. unfold waits. rewrite tfind_del. destruct (key_eqb_spec k k') as [<-|HN]; [split; [intros (? & ? & ? & _); discriminate|intros [HC _]; congruence]|]. split; [intro HH; split; [congruence|exact HH]|tauto]. }
      apply (step_inv s i (Dec k) r); auto.
      * intro k'. rewrite tfind_del. destruct (key_eqb_spec k k') as [<-|HN]; [lia|]. rewrite HS by congruence. apply (v_cnt s HV k').
      * intros k' w H. left. apply HWW in H. tauto.
      * intros k' w j HJ HH HW. apply HWW. split; [|exact HW]. intros ->. assert (0 < cnt k (t_n s) (upd (t_ops s) i r)) by (apply cnt_pos; eauto). lia.
      * intros k' j _ _ HC. discriminate.
      * intros w k' HW. destruct (in_rec w (tdel k (t_map s))) eqn:ER; [left; now apply in_rec_waits in ER|]. right. assert (HNW : forall k0, ~ waits (tdel k (t_map s)) k0 w) by (intros k0 HC; assert (in_rec w (tdel k (t_map s)) = true) by (apply in_rec_waits; eauto); congruence).
        destruct (held w (upd (t_ops s) i r)) eqn:EH; [left; now apply held_spec|right]. apply fires_in; [exact HDN|]. split; [|split; [exact HNW|rewrite <- held_spec; congruence]].
        destruct (key_eqb_spec k' k) as [->|HN]; [|elim (HNW k'); apply HWW; auto]. destruct HW as (c' & ws' & E' & HW). rewrite E in E'. injection E' as <- <-. exact HW.
      * discriminate.
      * intros w HW. apply fires_in in HW; [|exact HDN]. destruct HW as (H1 & H2 & H3). split; [left; exists k, c, ws; auto|auto].
      * apply fires_nd.
      * intros j H. apply fires_only in H. destruct H as [w H]. discriminate.
      * discriminate.
      * intros j H. apply fires_only in H. destruct H as [w H]. discriminate.
      * intros j H. apply fires_only in H. destruct H as [w H]. discriminate.
    + apply (step_same s i (Dec k) r); auto.
      * now apply tput_nodup.
      * apply (keep_waits _ k). -- intros k' HN. rewrite tfind_put. destruct (key_eqb_spec k k'); congruence.
        -- intro w. unfold waits. rewrite tfind_put, E. destruct (key_eqb_spec k k); [|congruence]. split; intros (c' & ws' & E' & HW); injection E' as <- <-; eauto.
      * intro k'. rewrite tfind_put. destruct (key_eqb_spec k k') as [<-|HN]; [lia|]. rewrite HS by congruence. apply (v_cnt s HV k').
  - destruct (freer s i _ r HV HO I) as (xs & HX & HP).
    assert (HS : forall k', cnt k' (t_n s) (upd (t_ops s) i r) = cnt k' (t_n s) (t_ops s)). { intro k'. apply cnt_same. intro j. eapply hold_upd; [exact HO|]. now apply hold_skip. }
    assert (HDR : forall w, In Drop (t_ops s w) -> In Drop (upd (t_ops s) i r w)). { intros w. unfold upd. destruct (Nat.eqb_spec w i) as [->|]; [rewrite HO; intros [HC|HC]; [discriminate|exact HC]|auto]. }
    pose proof (v_cnt s HV k) as HK. destruct (tfind k (t_map s)) as [[c ws]|] eqn:E; intro H; injection H as <-.
    + assert (HWW : forall k' w, waits (tput k (c, ws ++ [i]) (t_map s)) k' w <-> waits (t_map s) k' w \/ (k' = k /\ w = i)).
      { intros k' w. unfold waits. rewrite tfind_put. destruct (key_eqb_spec k k') as [<-|HN].
        - rewrite E. split; [intros (c' & ws' & E' & HW); injection E' as <- <-; apply in_app_or in HW; destruct HW as [HW|[<-|[]]]; [left; eauto|now right]|].
          intros [(c' & ws' & E' & HW)|[_ ->]]; [injection E' as <- <-|]; eexists; eexists; (split; [reflexivity|]); apply in_or_app; [now left|right; now left].
        - split; [now left|]. intros [HH|[-> _]]; [exact HH|congruence]. }
      apply (step_inv s i (Add k) r); auto; try discriminate.
      * now apply tput_nodup.
      * intro k'. rewrite tfind_put, HS. destruct (key_eqb_spec k k') as [<-|HN]; [exact HK|]. apply (v_cnt s HV k').
      * intros k' w H. apply HWW in H. destruct H as [H|[-> ->]]; auto.
      * intros k' w j _ _ H. apply HWW. now left.
      * intros k' j _ _ HC. injection HC as ->. apply HWW. auto.
      * intros w k' H. left. exists k'. apply HWW. now left.
      * intros w [].
      * constructor.
      * intros j [].
    + apply (step_inv s i (Add k) r); auto; try discriminate.
      * intro k'. rewrite HS. apply (v_cnt s HV k').
      * intros k' j HJ HH HC. injection HC as ->. exfalso. assert (0 < cnt k' (t_n s) (upd (t_ops s) i r)) by (apply cnt_pos; eauto). rewrite HS in H. lia.
      * intros w k' H. left. eauto.
      * intros w [].
      * constructor.
      * intros j [].
  - destruct (freer s i _ r HV HO I) as (xs & HX & HP).
    assert (HR : r = []). { inversion HP as [k1 k2 HK HE|HE]. destruct k2; cbn in HE; [injection HE as <-; reflexivity|discriminate]. }
    assert (HS : forall k', cnt k' (t_n s) (upd (t_ops s) i r) = cnt k' (t_n s) (t_ops s)). { intro k'. apply cnt_same. intro j. eapply hold_upd; [exact HO|]. now apply hold_skip. }
    intro H. injection H as <-. apply (step_inv s i Drop r); auto; try discriminate.
    + intro k'. rewrite HS. apply (v_cnt s HV k').
    + intros w k H. left. eauto.
    + intros _. destruct (in_rec i (t_map s)) eqn:ER; [left; now apply in_rec_waits in ER|]. right. apply fires_in; [exact HND|]. split; [now left|]. split; [|rewrite upd_same, HR; intros []].
      intros k HC. assert (in_rec i (t_map s) = true) by (apply in_rec_waits; eauto). congruence.
    + intros w HW. apply fires_in in HW; [|exact HND]. destruct HW as ([<-|[]] & H2 & H3). auto.
    + apply fires_nd.
    + intros j H. apply fires_only in H. destruct H as [w H]. discriminate.
    + intros j H. apply fires_only in H. destruct H as [w H]. discriminate.
    + intros j H. apply fires_only in H. destruct H as [w H]. discriminate.
Qed.

Lemma read_ops_hold k x : hold k (read_ops x) = false.
Proof.
  destruct (hold k (read_ops x)) eqn:E; [|reflexivity]. apply hold_spec in E. destruct E as [H1 H2]. exfalso. apply H2. unfold read_ops in *. apply in_or_app. left. apply inc_in. apply in_app_or in H1. destruct H1 as [H1|H1]; [exfalso; revert H1; nomap|]. cbn in H1. destruct H1 as [H1|[H1|H1]]; try discriminate. now apply dec_in.
Qed.
Lemma free_ops_hold k xs : hold k (free_ops xs) = false.
Proof.
  destruct (hold k (free_ops xs)) eqn:E; [|reflexivity]. apply hold_spec in E. destruct E as [H1 _]. exfalso. unfold free_ops in H1. apply in_app_or in H1. destruct H1 as [H1|[H1|[]]]; [revert H1; nomap|discriminate].
Qed.
Lemma before_in_l {A} (a b : A) l : before a b l -> In a l.
Proof. intros (l1 & l2 & l3 & ->). apply in_or_app. right. now left. Qed.
Lemma start_ok s j : inv s -> job_ok j -> inv (start j s).
Proof.
  intros HV HJ. set (os := match j with JRead x => read_ops x | JFree xs => free_ops xs end). set (es := match j with JRead _ => [] | JFree _ => [EAsk (t_n s)] end).
  assert (HH : forall k, hold k os = false) by (intro k; unfold os; destruct j; [apply read_ops_hold|apply free_ops_hold]).
  assert (HC : forall k, cnt k (S (t_n s)) (upd (t_ops s) (t_n s) os) = cnt k (t_n s) (t_ops s)).
  { intro k. unfold cnt. rewrite seq_S, filter_app. cbn [filter plus]. rewrite upd_same, HH, app_nil_r. f_equal. apply filter_ext_in. intros i HI. apply in_seq in HI. rewrite upd_other by lia. reflexivity. }
  assert (HOR : forall i x, is_read (start j s) i x -> is_read s i x \/ i = t_n s /\ j = JRead x).
  { intros i x [H1 H2]. unfold start in *. cbn [t_n t_job] in *. unfold upd in H2. destruct (Nat.eqb_spec i (t_n s)); [right; split; [auto|exact H2]|left; split; [lia|exact H2]]. }
  assert (HOF : forall i x, is_free (start j s) i x -> is_free s i x \/ i = t_n s /\ j = JFree x).
  { intros i x [H1 H2]. unfold start in *. cbn [t_n t_job] in *. unfold upd in H2. destruct (Nat.eqb_spec i (t_n s)); [right; split; [auto|exact H2]|left; split; [lia|exact H2]]. }
  assert (HNR : forall i x, is_read s i x -> is_read (start j s) i x). { intros i x [H1 H2]. split; unfold start; cbn [t_n t_job]; [lia|]. rewrite upd_other by lia. exact H2. }
  assert (HNF : forall i x, is_free s i x -> is_free (start j s) i x). { intros i x [H1 H2]. split; unfold start; cbn [t_n t_job]; [lia|]. rewrite upd_other by lia. exact H2. }
  assert (HLT : forall i x, is_read s i x -> upd (t_ops s) (t_n s) os i = t_ops s i) by (intros i x [H _]; apply upd_other; lia).
  assert (HLF : forall i x, is_free s i x -> upd (t_ops s) (t_n s) os i = t_ops s i) by (intros i x [H _]; apply upd_other; lia).
  assert (HEV : forall e, In e es -> e = EAsk (t_n s) /\ exists xs, j = JFree xs). { unfold es. intros e H. destruct j; cbn in H; [destruct H|]. destruct H as [<-|[]]. eauto. }
  assert (HGOL : forall i w, before (EGo i) (EAsk w) (t_log s ++ es) -> In (EGo i) (t_log s)). { intros i w H. apply before_in_l in H. apply in_app_or in H. destruct H as [H|H]; [exact H|]. apply HEV in H. destruct H; discriminate. }
  assert (HGN : forall i x, is_read (start j s) i x -> In (EGo i) (t_log s) -> is_read s i x). { intros i x H1 H2. destruct (HOR i x H1) as [H|[-> _]]; [exact H|]. destruct (v_go s HV _ H2) as (x' & [H3 _] & _). lia. }
  constructor; unfold start; cbn [t_n t_job t_ops t_map t_log]; fold os; fold es.
  - intros i x H. destruct (HOR i x H) as [H'|[-> ->]].
    + rewrite (HLT i x H'). exact (v_read s HV i x H').
    + rewrite upd_same. unfold os. split; [exact HJ|]. apply (rp_in x []). reflexivity.
  - intros i x H. destruct (HOF i x H) as [H'|[-> ->]].
    + rewrite (HLF i x H'). exact (v_free s HV i x H').
    + rewrite upd_same. unfold os. split; [exact HJ|]. apply (fp_in x []). reflexivity.
  - intros i HI. rewrite upd_other by lia. apply (v_out s HV). lia.
  - exact (v_nd s HV).
  - intro k. rewrite HC. exact (v_cnt s HV k).
  - intros k w H. destruct (v_ws s HV k w H) as (xs & H1 & H2). exists xs. split; [now apply HNF|exact H2].
  - intros i w x xs k HB HR HF K1 K2 HD. pose proof (HGOL _ _ HB) as HG. pose proof (HGN i x HR HG) as HR'. rewrite (HLT i x HR') in HD. destruct (HOF w xs HF) as [HF'|[-> ->]].
    + rewrite (HLF w xs HF'). apply (v_obl s HV i w x xs k); auto. apply before_inv in HB. destruct HB as [HB|HB]; [exact HB|]. apply HEV in HB. destruct HB as [HB _]. injection HB as ->. destruct HF'. lia.
    + left. rewrite upd_same. unfold os, free_ops. apply in_or_app. left. now apply add_in.
  - intros i HI. apply in_app_or in HI. destruct HI as [HI|HI]; [|apply HEV in HI; destruct HI; discriminate]. destruct (v_go s HV i HI) as (x & H1 & H2). exists x. split; [now apply HNR|]. now rewrite (HLT i x H1).
  - intros i x H. destruct (HOR i x H) as [H'|[-> ->]].
    + rewrite (HLT i x H'). destruct (v_back s HV i x H'); [now left|]. right. apply in_or_app. now left.
    + left. rewrite upd_same. unfold os, read_ops. apply in_or_app. right. right. now left.
  - intros w HW. apply in_app_or in HW. destruct HW as [HW|HW]; [destruct (v_ask s HV w HW) as [xs H]; exists xs; now apply HNF|]. apply HEV in HW. destruct HW as [HW [xs ->]]. injection HW as ->. exists xs. split; cbn; [lia|]. now rewrite upd_same.
  - intros w xs H. apply in_or_app. destruct (HOF w xs H) as [H'|[-> ->]]; [left; exact (v_asked s HV w xs H')|right; now left].
  - intros w HW. apply in_app_or in HW. destruct HW as [HW|HW]; [|apply HEV in HW; destruct HW; discriminate]. destruct (v_fired s HV w HW) as ([xs H1] & H2 & H3). split; [exists xs; now apply HNF|]. split; [exact H2|]. now rewrite (HLF w xs H1).
  - rewrite fired_app. unfold es. destruct j; cbn; rewrite app_nil_r; exact (v_once s HV).
  - intros w xs H. destruct (HOF w xs H) as [H'|[-> ->]].
    + rewrite (HLF w xs H'). destruct (v_live s HV w xs H') as [Q|[Q|Q]]; auto. right. right. apply in_or_app. now left.
    + left. rewrite upd_same. unfold os, free_ops. apply in_or_app. right. now left.
  - intros i w x xs HB HR HF HS HFI. pose proof (HGOL _ _ HB) as HG. pose proof (HGN i x HR HG) as HR'. apply in_app_or in HFI. destruct HFI as [HFI|HFI]; [|apply HEV in HFI; destruct HFI; discriminate].
    destruct (v_fired s HV w HFI) as ([xs' [H1 _]] & _). destruct (HOF w xs HF) as [HF'|[-> _]]; [|lia]. apply before_app. apply (v_safe s HV i w x xs); auto. apply before_inv in HB. destruct HB as [HB|HB]; [exact HB|]. apply HEV in HB. destruct HB as [HB _]. injection HB as ->. lia.
Qed.
Lemma init_ok : inv init.
Proof.
  constructor; unfold init; cbn [t_n t_job t_ops t_map t_log].
  - intros i x [H _]. cbn in H. lia.
  - intros i x [H _]. cbn in H. lia.
  - reflexivity.
  - constructor.
  - intro k. reflexivity.
  - intros k w (c & ws & H & _). discriminate.
  - intros i w x xs k (l1 & l2 & l3 & H). destruct l1; discriminate.
  - intros i [].
  - intros i x [H _]. cbn in H. lia.
  - intros w [].
  - intros i x [H _]. cbn in H. lia.
  - intros w [].
  - constructor.
  - intros i x [H _]. cbn in H. lia.
  - intros i w x xs (l1 & l2 & l3 & H). destruct l1; discriminate.
Qed.
Lemma reach_inv s : reach s -> inv s.
Proof. induction 1; [apply init_ok|now apply start_ok|eapply step_ok; eauto]. Qed.

Lemma found_read s k c ws : inv s -> tfind k (t_map s) = Some (c, ws) -> exists i x, is_read s i x /\ busy s i /\ In k (keys x).
Proof.
  intros HV E. pose proof (v_cnt s HV k) as H. rewrite E in H. destruct H as [_ H]. apply cnt_pos in H. destruct H as (i & HI & HH). apply hold_spec in HH. destruct HH as [HD _].
  destruct (job_either s i HV) as [[x HX]|[xs HX]]; [intro E0; rewrite E0 in HD; destruct HD| |].
  - exists i, x. split; [exact HX|]. split; [intro E0; rewrite E0 in HD; destruct HD|]. destruct (v_read s HV i x HX) as [_ HP]. inversion HP as [k1 k2 HK HE|HE|k1 k2 HK HE]; rewrite <- HE in HD.
    + apply in_app_or in HD. destruct HD as [HD|[HD|[HD|HD]]]; try discriminate; [exfalso; revert HD; nomap|]. now apply dec_in.
    + destruct HD as [HD|HD]; [discriminate|]. now apply dec_in.
    + apply dec_in in HD. rewrite HK. apply in_or_app. now right.
  - exfalso. destruct (v_free s HV i xs HX) as [_ HP]. inversion HP as [k1 k2 HK HE|HE]; rewrite <- HE in HD; [|destruct HD]. apply in_app_or in HD. destruct HD as [HD|[HD|[]]]; [revert HD; nomap|discriminate].
Qed.
