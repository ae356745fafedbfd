(** * Proofs about the index write-back cache: the flush with one fiber. *)
From Coq Require Import ZArith List Bool Arith Lia Permutation.
From Verif Require Import Base WbModel WbSpec WbProofs.
Import ListNotations.

Lemma in_remove1 : forall b l x, In x (remove1 b l) -> In x l.
Proof.
  intros b l x. induction l as [|y l IH]; cbn; [auto|]. destruct (Nat.eqb y b); cbn; intuition.
Qed.

Lemma remove1_perm : forall b l, In b l -> Permutation l (b :: remove1 b l).
Proof.
  intros b l. induction l as [|y l IH]; intros H; [destruct H|]. cbn [remove1].
  destruct (Nat.eqb_spec y b) as [->|Hne]; [reflexivity|].
  destruct H as [H|H]; [congruence|]. rewrite perm_swap. now constructor; apply IH.
Qed.

Lemma perm_pull : forall (b : nat) l l' A C, Permutation l (b :: l') ->
  Permutation (A ++ l ++ C) (b :: A ++ l' ++ C).
Proof.
  intros b l l' A C H. etransitivity.
  - apply Permutation_app_head. apply Permutation_app_tail. exact H.
  - cbn. symmetry. apply Permutation_middle.
Qed.
Lemma perm_pull2 : forall (b : nat) l l' A, Permutation l (b :: l') ->
  Permutation (A ++ l) (b :: A ++ l').
Proof.
  intros b l l' A H. rewrite <- (app_nil_r l), <- (app_nil_r l'). now apply perm_pull.
Qed.
Lemma perm_in : forall (x : nat) l l', Permutation l l' -> In x l -> In x l'.
Proof. intros x l l' H. now apply Permutation_in. Qed.

Lemma nd_app : forall (a b : list nat), NoDup (a ++ b) <->
  NoDup a /\ NoDup b /\ (forall x, In x a -> ~ In x b).
Proof.
  intros a b. induction a as [|x a IH]; cbn.
  - split; [intros H; ands; auto; constructor|tauto].
  - split.
    + intros H. inversion H as [|y z H1 H2]; subst. apply IH in H2. destruct H2 as [A [B C]].
      rewrite in_app_iff in H1. ands; auto; [now constructor; auto|].
      intros y [<-|Hy]; auto.
    + intros [A [B C]]. inversion A as [|y z H1 H2]; subst. constructor.
      * rewrite in_app_iff. intros [H|H]; [auto|]. exact (C x (or_introl eq_refl) H).
      * apply IH. ands; auto.
Qed.

Section Flush.
Variable L : list nat.
Variable up0 : nat -> option nat.
Hypothesis HND : NoDup L.
Hypothesis Hclosed : forall d u, In d L -> up0 d = Some u -> In u L.

(** How many buffers below [u] are still not on disk. *)
Definition pend (D : list nat) (u : nat) : nat :=
  cnt up0 u (filter (fun d => negb (mem d D)) L).

Lemma pend_zero : forall D u, pend D u = 0%nat <->
  forall d, In d L -> up0 d = Some u -> In d D.
Proof.
  intros D u. unfold pend. rewrite cnt_zero_iff. split.
  - intros H d Hd E. destruct (mem d D) eqn:Em; [now apply mem_iff|].
    exfalso. apply (H d); [|assumption]. apply filter_In. rewrite Em. auto.
  - intros H d Hd E. apply filter_In in Hd. destruct Hd as [Hd Hm].
    apply negb_true_iff in Hm. apply mem_false in Hm. auto.
Qed.

Lemma pend_done : forall D b u, In b L -> ~ In b D ->
  pend D u = (pend (b :: D) u + if isup (up0 b) u then 1 else 0)%nat.
Proof.
  intros D b u. unfold pend. clear Hclosed.
  induction L as [|x l IH]; intros HI Hb; [destruct HI|].
  inversion HND as [|y z Hx HN]; subst y z. cbn [filter].
  destruct (Nat.eq_dec x b) as [->|Hne].
  - assert (E1 : mem b D = false) by (now apply mem_false).
    assert (E2 : mem b (b :: D) = true) by (apply mem_iff; now left).
    rewrite E1, E2. cbn [negb]. rewrite cnt_cons.
    rewrite (filter_ext_in (fun d => negb (mem d D)) (fun d => negb (mem d (b :: D)))); [lia|].
    intros a Ha. f_equal. unfold mem. cbn [existsb].
    assert (a <> b) by (intros ->; contradiction).
    rewrite (proj2 (Nat.eqb_neq a b)) by assumption. reflexivity.
  - destruct HI as [E|HI]; [congruence|]. specialize (IH HN HI Hb).
    assert (E : mem x (b :: D) = mem x D).
    { unfold mem. cbn [existsb]. now rewrite (proj2 (Nat.eqb_neq x b)). }
    rewrite E. destruct (mem x D); cbn [negb]; [exact IH|]. rewrite !cnt_cons. lia.
Qed.

(** The order in the log, newest first. *)
Fixpoint ordered (log : list fev) : Prop :=
  match log with
  | [] => True
  | Issue u :: l => (forall d, In d L -> up0 d = Some u -> In (Done d) l) /\ ordered l
  | Done _ :: l => ordered l
  end.

(** The invariant, but for the end of the flush; the buffers in [X] were just
    chosen and are neither in the batch nor issued. *)
Record FInv (s : fstate) (D passed X : list nat) : Prop := mkFI {
  fi_list : L = passed ++ f_rest s;
  fi_nd : NoDup (D ++ f_fly s ++ f_batch s);
  fi_in : forall b, In b (D ++ f_fly s ++ f_batch s) -> In b L;
  fi_live : forall b, In b L -> ~ In b D ->
     b_up (f_w s b) = up0 b /\ b_wait (f_w s b) = Z.of_nat (pend D b) /\ b_cp (f_w s b) = true;
  fi_st : forall b, In b L -> ~ In b D -> ~ In b (f_fly s) -> b_st (f_w s b) = Dirty;
  fi_fly : forall b, In b (f_fly s) -> b_st (f_w s b) = Flushing;
  fi_done : forall b, In b D -> b_cp (f_w s b) = false \/ b_st (f_w s b) = Clean;
  fi_zero : forall b, In b (D ++ f_fly s ++ f_batch s) -> pend D b = 0%nat;
  fi_skip : forall b, In b passed -> ~ In b (D ++ f_fly s ++ f_batch s) -> ~ In b X ->
     pend D b <> 0%nat;
  fi_batch : forall b, In b (f_batch s) -> In b passed;
  fi_count : f_count s = (Z.of_nat (length L) - Z.of_nat (length D))%Z;
  fi_dones : dones (f_log s) = D;
  fi_issues : Permutation (issues (f_log s)) (D ++ f_fly s);
  fi_ord : ordered (f_log s);
  fi_fin : f_fin s = if Nat.eqb (length D) (length L) then 1%nat else 0%nat }.

Definition idle_ok (s : fstate) : Prop :=
  f_started s = true -> f_fly s = [] -> f_batch s = [] ->
  f_rest s = [] \/ f_count s = 0%Z.

Lemma in_dones : forall log d, In d (dones log) <-> In (Done d) log.
Proof.
  intros log d. unfold dones. rewrite in_flat_map. split.
  - intros [e [He Hd]]. destruct e; cbn in Hd; [destruct Hd|]. destruct Hd as [->|[]]. assumption.
  - intros H. exists (Done d). split; [assumption|now left].
Qed.

(** [take_dirty] visits a front part of the list and takes what can be taken. *)
Lemma take_spec : forall m rest n p r, take_dirty m rest n = (p, r) ->
  exists pre, rest = pre ++ r /\ p = filter (fun b => pickable (m b)) pre /\
              ((length p < n)%nat -> r = []).
Proof.
  intros m. induction rest as [|b rest IH]; intros n p r H; cbn [take_dirty] in H.
  - injection H as <- <-. exists []. auto.
  - destruct n as [|n].
    + injection H as <- <-. exists []. ands; auto. cbn. lia.
    + destruct (pickable (m b)) eqn:E.
      * destruct (take_dirty m rest n) as [p' r'] eqn:Et. injection H as <- <-.
        destruct (IH _ _ _ Et) as [pre [H1 [H2 H3]]]. exists (b :: pre). ands.
        -- cbn. now rewrite H1.
        -- cbn [filter]. now rewrite E, H2.
        -- cbn [length]. intros; apply H3; lia.
      * destruct (IH _ _ _ H) as [pre [H1 [H2 H3]]]. exists (b :: pre). ands.
        -- cbn. now rewrite H1.
        -- cbn [filter]. now rewrite E.
        -- assumption.
Qed.

Lemma take_len : forall m rest n p r, take_dirty m rest n = (p, r) -> (length p <= n)%nat.
Proof.
  intros m. induction rest as [|b rest IH]; intros n p r H; cbn [take_dirty] in H.
  - injection H as <- <-. cbn. lia.
  - destruct n as [|n]; [injection H as <- <-; cbn; lia|].
    destruct (pickable (m b)).
    + destruct (take_dirty m rest n) as [p' r'] eqn:Et. injection H as <- <-.
      cbn [length]. apply IH in Et. lia.
    + now apply IH in H.
Qed.

Lemma pickable_iff : forall b, pickable b = true <->
  b_st b = Dirty /\ b_cp b = true /\ b_wait b = 0%Z.
Proof.
  intros b. unfold pickable. destruct (b_st b).
  - split; [discriminate|]. intros [H _]. discriminate.
  - rewrite andb_true_iff, Z.eqb_eq. intuition.
  - split; [discriminate|]. intros [H _]. discriminate.
Qed.

Lemma take_ext : forall m m' rest n, (forall b, pickable (m b) = pickable (m' b)) ->
  take_dirty m rest n = take_dirty m' rest n.
Proof.
  intros m m' rest. induction rest as [|b rest IH]; intros n H; [reflexivity|].
  cbn [take_dirty]. destruct n as [|n]; [reflexivity|]. rewrite H.
  rewrite (IH n H), (IH (S n) H). reflexivity.
Qed.

(** What can be taken is a buffer nobody has issued and nothing is pending for. *)
Lemma pick_inv : forall s D passed X b, FInv s D passed X -> In b L ->
  pickable (f_w s b) = true -> ~ In b D /\ ~ In b (f_fly s) /\ pend D b = 0%nat.
Proof.
  intros s D passed X b HF HI HP. apply pickable_iff in HP. destruct HP as [P1 [P2 P3]].
  assert (HD : ~ In b D).
  { intros H. destruct (fi_done _ _ _ _ HF b H); congruence. }
  ands; auto.
  - intros H. apply (fi_fly _ _ _ _ HF) in H. congruence.
  - destruct (fi_live _ _ _ _ HF b HI HD) as [_ [H _]]. rewrite P3 in H. lia.
Qed.

Definition with_rest (s : fstate) (r : list nat) : fstate :=
  mkF (f_w s) r (f_count s) (f_batch s) (f_fly s) (f_started s) (f_fin s) (f_log s).
Definition with_batch (s : fstate) (p : list nat) : fstate :=
  mkF (f_w s) (f_rest s) (f_count s) p (f_fly s) (f_started s) (f_fin s) (f_log s).
Definition with_started (s : fstate) (x : bool) : fstate :=
  mkF (f_w s) (f_rest s) (f_count s) (f_batch s) (f_fly s) x (f_fin s) (f_log s).
Definition with_issue (s : fstate) (u : nat) : fstate :=
  mkF (upd (f_w s) u (set_st Flushing)) (f_rest s) (f_count s) (f_batch s)
      (u :: f_fly s) (f_started s) (f_fin s) (Issue u :: f_log s).

Definition fresh (s : fstate) (D : list nat) (b : nat) : Prop :=
  In b L /\ ~ In b (D ++ f_fly s ++ f_batch s) /\ pend D b = 0%nat.

Lemma take_core : forall s D passed n p r, FInv s D passed [] ->
  take_dirty (f_w s) (f_rest s) n = (p, r) ->
  exists passed', FInv (with_rest s r) D passed' p /\ NoDup p /\
    (forall b, In b p -> fresh s D b /\ In b passed') /\ ((length p < n)%nat -> r = []).
Proof.
  intros s D passed n p r HF Et.
  destruct (take_spec _ _ _ _ _ Et) as [pre [H1 [H2 H3]]].
  assert (N := HND). rewrite (fi_list _ _ _ _ HF), H1 in N.
  apply nd_app in N. destruct N as [_ [N Hap]]. apply nd_app in N. destruct N as [Npre _].
  assert (HpreL : forall b, In b pre -> In b L).
  { intros b Hb. rewrite (fi_list _ _ _ _ HF), H1. apply in_app_iff. right. apply in_app_iff. now left. }
  assert (Hnp : forall b, In b pre -> ~ In b passed).
  { intros b Hb Hp. apply (Hap b); [assumption|]. apply in_app_iff. now left. }
  assert (HP : forall b, In b p -> fresh s D b /\ In b (passed ++ pre)).
  { intros b Hb. rewrite H2 in Hb. apply filter_In in Hb. destruct Hb as [Hb Hp].
    destruct (pick_inv _ _ _ _ b HF (HpreL b Hb) Hp) as [A [B C]].
    split; [|apply in_app_iff; now right]. split; [auto|]. split; [|assumption].
    rewrite !in_app_iff. intros [H|[H|H]]; auto.
    apply (Hnp b Hb). now apply (fi_batch _ _ _ _ HF). }
  exists (passed ++ pre). ands; auto.
  2: { rewrite H2. now apply NoDup_filter. }
  constructor; cbn [with_rest f_w f_rest f_count f_batch f_fly f_started f_fin f_log];
    try apply HF.
  - now rewrite <- app_assoc, <- H1, <- (fi_list _ _ _ _ HF).
  - intros b Hb Hn HX. apply in_app_iff in Hb. destruct Hb as [Hb|Hb].
    + apply (fi_skip _ _ _ _ HF); auto.
    + rewrite !in_app_iff in Hn. assert (HbL := HpreL b Hb).
      assert (HbD : ~ In b D) by tauto. assert (HbF : ~ In b (f_fly s)) by tauto.
      intros Hz. apply HX. rewrite H2. apply filter_In.
      split; [assumption|]. apply pickable_iff.
      destruct (fi_live _ _ _ _ HF b HbL HbD) as [_ [Hw Hc]]. ands; auto.
      * now apply (fi_st _ _ _ _ HF).
      * rewrite Hw, Hz. reflexivity.
  - intros b Hb. apply in_app_iff. left. now apply (fi_batch _ _ _ _ HF).
Qed.

Lemma batch_core : forall s D passed p, FInv s D passed p -> NoDup p ->
  (forall b, In b p -> fresh s D b /\ In b passed) ->
  FInv (with_batch s (f_batch s ++ p)) D passed [].
Proof.
  intros s D passed p HF HN HP.
  constructor; cbn [with_batch f_w f_rest f_count f_batch f_fly f_started f_fin f_log];
    try apply HF.
  - rewrite !app_assoc. apply nd_app. ands; [rewrite <- app_assoc; apply HF|assumption|].
    intros b Hb Hp. destruct (HP b Hp) as [[_ [H _]] _]. apply H. now rewrite app_assoc.
  - intros b Hb. rewrite !app_assoc in Hb. apply in_app_iff in Hb. destruct Hb as [Hb|Hb].
    + apply (fi_in _ _ _ _ HF). now rewrite app_assoc.
    + now apply HP.
  - intros b Hb. rewrite !app_assoc in Hb. apply in_app_iff in Hb. destruct Hb as [Hb|Hb].
    + apply (fi_zero _ _ _ _ HF). now rewrite app_assoc.
    + now apply HP.
  - intros b Hb Hn _. rewrite !in_app_iff in Hn. apply (fi_skip _ _ _ _ HF); auto.
    + rewrite !in_app_iff. tauto.
    + tauto.
  - intros b Hb. apply in_app_iff in Hb. destruct Hb as [Hb|Hb]; [now apply (fi_batch _ _ _ _ HF)|].
    now apply HP.
Qed.

Lemma unbatch_core : forall s D passed b, FInv s D passed [] -> In b (f_batch s) ->
  FInv (with_batch s (remove1 b (f_batch s))) D passed [b] /\
  fresh (with_batch s (remove1 b (f_batch s))) D b.
Proof.
  intros s D passed b HF Hb. assert (HP := remove1_perm _ _ Hb).
  assert (N : NoDup (b :: D ++ f_fly s ++ remove1 b (f_batch s))).
  { eapply Permutation_NoDup; [|apply (fi_nd _ _ _ _ HF)].
    rewrite !(app_assoc D). apply perm_pull2. exact HP. }
  inversion N as [|x y N1 N2]; subst x y.
  assert (HI : forall x, In x (D ++ f_fly s ++ remove1 b (f_batch s)) ->
                         In x (D ++ f_fly s ++ f_batch s)).
  { intros x Hx. rewrite !in_app_iff in *. destruct Hx as [H|[H|H]]; auto.
    right; right. now apply in_remove1 in H. }
  split.
  - constructor; cbn [with_batch f_w f_rest f_count f_batch f_fly f_started f_fin f_log];
      try apply HF; auto.
    + intros x Hx. apply (fi_in _ _ _ _ HF). auto.
    + intros x Hx. apply (fi_zero _ _ _ _ HF). auto.
    + intros x Hx Hn HX. apply (fi_skip _ _ _ _ HF); auto.
      intros H. apply Hn. rewrite !in_app_iff in *. destruct H as [H|[H|H]]; auto.
      right; right. apply (perm_in _ _ _ HP) in H. cbn in H, HX. destruct H as [H|H]; [|assumption].
      exfalso. auto.
    + intros x Hx. apply in_remove1 in Hx. now apply (fi_batch _ _ _ _ HF).
  - split; [|split].
    + apply (fi_in _ _ _ _ HF). rewrite !in_app_iff. auto.
    + exact N1.
    + apply (fi_zero _ _ _ _ HF). rewrite !in_app_iff. auto.
Qed.

Lemma issue_core : forall s D passed u, FInv s D passed [u] -> fresh s D u ->
  FInv (with_issue s u) D passed [].
Proof.
  intros s D passed u HF [HU [HN HZ]].
  assert (HN' : ~ In u D /\ ~ In u (f_fly s)) by (rewrite !in_app_iff in HN; tauto).
  destruct HN' as [HN1 HN2].
  assert (HW : forall (T : Type) (f : buf -> T), (forall x, f (set_st Flushing x) = f x) ->
    forall x, f (upd (f_w s) u (set_st Flushing) x) = f (f_w s x)).
  { intros T f Hf x. destruct (Nat.eq_dec x u) as [->|Hx]; [rewrite upd_same; apply Hf|].
    now rewrite upd_other. }
  assert (HP : Permutation (D ++ (u :: f_fly s) ++ f_batch s) (u :: D ++ f_fly s ++ f_batch s)).
  { cbn. symmetry. apply Permutation_middle. }
  assert (HIn : forall x, In x (D ++ (u :: f_fly s) ++ f_batch s) ->
                          x = u \/ In x (D ++ f_fly s ++ f_batch s)).
  { intros x Hx. apply (perm_in _ _ _ HP) in Hx. destruct Hx; auto. }
  constructor; cbn [with_issue f_w f_rest f_count f_batch f_fly f_started f_fin f_log];
    try apply HF.
  - eapply Permutation_NoDup; [symmetry; exact HP|]. constructor; [assumption|apply HF].
  - intros x Hx. apply HIn in Hx. destruct Hx as [->|Hx]; [assumption|now apply (fi_in _ _ _ _ HF)].
  - intros x Hx HD. rewrite (HW _ b_up), (HW _ b_wait), (HW _ b_cp) by reflexivity.
    now apply (fi_live _ _ _ _ HF).
  - intros x Hx HD Hfl. cbn in Hfl. rewrite upd_other by (intros ->; auto).
    apply (fi_st _ _ _ _ HF); auto.
  - intros x [<-|Hx]; [now rewrite upd_same|].
    rewrite upd_other by (intros ->; contradiction). now apply (fi_fly _ _ _ _ HF).
  - intros x Hx. rewrite upd_other by (intros ->; contradiction). now apply (fi_done _ _ _ _ HF).
  - intros x Hx. apply HIn in Hx. destruct Hx as [->|Hx]; [assumption|now apply (fi_zero _ _ _ _ HF)].
  - intros x Hx Hn _. apply (fi_skip _ _ _ _ HF); auto.
    + intros H. apply Hn. apply (perm_in _ _ _ (Permutation_sym HP)). now right.
    + intros [<-|[]]. apply Hn. apply (perm_in _ _ _ (Permutation_sym HP)). now left.
  - unfold issues. cbn [flat_map app]. fold (issues (f_log s)).
    rewrite (fi_issues _ _ _ _ HF). apply Permutation_middle.
  - cbn [ordered]. split; [|apply HF]. intros d Hd E. apply in_dones. rewrite (fi_dones _ _ _ _ HF).
    exact (proj1 (pend_zero D u) HZ d Hd E).
Qed.

(** A write is done, others remain: the buffer above may become ready. *)
Definition after_done (s : fstate) (b : nat) (m : bufs) : fstate :=
  mkF (upd m b (set_st Clean)) (f_rest s) (f_count s - 1) (f_batch s) (remove1 b (f_fly s))
      (f_started s) (f_fin s) (Done b :: f_log s).

Lemma notify_spec : forall s D passed b, FInv s D passed [] -> In b (f_fly s) ->
  f_count s <> 1%Z ->
  exists m1 X, notify_up (f_w s) b = (m1, X) /\ FInv (after_done s b m1) (b :: D) passed X /\
    (X = [] \/ exists u, X = [u] /\ fresh (after_done s b m1) (b :: D) u) /\
    b_st (m1 b) = Flushing.
Proof.
  intros s D passed b HF Hb Hcnt.
  assert (HPf := remove1_perm _ _ Hb).
  assert (HbA : In b (D ++ f_fly s ++ f_batch s)) by (rewrite !in_app_iff; auto).
  assert (HbL : In b L) by (now apply (fi_in _ _ _ _ HF)).
  assert (HP : Permutation (D ++ f_fly s ++ f_batch s) ((b :: D) ++ remove1 b (f_fly s) ++ f_batch s)).
  { apply perm_pull. exact HPf. }
  assert (N : NoDup ((b :: D) ++ remove1 b (f_fly s) ++ f_batch s)).
  { eapply Permutation_NoDup; [exact HP|apply HF]. }
  assert (HIn : forall x, In x ((b :: D) ++ remove1 b (f_fly s) ++ f_batch s) <->
                          In x (D ++ f_fly s ++ f_batch s)).
  { intros x. split; apply perm_in; [symmetry|]; exact HP. }
  assert (HbD : ~ In b D).
  { cbn in N. inversion N as [|x y N1 N2]; subst. intros H. apply N1. apply in_app_iff. now left. }
  assert (Hbf : ~ In b (remove1 b (f_fly s))).
  { cbn in N. inversion N as [|x y N1 N2]; subst. intros H. apply N1. rewrite !in_app_iff. auto. }
  assert (Hbz : pend D b = 0%nat) by (now apply (fi_zero _ _ _ _ HF)).
  assert (Hlen : length D <> length L).
  { intros E. assert (length (b :: D) <= length L)%nat; [|cbn in *; lia].
    apply NoDup_incl_length; [|].
    - constructor; [assumption|]. assert (Q := fi_nd _ _ _ _ HF). apply nd_app in Q. tauto.
    - intros x [<-|Hx]; [assumption|]. apply (fi_in _ _ _ _ HF). apply in_app_iff. now left. }
  assert (Hlen' : length (b :: D) <> length L).
  { assert (Q := fi_count _ _ _ _ HF). cbn [length]. lia. }
  destruct (fi_live _ _ _ _ HF b HbL HbD) as [Bu [Bw Bc]].
  set (m1 := match up0 b with
             | Some u => upd (upd (f_w s) u (add_wait (-1))) b (set_up None)
             | None => upd (f_w s) b (set_up None)
             end).
  (* the buffers other than [b] after the notification *)
  assert (HM : forall x, In x L -> x <> b -> ~ In x D ->
      b_up (m1 x) = up0 x /\ b_wait (m1 x) = Z.of_nat (pend (b :: D) x) /\
      b_cp (m1 x) = true).
  { intros x Hx Hxb HxD. destruct (fi_live _ _ _ _ HF x Hx HxD) as [X1 [X2 X3]].
    assert (Q := pend_done D b x HbL HbD). unfold m1. destruct (up0 b) as [u|] eqn:Eu; cbn [isup] in Q.
    - rewrite upd_other by assumption. destruct (Nat.eq_dec x u) as [->|Hxu].
      + rewrite upd_same. cbn [add_wait b_up b_wait b_cp]. ands; auto.
        rewrite X2. rewrite Nat.eqb_refl in Q. lia.
      + rewrite upd_other by assumption. ands; auto. rewrite X2.
        rewrite (proj2 (Nat.eqb_neq u x)) in Q by congruence. lia.
    - rewrite upd_other by assumption. ands; auto. rewrite X2. lia. }
  assert (HS : forall x, b_st (m1 x) = b_st (f_w s x) /\ b_cp (m1 x) = b_cp (f_w s x)).
  { intros x. unfold m1. destruct (up0 b) as [u|]; unfold upd; destruct (Nat.eqb x b);
      try destruct (Nat.eqb x u); auto. }
  set (X := match up0 b with
            | Some u => if Nat.eqb (pend (b :: D) u) 0 then [u] else []
            | None => [] end).
  assert (HUfresh : forall u, up0 b = Some u ->
     In u L /\ ~ In u ((b :: D) ++ remove1 b (f_fly s) ++ f_batch s) /\ u <> b /\ ~ In u D).
  { intros u Eu. assert (HuL : In u L) by (eapply Hclosed; eassumption).
    assert (Hz : pend D u <> 0%nat).
    { intros Hz. apply HbD. exact (proj1 (pend_zero D u) Hz b HbL Eu). }
    assert (Hu : ~ In u (D ++ f_fly s ++ f_batch s)).
    { intros H. apply Hz. now apply (fi_zero _ _ _ _ HF). }
    ands; auto.
    - rewrite HIn. assumption.
    - intros ->. congruence.
    - intros H. apply Hu. apply in_app_iff. now left. }
  exists m1, X. ands.
  - unfold notify_up, m1, X. rewrite Bu. destruct (up0 b) as [u|] eqn:Eu; [|reflexivity].
    f_equal. destruct (HUfresh u eq_refl) as [U1 [U2 [U3 U4]]].
    destruct (fi_live _ _ _ _ HF u U1 U4) as [_ [Uw _]]. rewrite Uw.
    assert (Q := pend_done D b u HbL HbD). rewrite Eu in Q. cbn [isup] in Q.
    rewrite Nat.eqb_refl in Q.
    destruct (Z.eqb_spec (Z.of_nat (pend D u)) 1), (Nat.eqb_spec (pend (b :: D) u) 0);
      auto; lia.
  - constructor; cbn [after_done f_w f_rest f_count f_batch f_fly f_started f_fin f_log].
    + apply HF.
    + exact N.
    + intros x Hx. apply HIn in Hx. now apply (fi_in _ _ _ _ HF).
    + intros x Hx HxD. cbn in HxD. assert (Hxb : x <> b) by (intros ->; auto).
      rewrite upd_other by assumption. apply HM; auto.
    + intros x Hx HxD Hxf. cbn in HxD. assert (Hxb : x <> b) by (intros ->; auto).
      rewrite upd_other by assumption. rewrite (proj1 (HS x)).
      apply (fi_st _ _ _ _ HF); auto. intros H. apply (perm_in _ _ _ HPf) in H.
      destruct H as [H|H]; auto.
    + intros x Hx. rewrite upd_other by (intros ->; contradiction). rewrite (proj1 (HS x)).
      apply (fi_fly _ _ _ _ HF). now apply in_remove1 in Hx.
    + intros x Hx. destruct (Nat.eq_dec x b) as [->|Hxb]; [right; now rewrite upd_same|].
      rewrite upd_other by assumption. destruct (HS x) as [-> ->]. destruct Hx as [?|Hx]; [congruence|].
      now apply (fi_done _ _ _ _ HF).
    + intros x Hx. apply HIn in Hx. apply (fi_zero _ _ _ _ HF) in Hx.
      assert (Q := pend_done D b x HbL HbD). lia.
    + intros x Hx Hn HX. rewrite HIn in Hn.
      assert (Q := fi_skip _ _ _ _ HF x Hx Hn (fun H => H)).
      assert (Q2 := pend_done D b x HbL HbD). unfold X in HX.
      destruct (up0 b) as [u|] eqn:Eu; cbn [isup] in Q2; [|lia].
      destruct (Nat.eqb_spec u x) as [->|Hux]; [|lia].
      destruct (Nat.eqb_spec (pend (b :: D) x) 0) as [Ez|Ez]; [|assumption].
      exfalso. apply HX. now left.
    + apply HF.
    + rewrite (fi_count _ _ _ _ HF). cbn [length]. lia.
    + unfold dones. cbn [flat_map app]. fold (dones (f_log s)). now rewrite (fi_dones _ _ _ _ HF).
    + unfold issues. cbn [flat_map app]. fold (issues (f_log s)). rewrite (fi_issues _ _ _ _ HF).
      exact (perm_pull2 _ _ _ D HPf).
    + cbn. apply HF.
    + rewrite (fi_fin _ _ _ _ HF). rewrite (proj2 (Nat.eqb_neq _ _) Hlen).
      now rewrite (proj2 (Nat.eqb_neq _ _) Hlen').
  - unfold X. destruct (up0 b) as [u|] eqn:Eu; [|now left].
    destruct (Nat.eqb_spec (pend (b :: D) u) 0) as [Ez|Ez]; [|now left].
    right. exists u. split; [reflexivity|]. destruct (HUfresh u eq_refl) as [U1 [U2 [U3 U4]]].
    split; [assumption|]. split; assumption.
  - rewrite (proj1 (HS b)). now apply (fi_fly _ _ _ _ HF).
Qed.

Lemma with_started_finv : forall s D passed X x, FInv s D passed X ->
  FInv (with_started s x) D passed X.
Proof. intros s D passed X x []. now constructor. Qed.

Lemma step_finv : forall s D passed e s', FInv s D passed [] -> idle_ok s ->
  (forall q, e = EStart q -> (1 <= q)%nat) ->
  fstep true s e = Some s' -> exists D' passed', FInv s' D' passed' [] /\ idle_ok s'.
Proof.
  intros s D passed e s' HF HI Hq H. destruct e as [q|b|b|b up wait]; cbn [fstep] in H.
  - destruct (take_dirty (f_w s) (f_rest s) q) as [p r] eqn:Et. injection H as <-.
    destruct (take_core _ _ _ _ _ _ HF Et) as [passed' [F1 [F2 [F3 F4]]]].
    exists D, passed'. split.
    + exact (with_started_finv _ _ _ _ true (batch_core (with_rest s r) _ _ _ F1 F2 F3)).
    + intros _ _ Hb. cbn in Hb |- *. apply app_eq_nil in Hb. destruct Hb as [_ ->].
      left. apply F4. specialize (Hq q eq_refl). cbn. lia.
  - destruct (mem b (f_batch s)) eqn:Em; [|discriminate]. injection H as <-.
    apply mem_iff in Em. destruct (unbatch_core _ _ _ _ HF Em) as [F1 F2].
    exists D, passed. split; [exact (issue_core _ _ _ _ F1 F2)|].
    intros _ Hf. discriminate Hf.
  - destruct (mem b (f_fly s)) eqn:Em; [|discriminate]. apply mem_iff in Em.
    unfold on_done in H. destruct (Z.eqb_spec (f_count s) 1) as [Ec|Ec].
    + (* the last one *)
      injection H as <-. exists (b :: D), passed.
      assert (HPf := remove1_perm _ _ Em).
      assert (HP : Permutation (D ++ f_fly s ++ f_batch s) ((b :: D) ++ remove1 b (f_fly s) ++ f_batch s)).
      { apply perm_pull. exact HPf. }
      assert (Hlen : length (b :: D) = length L).
      { assert (Q := fi_count _ _ _ _ HF). cbn [length]. lia. }
      assert (N := Permutation_NoDup HP (fi_nd _ _ _ _ HF)).
      assert (HN1 : NoDup (b :: D)) by (apply nd_app in N; tauto).
      assert (Hincl : incl (b :: D) L).
      { intros x Hx. apply (fi_in _ _ _ _ HF). apply (perm_in _ _ _ (Permutation_sym HP)).
        apply in_app_iff. now left. }
      assert (Hall : incl L (b :: D)) by (apply NoDup_length_incl; [assumption|lia|assumption]).
      assert (Hemp : remove1 b (f_fly s) ++ f_batch s = []).
      { destruct (remove1 b (f_fly s) ++ f_batch s) as [|x q] eqn:E; [reflexivity|].
        exfalso. apply nd_app in N. destruct N as [_ [_ N]]. apply (N x); [|now left].
        apply Hall. apply (fi_in _ _ _ _ HF). apply (perm_in _ _ _ (Permutation_sym HP)).
        apply in_app_iff. right. now left. }
      apply app_eq_nil in Hemp. destruct Hemp as [He1 He2].
      assert (Hpz : forall x, pend (b :: D) x = 0%nat).
      { intros x. apply pend_zero. intros d Hd _. now apply Hall. }
      assert (HnD : length D <> length L) by (cbn [length] in Hlen; lia).
      split.
      * constructor; cbn [f_w f_rest f_count f_batch f_fly f_started f_fin f_log].
        -- apply HF.
        -- exact N.
        -- intros x Hx. apply (fi_in _ _ _ _ HF). exact (perm_in _ _ _ (Permutation_sym HP) Hx).
        -- intros x Hx HD. exfalso. auto.
        -- intros x Hx HD. exfalso. auto.
        -- rewrite He1. intros x [].
        -- intros x Hx. destruct (Nat.eq_dec x b) as [->|Hxb]; [right; now rewrite upd_same|].
           rewrite upd_other by assumption. destruct Hx as [?|Hx]; [congruence|].
           now apply (fi_done _ _ _ _ HF).
        -- auto.
        -- intros x Hx Hn. exfalso. apply Hn. apply in_app_iff. left. apply Hall.
           rewrite (fi_list _ _ _ _ HF). apply in_app_iff. now left.
        -- rewrite He2. intros x [].
        -- rewrite (fi_count _ _ _ _ HF). cbn [length]. lia.
        -- unfold dones. cbn [flat_map app]. fold (dones (f_log s)). now rewrite (fi_dones _ _ _ _ HF).
        -- unfold issues. cbn [flat_map app]. fold (issues (f_log s)). rewrite (fi_issues _ _ _ _ HF).
           exact (perm_pull2 _ _ _ D HPf).
        -- cbn. apply HF.
        -- rewrite (fi_fin _ _ _ _ HF). rewrite (proj2 (Nat.eqb_neq _ _) HnD).
           now rewrite (proj2 (Nat.eqb_eq _ _) Hlen).
      * intros _ _ _. right. cbn [f_count]. lia.
    + destruct (notify_spec _ _ _ _ HF Em Ec) as [m1 [X [E1 [F1 [F2 F3]]]]]. rewrite E1 in H.
      destruct F2 as [->|[u [-> Fu]]].
      * destruct (take_dirty m1 (f_rest s) 1) as [p r] eqn:Et. injection H as <-.
        assert (Et' : take_dirty (f_w (after_done s b m1)) (f_rest (after_done s b m1)) 1 = (p, r)).
        { cbn [after_done f_w f_rest]. rewrite <- Et. apply take_ext. intros x.
          destruct (Nat.eq_dec x b) as [->|Hx]; [|now rewrite upd_other].
          rewrite upd_same. unfold pickable. cbn [set_st b_st]. now rewrite F3. }
        assert (HLen := take_len _ _ _ _ _ Et).
        destruct (take_core _ _ _ _ _ _ F1 Et') as [passed' [T1 [T2 [T3 T4]]]].
        destruct p as [|x p]; cbn [hd_error].
        -- exists (b :: D), passed'. split; [exact T1|].
           intros _ _ _. left. apply T4. cbn. lia.
        -- destruct p as [|y p]; [|cbn in HLen; lia].
           exists (b :: D), passed'. split.
           ++ refine (issue_core _ _ _ _ T1 _). exact (proj1 (T3 x (or_introl eq_refl))).
           ++ intros _ Hf. discriminate Hf.
      * injection H as <-. exists (b :: D), passed. split.
        -- exact (issue_core _ _ _ _ F1 Fu).
        -- intros _ Hf. discriminate Hf.
  - destruct (match b_st (f_w s b) with Clean => true | _ => negb (b_cp (f_w s b)) end) eqn:Ef;
      [|discriminate]. injection H as <-. exists D, passed. split; [|exact HI].
    assert (Hcl : b_st (f_w s b) = Clean \/ b_cp (f_w s b) = false).
    { destruct (b_st (f_w s b)); auto; right; now apply negb_true_iff. }
    assert (Hb : ~ (In b L /\ ~ In b D)).
    { intros [B1 B2]. destruct (fi_live _ _ _ _ HF b B1 B2) as [_ [_ B3]].
      destruct Hcl as [Hc|Hc]; [|congruence].
      destruct (in_dec Nat.eq_dec b (f_fly s)) as [B4|B4].
      - apply (fi_fly _ _ _ _ HF) in B4. congruence.
      - rewrite (fi_st _ _ _ _ HF b B1 B2 B4) in Hc. discriminate. }
    constructor; cbn [f_w f_rest f_count f_batch f_fly f_started f_fin f_log]; try apply HF.
    + intros x Hx HD. rewrite upd_other by (intros ->; auto). now apply (fi_live _ _ _ _ HF).
    + intros x Hx HD Hfl. rewrite upd_other by (intros ->; auto). now apply (fi_st _ _ _ _ HF).
    + intros x Hx. rewrite upd_other; [now apply (fi_fly _ _ _ _ HF)|]. intros ->. apply Hb. split.
      * apply (fi_in _ _ _ _ HF). rewrite !in_app_iff. auto.
      * intros HD. assert (N := fi_nd _ _ _ _ HF). apply nd_app in N. destruct N as [_ [_ N]].
        apply (N b HD). apply in_app_iff. now left.
    + intros x Hx. destruct (Nat.eq_dec x b) as [->|Hxb]; [left; now rewrite upd_same|].
      rewrite upd_other by assumption. now apply (fi_done _ _ _ _ HF).
Qed.

Lemma run_finv : forall l s D passed s', FInv s D passed [] -> idle_ok s -> qd_ok l ->
  frun true s l = Some s' -> exists D' passed', FInv s' D' passed' [] /\ idle_ok s'.
Proof.
  induction l as [|e l IH]; intros s D passed s' HF HI Hq H; cbn [frun] in H.
  - injection H as <-. eauto.
  - destruct (fstep true s e) as [s1|] eqn:E; [|discriminate].
    destruct (step_finv _ _ _ _ _ HF HI (fun q Hq' => Hq q (or_introl Hq')) E)
      as [D1 [p1 [F1 I1]]].
    eapply IH; eauto. intros q Hq'. apply Hq. now right.
Qed.

(** Nothing to do and not all done: impossible without a cycle. *)
Lemma finv_end : forall s D passed, FInv s D passed [] -> idle_ok s ->
  (exists rank : nat -> nat, forall d u, In d L -> up0 d = Some u -> (rank d < rank u)%nat) ->
  f_started s = true -> f_fly s = [] -> f_batch s = [] -> incl L D /\ f_fin s = 1%nat.
Proof.
  intros s D passed HF HI [rank HR] Hs Hf Hb.
  assert (HDL : incl D L) by (intros x Hx; apply (fi_in _ _ _ _ HF); apply in_app_iff; now left).
  assert (HDN : NoDup D) by (assert (N := fi_nd _ _ _ _ HF); apply nd_app in N; tauto).
  assert (HA : incl L D).
  { destruct (HI Hs Hf Hb) as [Hr|Hc].
    - assert (Hall : forall n b, (rank b < n)%nat -> In b L -> In b D).
      { induction n as [|n IHn]; intros b Hn HbL; [lia|].
        destruct (in_dec Nat.eq_dec b D) as [H|H]; [assumption|]. exfalso.
        assert (Hp : pend D b <> 0%nat).
        { apply (fi_skip _ _ _ _ HF); [|rewrite Hf, Hb; cbn; now rewrite app_nil_r|intros []].
          rewrite (fi_list _ _ _ _ HF), Hr, app_nil_r in HbL. exact HbL. }
        apply Hp. apply pend_zero. intros d Hd E. apply IHn; [|assumption].
        specialize (HR d b Hd E). lia. }
      intros b Hb'. exact (Hall (S (rank b)) b (Nat.lt_succ_diag_r _) Hb').
    - apply NoDup_length_incl; [assumption| |assumption].
      assert (Q := fi_count _ _ _ _ HF). lia. }
  split; [assumption|]. rewrite (fi_fin _ _ _ _ HF).
  replace (Nat.eqb (length D) (length L)) with true; [reflexivity|].
  symmetry. apply Nat.eqb_eq. apply Nat.le_antisymm; now apply NoDup_incl_length.
Qed.

Lemma ordered_split : forall log l1 u l2, ordered log -> rev log = l1 ++ Issue u :: l2 ->
  forall d, In d L -> up0 d = Some u -> In (Done d) l1.
Proof.
  induction log as [|e log IH]; intros l1 u l2 HO E d Hd Eu.
  - destruct l1; discriminate.
  - cbn [rev] in E. destruct l2 as [|y l2'] eqn:E2.
    + apply app_inj_tail in E. destruct E as [E Ee]. subst e. cbn in HO.
      destruct HO as [HO _]. specialize (HO d Hd Eu). apply in_rev in HO. now rewrite E in HO.
    + assert (Hl : exists q z, y :: l2' = q ++ [z]).
      { destruct (exists_last (l := y :: l2')) as [q [z Hz]]; [discriminate|]. eauto. }
      destruct Hl as [q [z Hz]]. rewrite Hz in E.
      change (l1 ++ Issue u :: q ++ [z]) with (l1 ++ (Issue u :: q) ++ [z]) in E.
      rewrite app_assoc in E. apply app_inj_tail in E. destruct E as [E _].
      apply (IH l1 u q) with (d := d); auto. destruct e; cbn in HO; tauto.
Qed.
End Flush.
