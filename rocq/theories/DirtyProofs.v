From Coq Require Import List ZArith Lia Bool.
From Verif Require Import DirtyModel DirtySpec.
Import ListNotations.
Open Scope Z_scope.

Definition po (t : tst) : nat := match t with In true true => 1 | _ => 0 end.
Definition pc (t : tst) : nat := match t with In false true => 1 | _ => 0 end.
Fixpoint sum (f : tst -> nat) (l : list tst) : nat :=
  match l with [] => O | x :: r => (f x + sum f r)%nat end.

Lemma sum_set : forall f l i t u, nth_error l i = Some t ->
  (sum f (set l i u) + f t = sum f l + f u)%nat.
Proof.
  induction l as [|x l IH]; destruct i; cbn; intros t u H; try discriminate.
  - injection H as ->. lia.
  - specialize (IH _ _ u H). lia.
Qed.

Lemma ex_set : forall l i u, existsb is_old l = false -> is_old u = false -> existsb is_old (set l i u) = false.
Proof.
  induction l as [|x l IH]; destruct i; cbn; intros u H K; auto; apply orb_false_iff in H as [A B]; apply orb_false_iff; auto.
Qed.

Lemma ex_nth : forall l i t, existsb is_old l = false -> nth_error l i = Some t -> is_old t = false.
Proof.
  induction l as [|x l IH]; destruct i; cbn; intros t H K; try discriminate; apply orb_false_iff in H as [A B].
  - injection K as <-. exact A.
  - eauto.
Qed.

Lemma ex_po : forall l, existsb is_old l = false -> sum po l = O.
Proof.
  induction l as [|x l IH]; cbn; intros H; auto. apply orb_false_iff in H as [A B]. rewrite IH by auto.
  destruct x as [|[] []]; cbn in *; auto; discriminate.
Qed.

Lemma map_po : forall l, existsb is_old l = false -> sum po (map to_old l) = sum pc l.
Proof.
  induction l as [|x l IH]; cbn; intros H; auto. apply orb_false_iff in H as [A B]. rewrite IH by auto.
  destruct x as [|[] []]; cbn in *; auto; discriminate.
Qed.

Lemma map_pc : forall l, sum pc (map to_old l) = O.
Proof. induction l as [|x l IH]; cbn; auto. rewrite IH. destruct x as [|[] []]; reflexivity. Qed.

Record inv (size : Z) (l : list ev) (s : st) : Prop := Inv {
  i_cnt : cnt s = size * (counts l - flushed l);
  i_push : pushes l - flushed l = Z.of_nat (cur s) + Z.of_nat (old s);
  i_pend : pushes l - counts l = Z.of_nat (sum po (thr s)) + Z.of_nat (sum pc (thr s));
  i_po : (sum po (thr s) <= old s)%nat;
  i_pc : (sum pc (thr s) <= cur s)%nat;
  i_rest : infl s = false -> old s = O /\ existsb is_old (thr s) = false /\ started s = false;
  i_started : started s = true -> infl s = true /\ existsb is_old (thr s) = false;
  i_bad : bad s = false }.

Lemma sum_out : forall f n, f Out = O -> sum f (repeat Out n) = O.
Proof. intros f n H. induction n; cbn; auto. rewrite H, IHn. reflexivity. Qed.

Lemma ex_out : forall n, existsb is_old (repeat Out n) = false.
Proof. induction n; cbn; auto. Qed.

Lemma init_inv : forall size n, inv size [] (init n).
Proof.
  intros size n. constructor; cbn; unfold pushes, counts, flushed; cbn; rewrite ?sum_out by reflexivity; auto using ex_out; lia.
Qed.

Lemma pushes_app : forall a b, pushes (a ++ b) = pushes a + pushes b.
Proof. intros. unfold pushes. rewrite filter_app, app_length. lia. Qed.
Lemma counts_app : forall a b, counts (a ++ b) = counts a + counts b.
Proof. intros. unfold counts. rewrite filter_app, app_length. lia. Qed.
Lemma flushed_app : forall a b, flushed (a ++ b) = flushed a + flushed b.
Proof. intros. unfold flushed. rewrite filter_app, app_length. lia. Qed.

Lemma trigger_inv : forall size l s f, inv size l s -> inv size l (trigger f s).
Proof.
  intros size l s f [A B C D E F G H]. unfold trigger. destruct (infl s) eqn:I.
  - destruct f; constructor; cbn; auto; intros; try congruence; split; auto; apply G; auto.
  - destruct (F eq_refl) as (F1 & F2 & F3). rewrite (ex_po _ F2) in *.
    constructor; cbn; rewrite ?map_po, ?map_pc by auto; auto; try lia; intros; congruence.
Qed.

Ltac hist :=
  rewrite ?pushes_app, ?counts_app, ?flushed_app;
  repeat match goal with
  | |- context [pushes [?e]] => let v := eval compute in (pushes [e]) in change (pushes [e]) with v
  | |- context [counts [?e]] => let v := eval compute in (counts [e]) in change (counts [e]) with v
  | |- context [flushed [?e]] => let v := eval compute in (flushed [e]) in change (flushed [e]) with v
  end;
  cbn [cnt cur old infl started again bad thr with_thr].

Lemma step_inv : forall size limit l s e s1, 0 < size -> inv size l s -> step size limit s e = Some s1 ->
  inv size (l ++ [e]) s1.
Proof.
  intros size limit l s e s1 Hs V. pose proof V as [A B C D E F G H]. unfold step.
  destruct e; intros K.
  - destruct (nth_error (thr s) i) as [[|o p]|] eqn:N; try discriminate. injection K as <-.
    pose proof (sum_set po _ _ _ (In false false) N) as P. pose proof (sum_set pc _ _ _ (In false false) N) as Q. cbn in P, Q.
    constructor; hist; auto; try lia.
    + intros X. destruct (F X) as (? & ? & ?). auto using ex_set.
    + intros X. destruct (G X). auto using ex_set.
  - destruct (nth_error (thr s) i) as [[|o []]|] eqn:N; try discriminate. injection K as <-.
    pose proof (sum_set po _ _ _ (In o true) N) as P. pose proof (sum_set pc _ _ _ (In o true) N) as Q.
    assert (O : infl s = false \/ started s = true -> o = false).
    { intros [X|X]; [destruct (F X) as (_ & Y & _)|destruct (G X) as (_ & Y)]; exact (ex_nth _ _ _ Y N). }
    constructor; hist; auto.
    + rewrite A. lia.
    + destruct o; lia.
    + destruct o; cbn in P, Q; lia.
    + destruct o; cbn in P, Q; lia.
    + destruct o; cbn in P, Q; lia.
    + intros X. rewrite (O (or_introl X)). destruct (F X) as (? & ? & ?). auto using ex_set.
    + intros X. rewrite (O (or_intror X)). destruct (G X). auto using ex_set.
  - destruct (nth_error (thr s) i) as [[|o []]|] eqn:N; try discriminate.
    pose proof (sum_set po _ _ _ (In o false) N) as P. pose proof (sum_set pc _ _ _ (In o false) N) as Q.
    assert (O : infl s = false \/ started s = true -> o = false).
    { intros [X|X]; [destruct (F X) as (_ & Y & _)|destruct (G X) as (_ & Y)]; exact (ex_nth _ _ _ Y N). }
    assert (W : inv size (l ++ [Count i]) (St (cnt s + size) (cur s) (old s) (infl s) (started s) (again s) (bad s)
                       (set (thr s) i (In o false)))).
    { constructor; hist; auto.
      + rewrite A. lia.
      + lia.
      + destruct o; cbn in P, Q; lia.
      + destruct o; cbn in P, Q; lia.
      + destruct o; cbn in P, Q; lia.
      + intros X. rewrite (O (or_introl X)). destruct (F X) as (? & ? & ?). auto using ex_set.
      + intros X. rewrite (O (or_intror X)). destruct (G X). auto using ex_set. }
    cbv zeta in K. injection K as <-. destruct (_ <? _); auto using trigger_inv.
  - destruct (nth_error (thr s) i) as [[|o []]|] eqn:N; try discriminate. injection K as <-.
    pose proof (sum_set po _ _ _ Out N) as P. pose proof (sum_set pc _ _ _ Out N) as Q.
    assert (po (In o false) = O /\ pc (In o false) = O) as [R T] by (destruct o; auto). rewrite R in P. rewrite T in Q. cbn in P, Q.
    constructor; hist; auto; try lia.
    + intros X. destruct (F X) as (? & ? & ?). auto using ex_set.
    + intros X. destruct (G X). auto using ex_set.
  - injection K as <-. apply trigger_inv. constructor; hist; auto; lia.
  - destruct (infl s && negb (started s) && negb (existsb is_old (thr s))) eqn:X; try discriminate. injection K as <-.
    apply andb_prop in X as [X Y]. apply andb_prop in X as [X Z]. apply negb_true_iff in Y.
    constructor; hist; auto; try discriminate; lia.
  - destruct (old s) as [|o] eqn:O; try discriminate. destruct (started s) eqn:T; try discriminate. injection K as <-.
    destruct (G eq_refl) as (G1 & G2). pose proof (ex_po _ G2) as G3. rewrite G3 in *.
    assert (size <= cnt s). { rewrite A. replace (counts l - flushed l) with (1 + (counts l - flushed l - 1)) by lia.
      assert (0 <= counts l - flushed l - 1) by lia. nia. }
    constructor; hist; auto.
    + rewrite A. lia.
    + lia.
    + rewrite G3. lia.
    + rewrite G3. lia.
    + rewrite G1. discriminate.
    + rewrite H. cbn. apply Z.ltb_ge. assumption.
  - destruct (old s) as [|o] eqn:O; try discriminate. destruct (started s) eqn:T; try discriminate.
    destruct (G eq_refl) as (G1 & G2).
    assert (W : inv size (l ++ [Finish]) (St (cnt s) (cur s) 0 false false (again s) (bad s) (thr s))).
    { constructor; hist; auto; try discriminate; lia. }
    cbv zeta in K. injection K as <-. destruct (again s); auto using trigger_inv.
Qed.

Lemma run_inv : forall size limit l2 l s s1, 0 < size -> inv size l s -> run size limit s l2 = Some s1 ->
  inv size (l ++ l2) s1.
Proof.
  induction l2 as [|e l2 IH]; cbn; intros l s s1 Hs V K.
  - injection K as <-. rewrite app_nil_r. exact V.
  - destruct (step size limit s e) as [s2|] eqn:E; try discriminate.
    replace (l ++ e :: l2) with ((l ++ [e]) ++ l2) by (rewrite <- app_assoc; reflexivity).
    eauto using step_inv.
Qed.

Lemma run_app : forall size limit a b s, run size limit s (a ++ b) =
  match run size limit s a with Some s1 => run size limit s1 b | None => None end.
Proof. induction a as [|e a IH]; cbn; intros; auto. destruct (step size limit s e); auto. Qed.

(** One thread that writes and writes while a flush is in progress. *)
Fixpoint writes (n : nat) : list ev := match n with O => [] | S m => Push 0 :: Count 0 :: writes m end.

Lemma writes_run : forall size limit n c k,
  run size limit (St c k 0 true true false false [In false false]) (writes n) =
  Some (St (c + size * Z.of_nat n) (k + n) 0 true true false false [In false false]).
Proof.
  induction n as [|n IH]; intros c k.
  - cbn [writes run]. rewrite Z.mul_0_r, Z.add_0_r, Nat.add_0_r. reflexivity.
  - cbn [writes]. cbn [run step nth_error thr set cnt cur old infl started again bad].
    destruct (limit <? c + size); cbn [trigger infl]; rewrite IH; f_equal; f_equal; lia.
Qed.

(** Nobody is inside the current checkpoint and its list is empty. *)
Definition only_old (s : st) : Prop :=
  cur s = O /\ forall i p, nth_error (thr s) i <> Some (In false p).

Lemma nth_to_old : forall l i p, nth_error (map to_old l) i <> Some (In false p).
Proof. induction l as [|x l IH]; destruct i; cbn; intros p; try discriminate; auto. destruct x; discriminate. Qed.

Lemma switch_old : forall s, only_old (switch s).
Proof. intros s. split; [reflexivity|]. cbn. apply nth_to_old. Qed.

Lemma trigger_old : forall f s, only_old s -> only_old (trigger f s).
Proof. intros f s H. unfold trigger. destruct (infl s); [destruct f; exact H|apply switch_old]. Qed.

Lemma set_old : forall l i u, (forall j p, nth_error l j <> Some (In false p)) -> (forall p, u <> In false p) ->
  forall j p, nth_error (set l i u) j <> Some (In false p).
Proof.
  induction l as [|x l IH]; intros i u H K j p; destruct i; cbn; try (destruct j; discriminate).
  - destruct j; cbn; [intros X; injection X; apply K|exact (H (S j) p)].
  - destruct j; cbn; [exact (H O p)|]. apply IH; auto. intros j' p'. exact (H (S j') p').
Qed.

Lemma step_old : forall size limit s e s1, (forall i, e <> Enter i) -> only_old s -> step size limit s e = Some s1 -> only_old s1.
Proof.
  intros size limit s e s1 NE [A B] E. unfold step in E. destruct e.
  - destruct (NE i eq_refl).
  - destruct (nth_error (thr s) i) as [[|[] []]|] eqn:N; try discriminate; [|destruct (B _ _ N)].
    injection E as <-. split; cbn; auto. apply set_old; auto; discriminate.
  - destruct (nth_error (thr s) i) as [[|[] []]|] eqn:N; try discriminate; [|destruct (B _ _ N)].
    cbv zeta in E. injection E as <-.
    assert (W : only_old (St (cnt s + size) (cur s) (old s) (infl s) (started s) (again s) (bad s) (set (thr s) i (In true false)))).
    { split; cbn; auto. apply set_old; auto; discriminate. }
    destruct (_ <? _); auto using trigger_old.
  - destruct (nth_error (thr s) i) as [[|o []]|] eqn:N; try discriminate. injection E as <-.
    split; cbn; auto. apply set_old; auto; discriminate.
  - injection E as <-. apply trigger_old. split; auto.
  - destruct (_ && _); try discriminate. injection E as <-. split; auto.
  - destruct (old s); try discriminate. destruct (started s); try discriminate. injection E as <-. split; auto.
  - destruct (old s); try discriminate. destruct (started s); try discriminate. cbv zeta in E. injection E as <-.
    destruct (again s); [apply trigger_old|]; split; auto.
Qed.

Lemma run_old : forall size limit l s s1, (forall i, ~ List.In (Enter i) l) -> only_old s -> run size limit s l = Some s1 -> only_old s1.
Proof.
  induction l as [|e l IH]; cbn [run]; intros s s1 NE H R.
  - injection R as <-. exact H.
  - destruct (step size limit s e) as [s2|] eqn:E; [|discriminate]. apply (IH s2); auto.
    + intros i K. apply (NE i). right. exact K.
    + apply (step_old size limit s e); auto. intros i ->. apply (NE i). left. reflexivity.
Qed.
