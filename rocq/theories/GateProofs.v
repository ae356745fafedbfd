From Coq Require Import List Arith Lia Bool.
From Verif Require Import GateModel GateSpec.
Import ListNotations.

Lemma upd_same {A} (l : list A) : forall i a b, nth_error l i = Some b -> nth_error (upd l i a) i = Some a.
Proof. induction l as [|x l IH]; intros [|i] a b H; cbn in *; try discriminate; eauto. Qed.

Lemma upd_in {A} (l : list A) : forall i k a b, nth_error (upd l i a) k = Some b -> b = a \/ nth_error l k = Some b.
Proof.
  induction l as [|x l IH]; intros [|i] [|k] a b H; cbn in *; try discriminate; auto.
  - injection H as <-. auto.
  - eauto.
Qed.

Record Inv (s : st) : Prop := {
  i_com : com s <= log s;
  i_gate : gate s <= log s;
  i_pend : lead s = false -> pend s <> ToLead;
  i_zero : lead s = false -> pend s = None_ -> gate s = 0;
  i_lead : pend s = ToFollow -> lead s = false;
  i_ask : forall i c, nth_error (asks s) i = Some (Some c) -> c <= com s }.

Lemma start_inv n c k : c <= n -> Inv (start n c k).
Proof.
  intros H. split; cbn; auto; try lia; try discriminate.
  intros i x N. apply nth_error_In, repeat_spec in N. discriminate.
Qed.

Ltac brg := match goal with |- context [if ?b then _ else _] => now destruct b end.
Ltac brk H := match type of H with (if ?b then _ else _) = _ => destruct b; [|discriminate] end.

Lemma step_ok s e : Inv s -> step s e <> Abort.
Proof.
  intros I. destruct e as [v|v| | | |k| |i|i b]; cbn [step].
  - destruct (pend s); try discriminate. brg.
  - destruct (pend s); try discriminate. destruct (v =? log s) eqn:E; [|discriminate].
    apply Nat.eqb_eq in E. subst v. assert (G := i_gate _ I). apply Nat.leb_le in G. rewrite G. discriminate.
  - now destruct (pend s).
  - now destruct (pend s).
  - now destruct (pend s).
  - destruct (pend s); try discriminate. brg.
  - brg.
  - now destruct (nth_error (asks s) i) as [[]|].
  - destruct (nth_error (asks s) i) as [[c|]|]; try discriminate. brg.
Qed.

Ltac sp := split; cbn [lead pend log com gate asks] in *; auto; try congruence; try lia.

Lemma step_inv s e s' : Inv s -> step s e = Ok s' -> Inv s'.
Proof.
  intros [C G P Z L A] H. destruct e as [v|v| | | |k| |i|i b]; cbn [step] in H.
  - destruct (pend s) eqn:E; try discriminate. brk H. injection H as <-. sp.
  - destruct (pend s) eqn:E; try discriminate. destruct (v =? log s) eqn:B; [|discriminate].
    apply Nat.eqb_eq in B. destruct (gate s <=? v) eqn:B2; [|discriminate]. injection H as <-. sp.
    intros X _. destruct (P X eq_refl).
  - destruct (pend s) eqn:E; try discriminate. injection H as <-. sp.
  - destruct (pend s) eqn:E; try discriminate. injection H as <-. sp.
  - destruct (pend s) eqn:E; try discriminate; injection H as <-; sp.
  - destruct (pend s) eqn:E; try discriminate.
    destruct (negb (lead s) && (com s <=? k) && (k <=? log s)) eqn:B; [|discriminate]. injection H as <-.
    apply andb_true_iff in B. destruct B as [B B3]. apply andb_true_iff in B. destruct B as [B1 B2].
    apply Nat.leb_le in B2, B3. apply negb_true_iff in B1. specialize (Z B1 eq_refl). sp.
  - destruct (com s <? log s) eqn:B; [|discriminate]. apply Nat.ltb_lt in B. injection H as <-. sp.
    intros i c N. specialize (A i c N). lia.
  - destruct (nth_error (asks s) i) as [[]|] eqn:E; try discriminate. injection H as <-. sp.
    intros k c N. apply upd_in in N. destruct N as [[= ->]|N]; [lia|eauto].
  - destruct (nth_error (asks s) i) as [[c|]|] eqn:E; try discriminate.
    brk H. injection H as <-. sp.
    intros k x N. apply upd_in in N. destruct N as [N|N]; [discriminate|eauto].
Qed.

Lemma run_app l : forall l' s, run s (l ++ l') = match run s l with Ok s' => run s' l' | o => o end.
Proof. induction l as [|e l IH]; intros l' s; cbn [run app]; [reflexivity|]. destruct (step s e); auto. Qed.

Lemma run_inv l : forall s s', Inv s -> run s l = Ok s' -> Inv s'.
Proof.
  induction l as [|e l IH]; intros s s' I H; cbn [run] in H.
  - injection H as <-. exact I.
  - destruct (step s e) as [s1| |] eqn:E; try discriminate. eapply IH; [|exact H]. eapply step_inv; eauto.
Qed.

Lemma run_ok l : forall s, Inv s -> run s l <> Abort.
Proof.
  induction l as [|e l IH]; intros s I; cbn [run]; [discriminate|].
  assert (X := step_ok s e I). destruct (step s e) as [s1| |] eqn:E; try congruence.
  apply IH. eapply step_inv; eauto.
Qed.

Lemma step_com s e s' : step s e = Ok s' -> com s' = com s + commits [e].
Proof.
  unfold commits. destruct e as [v|v| | | |k| |i|i b]; cbn [step filter length]; intros H.
  - destruct (pend s); try discriminate. brk H. injection H as <-. cbn. lia.
  - destruct (pend s); try discriminate. brk H.
    brk H. injection H as <-. cbn. lia.
  - destruct (pend s); try discriminate. injection H as <-. cbn. lia.
  - destruct (pend s); try discriminate. injection H as <-. cbn. lia.
  - destruct (pend s); try discriminate; injection H as <-; cbn; lia.
  - destruct (pend s); try discriminate.
    brk H. injection H as <-. cbn. lia.
  - brk H. injection H as <-. cbn. lia.
  - destruct (nth_error (asks s) i) as [[]|]; try discriminate. injection H as <-. cbn. lia.
  - destruct (nth_error (asks s) i) as [[c|]|]; try discriminate.
    brk H. injection H as <-. cbn. lia.
Qed.

Lemma commits_app l l' : commits (l ++ l') = commits l + commits l'.
Proof. unfold commits. rewrite filter_app, app_length. reflexivity. Qed.

Lemma run_com l : forall s s', run s l = Ok s' -> com s' = com s + commits l.
Proof.
  induction l as [|e l IH]; intros s s' H; cbn [run] in H.
  - injection H as <-. cbn. lia.
  - destruct (step s e) as [s1| |] eqn:E; try discriminate.
    rewrite (IH _ _ H), (step_com _ _ _ E). change (e :: l) with ([e] ++ l). rewrite commits_app. lia.
Qed.

(** The gate does not go down but in become_follower_cb. *)
Lemma step_gate s e s' : step s e = Ok s' -> e = CbFollower \/ gate s <= gate s'.
Proof.
  destruct e as [v|v| | | |k| |i|i b]; cbn [step]; intros H; auto; right.
  - destruct (pend s); try discriminate. brk H. injection H as <-. cbn. lia.
  - destruct (pend s); try discriminate. brk H.
    destruct (gate s <=? v) eqn:B; [|discriminate]. apply Nat.leb_le in B. injection H as <-. cbn. lia.
  - destruct (pend s); try discriminate. injection H as <-. cbn. lia.
  - destruct (pend s); try discriminate; injection H as <-; cbn; lia.
  - destruct (pend s); try discriminate.
    brk H. injection H as <-. cbn. lia.
  - brk H. injection H as <-. cbn. lia.
  - destruct (nth_error (asks s) i) as [[]|]; try discriminate. injection H as <-. cbn. lia.
  - destruct (nth_error (asks s) i) as [[c|]|]; try discriminate.
    brk H. injection H as <-. cbn. lia.
Qed.

Lemma run_gate l : forall s s', run s l = Ok s' -> ~ In CbFollower l -> gate s <= gate s'.
Proof.
  induction l as [|e l IH]; intros s s' H N; cbn [run] in H.
  - injection H as <-. lia.
  - destruct (step s e) as [s1| |] eqn:E; try discriminate.
    destruct (step_gate _ _ _ E) as [->|G]; [destruct N; now left|].
    assert (X := IH _ _ H (fun Y => N (or_intror Y))). lia.
Qed.

Lemma answer_com s i s' : Inv s -> step s (Answer i true) = Ok s' -> gate s <= com s.
Proof.
  intros I. cbn [step]. destruct (nth_error (asks s) i) as [[c|]|] eqn:E; try discriminate.
  destruct (eqb true (gate s <=? c)) eqn:B; [|discriminate]. intros _.
  apply eqb_prop in B. symmetry in B. apply Nat.leb_le in B. assert (X := i_ask _ I _ _ E). lia.
Qed.

Lemma commit_some k : forall s, com s + k <= log s ->
  run s (repeat Commit k) = Ok (St (lead s) (pend s) (log s) (com s + k) (gate s) (asks s)).
Proof.
  induction k as [|k IH]; intros s H; cbn [repeat run].
  - rewrite Nat.add_0_r. destruct s; reflexivity.
  - cbn [step]. assert (B : com s <? log s = true) by (apply Nat.ltb_lt; lia). rewrite B.
    rewrite IH by (cbn; lia). cbn [lead pend log com gate asks]. do 2 f_equal. lia.
Qed.
