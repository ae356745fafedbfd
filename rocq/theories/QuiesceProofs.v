From Coq Require Import List Arith Lia Bool.
From Verif Require Import QuiesceModel QuiesceSpec.
Import ListNotations.

Lemma upd_same {A} (l : list A) : forall i a b, nth_error l i = Some b -> nth_error (upd l i a) i = Some a.
Proof. induction l as [|x l IH]; intros [|i] a b H; cbn in *; try discriminate; eauto. Qed.

Lemma upd_other {A} (l : list A) : forall i k a, i <> k -> nth_error (upd l i a) k = nth_error l k.
Proof. induction l as [|x l IH]; intros [|i] [|k] a H; cbn; try congruence; auto. Qed.

Fixpoint sum {A} (f : A -> nat) (l : list A) : nat := match l with [] => 0 | a :: l => f a + sum f l end.

Lemma sum_upd {A} (f : A -> nat) (l : list A) : forall i a b, nth_error l i = Some b ->
  sum f (upd l i a) + f b = sum f l + f a.
Proof.
  induction l as [|x l IH]; intros [|i] a b H; cbn in *; try discriminate.
  - injection H as ->. lia.
  - specialize (IH i a b H). lia.
Qed.

Lemma sum_zero {A} (f : A -> nat) (l : list A) i a : sum f l = 0 -> nth_error l i = Some a -> f a = 0.
Proof.
  revert i. induction l as [|x l IH]; intros [|i] Z H; cbn in *; try discriminate.
  - injection H as ->. lia.
  - apply (IH i); [lia|exact H].
Qed.

Lemma sum_pos {A} (f : A -> nat) (l : list A) : 0 < sum f l -> exists i a, nth_error l i = Some a /\ 0 < f a.
Proof.
  induction l as [|x l IH]; cbn; intros H; [lia|].
  destruct (f x) eqn:E.
  - destruct IH as (i & a & N & P); [lia|]. exists (S i), a. split; assumption.
  - exists 0, x. split; [reflexivity|lia].
Qed.

Lemma sum_repeat {A} (f : A -> nat) a n : f a = 0 -> sum f (repeat a n) = 0.
Proof. intros Z. induction n as [|n IH]; cbn; lia. Qed.

Ltac brk H := match type of H with (if ?b then _ else _) = _ => destruct b; [|discriminate] end.

Lemma run_app m l : forall l' s, run m s (l ++ l') = match run m s l with Some s' => run m s' l' | None => None end.
Proof. induction l as [|e l IH]; intros l' s; cbn; [reflexivity|]. destruct (step m s e); auto. Qed.

Definition busy (p : rpc) : nat := match p with Idle => 0 | _ => 1 end.

(** *** The count, in every mode *)

Lemma step_cnt m s e s' : cnt s = sum busy (reqs s) -> step m s e = Some s' -> cnt s' = sum busy (reqs s').
Proof.
  intros I H. unfold step in H.
  destruct e as [i|i ok|i|i|j|j ok|j|j].
  - destruct (nth_error (reqs s) i) as [[]|] eqn:E; try discriminate. injection H as <-. cbn [cnt reqs].
    assert (X := sum_upd busy (reqs s) i Counted _ E). cbn in X. lia.
  - destruct (nth_error (reqs s) i) as [[]|] eqn:E; try discriminate.
    brk H. injection H as <-. cbn [cnt reqs].
    assert (X := sum_upd busy (reqs s) i (if ok then Passed else Refused) _ E). destruct ok; cbn in X; lia.
  - destruct (nth_error (reqs s) i) as [[]|] eqn:E; try discriminate. injection H as <-. cbn [cnt reqs].
    assert (X := sum_upd busy (reqs s) i Made _ E). cbn in X. lia.
  - destruct (nth_error (reqs s) i) as [[]|] eqn:E; try discriminate; injection H as <-; cbn [cnt reqs];
    assert (X := sum_upd busy (reqs s) i Idle _ E); cbn in X; lia.
  - destruct (nth_error (callers s) j) as [q|]; [|discriminate].
    destruct (at_q q); try discriminate. injection H as <-. unfold put. destruct m; exact I.
  - destruct (nth_error (callers s) j) as [q|]; [|discriminate].
    destruct (at_q q); try discriminate. brk H.
    injection H as <-. exact I.
  - destruct (nth_error (callers s) j) as [q|]; [|discriminate].
    destruct (at_q q); try discriminate. injection H as <-. unfold put. destruct m; exact I.
  - destruct (nth_error (callers s) j) as [q|]; [|discriminate].
    destruct (queue q); [discriminate|]. injection H as <-. exact I.
Qed.

Lemma run_cnt m l : forall s s', cnt s = sum busy (reqs s) -> run m s l = Some s' -> cnt s' = sum busy (reqs s').
Proof.
  induction l as [|e l IH]; intros s s' I H; cbn in H.
  - injection H as <-. exact I.
  - destruct (step m s e) as [s1|] eqn:E; [|discriminate]. exact (IH _ _ (step_cnt _ _ _ _ I E) H).
Qed.

Lemma start_cnt n k : cnt (start n k) = sum busy (reqs (start n k)).
Proof. cbn. now rewrite sum_repeat. Qed.

(** The count is what was begun and is not over. *)
Lemma step_ledger m s e s' : cnt s = sum busy (reqs s) -> step m s e = Some s' ->
  cnt s' + ended [e] = cnt s + begun [e].
Proof.
  intros I H. unfold step in H. unfold ended, begun.
  destruct e as [i|i ok|i|i|j|j ok|j|j]; cbn [filter length].
  - destruct (nth_error (reqs s) i) as [[]|] eqn:E; try discriminate. injection H as <-. cbn [cnt]. lia.
  - destruct (nth_error (reqs s) i) as [[]|] eqn:E; try discriminate.
    brk H. injection H as <-. reflexivity.
  - destruct (nth_error (reqs s) i) as [[]|] eqn:E; try discriminate. injection H as <-. reflexivity.
  - destruct (nth_error (reqs s) i) as [[]|] eqn:E; try discriminate; injection H as <-; cbn [cnt];
    assert (X := sum_upd busy (reqs s) i Idle _ E); cbn in X; lia.
  - destruct (nth_error (callers s) j) as [q|]; [|discriminate].
    destruct (at_q q); try discriminate. injection H as <-. unfold put. destruct m; reflexivity.
  - destruct (nth_error (callers s) j) as [q|]; [|discriminate].
    destruct (at_q q); try discriminate. brk H.
    injection H as <-. reflexivity.
  - destruct (nth_error (callers s) j) as [q|]; [|discriminate].
    destruct (at_q q); try discriminate. injection H as <-. unfold put. destruct m; reflexivity.
  - destruct (nth_error (callers s) j) as [q|]; [|discriminate].
    destruct (queue q); [discriminate|]. injection H as <-. reflexivity.
Qed.

Lemma begun_cons e l : begun (e :: l) = begun [e] + begun l.
Proof. unfold begun. destruct e; reflexivity. Qed.
Lemma ended_cons e l : ended (e :: l) = ended [e] + ended l.
Proof. unfold ended. destruct e; reflexivity. Qed.

Lemma run_ledger m l : forall s s', cnt s = sum busy (reqs s) -> run m s l = Some s' ->
  cnt s' + ended l = cnt s + begun l.
Proof.
  induction l as [|e l IH]; intros s s' I H; cbn [run] in H.
  - injection H as <-. reflexivity.
  - destruct (step m s e) as [s1|] eqn:E; [|discriminate].
    assert (A := step_ledger _ _ _ _ I E). assert (B := IH _ _ (step_cnt _ _ _ _ I E) H).
    rewrite begun_cons, ended_cons. lia.
Qed.

(** *** One caller *)

Definition up (p : qpc) : bool := match p with Out => false | _ => true end.

Record Inv (m : mode) (s : st) (q : qs) : Prop := {
  i_one : callers s = [q];
  i_cnt : cnt s = sum busy (reqs s);
  i_last : last (queue q) (flag s) = up (at_q q);
  i_sc : m = SC -> queue q = [];
  i_quiet : at_q q = Quiet -> queue q = [] /\ forall i, nth_error (reqs s) i <> Some Passed }.

Lemma last_snoc {A} (l : list A) v d : last (l ++ [v]) d = v.
Proof. apply last_last. Qed.

Lemma last_step {A} (r : list A) : forall v d, last (v :: r) d = last r v.
Proof.
  induction r as [|w r IH]; intros v d; [reflexivity|].
  change (last (v :: w :: r) d) with (last (w :: r) d). rewrite (IH w d), (IH w v). reflexivity.
Qed.

Lemma put_inv m v p s q : Inv m s q -> v = up p -> p <> Quiet ->
  exists q', Inv m (put m v 0 p q s) q' /\ at_q q' = p.
Proof.
  intros [O C L SCI Q] -> NQ. destruct m; unfold put; rewrite O; cbn [upd].
  - exists (Qs p (queue q)). rewrite (SCI eq_refl). split; [|reflexivity].
    split; cbn [callers cnt reqs queue at_q flag]; auto.
  - exists (Qs p (queue q ++ [up p])). split; [|reflexivity].
    split; cbn [callers cnt reqs queue at_q flag]; try (apply last_snoc); auto; try discriminate; intros E; now destruct NQ.
  - exists (Qs p (queue q ++ [up p])). split; [|reflexivity].
    split; cbn [callers cnt reqs queue at_q flag]; try (apply last_snoc); auto; try discriminate; intros E; now destruct NQ.
Qed.

Lemma upd_passed (l : list rpc) i a : (forall k, nth_error l k <> Some Passed) -> a <> Passed ->
  forall k, nth_error (upd l i a) k <> Some Passed.
Proof.
  intros H N k. destruct (Nat.eq_dec i k) as [<-|D].
  - destruct (nth_error l i) eqn:E.
    + rewrite (upd_same _ _ _ _ E). congruence.
    + assert (X : forall (l : list rpc) i, nth_error l i = None -> nth_error (upd l i a) i = None).
      { clear. induction l as [|x l IH]; intros [|i] H; cbn in *; auto; discriminate. }
      rewrite (X _ _ E). discriminate.
  - rewrite upd_other by exact D. apply H.
Qed.

Lemma req_inv m s q i a f c : Inv m s q -> c = sum busy (upd (reqs s) i a) -> f = flag s ->
  (a = Passed -> flag s = false) -> Inv m (St f c (upd (reqs s) i a) (callers s)) q.
Proof.
  intros [O C L SCI Q] Hc -> P. split; cbn [callers cnt reqs flag]; auto.
  intros E. destruct (Q E) as [Q1 Q2]. split; [exact Q1|]. apply upd_passed; [exact Q2|].
  intros ->. specialize (P eq_refl). rewrite Q1, P, E in L. discriminate.
Qed.

Definition moves (e : ev) (p p' : qpc) : Prop :=
  match e with
  | Store _ => p = Out /\ p' = Waiting
  | Look _ ok => p = Waiting /\ p' = if ok then Quiet else Waiting
  | Resume _ => p = Quiet /\ p' = Out
  | _ => p' = p
  end.

Lemma one_caller (q : qs) j q' : nth_error [q] j = Some q' -> j = 0 /\ q' = q.
Proof. destruct j as [|[|j]]; cbn; [intros [= ->]; auto|discriminate|discriminate]. Qed.

Lemma step_inv m s q e s' : m <> TSO -> Inv m s q -> step m s e = Some s' ->
  exists q', Inv m s' q' /\ moves e (at_q q) (at_q q').
Proof.
  intros NT I H. assert (C' := step_cnt m s e s' (i_cnt _ _ _ I) H).
  assert (O := i_one _ _ _ I). unfold step in H.
  destruct e as [i|i ok|i|i|j|j ok|j|j].
  - destruct (nth_error (reqs s) i) as [[]|] eqn:E; try discriminate. injection H as <-.
    exists q. split; [|reflexivity]. apply req_inv; auto. discriminate.
  - destruct (nth_error (reqs s) i) as [[]|] eqn:E; try discriminate.
    destruct (eqb ok (negb (flag s))) eqn:B; [|discriminate]. injection H as <-.
    exists q. split; [|reflexivity]. apply req_inv; auto.
    apply eqb_prop in B. intros P. destruct ok; [|discriminate]. now destruct (flag s).
  - destruct (nth_error (reqs s) i) as [[]|] eqn:E; try discriminate. injection H as <-.
    exists q. split; [|reflexivity]. apply req_inv; auto. discriminate.
  - destruct (nth_error (reqs s) i) as [[]|] eqn:E; try discriminate; injection H as <-;
    (exists q; split; [|reflexivity]; apply req_inv; auto; discriminate).
  - rewrite O in H. destruct (nth_error [q] j) as [q0|] eqn:N; [|discriminate].
    apply one_caller in N. destruct N as [-> ->].
    destruct (at_q q) eqn:A; try discriminate. injection H as <-.
    destruct (put_inv m true Waiting s q I) as (q' & I' & A'); [reflexivity|discriminate|].
    exists q'. split; [exact I'|]. split; [reflexivity|exact A'].
  - rewrite O in H. destruct (nth_error [q] j) as [q0|] eqn:N; [|discriminate].
    apply one_caller in N. destruct N as [-> ->].
    destruct (at_q q) eqn:A; try discriminate.
    destruct (may_look m q && eqb ok (cnt s =? 0)) eqn:B; [|discriminate]. injection H as <-.
    apply andb_true_iff in B. destruct B as [B1 B2]. apply eqb_prop in B2.
    exists (Qs (if ok then Quiet else Waiting) (queue q)). split; [|split; reflexivity].
    destruct I as [_ C L SCI _]. split; cbn [callers cnt reqs flag queue at_q upd]; auto.
    + rewrite L, A. now destruct ok.
    + intros E. destruct ok; [|discriminate]. symmetry in B2. apply Nat.eqb_eq in B2. split.
      * destruct m; [now apply SCI|now destruct NT|]. unfold may_look in B1. now destruct (queue q).
      * intros i N. rewrite C in B2. assert (Z := sum_zero _ _ _ _ B2 N). discriminate.
  - rewrite O in H. destruct (nth_error [q] j) as [q0|] eqn:N; [|discriminate].
    apply one_caller in N. destruct N as [-> ->].
    destruct (at_q q) eqn:A; try discriminate. injection H as <-.
    destruct (put_inv m false Out s q I) as (q' & I' & A'); [reflexivity|discriminate|].
    exists q'. split; [exact I'|]. split; [reflexivity|exact A'].
  - rewrite O in H. destruct (nth_error [q] j) as [q0|] eqn:N; [|discriminate].
    apply one_caller in N. destruct N as [-> ->].
    destruct (queue q) as [|v r] eqn:Eq; [discriminate|]. injection H as <-.
    exists (Qs (at_q q) r). split; [|reflexivity].
    destruct I as [_ C L SCI Q]. split; cbn [callers cnt reqs flag queue at_q upd]; auto.
    + rewrite Eq in L. rewrite <- L. symmetry. apply last_step.
    + intros E. rewrite (SCI E) in Eq. discriminate.
    + intros E. destruct (Q E) as [Q1 _]. rewrite Q1 in Eq. discriminate.
Qed.

Lemma start_inv m n : Inv m (start n 1) (Qs Out []).
Proof.
  split; cbn [callers start repeat queue at_q flag]; auto; try apply start_cnt; try discriminate.
Qed.

Lemma run_inv m l : m <> TSO -> forall s q s', Inv m s q -> run m s l = Some s' -> exists q', Inv m s' q'.
Proof.
  intros NT. induction l as [|e l IH]; intros s q s' I H; cbn [run] in H.
  - injection H as <-. eauto.
  - destruct (step m s e) as [s1|] eqn:E; [|discriminate].
    destruct (step_inv _ _ _ _ _ NT I E) as (q1 & I1 & _). eauto.
Qed.

(** What stays as long as no one resumes, or quiesces. *)
Lemma stays_quiet m l : m <> TSO -> forall s q s', Inv m s q -> at_q q = Quiet -> run m s l = Some s' ->
  (exists j, In (Resume j) l) \/ exists q', Inv m s' q' /\ at_q q' = Quiet.
Proof.
  intros NT. induction l as [|e l IH]; intros s q s' I A H; cbn [run] in H.
  - injection H as <-. eauto.
  - destruct (step m s e) as [s1|] eqn:E; [|discriminate].
    destruct (step_inv _ _ _ _ _ NT I E) as (q1 & I1 & M).
    assert (D : (exists j, e = Resume j) \/ at_q q1 = Quiet).
    { destruct e; cbn in M; try (right; congruence); try (destruct M; congruence). left. eauto. }
    destruct D as [[j ->]|A1]; [left; exists j; now left|].
    destruct (IH _ _ _ I1 A1 H) as [[j X]|X]; [left; exists j; now right|now right].
Qed.

Lemma stays_out m l : m <> TSO -> forall s q s', Inv m s q -> at_q q = Out -> run m s l = Some s' ->
  (exists j, In (Store j) l) \/ exists q', Inv m s' q' /\ at_q q' = Out.
Proof.
  intros NT. induction l as [|e l IH]; intros s q s' I A H; cbn [run] in H.
  - injection H as <-. eauto.
  - destruct (step m s e) as [s1|] eqn:E; [|discriminate].
    destruct (step_inv _ _ _ _ _ NT I E) as (q1 & I1 & M).
    assert (D : (exists j, e = Store j) \/ at_q q1 = Out).
    { destruct e; cbn in M; try (right; congruence); try (destruct M; congruence). left. eauto. }
    destruct D as [[j ->]|A1]; [left; exists j; now left|].
    destruct (IH _ _ _ I1 A1 H) as [[j X]|X]; [left; exists j; now right|now right].
Qed.

(** *** quiesce_reqs can return *)

Definition left_ (p : rpc) : nat := match p with Idle => 0 | Counted => 3 | Passed => 2 | Refused | Made => 1 end.

Lemma finish m : forall k s, sum left_ (reqs s) <= k ->
  exists l s', Forall finishing l /\ run m s l = Some s' /\ sum left_ (reqs s') = 0 /\ callers s' = callers s.
Proof.
  induction k as [|k IH]; intros s H.
  - exists [], s. repeat split; auto. lia.
  - destruct (Nat.eq_dec (sum left_ (reqs s)) 0) as [Z|Z]; [exists [], s; repeat split; auto|].
    destruct (sum_pos left_ (reqs s)) as (i & p & N & P); [lia|].
    assert (S1 : exists e s1, finishing e /\ step m s e = Some s1 /\ sum left_ (reqs s1) <= k /\ callers s1 = callers s).
    { destruct p; cbn in P; try lia.
      - exists (Check i (negb (flag s))). eexists. split; [exact I|]. split.
        + cbn [step]. rewrite N, eqb_reflx. reflexivity.
        + cbn [reqs callers]. split; [|reflexivity].
          assert (X := sum_upd left_ (reqs s) i (if negb (flag s) then Passed else Refused) _ N).
          destruct (flag s); cbn in *; lia.
      - exists (Init i). eexists. split; [exact I|]. split; [cbn [step]; rewrite N; reflexivity|].
        cbn [reqs callers]. split; [|reflexivity].
        assert (X := sum_upd left_ (reqs s) i Made _ N). cbn in X. lia.
      - exists (Leave i). eexists. split; [exact I|]. split; [cbn [step]; rewrite N; reflexivity|].
        cbn [reqs callers]. split; [|reflexivity].
        assert (X := sum_upd left_ (reqs s) i Idle _ N). cbn in X. lia.
      - exists (Leave i). eexists. split; [exact I|]. split; [cbn [step]; rewrite N; reflexivity|].
        cbn [reqs callers]. split; [|reflexivity].
        assert (X := sum_upd left_ (reqs s) i Idle _ N). cbn in X. lia. }
    destruct S1 as (e & s1 & F & E & L & Cs).
    destruct (IH s1 L) as (l & s' & Fl & R & Z' & Cs'). exists (e :: l), s'.
    split; [now constructor|]. split; [cbn [run]; now rewrite E|]. split; [exact Z'|congruence].
Qed.

Lemma drain_all m j : forall r s q, nth_error (callers s) j = Some q -> queue q = r ->
  exists l s', Forall finishing l /\ run m s l = Some s' /\ reqs s' = reqs s /\ cnt s' = cnt s /\
    nth_error (callers s') j = Some (Qs (at_q q) []).
Proof.
  induction r as [|v r IH]; intros s q N Q.
  - exists [], s. repeat split; auto. rewrite N. destruct q as [a b]. cbn in *. now subst.
  - set (s1 := St v (cnt s) (reqs s) (upd (callers s) j (Qs (at_q q) r))).
    destruct (IH s1 (Qs (at_q q) r)) as (l & s' & F & R & A & B & C).
    + apply (upd_same _ _ _ _ N).
    + reflexivity.
    + exists (Drain j :: l), s'. split; [constructor; [exact I|exact F]|].
      split; [cbn [run step]; rewrite N, Q; exact R|]. repeat split; assumption.
Qed.

Lemma idle_cnt (l : list rpc) : sum left_ l = 0 -> sum busy l = 0.
Proof.
  induction l as [|p l IH]; cbn; [auto|]. destruct p; cbn; intros H; try discriminate. auto.
Qed.
